(** * Who owns which block: allocation and release in COFFE

    The state is the set of live blocks and the pointer variables of the structures
    that own them (coffe_parameters_t, coffe_background_t, the arrays of results, the
    CLASS structures) with the counters and flags that guard them.  Releasing a block
    that is not live, and reading through a pointer to one, is the outcome [None].
    What is in a block is not modelled. *)
From Coq Require Import Arith Bool List Lia.
Import ListNotations.

(** ** Pointers and counters *)
(** The lists of coffe_parameters_t, common.h. *)
Inductive lst := Sep | Mu | Ells | ZMean | DeltaZ | Fsky | Density1 | Density2 | Pixelsize | ZMin | ZMax.
(** The 1D tables: the two spectra, the eight biases (galaxy_bias1-4,
    magnification_bias1-2, evolution_bias1-2), the ten of coffe_background_t.
    common.h:228-244, background.h:23-45. *)
Inductive table := Spectrum | SpectrumNorm | Bias (i : nat) | Bg (i : nat).
(** corrfunc, multipoles, average multipoles, covariance, averaged covariance.  The arrays of coffe.pyx:488-492. *)
Inductive out := Corrfunc | Multipoles | Average | Cov | AverageCov.
(** Functions with local blocks.
    C semantics of malloc and free.  Functions of common.c:524-1330, background.c:37-696, integrals.c:580-1423, covariance.c:477-1103, parser.c:283-1697. *)
Inductive local := InSetSpline | InDefaults | InBackground | InFit | InClass | InClass2d | InIntegrals | InSetPk | InCov | InParser | Lost.

(** The pointers of common.h:340-550, background.h:23-45 and of the arrays of coffe.pyx:485-492. *)
Inductive slot :=
| Tab (t : table) (accel : bool)     (* ->spline, ->accel *)
| Tab2 (norm : bool) (part : nat)    (* power_spectrum2d(_norm): ->spline, ->xaccel, ->yaccel *)
| List_ (a : lst)
| Names | Name (i : nat)             (* type_bg, type_bg[i] *)
| Out (k : out)
| Ints | Int (i part : nat)          (* integral->array; its ten pointers of element i *)
| Class_ (i : nat)                   (* class_struct *)
| Fit (b : nat) | Coef (b i : nat)   (* *_coefficients.array; .array[i].coefficients *)
| Tmp (f : local) (i : nat).
(** The lengths stored with them, common.h:340-550. *)
Inductive counter :=
| NList (a : lst) | NNames | NOut (k : out) | NInts | NFit (b : nat) | NCoef (b i : nat)
| NBg                                (* bg->flag *)
| NPar                               (* par->flag *)
| NTmp (f : local).
Scheme Equality for slot.
Scheme Equality for counter.

(** C semantics of malloc (coffe_malloc, common.c:69-80) and free. *)
Record mem := mkMem { live : list nat; next : nat; ptr : slot -> option nat; cnt : counter -> nat }.

(** ** malloc, free, assignments *)
(** C semantics of malloc (coffe_malloc, common.c:69-80) and free. *)
Definition set_ptr (s : slot) (v : option nat) (m : mem) : mem :=
  mkMem (live m) (next m) (fun t => if slot_beq s t then v else ptr m t) (cnt m).
Definition set_cnt (c : counter) (n : nat) (m : mem) : mem :=
  mkMem (live m) (next m) (ptr m) (fun d => if counter_beq c d then n else cnt m d).
(** [s = malloc(...)]; malloc never fails, and gives a block even for zero bytes.
    C semantics of malloc (coffe_malloc, common.c:69-80) and free. *)
Definition alloc (s : slot) (m : mem) : mem :=
  mkMem (next m :: live m) (S (next m)) (fun t => if slot_beq s t then Some (next m) else ptr m t) (cnt m).
Definition is_live (m : mem) (b : nat) : bool := existsb (Nat.eqb b) (live m).
(** [free(s)].  C semantics of malloc (coffe_malloc, common.c:69-80) and free. *)
Definition release (s : slot) (m : mem) : option mem :=
  match ptr m s with
  | None => Some m
  | Some b => if is_live m b then Some (mkMem (remove Nat.eq_dec b (live m)) (next m) (ptr m) (cnt m)) else None
  end.
(** A read or write through [s]: fails if the block was freed.
    C semantics of malloc (coffe_malloc, common.c:69-80) and free. *)
Definition touch (s : slot) (m : mem) : option mem :=
  match ptr m s with None => Some m | Some b => if is_live m b then Some m else None end.

Notation "f ;; g" := (fun m => match f m with Some m' => g m' | None => None end) (at level 61, right associativity).
Definition skip : mem -> option mem := fun m => Some m.
Definition pure (f : mem -> mem) : mem -> option mem := fun m => Some (f m).
Fixpoint each {A : Type} (l : list A) (f : A -> mem -> option mem) : mem -> option mem :=
  match l with [] => skip | x :: r => f x ;; each r f end.
Definition when (b : mem -> bool) (f : mem -> option mem) : mem -> option mem := fun m => if b m then f m else Some m.
Definition nonnull (s : slot) (m : mem) : bool := match ptr m s with None => false | Some _ => true end.
Definition counted (c : counter) (m : mem) : bool := negb (Nat.eqb (cnt m c) 0).

(** Local blocks of a function: allocated at its start, released at its end.
    (Simplification: all of them together.).  E.g. background.c:320-400 and 680-694. *)
Definition locals (f : local) (n : nat) : mem -> option mem :=
  each (seq 0 n) (fun i => pure (fun m => set_cnt (NTmp f) (S i) (alloc (Tmp f i) m))).
Definition end_locals (f : local) : mem -> option mem :=
  fun m => (each (seq 0 (cnt m (NTmp f))) (fun i m => (release (Tmp f (cnt m (NTmp f) - 1)) ;; pure (set_cnt (NTmp f) (cnt m (NTmp f) - 1))) m)) m.
(** Local blocks a function forgets to release.  E.g. parser.c:283-729; listed where used below. *)
Definition forgotten (n : nat) : mem -> option mem := each (seq 0 n) (fun i => pure (alloc (Tmp Lost 0))).

(** ** common.c *)
(** A pointer released if it is not NULL, then set to NULL.  E.g. common.c:616-645. *)
Definition free_null (s : slot) : mem -> option mem := when (nonnull s) (release s) ;; pure (set_ptr s None).
(** coffe_init_spline, common.c:524-576: the previous table is not released. *)
Definition init_table (t : table) : mem -> option mem := pure (alloc (Tab t false)) ;; pure (alloc (Tab t true)).
(** coffe_free_spline, 616-629 (the pointers are independent, so releasing and
    resetting each in turn is the same). *)
Definition free_table (t : table) : mem -> option mem := free_null (Tab t false) ;; free_null (Tab t true).
(** coffe_init_spline2d, 579-613; coffe_free_spline2d, 632-648. *)
Definition init_table2 (n : bool) : mem -> option mem := each [0; 1; 2] (fun p => pure (alloc (Tab2 n p))).
Definition free_table2 (n : bool) : mem -> option mem := each [0; 1; 2] (fun p => free_null (Tab2 n p)).
(** [if (len) free(list); len = 0], 750-798. *)
Definition free_list (a : lst) : mem -> option mem := when (counted (NList a)) (release (List_ a)) ;; pure (set_cnt (NList a) 0).
(** coffe_free_class_struct, 1308-1369: each structure is emptied, then released.
    (Simplification: each pointer is reset at once, not after the last release.) *)
Definition free_class : mem -> option mem :=
  each (seq 0 8) (fun i => when (nonnull (Class_ i)) (touch (Class_ i)) ;; free_null (Class_ i)).
(** coffe_free_fit_coefficients, 1253-1263, and _array, 1278-1289: the array of the
    coefficients is not released. *)
Definition free_fit (b : nat) : mem -> option mem :=
  (fun m => each (seq 0 (cnt m (NFit b))) (fun i =>
     touch (Fit b) ;; when (counted (NCoef b i)) (release (Coef b i)) ;; pure (set_cnt (NCoef b i) 0) ;;
     pure (set_ptr (Coef b i) None)) m) ;;
  pure (set_cnt (NFit b) 0).
(** coffe_parameters_free, 721-806 (the libconfig object left out).  The bias fits of
    the evolution biases (4 and 5) are not released; the lengths of zmin and type_bg
    are not reset.  (Simplification: those two come last; the code releases them before
    other lists.) *)
Definition released_lists : list lst := [Sep; Mu; Ells; ZMean; DeltaZ; Fsky; Density1; Density2; Pixelsize].
Definition parameters_free : mem -> option mem :=
  when (counted NPar)
    (free_table Spectrum ;; free_table SpectrumNorm ;; free_table2 false ;; free_table2 true ;;
     each (seq 0 8) (fun i => free_table (Bias i)) ;;
     each released_lists free_list ;;
     free_list ZMax ;;
     free_class ;;
     each [0; 1; 2; 3] free_fit ;;
     (fun m => each (seq 0 (cnt m NNames)) (fun i => touch Names ;; release (Name i)) m) ;; release Names ;;
     when (counted (NList ZMin)) (release (List_ ZMin)) ;;
     pure (set_cnt NPar 0)).

(** ** parser.c *)
(** coffe_parse_default_parameters, parser.c:735-1033: pointers set to NULL, then filled.
    (Simplification: the flag of the parameters is raised first, in the code last;
    nothing reads it in between.) *)
Definition every_list : list lst := [Sep; Mu; Ells; ZMean; DeltaZ; Fsky; Density1; Density2; Pixelsize; ZMin; ZMax].
Definition defaults : mem -> option mem :=
  pure (set_cnt NPar 1) ;;
  each [0; 1; 2; 3; 4; 5] (fun b => pure (set_ptr (Fit b) None) ;; pure (set_cnt (NFit b) 0)) ;;
  each (seq 0 8) (fun i => pure (set_ptr (Class_ i) None)) ;;
  pure (set_cnt NNames 0) ;; pure (set_ptr Names None) ;;
  each [Spectrum; SpectrumNorm] (fun t => pure (set_ptr (Tab t false) None) ;; pure (set_ptr (Tab t true) None)) ;;
  init_table Spectrum ;;
  each [false; true] (fun n => each [0; 1; 2] (fun p => pure (set_ptr (Tab2 n p) None))) ;;
  locals InDefaults 2 ;; init_table SpectrumNorm ;; end_locals InDefaults ;;
  each (seq 0 8) (fun i => pure (set_ptr (Tab (Bias i) false) None) ;; pure (set_ptr (Tab (Bias i) true) None)) ;;
  each (seq 0 8) (fun i => init_table (Bias i)) ;;
  each every_list (fun a => pure (fun m => set_cnt (NList a) 1 (alloc (List_ a) m))) ;;
  locals InDefaults 1 ;; end_locals InDefaults.
(** parse_double_array, parse_int_array, 176-237: the previous list is not released. *)
Definition parse_list (a : lst) (n : nat) : mem -> option mem :=
  pure (fun m => alloc (List_ a) (set_cnt (NList a) n m)).
(** parse_string_array into type_bg, 142-173. *)
Definition parse_names (n : nat) : mem -> option mem :=
  pure (fun m => alloc Names (set_cnt NNames 0 m)) ;;
  each (seq 0 n) (fun i => pure (fun m => set_cnt NNames (S i) (alloc (Name i) m))).
(** parse_bias, 240-273: a new table over the old one. *)
Definition parse_bias (i : nat) : mem -> option mem := locals InParser 2 ;; init_table (Bias i) ;; end_locals InParser.
(** The spectrum from a file, 1587-1606 and 1649-1669. *)
Definition parse_spectrum : mem -> option mem :=
  locals InParser 2 ;; init_table Spectrum ;; end_locals InParser ;;
  touch (Tab Spectrum false) ;; locals InParser 2 ;; init_table SpectrumNorm ;; end_locals InParser.
(** parse_external_power_spectrum, parser.c:279-729: a run of CLASS.  The previous
    structures are not released; ppr, pop, ple and the samples are local. *)
Definition class_spectrum (nonlinear : bool) : mem -> option mem :=
  free_table Spectrum ;; free_table SpectrumNorm ;;
  locals InClass 7 ;;
  init_table Spectrum ;; init_table SpectrumNorm ;;
  each (seq 0 8) (fun i => pure (alloc (Class_ i))) ;;
  end_locals InClass ;;
  (if nonlinear
   then free_table2 false ;; free_table2 true ;; locals InClass2d 6 ;; touch (Class_ 5) ;;
        init_table2 false ;; init_table2 true ;; end_locals InClass2d
   else skip).

(** ** background.c *)
(** coffe_background_free, 698-718. *)
Definition background_free : mem -> option mem :=
  when (counted NBg) (each (seq 0 10) (fun i => free_table (Bg i))) ;; pure (set_cnt NBg 0).
(** coffe_get_bias_coefficients, 80-145, for bias table [t] and [n] redshifts: the
    previous coefficients are not released.  (The reset of the elements belongs to the
    new array; it is written before its allocation.) *)
Definition get_fit (b t n : nat) : mem -> option mem :=
  each (seq 0 n) (fun i => pure (set_cnt (NCoef b i) 0) ;; pure (set_ptr (Coef b i) None)) ;;
  pure (fun m => alloc (Fit b) (set_cnt (NFit b) n m)) ;;
  each (seq 0 n) (fun i =>
    touch (Tab (Bg 9) false) ;; touch (Tab (Bg 0) false) ;; touch (Tab (Bias t) false) ;; locals InFit 6 ;;
    pure (fun m => set_cnt (NCoef b i) 1 (alloc (Coef b i) m)) ;; end_locals InFit).
(** coffe_background_init, 303-696: 11 local arrays, three local tables and the ODE
    solver.  [flatsky]: par->flatsky_nonlocal. *)
Definition background_init (flatsky : bool) : mem -> option mem :=
  background_free ;;
  locals InBackground 24 ;;
  each (seq 0 10) (fun i => init_table (Bg i)) ;;
  end_locals InBackground ;;
  when (fun m => flatsky && counted (NList ZMean) m)
    (touch (List_ ZMean) ;;
     (fun m => each [(0, 0); (1, 1); (2, 4); (3, 5); (4, 6); (5, 7)] (fun bt => get_fit (fst bt) (snd bt) (cnt m (NList ZMean))) m)) ;;
  pure (set_cnt NBg 1).

(** ** integrals.c *)
(** The ten pointers of an element: result (0, 1), renormalization_zero_separation
    (2, 3), renormalization (4, 5, 6), result2d (7, 8, 9). *)
(** coffe_integrals_free, 1426-1444. *)
Definition integrals_free : mem -> option mem :=
  when (counted NInts)
    ((fun m => each (seq 0 (cnt m NInts)) (fun i => touch Ints ;; each (seq 0 10) (fun p => free_null (Int i p))) m) ;;
     release Ints) ;;
  pure (set_cnt NInts 0) ;; pure (set_ptr Ints None).
(** One more element (615-626 and alike): malloc for the first, realloc later, which
    releases the old array and returns a new one; coffe_integral_new.
    (Simplification: the counter is advanced here, not after the tables are filled.) *)
Definition add_integral : mem -> option mem :=
  (fun m => if Nat.eqb (cnt m NInts) 0 then Some (alloc Ints m)
            else match release Ints m with Some m' => Some (alloc Ints m') | None => None end) ;;
  (fun m => each (seq 0 10) (fun p => pure (set_ptr (Int (cnt m NInts) p) None)) m) ;;
  pure (fun m => set_cnt NInts (S (cnt m NInts)) m).
(** The tables of the last element: [parts] are the pointers filled.  integrals.c:600-1423. *)
Definition fill (parts : list nat) : mem -> option mem :=
  fun m => each parts (fun p => touch Ints ;; pure (alloc (Int (cnt m NInts - 1) p))) m.
(** A plain integral, 609-769: spectrum read, table [result]; [nonlinear]: also
    [result2d], and for each of the 100 redshifts a local table, besides two local arrays, that
    are never released (680-764).  The divergent one, 772-911: three tables. *)
Inductive kind := Plain | Divergent.
Definition one_integral (nonlinear : bool) (k : kind) : mem -> option mem :=
  add_integral ;; locals InIntegrals 4 ;; touch (Tab SpectrumNorm false) ;;
  match k with
  | Plain => fill [0; 1] ;;
             (if nonlinear then touch (Class_ 5) ;; forgotten 202 ;; fill [7; 8; 9] else skip)
  | Divergent => fill [0; 1; 2; 3; 4; 5; 6]
  end ;; end_locals InIntegrals.
(** coffe_integrals_init, 580-1423: 8 default integrals and those the flat-sky and
    divergent options ask for. *)
Definition integrals_init (nonlinear : bool) (ks : list kind) : mem -> option mem :=
  integrals_free ;; each ks (one_integral nonlinear).

(** ** The results *)
(** coffe_corrfunc_free etc.: corrfunc.c:143-152, multipoles.c:138-147,
    average_multipoles.c:159-168, covariance.c:1105-1126. *)
Definition out_free (k : out) : mem -> option mem :=
  when (counted (NOut k)) (release (Out k)) ;; pure (set_ptr (Out k) None) ;; pure (set_cnt (NOut k) 0).
(** What a driver reads: background, spectra, biases, lists, integrals.
    corrfunc.c:55-152, multipoles.c:48-147, average_multipoles.c:43-168, covariance.c:477-1103. *)
Definition reads (ls : list lst) : mem -> option mem :=
  each (seq 0 10) (fun i => touch (Tab (Bg i) false) ;; touch (Tab (Bg i) true)) ;;
  each (seq 0 8) (fun i => touch (Tab (Bias i) false) ;; touch (Tab (Bias i) true)) ;;
  each ls (fun a => when (counted (NList a)) (touch (List_ a))).
Definition read_integrals : mem -> option mem :=
  fun m => each (seq 0 (cnt m NInts)) (fun i => touch Ints ;; each (seq 0 10) (fun p => touch (Int i p))) m.
Definition output_lists (k : out) : list lst :=
  match k with
  | Corrfunc => [ZMean; Mu; Sep] | Multipoles => [ZMean; Ells; Sep] | Average => [ZMin; ZMax; Ells; Sep]
  | Cov => [ZMean; DeltaZ; Ells; Sep; Fsky; Density1; Density2; Pixelsize]
  | AverageCov => [ZMin; ZMax; ZMean; Ells; Sep; Fsky; Density1; Density2; Pixelsize]
  end.
Definition is_cov (k : out) : bool := match k with Cov | AverageCov => true | _ => false end.
(** The drivers: corrfunc.c:55-140, multipoles.c:48-135, average_multipoles.c:69-156,
    covariance.c:477-1103; [n] is the number of records.  A covariance releases both
    arrays first, and has as many local blocks as [temps]. *)
Definition out_init (k : out) (n temps : nat) : mem -> option mem :=
  (if is_cov k then out_free Cov ;; out_free AverageCov else out_free k) ;;
  pure (fun m => alloc (Out k) (set_cnt (NOut k) n m)) ;;
  reads (output_lists k) ;;
  (if is_cov k
   then locals InCov temps ;; touch (Tab Spectrum false) ;; touch (Tab SpectrumNorm false) ;; touch (Class_ 5) ;; end_locals InCov
   else read_integrals) ;;
  when (counted (NOut k)) (touch (Out k)).

(** ** The operations of a user of the Python class (coffe.pyx) *)
Inductive cache := CBackground | CSpectrum | CIntegrals | COut (k : out).
(** The methods _free_*, 948-992. *)
Definition free_cache (c : cache) : mem -> option mem :=
  match c with
  | CBackground => background_free
  | CSpectrum => free_table Spectrum ;; free_table SpectrumNorm ;; free_table2 false ;; free_table2 true
  | CIntegrals => integrals_free
  | COut k => out_free k
  end.
Definition except_parameters : list cache :=
  [CBackground; CSpectrum; CIntegrals; COut Corrfunc; COut Multipoles; COut Average; COut Cov; COut AverageCov].

Inductive op :=
| SetScalar (cs : list cache)                 (* any scalar or option setter; the caches it drops *)
| SetList (a : lst) (n : nat) (cs : list cache)   (* 1578-1585, 1619-1627, 1961-1971, 2001-2009, ... *)
| SetBias (i : nat) (cs : list cache)         (* set_spline, 158-193 *)
| SetPk                                       (* set_power_spectrum_linear, 2960-2995 *)
| RunBackground (flatsky : bool)
| RunClass (nonlinear : bool)
| RunIntegrals (nonlinear : bool) (ks : list kind)
| RunOut (k : out) (n temps : nat)
| Read (ls : list lst)                        (* any getter; the *_bias methods *)
(* the steps of the parser of the command line program *)
| ParseList (a : lst) (n : nat) | ClearList (a : lst) | ParseNames (n : nat) | ParseBias (i : nat) | ParseSpectrum
(* the program releases a result at its end, main.c:172-186 *)
| Free (c : cache).

Definition set_list (a : lst) (n : nat) : mem -> option mem :=
  when (counted (NList a)) (release (List_ a)) ;;
  pure (fun m => alloc (List_ a) (set_cnt (NList a) n m)) ;;
  when (counted (NList a)) (touch (List_ a)).
Definition step (o : op) : mem -> option mem :=
  match o with
  | SetScalar cs => each cs free_cache
  | SetList a n cs => set_list a n ;; each cs free_cache
  | SetBias i cs => locals InSetSpline 2 ;; init_table (Bias i) ;; end_locals InSetSpline ;; each cs free_cache
  | SetPk => free_cache CSpectrum ;; locals InSetPk 4 ;; init_table Spectrum ;; init_table SpectrumNorm ;;
             end_locals InSetPk ;; integrals_free
  | RunBackground f => background_init f
  | RunClass nl => class_spectrum nl
  | RunIntegrals nl ks => integrals_init nl ks
  | RunOut k n t => out_init k n t
  | Read ls => reads ls
  | ParseList a n => parse_list a n
  | ClearList a => free_list a
  | ParseNames n => parse_names n
  | ParseBias i => parse_bias i
  | ParseSpectrum => parse_spectrum
  | Free c => free_cache c
  end.
(** __cinit__, 497-533: Cython gives zeroed memory. *)
Definition zeroed : mem := mkMem [] 0 (fun _ => None) (fun _ => 0).
Definition cinit : option mem := defaults zeroed.
(** __dealloc__, 995-997. *)
Definition dealloc : mem -> option mem := each except_parameters free_cache ;; parameters_free.
Definition history (l : list op) : option mem := match cinit with Some m => each l step m | None => None end.
