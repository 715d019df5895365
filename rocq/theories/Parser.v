(** * Reading the settings file: [coffe_parser_init] (src/parser.c:60-282, 733-1033, 1041-1697)

    The command line program keeps every setting in one structure.  Its members
    (and the local variables of the parser) are named by strings, each holds a
    [value], and the parser is the list of its assignments, checks and
    conditionals in the order of the source.

    Not modelled here: pointers (see the memory model), printing, the timing, and
    the two-dimensional power spectrum tables.  Members whose default is never
    changed by the settings file and never read by the parser are left out. *)
From Coq Require Import ZArith Bool List String Ascii Arith.
From Verif Require Import F64 Arrays Numeric.
Import ListNotations.
Open Scope string_scope.
Open Scope list_scope.
Open Scope Z_scope.

Definition bind {A B} (r : res A) (f : A -> res B) : res B :=
  match r with Done x => f x | Exited => Exited | Undefined => Undefined end.
Notation "'do' x '<-' r ';;' e" := (bind r (fun x => e)) (at level 61, r at next level, right associativity).

(** ** The settings file

    What libconfig answers (with automatic conversion, parser.c:1062): the three
    scalar look-ups, and the elements of a list as an integer, a double and a
    string ([None]: a null pointer, for an element that is not a string). *)
Record element := mkE { e_int : Z; e_float : f64; e_string : option string }.
Record conf := mkConf {
  c_readable : bool;
  c_int : string -> option Z;
  c_float : string -> option f64;
  c_string : string -> option string;
  c_list : string -> option (list element)
}.

(** The contents of a member; [VNone] is memory nothing was stored in.
    coffe_parameters_t, common.h:340-550, and its use in parser.c:1041-1697. *)
Inductive value :=
| VI (z : Z) | VF (x : f64) | VS (s : string)
| VFs (l : list f64) | VIs (l : list Z) | VSs (l : list string)
| VSp (l : list (f64 * f64)) | VNone.
Definition store := string -> value.
Definition put (s : store) (f : string) (v : value) : store :=
  fun g => if String.eqb f g then v else s g.
Definition getI (s : store) f : res Z := match s f with VI z => Done z | _ => Undefined end.
Definition getF (s : store) f : res f64 := match s f with VF x => Done x | _ => Undefined end.
Definition getS (s : store) f : res string := match s f with VS x => Done x | _ => Undefined end.
Definition getFs (s : store) f : res (list f64) := match s f with VFs x => Done x | _ => Undefined end.
Definition getSs (s : store) f : res (list string) := match s f with VSs x => Done x | _ => Undefined end.
Definition getSp (s : store) f : res (list (f64 * f64)) := match s f with VSp x => Done x | _ => Undefined end.

(** ** The world of the parser: how it was built, the settings, the files it
    reads and what it calls. *)
(** What parser.c:36-1697 calls. *)
Record world := mkWorld {
  w_class : bool;                                 (* HAVE_CLASS *)
  w_cuba : bool;                                  (* HAVE_CUBA *)
  w_conf : conf;
  w_file : string -> option (list (f64 * f64));   (* read_2col; None: it fails *)
  w_table : list (f64 * f64);                     (* the built-in spectrum *)
  w_window : f64 -> f64;                          (* pow(coffe_resolution_window(x), 2) *)
  w_spectrum : store -> option (list (f64 * f64)) (* the k and P(k) of CLASS; None: input_init fails *)
}.

(** C semantics of the statements of parser.c:733-1697. *)
Inductive step :=
| Set_ (f : string) (e : store -> res value)
| Stop (bad : store -> res bool)          (* exit(EXIT_FAILURE) if it holds *)
| When (c : store -> res bool) (body : list step).

(** C semantics of the statements of parser.c:733-1697. *)
Fixpoint run_step (t : step) (s : store) : res store :=
  match t with
  | Set_ f e => do v <- e s;; Done (put s f v)
  | Stop bad => do b <- bad s;; if b then Exited else Done s
  | When c body =>
      do b <- c s;;
      if b then (fix run l s := match l with [] => Done s | x :: r => do s' <- run_step x s;; run r s' end) body s
      else Done s
  end.
Fixpoint run (l : list step) (s : store) : res store :=
  match l with [] => Done s | x :: r => do s' <- run_step x s;; run r s' end.

(** ** Splines: [coffe_init_spline], common.c:524-576.  While the parser runs GSL's
    default error handler is in force, so a table that is too short for the method
    or whose abscissae do not increase ends the process. *)
Definition min_points (method : Z) : nat :=
  if method =? 1 then 2%nat else if method =? 2 then 3%nat else if method =? 3 then 3%nat
  else if method =? 4 then 2%nat else if method =? 5 then 5%nat else if method =? 6 then 5%nat
  else if method =? 7 then 3%nat else 5%nat.
Fixpoint increasing (l : list f64) : bool :=
  match l with a :: ((b :: _) as r) => fltb a b && increasing r | _ => true end.
Definition spline (pts : list (f64 * f64)) (method : Z) : res value :=
  if Nat.leb (min_points method) (List.length pts) && increasing (map fst pts)
  then Done (VSp pts) else Exited.

(** [parse_bias_default], parser.c:36-51 *)
Definition constant_bias (v : f64) : list (f64 * f64) := map (fun i => (of_Z (Z.of_nat i), v)) (seq 0 11).

Section Program.
Variable W : world.
Let K := w_conf W.

(** [parse_double], [parse_int], parser.c:58-107.  [safe] is COFFE_TRUE. *)
Definition parse_int (key f : string) (safe : bool) : step :=
  Set_ f (fun s => match c_int K key with Some z => Done (VI z) | None => if safe then Exited else Done (s f) end).
Definition parse_double (key f : string) (safe : bool) : step :=
  Set_ f (fun s => match c_float K key with Some x => Done (VF x) | None => if safe then Exited else Done (s f) end).
(** Their return values: 0 is EXIT_SUCCESS.  parser.c:57-107. *)
Definition int_error (key f : string) : step :=
  Set_ f (fun _ => Done (VI (match c_int K key with Some _ => 0 | None => 1 end))).
Definition double_error (key f : string) : step :=
  Set_ f (fun _ => Done (VI (match c_float K key with Some _ => 0 | None => 1 end))).

(** [parse_string], parser.c:109-135: the copy is made before the look-up's result
    is tested, into an array of 256 bytes. *)
Definition parse_string (key f : string) : step :=
  Set_ f (fun _ => match c_string K key with
                   | Some t => if Nat.ltb (String.length t) 256 then Done (VS t) else Undefined
                   | None => Undefined end).

(** [parse_int_array], [parse_double_array], [parse_string_array], parser.c:143-246:
    without the setting the member keeps what it had. *)
Definition parse_int_array (key f : string) : step :=
  Set_ f (fun s => match c_list K key with Some l => Done (VIs (map e_int l)) | None => Done (s f) end).
Definition parse_double_array (key f : string) : step :=
  Set_ f (fun s => match c_list K key with Some l => Done (VFs (map e_float l)) | None => Done (s f) end).
Fixpoint all_strings (l : list element) : res (list string) :=
  match l with
  | [] => Done []
  | e :: r => match e_string e with
              | Some t => do q <- all_strings r;; Done (t :: q)
              | None => Undefined end
  end.
Definition parse_string_array (key f : string) : step :=
  Set_ f (fun s => match c_list K key with
                   | Some l => do q <- all_strings l;; Done (VSs q)
                   | None => Done (s f) end).

(** [parse_bias], parser.c:249-282; a file that cannot be read leaves the arrays
    uninitialised. *)
Definition parse_bias (key file single target flag : string) : list step :=
  [When (fun s => do z <- getI s flag;; Done (z =? 1))
     [parse_string key file;
      Set_ target (fun s => do name <- getS s file;;
                            do m <- getI s "interp_method";;
                            match w_file W name with
                            | Some pts => spline pts m
                            | None => Undefined end)];
   When (fun s => do z <- getI s flag;; Done (negb (z =? 1)))
     [parse_double single "value" true;
      Set_ target (fun s => do v <- getF s "value";;
                            do m <- getI s "interp_method";;
                            spline (constant_bias v) m)]].

(** [par->output_type] is one of.  Conditions of parser.c:1041-1697. *)
Definition type_in (l : list Z) (s : store) : res bool :=
  do t <- getI s "output_type";; Done (existsb (Z.eqb t) l).
Definition flag (f : string) (s : store) : res bool := do z <- getI s f;; Done (negb (z =? 0)).

(** ** The default parameters, parser.c:733-1033 *)
Definition f0 (s : string) : f64 :=
  if String.eqb s "h" then lit 67 100 else if String.eqb s "Omega0_m" then lit 3 10
  else if String.eqb s "Omega0_baryon" then lit 5 100 else of_Z 0.
Definition omega_nu (m h : f64) : f64 := fdiv (fdiv (fdiv m (lit 9314 100)) h) h.
Definition default_table : list (f64 * f64) :=
  map (fun p => (fmul (fst p) (f0 "h"), fdiv (snd p) (fmul (fmul (f0 "h") (f0 "h")) (f0 "h")))) (w_table W).
Definition default_sep : list f64 := map (frange_value (of_Z 5) (of_Z 305) 100) (seq 0 100).
Definition defaults : list (string * value) :=
  [("Omega0_m", VF (lit 3 10)); ("Omega0_baryon", VF (lit 5 100)); ("Omega0_gamma", VF (lit 9 100000));
   ("h", VF (lit 67 100)); ("w0", VF (of_Z (-1))); ("wa", VF (of_Z 0)); ("have_class", VI 0);
   ("N_ur", VF (lit 20328 10000)); ("T_cmb", VF (lit 2726 1000)); ("N_ncdm", VI 1); ("m_ncdm", VF (of_Z 0));
   ("YHe", VF (of_Z 0)); ("Omega0_nu", VF (omega_nu (of_Z 0) (lit 67 100)));
   ("Omega0_cdm", VF (fsub (fsub (lit 3 10) (lit 5 100)) (omega_nu (of_Z 0) (lit 67 100))));
   ("Omega0_de", VF (fsub (of_Z 1) (fadd (lit 3 10) (lit 9 100000))));
   ("k_pivot", VF (lit 5 100)); ("sigma8", VF (lit 8156 10000)); ("A_s", VF (of_Z 0)); ("n_s", VF (lit 96 100));
   ("b_derivative", VI 0); ("f_derivative", VI 0); ("b_tilde_derivative", VI 0); ("f_tilde_derivative", VI 0);
   ("only_cross_correlations", VI 0); ("sep", VFs default_sep); ("interp_method", VI 5);
   ("covariance_integration_method", VI 1); ("covariance_integration_bins", VI 8000);
   ("covariance_interpolation_method", VI 2); ("file_power_spectrum", VS "");
   ("power_spectrum", VSp default_table); ("power_spectrum_norm", VSp default_table);
   ("k_min", VF (lit 1 100000)); ("k_max", VF (of_Z 300)); ("k_min_norm", VF (lit 1 100000));
   ("k_max_norm", VF (of_Z 300)); ("pk_type", VI 0);
   ("galaxy_bias1", VSp (constant_bias (of_Z 1))); ("read_galaxy_bias1", VI 0); ("file_galaxy_bias1", VS "");
   ("degree_galaxy_bias1", VI 1);
   ("galaxy_bias2", VSp (constant_bias (of_Z 1))); ("read_galaxy_bias2", VI 0); ("file_galaxy_bias2", VS "");
   ("degree_galaxy_bias2", VI 1);
   ("magnification_bias1", VSp (constant_bias (of_Z 0))); ("read_magnification_bias1", VI 0);
   ("file_magnification_bias1", VS ""); ("degree_magnification_bias1", VI 1);
   ("magnification_bias2", VSp (constant_bias (of_Z 0))); ("read_magnification_bias2", VI 0);
   ("file_magnification_bias2", VS ""); ("degree_magnification_bias2", VI 1);
   ("evolution_bias1", VSp (constant_bias (of_Z 0))); ("read_evolution_bias1", VI 0);
   ("file_evolution_bias1", VS ""); ("degree_evolution_bias1", VI 1);
   ("evolution_bias2", VSp (constant_bias (of_Z 0))); ("read_evolution_bias2", VI 0);
   ("file_evolution_bias2", VS ""); ("degree_evolution_bias2", VI 1);
   ("output_type", VI 2); ("density1", VFs [lit 1 1000]); ("density2", VFs [lit 1 1000]); ("fsky", VFs [of_Z 1]);
   ("pixelsize", VFs [of_Z 10]); ("covariance_window", VI 0); ("have_window", VI 0); ("window_size", VF (of_Z 0));
   ("output_path", VS "./"); ("output_prefix", VS "$TIME");
   ("den", VI 1); ("rsd", VI 0); ("d1", VI 0); ("d2", VI 0); ("g1", VI 0); ("g2", VI 0); ("g3", VI 0);
   ("len", VI 0); ("g4", VI 0); ("g5", VI 0); ("mu", VFs [lit 1 2]); ("divergent", VI 0);
   ("type_bg", VSs []); ("background_bins", VI 10000); ("bessel_bins", VI 10000); ("integration_method", VI 2);
   ("integration_bins", VI 750000); ("z_mean", VFs [of_Z 1]); ("deltaz", VFs [lit 2 10]);
   ("zmin", VFs [lit 9 10]); ("zmax", VFs [lit 11 10]); ("multipole_values", VIs [0; 2; 4]);
   ("flatsky_local", VI 0); ("flatsky_local_nonlocal", VI 0); ("flatsky_nonlocal", VI 0); ("verbose", VI 0)].
Fixpoint assoc (l : list (string * value)) (f : string) : value :=
  match l with [] => VNone | (g, v) :: r => if String.eqb g f then v else assoc r f end.
Definition initial : store := assoc defaults.

(** ** The separations, parser.c:1137-1172 *)
Definition all_values (l : list (option f64)) : res (list f64) :=
  fold_right (fun o r => do q <- r;; match o with Some x => Done (x :: q) | None => Undefined end) (Done []) l.
(** A negative number of samples is converted to a huge [size_t], the allocation
    fails and its null result is written to.  coffe_generate_range, common.c:1181-1203, at parser.c:1137-1172. *)
Definition make_range (xmin xmax : f64) (sampling : Z) : res (list f64) :=
  if fleb xmax xmin then Exited
  else if sampling <? 0 then Undefined
  else do l <- fgenerate_range xmin xmax (Z.to_nat sampling);; all_values l.
Definition separations : list step :=
  [parse_double "separations_min" "xmin" true;
   parse_double "separations_max" "xmax" true;
   Set_ "step" (fun _ => Done (VF (of_Z 0)));
   Set_ "sampling" (fun _ => Done (VI 0));
   parse_int "separations_sampling" "sampling" false;
   int_error "separations_sampling" "error1";
   parse_double "separations_step" "step" false;
   double_error "separations_step" "error2";
   Stop (fun s => do a <- getI s "error1";; do b <- getI s "error2";; Done ((a =? 0) && (b =? 0)));
   Stop (fun s => do a <- getI s "error1";; do b <- getI s "error2";; Done ((a =? 1) && (b =? 1)));
   Set_ "sep" (fun s => do a <- getF s "xmin";; do b <- getF s "xmax";; do n <- getI s "sampling";;
                        do l <- make_range a b n;; Done (VFs l))].

(** ** Parts of the covariance settings, parser.c:1315-1420 *)
Definition length_of (s : store) (f : string) : res nat := do l <- getFs s f;; Done (List.length l).
Definition differ (fs : list string) (s : store) : res bool :=
  do n <- length_of s "density1";;
  fold_right (fun f r => do b <- r;; do m <- length_of s f;; Done (b || negb (Nat.eqb n m))) (Done false) fs.

(** ** The contributions, parser.c:1422-1485.  A name that is not known is
    ignored.  The loop over the list with its chain of comparisons is expressed
    as: a contribution is on exactly when its name occurs in the list. *)
Definition contributions : list string := ["den"; "rsd"; "len"; "d1"; "d2"; "g1"; "g2"; "g3"; "g4"; "g5"].
Definition contribution (c : string) : list step :=
  [Set_ c (fun s => do l <- getSs s "correlation_contributions";;
                    Done (VI (if existsb (String.eqb c) l then 1 else 0)))].

(** Signed addition of [int]: undefined outside its range.  C semantics of parser.c:1422-1485. *)
Definition fits (z : Z) : bool := (-2147483648 <=? z) && (z <=? 2147483647).
Definition add_int (a b : Z) : res Z := if fits (a + b) then Done (a + b) else Undefined.

(** ** The power spectrum, parser.c:553-618 ([parse_external_power_spectrum]) and
    1555-1681 *)
Definition windowed (s : store) (pts : list (f64 * f64)) : res (list (f64 * f64)) :=
  do w <- flag "have_window" s;;
  do size <- getF s "window_size";;
  Done (if w then map (fun p => (fst p, fmul (snd p) (w_window W (fmul size (fst p))))) pts else pts).
Definition first_k (l : list (f64 * f64)) : res f64 := match l with p :: _ => Done (fst p) | [] => Undefined end.
Definition last_k (l : list (f64 * f64)) : res f64 := match rev l with p :: _ => Done (fst p) | [] => Undefined end.
Definition raise_kmin (from target : string) : step :=
  Set_ target (fun s => do l <- getSp s from;; do k <- first_k l;; do x <- getF s "k_min";;
                        Done (if fltb x k then VF k else s target)).
Definition lower_kmax (from target : string) : step :=
  Set_ target (fun s => do l <- getSp s from;; do k <- last_k l;; do x <- getF s "k_max";;
                        Done (if fltb k x then VF k else s target)).
Definition external_spectrum : list step :=
  [Set_ "class_pk" (fun s => match w_spectrum W s with
                             | Some l => do q <- windowed s l;; Done (VSp q)
                             | None => Exited end);
   raise_kmin "class_pk" "k_min_norm"; raise_kmin "class_pk" "k_min";
   lower_kmax "class_pk" "k_max_norm"; lower_kmax "class_pk" "k_max";
   Set_ "power_spectrum" (fun s => do l <- getSp s "class_pk";; do m <- getI s "interp_method";; spline l m);
   Set_ "power_spectrum_norm" (fun s => do l <- getSp s "class_pk";; do m <- getI s "interp_method";; spline l m)].
Definition cold_matter : step :=
  Set_ "Omega0_cdm" (fun s => do m <- getF s "Omega0_m";; do b <- getF s "Omega0_baryon";; do n <- getF s "Omega0_nu";;
                              Done (VF (fsub (fsub m b) n))).
Definition class_settings : list step :=
  [parse_int "pk_type" "pk_type" true;
   parse_double "h" "h" true;
   parse_double "sigma8" "sigma8" false;
   double_error "sigma8" "error_sigma8";
   parse_double "A_s" "A_s" false;
   double_error "A_s" "error_A_s";
   Stop (fun s => do a <- getI s "error_sigma8";; do b <- getI s "error_A_s";; Done ((a =? 0) && (b =? 0)));
   parse_double "n_s" "n_s" true;
   parse_double "k_pivot" "k_pivot" true;
   parse_double "T_cmb" "T_cmb" false;
   parse_double "N_ur" "N_ur" false;
   parse_double "m_ncdm" "m_ncdm" false;
   parse_int "N_ncdm" "N_ncdm" false;
   parse_double "YHe" "YHe" false;
   Set_ "Omega0_nu" (fun s => do m <- getF s "m_ncdm";; do h <- getF s "h";; Done (VF (omega_nu m h)));
   cold_matter] ++ external_spectrum.
Definition file_spectrum : list step :=
  [cold_matter;
   parse_string "input_power_spectrum" "file_power_spectrum";
   Set_ "power_spectrum" (fun s => do name <- getS s "file_power_spectrum";; do m <- getI s "interp_method";;
                                   match w_file W name with
                                   | Some pts => do q <- windowed s pts;; spline q m
                                   | None => Done (s "power_spectrum") end)].
Definition not_class (s : store) : res bool :=
  if w_class W then do b <- flag "have_class" s;; Done (negb b) else Done true.

(** ** [coffe_parser_init], parser.c:1041-1697, after the defaults *)
Definition program : list step :=
  [Stop (fun _ => Done (negb (c_readable K)));
   parse_int "verbose" "verbose" true;
   parse_int "output_type" "output_type" true;
   parse_string_array "output_background" "type_bg";
   parse_int "background_sampling" "background_bins" true;
   parse_double "omega_m" "Omega0_m" true;
   parse_double "omega_baryon" "Omega0_baryon" true;
   parse_double "omega_gamma" "Omega0_gamma" true;
   Set_ "Omega0_de" (fun s => do m <- getF s "Omega0_m";; do g <- getF s "Omega0_gamma";;
                              Done (VF (fsub (of_Z 1) (fadd m g))));
   When (type_in [1; 2; 4])
     [Set_ "z_mean" (fun _ => Done (VFs []));
      parse_double_array "z_mean" "z_mean";
      Stop (fun s => do l <- getFs s "z_mean";; Done (existsb (fun z => fleb z (of_Z 0)) l))];
   When (type_in [3])
     [parse_double_array "z_min" "zmin"; parse_double_array "z_max" "zmax"];
   (* an uninitialised [temp] is copied when the setting is missing *)
   Set_ "interp_method" (fun _ => match c_int K "interpolation" with Some z => Done (VI z) | None => Undefined end);
   When (type_in [1]) [parse_double_array "mu" "mu"];
   When (type_in [2; 3; 4; 5])
     [Set_ "multipole_values" (fun _ => Done (VIs []));
      parse_int_array "multipoles" "multipole_values"];
   When (type_in [1; 2; 3; 4]) separations;
   parse_int "bessel_sampling" "bessel_bins" true;
   When (fun _ => Done (negb (w_cuba W)))
     [parse_int "integration_method" "integration_method" true;
      Stop (fun s => do m <- getI s "integration_method";; Done ((m <? 0) || (2 <? m)))];
   parse_int "integration_sampling" "integration_bins" true;
   parse_int "covariance_integration_method" "covariance_integration_method" true;
   Stop (fun s => do m <- getI s "covariance_integration_method";; Done (negb (m =? 1) && negb (m =? 2)));
   When (fun s => do m <- getI s "covariance_integration_method";; Done (m =? 2))
     [parse_int "covariance_integration_bins" "covariance_integration_bins" true;
      Stop (fun s => do m <- getI s "covariance_integration_bins";; Done (m <=? 0));
      parse_int "covariance_interpolation_method" "covariance_interpolation_method" true;
      Stop (fun s => do m <- getI s "covariance_interpolation_method";; Done (negb (m =? 1) && negb (m =? 2)))];
   parse_double "w0" "w0" true;
   parse_double "wa" "wa" true]
  ++ [parse_int "read_galaxy_bias1" "read_galaxy_bias1" false;
      parse_int "degree_galaxy_bias1" "degree_galaxy_bias1" false]
  ++ parse_bias "input_galaxy_bias1" "file_galaxy_bias1" "galaxy_bias1" "galaxy_bias1" "read_galaxy_bias1"
  ++ [parse_int "read_galaxy_bias2" "read_galaxy_bias2" false;
      parse_int "degree_galaxy_bias2" "degree_galaxy_bias2" false]
  ++ parse_bias "input_galaxy_bias2" "file_galaxy_bias2" "galaxy_bias2" "galaxy_bias2" "read_galaxy_bias2"
  ++ [parse_int "read_magnification_bias1" "read_magnification_bias1" false;
      parse_int "degree_magnification_bias1" "degree_magnification_bias1" false]
  ++ parse_bias "input_magnification_bias1" "file_magnification_bias1" "magnification_bias1" "magnification_bias1"
       "read_magnification_bias1"
  ++ [parse_int "read_magnification_bias2" "read_magnification_bias2" false;
      parse_int "degree_magnification_bias2" "degree_magnification_bias2" false]
  ++ parse_bias "input_magnification_bias2" "file_magnification_bias2" "magnification_bias2" "magnification_bias2"
       "read_magnification_bias2"
  ++ [parse_int "read_evolution_bias1" "read_evolution_bias1" false;
      parse_int "degree_evolution_bias1" "degree_evolution_bias1" false]
  ++ parse_bias "input_evolution_bias1" "file_evolution_bias1" "evolution_bias1" "evolution_bias1" "read_evolution_bias1"
  ++ [parse_int "read_evolution_bias2" "read_evolution_bias2" false;
      parse_int "degree_evolution_bias2" "degree_evolution_bias2" false]
  ++ parse_bias "input_evolution_bias2" "file_evolution_bias2" "evolution_bias2" "evolution_bias2" "read_evolution_bias2"
  ++ [When (type_in [4; 5])
        [parse_double_array "density1" "density1"; parse_double_array "density2" "density2";
         parse_double_array "fsky" "fsky"; parse_double_array "pixelsize" "pixelsize";
         parse_int "covariance_window" "covariance_window" true];
      When (type_in [4])
        [parse_double_array "z_mean" "z_mean"; parse_double_array "deltaz" "deltaz"; parse_double_array "fsky" "fsky";
         Stop (differ ["fsky"; "density2"; "z_mean"; "deltaz"; "pixelsize"])];
      When (type_in [5])
        [parse_double_array "zmin" "zmin"; parse_double_array "zmax" "zmax";
         Stop (differ ["fsky"; "density2"; "zmin"; "zmax"])];
      Set_ "correlation_contributions" (fun _ => Done (VSs []));
      parse_string_array "correlation_contributions" "correlation_contributions"]
  ++ flat_map contribution contributions
  ++ [Set_ "divergent" (fun s =>
        do a <- flag "d2" s;; do b <- flag "g1" s;; do c <- flag "g2" s;; do d <- flag "g3" s;;
        do e <- flag "g4" s;; do f <- flag "g5" s;;
        Done (if a || b || c || d || e || f then VI 1 else s "divergent"));
      parse_string "output_path" "output_path";
      parse_string "output_prefix" "output_prefix";
      parse_int "flatsky_local" "flatsky_local" true;
      parse_int "flatsky_local_nonlocal" "flatsky_local_nonlocal" true;
      parse_int "flatsky_nonlocal" "flatsky_nonlocal" true;
      parse_int "b_derivative" "b_derivative" true;
      parse_int "f_derivative" "f_derivative" true;
      parse_int "b_tilde_derivative" "b_tilde_derivative" true;
      parse_int "f_tilde_derivative" "f_tilde_derivative" true;
      Stop (fun s =>
        do a <- getI s "b_derivative";; do b <- getI s "f_derivative";;
        do c <- getI s "b_tilde_derivative";; do d <- getI s "f_tilde_derivative";;
        do x <- add_int a b;; do y <- add_int x c;; do z <- add_int y d;; Done (1 <? z));
      parse_double "k_min" "k_min" true;
      parse_double "k_max" "k_max" true;
      parse_int "have_window" "have_window" true;
      parse_int "only_cross_correlations" "only_cross_correlations" true;
      When (flag "have_window")
        [parse_double "window_size" "window_size" true;
         Stop (fun s => do x <- getF s "window_size";; Done (fleb x (of_Z 0) || fleb (of_Z 1000) x))];
      When (fun _ => Done (w_class W)) [parse_int "have_class" "have_class" true];
      When (fun s => do b <- not_class s;; Done (negb b)) class_settings;
      When not_class file_spectrum;
      raise_kmin "power_spectrum" "k_min";
      lower_kmax "power_spectrum" "k_max";
      Set_ "power_spectrum_norm" (fun s => do l <- getSp s "power_spectrum";; do m <- getI s "interp_method";; spline l m);
      Set_ "k_min_norm" (fun s => do x <- getF s "k_min";; Done (VF x));
      Set_ "k_max_norm" (fun s => do x <- getF s "k_max";; Done (VF x))].

(** [coffe_parser_init]: the built-in spectrum is put in a spline first.  parser.c:1041-1697. *)
Definition parser_init : res store :=
  do _ <- spline default_table 5;; run program initial.
End Program.
