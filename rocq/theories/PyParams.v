(** * The parameter structure behind the Python [Coffe] object.

    Models [coffe_parameters_t] (src/common.h:340-550) restricted to the
    fields that the Python interface can read or change
    (python/coffe/coffe.pyx).  Fields that are constant in every Python session
    ([interp_method], [have_class = 0], [midpoint_approximation = 1],
    [inv_k_window = 0], [have_window = 0], the [*_derivative] flags,
    [k_pivot], [nthreads], file names) are left out: no Python statement
    writes them (parser.c:733-1033 sets them once). *)
From Coq Require Import ZArith Bool List String.
From Verif Require Import F64.
Import ListNotations.
Open Scope Z_scope.

(** ** Values a Python caller can pass *)

(** Simplification: NumPy scalar types other than [float64] and one-shot
    iterators are not represented; Python's [float(str)] is taken to fail for
    every string (it parses decimal literals).  Values passed to coffe.pyx:86-3590. *)
Inductive pyval :=
| VFloat (f : f64)
| VInt (z : Z)
| VBool (b : bool)
| VStr (s : string)
| VList (l : list pyval)
| VOther.

(** Raised in coffe.pyx:86-3590. *)
Inductive exn := ValueError | TypeError | AttributeError | IndexError
             | ZeroDivisionError | OverflowError.

(** The number a Python [int], [float] or [bool] denotes (bool is a subclass of
    int in Python).  isinstance tests of coffe.pyx:86-118. *)
Definition as_num (v : pyval) : option f64 :=
  match v with
  | VFloat f => Some f
  | VInt z => Some (of_Z z)
  | VBool b => Some (of_Z (if b then 1 else 0))
  | _ => None
  end.

(** [float(v)]: integers too large for a double raise OverflowError.  E.g. coffe.pyx:2473-2482. *)
Definition as_float (v : pyval) : f64 + exn :=
  match v with
  | VFloat f => inl f
  | VInt z => if is_finite (of_Z z) then inl (of_Z z) else inr OverflowError
  | VBool b => inl (of_Z (if b then 1 else 0))
  | VStr _ => inr ValueError
  | _ => inr TypeError
  end.

(** isinstance tests of coffe.pyx:86-118. *)
Definition as_int (v : pyval) : option Z :=
  match v with
  | VInt z => Some z
  | VBool b => Some (if b then 1 else 0)
  | _ => None
  end.

(** [bool(v)] (truthiness); NaN is truthy, [VOther] stands for an ordinary
    object, which is truthy.  E.g. coffe.pyx:2555-2560. *)
Definition truthy (v : pyval) : bool :=
  match v with
  | VFloat f => negb (feqb f (of_Z 0))
  | VInt z => negb (z =? 0)
  | VBool b => b
  | VStr s => negb (String.eqb s "")
  | VList l => match l with [] => false | _ => true end
  | VOther => true
  end.

(** ** Fields of the C structure *)

(** Fields of type [double] (common.h:360-374, 404-410, 506-518, 537 and the
    CLASS precision block 107-117). *)
Inductive ffield :=
| Omega0_cdm | Omega0_m | Omega0_baryon | Omega0_gamma | Omega0_de | Omega0_nu
| F_w0 | F_wa | F_h | F_n_s | F_sigma8 | F_A_s | F_T_cmb | F_N_ur | F_m_ncdm | F_YHe
| F_k_min | F_k_max | F_k_min_norm | F_k_max_norm
| F_integration_1d_prec
| F_k_per_decade_for_bao | F_k_per_decade_for_pk
| F_start_large_k_at_tau_h_over_tau_k | F_tol_perturb_integration
| F_radiation_streaming_trigger | F_ur_fluid_trigger.

(** Fields of type [int] (common.h:342, 354-356, 390, 433, 477, 482-486, 516,
    529, 535, 112-113). *)
Inductive ifield :=
| I_N_ncdm | I_background_bins | I_bessel_bins | I_integration_bins
| I_pop1 | I_pop2 | I_pop3 | I_pop4
| I_covariance_integration_method | I_covariance_integration_bins
| I_covariance_interpolation_method | I_integration_1d_type | I_pk_type
| I_l_max_g | I_l_max_ur | I_output_type.

(** [int] fields used as flags (common.h:331, 433, 480, 488, 494-500, 533). *)
Inductive bfield :=
| B_den | B_rsd | B_len | B_d1 | B_d2 | B_g1 | B_g2 | B_g3 | B_g4 | B_g5
| B_only_cross | B_flatsky_local | B_flatsky_local_nonlocal | B_flatsky_nonlocal
| B_covariance_cosmic | B_covariance_mixed | B_covariance_poisson
| B_covariance_window | B_verbose | B_divergent.

(** [double *] fields with their length (common.h:344-386, 455-473). *)
Inductive lfield :=
| L_sep | L_mu | L_z_mean | L_deltaz | L_zmin | L_zmax
| L_density1 | L_density2 | L_pixelsize | L_fsky.

(** Splines set by the user (common.h:417, 425, 431): the sampled points. *)
Inductive sfield :=
| S_galaxy_bias1 | S_galaxy_bias2 | S_galaxy_bias3 | S_galaxy_bias4
| S_magnification_bias1 | S_magnification_bias2
| S_evolution_bias1 | S_evolution_bias2.

Scheme Equality for ffield.
Scheme Equality for ifield.
Scheme Equality for bfield.
Scheme Equality for lfield.
Scheme Equality for sfield.

Definition spline := list (f64 * f64).

(** [coffe_parameters_t], common.h:340-550. *)
Record params := mkParams {
  pf : ffield -> f64;
  pi : ifield -> Z;
  pb : bfield -> bool;
  pl : lfield -> list f64;
  pm : list Z;               (* multipole_values, common.h:447-449 *)
  psp : sfield -> spline
}.

Definition setF (p : params) (k : ffield) (v : f64) : params :=
  mkParams (fun x => if ffield_beq k x then v else pf p x) (pi p) (pb p) (pl p) (pm p) (psp p).
Definition setI (p : params) (k : ifield) (v : Z) : params :=
  mkParams (pf p) (fun x => if ifield_beq k x then v else pi p x) (pb p) (pl p) (pm p) (psp p).
Definition setB (p : params) (k : bfield) (v : bool) : params :=
  mkParams (pf p) (pi p) (fun x => if bfield_beq k x then v else pb p x) (pl p) (pm p) (psp p).
Definition setL (p : params) (k : lfield) (v : list f64) : params :=
  mkParams (pf p) (pi p) (pb p) (fun x => if lfield_beq k x then v else pl p x) (pm p) (psp p).
Definition setM (p : params) (v : list Z) : params :=
  mkParams (pf p) (pi p) (pb p) (pl p) v (psp p).
Definition setS (p : params) (k : sfield) (v : spline) : params :=
  mkParams (pf p) (pi p) (pb p) (pl p) (pm p) (fun x => if sfield_beq k x then v else psp p x).

(** Fields of any type, and their values: used to say which fields a C routine
    reads.  Members of coffe_parameters_t, common.h:340-550. *)
Inductive field := FF (f : ffield) | FI (i : ifield) | FB (b : bfield)
                 | FL (l : lfield) | FM | FS (s : sfield).
Inductive fval := VF (x : f64) | VI (z : Z) | VB (b : bool) | VL (l : list f64)
                | VM (l : list Z) | VS (s : spline).

Definition getf (p : params) (x : field) : fval :=
  match x with
  | FF f => VF (pf p f)
  | FI i => VI (pi p i)
  | FB b => VB (pb p b)
  | FL l => VL (pl p l)
  | FM => VM (pm p)
  | FS s => VS (psp p s)
  end.

Definition view (p : params) (fs : list field) : list fval := map (getf p) fs.

(** Pointwise equality of two parameter structures.  Specification or proof only; nothing in the code. *)
Definition params_eq (p q : params) : Prop := forall x, getf p x = getf q x.

Lemma params_eq_view : forall p q fs, params_eq p q -> view p fs = view q fs.
Proof. intros p q fs H. unfold view. apply map_ext. exact H. Qed.

(** ** Enumerations (common.h:251-310, coffe.pyx:213-233) *)
Definition out_CORRFUNC := 1.
Definition out_MULTIPOLES := 2.
Definition out_COVARIANCE_MULTIPOLES := 4.
Definition out_COVARIANCE_AVERAGE_MULTIPOLES := 5.
Definition pk_LINEAR := 0.

Definition allowed_pk_types : list (Z * string) :=
  [(0, "linear"); (1, "linear_class"); (2, "halofit"); (3, "hmcode")]%string.
Definition allowed_integration_1d_types : list (Z * string) :=
  [(1, "gsl"); (2, "exponential")]%string.
Definition allowed_covariance_integration_methods : list (Z * string) :=
  [(1, "standard"); (2, "fftlog")]%string.
Definition allowed_interpolation_2d_methods : list (Z * string) :=
  [(1, "bilinear"); (2, "bicubic")]%string.

(** ** Default parameters: parser.c:733-1033 *)

(** Fixed-point float literals of the source.  parser.c:733-1033. *)
Definition f0 := of_Z 0.
Definition f1 := of_Z 1.

(** [coffe_generate_range(5, 305, 100)] (common.c:1181-1203 via parser.c:804):
    element i is [xmin + (xmax - xmin) * i / steps]. *)
Definition default_sep : list f64 :=
  map (fun i => fadd (of_Z 5) (fdiv (fmul (fsub (of_Z 305) (of_Z 5)) (of_Z (Z.of_nat i))) (of_Z 100)))
      (seq 0 100).

(** [parse_bias_default], parser.c:36-51: a constant spline with the eleven
    nodes 0, 1, ..., 10. *)
Definition default_bias (v : f64) : spline :=
  map (fun i => (of_Z (Z.of_nat i), v)) (seq 0 11).

Definition default_m := lit 3 10.
Definition default_baryon := lit 5 100.
Definition default_gamma := lit 9 100000.
Definition default_h := lit 67 100.
Definition default_nu := fdiv (fdiv (fdiv f0 (lit 9314 100)) default_h) default_h.

Definition default_pf (k : ffield) : f64 :=
  match k with
  | Omega0_m => default_m
  | Omega0_baryon => default_baryon
  | Omega0_gamma => default_gamma
  | Omega0_nu => default_nu
  | Omega0_cdm => fsub (fsub default_m default_baryon) default_nu
  | Omega0_de => fsub f1 (fadd default_m default_gamma)
  | F_h => default_h
  | F_w0 => of_Z (-1)
  | F_wa => f0
  | F_N_ur => lit 20328 10000
  | F_T_cmb => lit 2726 1000
  | F_m_ncdm => f0
  | F_YHe => f0
  | F_sigma8 => lit 8156 10000
  | F_A_s => f0
  | F_n_s => lit 96 100
  | F_integration_1d_prec => lit 1 100000
  | F_k_min | F_k_min_norm => lit 1 100000
  | F_k_max | F_k_max_norm => of_Z 300
  | F_k_per_decade_for_bao => of_Z 70
  | F_k_per_decade_for_pk => of_Z 10
  | F_start_large_k_at_tau_h_over_tau_k => lit 7 100
  | F_tol_perturb_integration => lit 1 100000
  | F_radiation_streaming_trigger => of_Z 45
  | F_ur_fluid_trigger => of_Z 30
  end.

Definition default_pi (k : ifield) : Z :=
  match k with
  | I_N_ncdm => 1
  | I_background_bins => 10000
  | I_bessel_bins => 10000
  | I_integration_bins => 750000
  | I_pop1 | I_pop2 | I_pop3 | I_pop4 => 1
  | I_covariance_integration_method => 1
  | I_covariance_integration_bins => 8000
  | I_covariance_interpolation_method => 2
  | I_integration_1d_type => 1
  | I_pk_type => pk_LINEAR
  | I_l_max_g => 12
  | I_l_max_ur => 17
  | I_output_type => out_MULTIPOLES
  end.

Definition default_pb (k : bfield) : bool :=
  match k with
  | B_den | B_covariance_cosmic | B_covariance_mixed | B_covariance_poisson => true
  | _ => false
  end.

Definition default_pl (k : lfield) : list f64 :=
  match k with
  | L_sep => default_sep
  | L_mu => [lit 5 10]
  | L_z_mean => [f1]
  | L_deltaz => [lit 2 10]
  | L_zmin => [lit 9 10]
  | L_zmax => [lit 11 10]
  | L_density1 | L_density2 => [lit 1 1000]
  | L_pixelsize => [of_Z 10]
  | L_fsky => [f1]
  end.

Definition default_psp (k : sfield) : spline :=
  match k with
  | S_galaxy_bias1 | S_galaxy_bias2 | S_galaxy_bias3 | S_galaxy_bias4 => default_bias f1
  | _ => default_bias f0
  end.

(** [coffe_parse_default_parameters], parser.c:733-1033. *)
Definition default_params : params :=
  mkParams default_pf default_pi default_pb default_pl [0; 2; 4] default_psp.
