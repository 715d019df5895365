(** * From an accepted configuration to the arrays the drivers index

    What src/main.c hands from the parser to the drivers, and the one loop of the
    integrals module that indexes two of the caller's lists at once. *)
From Coq Require Import ZArith Reals Bool List String Arith Lia Floats.SpecFloat.
From Verif Require Import F64 PyParams Numeric Covariance Parser.
Import ListNotations.
Open Scope string_scope.
Open Scope list_scope.
Open Scope Z_scope.

(** The fields of coffe_parameters_t after coffe_parser_init, as the drivers read
    them (a list field of another type cannot occur in C; it counts as empty).
    Reads of members of coffe_parameters_t, common.h:340-550. *)
Definition floats_of (s : store) (f : string) : list f64 := match s f with VFs l => l | _ => [] end.
Definition ints_of (s : store) (f : string) : list Z := match s f with VIs l => l | _ => [] end.
Definition int_of (s : store) (f : string) : Z := match s f with VI z => z | _ => 0 end.

(** coffe_max_array_double, common.c:49-63. *)
Definition max_array (l : list f64) : f64 :=
  match l with
  | [] => S754_nan
  | x :: r => fold_left (fun c y => if fltb c y then y else c) r x
  end.
(** [temp[i] = par->z_mean[i] + par->deltaz[i]], integrals.c:861-863, for
    i = 0 .. n - 1; [None]: a read outside a list. *)
Fixpoint sums (i n : nat) (zs dzs : list f64) : option (list f64) :=
  match n with
  | O => Some []
  | S m => match nth_error zs i, nth_error dzs i with
           | Some z, Some dz => match sums (S i) m zs dzs with Some r => Some (fadd z dz :: r) | None => None end
           | _, _ => None
           end
  end.
(** The redshift up to which the divergent integral is tabulated, integrals.c:853-876;
    other output types leave it at zero distance. *)
Definition farthest (type : Z) (zs dzs zmax : list f64) : option (option f64) :=
  if (type =? 1) || (type =? 2)
  then match sums 0 (List.length zs) zs dzs with Some l => Some (Some (max_array l)) | None => None end
  else if type =? 3 then Some (Some (max_array zmax))
  else Some None.

(** The parameters coffe_covariance_init reads (covariance.c:477-1103), after the
    parser; [val] is the number a double stands for (times the units), and the
    background, the biases and the populations come from [J].  The three parts are
    on: parser.c:949-951, and no setting turns them off. *)
Definition covariance_input (val : f64 -> R) (J : cov_in) (s : store) : cov_in :=
  let reals f := map val (floats_of s f) in
  {| ci_avg := int_of s "output_type" =? 5; ci_ells := ints_of s "multipole_values"; ci_sep := reals "sep";
     ci_zmean := reals "z_mean"; ci_deltaz := reals "deltaz"; ci_zmin := reals "zmin"; ci_zmax := reals "zmax";
     ci_fsky := reals "fsky"; ci_n1 := reals "density1"; ci_n2 := reals "density2"; ci_pix := reals "pixelsize";
     ci_cosmic := true; ci_mixed := true; ci_poisson := true; ci_window := negb (int_of s "covariance_window" =? 0);
     ci_nonlinear := negb (int_of s "pk_type" =? 0); ci_class := negb (int_of s "have_class" =? 0);
     ci_fftlog := int_of s "covariance_integration_method" =? 2;
     ci_bins := Z.to_nat (int_of s "covariance_integration_bins");
     ci_den := negb (int_of s "den" =? 0); ci_rsd := negb (int_of s "rsd" =? 0);
     ci_pop1 := ci_pop1 J; ci_pop2 := ci_pop2 J; ci_pop3 := ci_pop3 J; ci_pop4 := ci_pop4 J;
     ci_bias := ci_bias J; ci_growth := ci_growth J; ci_D1 := ci_D1 J; ci_chi := ci_chi J; ci_conf := ci_conf J;
     ci_h := ci_h J |}.

(** The same for the Python object (coffe.pyx:3428-3535, 3578-3585), whose parameters
    are those of PyParams.v; [avg] is the output type the method sets. *)
Definition python_input (val : f64 -> R) (J : cov_in) (avg : bool) (p : params) : cov_in :=
  let reals f := map val (pl p f) in
  {| ci_avg := avg; ci_ells := pm p; ci_sep := reals L_sep;
     ci_zmean := reals L_z_mean; ci_deltaz := reals L_deltaz; ci_zmin := reals L_zmin; ci_zmax := reals L_zmax;
     ci_fsky := reals L_fsky; ci_n1 := reals L_density1; ci_n2 := reals L_density2; ci_pix := reals L_pixelsize;
     ci_cosmic := pb p B_covariance_cosmic; ci_mixed := pb p B_covariance_mixed; ci_poisson := pb p B_covariance_poisson;
     ci_window := pb p B_covariance_window;
     ci_nonlinear := negb (pi p I_pk_type =? 0); ci_class := ci_class J;
     ci_fftlog := pi p I_covariance_integration_method =? 2;
     ci_bins := Z.to_nat (pi p I_covariance_integration_bins);
     ci_den := ci_den J; ci_rsd := ci_rsd J;
     ci_pop1 := ci_pop1 J; ci_pop2 := ci_pop2 J; ci_pop3 := ci_pop3 J; ci_pop4 := ci_pop4 J;
     ci_bias := ci_bias J; ci_growth := ci_growth J; ci_D1 := ci_D1 J; ci_chi := ci_chi J; ci_conf := ci_conf J;
     ci_h := ci_h J |}.
