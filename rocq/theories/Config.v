(** * The configuration file of the Python interface.

    Models CoffeConfigParser (python/coffe/coffe.pyx:59-83), Coffe.from_file
    (537-791), Coffe.to_file (794-843) and the bias getters to_file uses
    (846-945).

    The text of the file is represented by its lines "name = value" and each
    value by the Python literal it spells: CPython's [repr] of a float and of an
    int are read back exactly by [float] and [int].  (The project requires NumPy
    before version 2, pyproject.toml:26, where the repr of an array element is the
    plain number.)  Names are lower-cased, as ConfigParser does on both sides.
    Simplifications: warnings are not modelled; a name that occurs twice makes
    ConfigParser raise, so files have distinct names; [np.loadtxt] and the
    evaluation of a spline are parameters. *)
From Coq Require Import ZArith Bool List String.
From Coq Require Import Floats.SpecFloat.
From Verif Require Import F64 PyParams PySet PyState.
Import ListNotations.
Open Scope Z_scope.
Open Scope string_scope.

Definition file := list (string * pyval).
Definition entry (k : string) (f : file) : option pyval :=
  match find (fun e => String.eqb (fst e) k) f with
  | Some e => Some (snd e)
  | None => None
  end.

(** ** Conversions of a value *)

(** [float(text)].  The text of a string literal never spells a number here: a
    number would be represented by [VFloat] or [VInt].
    getfloat and getint of ConfigParser, called in coffe.pyx:537-792. *)
Definition text_float (v : pyval) : f64 + exn :=
  match v with
  | VFloat x => inl x
  | VInt z => inl (of_Z z)
  | _ => inr ValueError
  end.
Definition text_int (v : pyval) : Z + exn :=
  match v with VInt z => inl z | _ => inr ValueError end.

(** The elements of [text.strip("[]").split(",")]: an empty list spells the one
    element "", a scalar is a list of one element.  CoffeConfigParser, coffe.pyx:59-84. *)
Definition split_elements (v : pyval) : list pyval :=
  match v with
  | VList [] => [VStr ""]
  | VList l => l
  | _ => [v]
  end.

(** The getters of the parser: getfloat, getint (ConfigParser), getfloat_array
    64-68, getint_array 70-74, and the int-or-string rule 727-733. *)
Inductive kind := KFloat | KInt | KFloatArray | KIntArray | KIntOrString.
Definition convert (k : kind) (v : pyval) : pyval + exn :=
  match k with
  | KFloat => match text_float v with inl x => inl (VFloat x) | inr e => inr e end
  | KInt => match text_int v with inl z => inl (VInt z) | inr e => inr e end
  | KFloatArray => match map_res text_float (split_elements v) with
                   | inl l => inl (floats l) | inr e => inr e end
  | KIntArray => match map_res text_int (split_elements v) with
                 | inl l => inl (VList (map VInt l)) | inr e => inr e end
  | KIntOrString => match v with
                    | VInt z => inl (VInt z)
                    | VStr s => inl (VStr s)
                    | _ => inl VOther       (* some other text, as a string *)
                    end
  end.

(** ** Names *)

(** An attribute's name, lower-cased.  The option names of coffe.pyx:537-792. *)
Definition attr_key (a : attr) : string :=
  match a with
  | A_A_s => "a_s" | A_N_ncdm => "n_ncdm" | A_N_ur => "n_ur" | A_T_cmb => "t_cmb"
  | A_YHe => "yhe" | A_background_sampling => "background_sampling"
  | A_covariance_cosmic => "covariance_cosmic"
  | A_covariance_integration_method => "covariance_integration_method"
  | A_covariance_integration_sampling => "covariance_integration_sampling"
  | A_covariance_interpolation_method => "covariance_interpolation_method"
  | A_covariance_mixed => "covariance_mixed"
  | A_covariance_poisson => "covariance_poisson"
  | A_covariance_populations => "covariance_populations"
  | A_deltaz => "deltaz" | A_fsky => "fsky" | A_h => "h"
  | A_has_binned_covariance => "has_binned_covariance"
  | A_has_d1 => "has_d1" | A_has_d2 => "has_d2" | A_has_density => "has_density"
  | A_has_flatsky_local => "has_flatsky_local"
  | A_has_flatsky_local_nonlocal => "has_flatsky_local_nonlocal"
  | A_has_flatsky_nonlocal => "has_flatsky_nonlocal"
  | A_has_g1 => "has_g1" | A_has_g2 => "has_g2" | A_has_g3 => "has_g3"
  | A_has_g4 => "has_g4" | A_has_g5 => "has_g5" | A_has_lensing => "has_lensing"
  | A_has_only_cross_correlations => "has_only_cross_correlations"
  | A_has_rsd => "has_rsd"
  | A_integrals_fftlog_sampling => "integrals_fftlog_sampling"
  | A_integration_1d_prec => "integration_1d_prec"
  | A_integration_1d_type => "integration_1d_type"
  | A_integration_sampling => "integration_sampling"
  | A_k_max => "k_max" | A_k_min => "k_min"
  | A_k_per_decade_for_bao => "k_per_decade_for_bao"
  | A_k_per_decade_for_pk => "k_per_decade_for_pk"
  | A_l => "l" | A_l_max_g => "l_max_g" | A_l_max_ur => "l_max_ur"
  | A_m_ncdm => "m_ncdm" | A_mu => "mu" | A_n_s => "n_s"
  | A_number_density1 => "number_density1" | A_number_density2 => "number_density2"
  | A_omega_baryon => "omega_baryon" | A_omega_cdm => "omega_cdm"
  | A_omega_gamma => "omega_gamma" | A_omega_m => "omega_m"
  | A_pixelsize => "pixelsize" | A_pk_type => "pk_type"
  | A_radiation_streaming_trigger_tau_over_tau_k => "radiation_streaming_trigger_tau_over_tau_k"
  | A_sep => "sep" | A_sigma8 => "sigma8"
  | A_start_large_k_at_tau_h_over_tau_k => "start_large_k_at_tau_h_over_tau_k"
  | A_tol_perturb_integration => "tol_perturb_integration"
  | A_ur_fluid_trigger_tau_over_tau_k => "ur_fluid_trigger_tau_over_tau_k"
  | A_verbose => "verbose" | A_w0 => "w0" | A_wa => "wa"
  | A_z_max => "z_max" | A_z_mean => "z_mean" | A_z_min => "z_min"
  | A_readonly => "(read-only)"
  end.

(** The bias options of coffe.pyx:735-792 and 794-845. *)
Definition bias_name (s : sfield) : string :=
  match s with
  | S_galaxy_bias1 => "galaxy_bias1" | S_galaxy_bias2 => "galaxy_bias2"
  | S_galaxy_bias3 => "galaxy_bias3" | S_galaxy_bias4 => "galaxy_bias4"
  | S_magnification_bias1 => "magnification_bias1" | S_magnification_bias2 => "magnification_bias2"
  | S_evolution_bias1 => "evolution_bias1" | S_evolution_bias2 => "evolution_bias2"
  end.

(** ** External calls *)
(** np.loadtxt and the splines that coffe.pyx:121-193 and 735-792 use. *)
Record cfg_ext := {
  x_loadtxt : string -> (list f64 * list f64) + exn;    (* np.loadtxt, two columns *)
  x_interp : spline -> f64 -> f64                       (* gsl_spline_eval, Akima *)
}.

(** [np.linspace(a, b, n)]: the step is (b - a) / (n - 1) and the last element is
    b itself.  numpy.linspace, called in coffe.pyx:846-945 and __main__.py:79. *)
Definition linspace (a b : f64) (n : nat) : list f64 :=
  match n with
  | O => []
  | S O => [fadd (fmul f0 (fsub b a)) a]
  | S m =>
      let delta := fsub b a in
      let step := fdiv delta (of_Z (Z.of_nat m)) in
      map (fun i => if feqb step f0
                    then fadd (fmul (fdiv (of_Z (Z.of_nat i)) (of_Z (Z.of_nat m))) delta) a
                    else fadd (fmul (of_Z (Z.of_nat i)) step) a) (seq 0 m) ++ [b]
  end%list.

(** ** to_file *)

(** galaxy_bias1_redshifts ... evolution_bias2_values, 846-945, and
    evaluate_spline 137-154: a point outside the table raises ValueError. *)
Definition bias_redshifts (sp : spline) : list f64 :=
  match sp with
  | [] => []
  | n :: _ => linspace (fst n) (fst (last sp n)) (List.length sp)
  end.
Definition bias_values (X : cfg_ext) (sp : spline) : list f64 + exn :=
  match sp with
  | [] => inl []
  | n :: _ =>
      map_res (fun x => if fltb x (fst n) then inr ValueError
                        else if fltb (fst (last sp n)) x then inr ValueError
                        else inl (x_interp X sp x)) (bias_redshifts sp)
  end.
Definition all_biases : list sfield :=
  [S_galaxy_bias1; S_galaxy_bias2; S_galaxy_bias3; S_galaxy_bias4;
   S_magnification_bias1; S_magnification_bias2; S_evolution_bias1; S_evolution_bias2].

(** 804-808: a flag is written as 0 or 1, an array as a list. *)
Definition written_value (v : pyval) : pyval :=
  match v with VBool b => VInt (if b then 1 else 0) | _ => v end.

(** The attributes [parameters] lists: integrals_fftlog_sampling raises
    AttributeError and is left out (1142-1153). *)
Definition written_attrs : list attr :=
  filter (fun a => negb (attr_beq a A_readonly || attr_beq a A_integrals_fftlog_sampling)) all_attrs.

Fixpoint written_biases (X : cfg_ext) (p : params) (l : list sfield) : file + exn :=
  match l with
  | [] => inl []
  | s :: r =>
      match bias_values X (psp p s) with
      | inr e => inr e
      | inl ys =>
          match written_biases X p r with
          | inr e => inr e
          | inl rest => inl ((bias_name s ++ "_redshifts", floats (bias_redshifts (psp p s)))
                             :: (bias_name s ++ "_values", floats ys) :: rest)
          end
      end
  end.

Inductive written := Written (f : file) | WRaise (e : exn) | WCrash.
Definition written_file (X : cfg_ext) (p : params) : written :=
  match written_biases X p all_biases with
  | inr e => WRaise e
  | inl b => Written (map (fun a => (attr_key a, written_value (get_attr a p))) written_attrs ++ b)%list
  end.
Definition write_out (X : cfg_ext) (x : state * res) : state * written :=
  match x with
  | (s1, Ok _) => (s1, written_file X (sp s1))
  | (s1, Raise e) => (s1, WRaise e)
  | (s1, Crash) => (s1, WCrash)
  end.
Definition to_file (X : cfg_ext) (s : state) : state * written := write_out X (read_parameters s).

(** ** from_file *)

(** Python semantics: an exception ends the call, coffe.pyx:537-792. *)
Definition bindr (x : state * res) (k : state -> state * res) : state * res :=
  match x with
  | (s, Ok _) => k s
  | other => other
  end.
Fixpoint seqr {A} (step : A -> state -> state * res) (l : list A) (s : state) : state * res :=
  match l with
  | [] => (s, Ok ONone)
  | a :: r => bindr (step a s) (seqr step r)
  end.

(** One option: [if option in config: setattr(cosmo, option, config.get...(option))];
    [None] stands for a name the object has no attribute for.  One option read in coffe.pyx:537-792. *)
Record opt := { o_key : string; o_kind : kind; o_attr : option attr }.
Definition read_option (f : file) (o : opt) (s : state) : state * res :=
  match entry (o_key o) f with
  | None => (s, Ok ONone)
  | Some v =>
      match convert (o_kind o) v with
      | inr e => (s, Raise e)
      | inl w => match o_attr o with
                 | Some a => set_attr a w s
                 | None => (s, Raise AttributeError)
                 end
      end
  end.
Definition own_opt (k : kind) (a : attr) : opt := {| o_key := attr_key a; o_kind := k; o_attr := Some a |}.

(** Legacy names, 571-590; those that are ignored have no attribute and are left
    out; covariance_density sets two attributes. *)
Definition legacy (n : string) (k : kind) (a : attr) : opt := {| o_key := n; o_kind := k; o_attr := Some a |}.
Definition legacy_options : list opt :=
  [legacy "only_cross_correlations" KInt A_has_only_cross_correlations;
   legacy "covariance_z_mean" KFloatArray A_z_mean;
   legacy "covariance_deltaz" KFloatArray A_deltaz;
   legacy "covariance_fsky" KFloatArray A_fsky;
   legacy "covariance_pixelsize" KFloatArray A_pixelsize;
   legacy "covariance_zmin" KFloatArray A_z_min;
   legacy "covariance_zmax" KFloatArray A_z_max;
   legacy "covariance_window" KInt A_has_binned_covariance;
   legacy "covariance_density" KFloatArray A_number_density1;
   legacy "covariance_density" KFloatArray A_number_density2;
   legacy "multipoles" KIntArray A_l;
   legacy "flatsky_local" KInt A_has_flatsky_local;
   legacy "flatsky_local_nonlocal" KInt A_has_flatsky_local_nonlocal;
   legacy "flatsky_nonlocal" KInt A_has_flatsky_nonlocal].

(** correlation_contributions, 619-643: names that are listed are switched on,
    none is switched off. *)
Definition contribution_map : list (string * attr) :=
  [("den", A_has_density); ("rsd", A_has_rsd); ("len", A_has_lensing); ("d1", A_has_d1);
   ("d2", A_has_d2); ("g1", A_has_g1); ("g2", A_has_g2); ("g3", A_has_g3);
   ("g4", A_has_g4); ("g5", A_has_g5)].
Definition listed (n : string) (v : pyval) : bool :=
  existsb (fun e => match e with VStr s => String.eqb s n | _ => false end) (split_elements v).
Definition read_contributions (f : file) (s : state) : state * res :=
  match entry "correlation_contributions" f with
  | None => (s, Ok ONone)
  | Some v => seqr (fun na s => if listed (fst na) v then set_attr (snd na) (VBool true) s
                                else (s, Ok ONone)) contribution_map s
  end.

(** The Python sets of option names, 645-725.  Python visits a set in an order
    that changes from run to run. *)
Definition float_array_options : list opt :=
  map (own_opt KFloatArray)
    [A_sep; A_z_mean; A_deltaz; A_z_min; A_z_max; A_mu; A_number_density1;
     A_number_density2; A_pixelsize; A_fsky].
Definition float_options : list opt :=
  {| o_key := "start_large_k_at_tau_c_over_tau_h"; o_kind := KFloat; o_attr := None |} ::
  map (own_opt KFloat)
    [A_omega_m; A_omega_baryon; A_omega_gamma; A_w0; A_wa; A_h; A_sigma8; A_n_s; A_T_cmb;
     A_A_s; A_k_per_decade_for_bao; A_k_per_decade_for_pk; A_l_max_g; A_l_max_ur;
     A_tol_perturb_integration; A_radiation_streaming_trigger_tau_over_tau_k;
     A_ur_fluid_trigger_tau_over_tau_k; A_N_ur; A_m_ncdm; A_k_min; A_k_max; A_YHe].
Definition int_options : list opt :=
  map (own_opt KInt)
    [A_has_density; A_has_lensing; A_has_rsd; A_has_d1; A_has_d2; A_has_g1; A_has_g3;
     A_has_g4; A_has_g5; A_integration_sampling; A_background_sampling;
     A_has_binned_covariance; A_has_flatsky_local; A_has_flatsky_nonlocal;
     A_has_flatsky_local_nonlocal; A_covariance_cosmic; A_covariance_mixed;
     A_covariance_poisson; A_covariance_integration_sampling;
     A_integrals_fftlog_sampling; A_N_ncdm].
Definition int_or_string_options : list opt :=
  map (own_opt KIntOrString)
    [A_covariance_integration_method; A_pk_type; A_covariance_interpolation_method;
     A_integration_1d_type].

(** The order in which one run visits the four sets.
    Python visits a set in an unspecified order, coffe.pyx:640-735. *)
Record visit := { v_float_array : list opt; v_float : list opt; v_int : list opt; v_enum : list opt }.
Definition source_order : visit :=
  {| v_float_array := float_array_options; v_float := float_options;
     v_int := int_options; v_enum := int_or_string_options |}.

(** 735-789: the table the file gives for one bias, if any.  [config.getfloat] of a
    missing name is None, which NumPy rejects; so is the [strip] of a missing
    file name. *)
Definition bias_source (X : cfg_ext) (f : file) (k : sfield) : option (list f64 * list f64) + exn :=
  let n := bias_name k in
  let tables :=
    match entry (n ++ "_redshifts") f, entry (n ++ "_values") f with
    | Some x, Some y =>
        match map_res text_float (split_elements x) with
        | inr e => inr e
        | inl xs => match map_res text_float (split_elements y) with
                    | inr e => inr e
                    | inl ys => inl (Some (xs, ys))
                    end
        end
    | _, _ => inl None
    end in
  let constant :=
    match entry ("input_" ++ n) f with
    | None => tables
    | Some _ => match entry n f with
                | None => inr TypeError
                | Some v => match text_float v with
                            | inr e => inr e
                            | inl b => inl (Some (linspace f0 (of_Z 10) 100, repeat b 100))
                            end
                end
    end in
  match entry ("read_" ++ n) f with
  | None => constant
  | Some v =>
      match text_int v with
      | inr e => inr e
      | inl z =>
          if (z =? 1)%Z
          then match entry ("input_" ++ n) f with
               | Some (VStr name) => match x_loadtxt X name with
                                     | inr e => inr e
                                     | inl t => inl (Some t)
                                     end
               | _ => inr AttributeError
               end
          else constant
      end
  end.
Definition read_bias (X : cfg_ext) (f : file) (k : sfield) (s : state) : state * res :=
  match bias_source X f k with
  | inr e => (s, Raise e)
  | inl None => (s, Ok ONone)
  | inl (Some (xs, ys)) => set_bias k xs ys s
  end.
Definition bias_order : list sfield :=
  [S_galaxy_bias1; S_galaxy_bias2; S_magnification_bias1; S_magnification_bias2;
   S_evolution_bias1; S_evolution_bias2; S_galaxy_bias3; S_galaxy_bias4].

Definition from_file (X : cfg_ext) (v : visit) (f : file) : state * res :=
  bindr (seqr (read_option f) legacy_options coffe0) (fun s =>
  bindr (read_contributions f s) (fun s =>
  bindr (seqr (read_option f) (v_float_array v) s) (fun s =>
  bindr (read_option f (own_opt KIntArray A_l) s) (fun s =>
  bindr (seqr (read_option f) (v_float v) s) (fun s =>
  bindr (seqr (read_option f) (v_int v) s) (fun s =>
  bindr (seqr (read_option f) (v_enum v) s) (fun s =>
  seqr (read_bias X f) bias_order s))))))).
