(** * The attribute setters and getters of the Python [Coffe] object.

    Models the property setters of python/coffe/coffe.pyx:1009-2926: for each
    attribute the value check, the new parameter structure and the list of
    caches the setter drops. *)
From Coq Require Import ZArith Bool List String.
From Verif Require Import F64 PyParams.
Import ListNotations.
Open Scope Z_scope.

(** The writable attributes, plus one constructor for the read-only ones
    (omega_nu, omega_de, big_omega_*, has_class, has_cuba, use_little_omega,
    methods): assigning to those raises AttributeError in Python itself.  Properties of coffe.pyx:1001-2927. *)
Inductive attr :=
| A_A_s | A_N_ncdm | A_N_ur | A_T_cmb | A_YHe
| A_background_sampling
| A_covariance_cosmic | A_covariance_integration_method
| A_covariance_integration_sampling | A_covariance_interpolation_method
| A_covariance_mixed | A_covariance_poisson | A_covariance_populations
| A_deltaz | A_fsky | A_h
| A_has_binned_covariance | A_has_d1 | A_has_d2 | A_has_density
| A_has_flatsky_local | A_has_flatsky_local_nonlocal | A_has_flatsky_nonlocal
| A_has_g1 | A_has_g2 | A_has_g3 | A_has_g4 | A_has_g5
| A_has_lensing | A_has_only_cross_correlations | A_has_rsd
| A_integrals_fftlog_sampling
| A_integration_1d_prec | A_integration_1d_type | A_integration_sampling
| A_k_max | A_k_min | A_k_per_decade_for_bao | A_k_per_decade_for_pk
| A_l | A_l_max_g | A_l_max_ur | A_m_ncdm | A_mu | A_n_s
| A_number_density1 | A_number_density2
| A_omega_baryon | A_omega_cdm | A_omega_gamma | A_omega_m
| A_pixelsize | A_pk_type
| A_radiation_streaming_trigger_tau_over_tau_k
| A_sep | A_sigma8 | A_start_large_k_at_tau_h_over_tau_k
| A_tol_perturb_integration | A_ur_fluid_trigger_tau_over_tau_k
| A_verbose | A_w0 | A_wa | A_z_max | A_z_mean | A_z_min
| A_readonly.
Scheme Equality for attr.

(** In the order of [dir(cls)], i.e. sorted by name, which is the order in
    which [parameters] visits them (coffe.pyx:1142-1153). *)
Definition all_attrs : list attr :=
  [A_A_s; A_N_ncdm; A_N_ur; A_T_cmb; A_YHe; A_background_sampling;
   A_covariance_cosmic; A_covariance_integration_method;
   A_covariance_integration_sampling; A_covariance_interpolation_method;
   A_covariance_mixed; A_covariance_poisson; A_covariance_populations;
   A_deltaz; A_fsky; A_h; A_has_binned_covariance; A_has_d1; A_has_d2;
   A_has_density; A_has_flatsky_local; A_has_flatsky_local_nonlocal;
   A_has_flatsky_nonlocal; A_has_g1; A_has_g2; A_has_g3; A_has_g4; A_has_g5;
   A_has_lensing; A_has_only_cross_correlations; A_has_rsd;
   A_integrals_fftlog_sampling; A_integration_1d_prec; A_integration_1d_type;
   A_integration_sampling; A_k_max; A_k_min; A_k_per_decade_for_bao;
   A_k_per_decade_for_pk; A_l; A_l_max_g; A_l_max_ur; A_m_ncdm; A_mu; A_n_s;
   A_number_density1; A_number_density2; A_omega_baryon; A_omega_cdm;
   A_omega_gamma; A_omega_m; A_pixelsize; A_pk_type;
   A_radiation_streaming_trigger_tau_over_tau_k; A_sep; A_sigma8;
   A_start_large_k_at_tau_h_over_tau_k; A_tol_perturb_integration;
   A_ur_fluid_trigger_tau_over_tau_k; A_verbose; A_w0; A_wa; A_z_max;
   A_z_mean; A_z_min; A_readonly].

Lemma all_attrs_complete : forall a, In a all_attrs.
Proof. destruct a; simpl; tauto. Qed.

(** ** Value checks *)

(** [_check_parameter(name, value, (int, float), lo, hi)], coffe.pyx:86-109.
    A NaN passes both comparisons. *)
Definition check_num (v : pyval) (lo hi : f64) : f64 + exn :=
  match as_num v with
  | None => inr TypeError
  | Some x => if fltb x lo then inr ValueError
              else if fltb hi x then inr ValueError else inl x
  end.

(** The same with [kind = int].  coffe.pyx:86-110. *)
Definition check_int (v : pyval) (lo hi : Z) : Z + exn :=
  match as_int v with
  | None => inr TypeError
  | Some x => if x <? lo then inr ValueError
              else if hi <? x then inr ValueError else inl x
  end.

(** The same with [kind = float] (coffe.pyx:2473-2482). *)
Definition check_flt (v : pyval) (lo hi : f64) : f64 + exn :=
  match v with
  | VFloat x => if fltb x lo then inr ValueError
                else if fltb hi x then inr ValueError else inl x
  | _ => inr TypeError
  end.

(** Coercion of a Python object to a C [double] / [int] field.  The build
    requires Cython before version 3 (pyproject.toml:85), whose conversion to a C
    integer calls [int(x)] on any number: a Python float is truncated. *)
Definition c_double (v : pyval) : f64 + exn :=
  match as_num v with
  | None => inr TypeError
  | Some x => match v with
              | VInt _ => if is_finite x then inl x else inr OverflowError
              | _ => inl x
              end
  end.
Definition int32 (z : Z) : Z + exn :=
  if (-2147483648 <=? z) && (z <=? 2147483647) then inl z else inr OverflowError.
Definition c_int (v : pyval) : Z + exn :=
  match v with
  | VFloat x => if is_finite x then int32 (trunc x)
                else if is_nan x then inr ValueError else inr OverflowError
  | _ => match as_int v with None => inr TypeError | Some z => int32 z end
  end.

(** [iter(value)]: the elements, or TypeError (coffe.pyx:1564-1567 and the
    other list setters). *)
Definition elements (v : pyval) : list pyval + exn :=
  match v with
  | VList l => inl l
  | VStr s => inl (map (fun c => VStr (String c EmptyString)) (list_ascii_of_string s))
  | _ => inr TypeError
  end.

Fixpoint map_res {A B} (f : A -> B + exn) (l : list A) : list B + exn :=
  match l with
  | [] => inl []
  | a :: r => match f a with
              | inr e => inr e
              | inl b => match map_res f r with
                         | inr e => inr e
                         | inl bs => inl (b :: bs)
                         end
              end
  end.

(** The list setters: [temp = [float(_) for _ in value]] and
    [if not all(... for _ in temp): raise ValueError].  E.g. coffe.pyx:1563-1586. *)
Definition check_list (ok : f64 -> bool) (v : pyval) : list f64 + exn :=
  match elements v with
  | inr e => inr e
  | inl l => match map_res as_float l with
             | inr e => inr e
             | inl fs => if forallb ok fs then inl fs else inr ValueError
             end
  end.

(** [l]: [temp = [_.__index__() for _ in value]], coffe.pyx:1946-1961. *)
Definition check_multipoles (v : pyval) : list Z + exn :=
  match elements v with
  | inr e => inr e
  | inl l => match map_res (fun x => match as_int x with
                                     | Some z => inl z | None => inr TypeError end) l with
             | inr e => inr e
             | inl zs => if forallb (fun z => (0 <=? z) && (z <? 10)) zs
                         then inl zs else inr ValueError
             end
  end.

(** [_ in [1, 2, 3, 4]]: Python's [==] between numbers.  coffe.pyx:2173-2192. *)
Definition in_1234 (v : pyval) : bool :=
  match as_int v with
  | Some z => (1 <=? z) && (z <=? 4)
  | None => match as_num v with
            | Some x => existsb (fun k => feqb x (of_Z k)) [1; 2; 3; 4]
            | None => false
            end
  end.

(** [int(_)]: floats are truncated, NaN and infinities raise; strings that are
    not decimal raise ValueError.  coffe.pyx:2173-2192. *)
Definition py_int (v : pyval) : unit + exn :=
  match v with
  | VFloat f => if is_finite f then inl tt
                else if is_nan f then inr ValueError else inr OverflowError
  | VInt _ | VBool _ => inl tt
  | VStr _ => inr ValueError
  | _ => inr TypeError
  end.

(** covariance_populations, coffe.pyx:2173-2192. *)
Definition check_populations (v : pyval) : list Z + exn :=
  match elements v with
  | inr e => inr e
  | inl l =>
      match map_res py_int l with
      | inr e => inr e
      | inl _ =>
          if negb (Nat.eqb (List.length l) 4) then inr ValueError
          else if negb (forallb in_1234 l) then inr ValueError
          else map_res c_int l
      end
  end.

(** [_check_parameter_discrete] and the dictionary look-up that follows it
    (coffe.pyx:112-118, 2258-2272, 2313-2327, 2449-2463, 2806-2818): the integer
    code, or the name. *)
Definition lookup_name (tbl : list (Z * string)) (s : string) : option Z :=
  match find (fun p => String.eqb (snd p) s) tbl with
  | Some p => Some (fst p)
  | None => None
  end.
Definition lookup_code (tbl : list (Z * string)) (z : Z) : option string :=
  match find (fun p => fst p =? z) tbl with
  | Some p => Some (snd p)
  | None => None
  end.
Definition check_discrete (tbl : list (Z * string)) (v : pyval) : Z + exn :=
  match v with
  | VStr s => match lookup_name tbl s with Some z => inl z | None => inr ValueError end
  | VInt _ | VBool _ =>
      match as_int v with
      | Some z => match lookup_code tbl z with Some _ => inl z | None => inr ValueError end
      | None => inr ValueError
      end
  | VFloat x =>   (* 1.0 == 1 passes the test and is converted to the C enum *)
      match find (fun p => feqb x (of_Z (fst p))) tbl with
      | Some p => inl (fst p) | None => inr ValueError end
  | _ => inr ValueError
  end.

(** [_check_omegas], coffe.pyx:1057-1062 ([np.sum] of fewer than eight numbers
    adds from left to right). *)
Definition check_omegas (l : list f64) : bool :=
  negb (fltb f1 (fold_left fadd l f0)).

(** [_balance_content], coffe.pyx:1117-1122. *)
Definition balance (p : params) : params :=
  setF p Omega0_de (fsub (fsub f1 (pf p Omega0_m)) (pf p Omega0_gamma)).

(** ** Effect of an assignment on the parameters *)

(** Accepted without any effect / accepted and stored (then caches are
    dropped) / rejected without effect / exception after a partial store.
    The shapes of the setters of coffe.pyx:1001-2927. *)
Inductive upd :=
| Keep
| Put (p : params)
| Reject (e : exn)
| Part (p : params) (e : exn).

(** Setters of the shape "check range; if not np.allclose(value, old): store".
    The shapes of the setters of coffe.pyx:1001-2927. *)
Definition upd_close (k : ffield) (lo hi : f64) (v : pyval) (p : params) : upd :=
  match check_num v lo hi with
  | inr e => Reject e
  | inl x => if allclose x (pf p k) then Keep else Put (setF p k x)
  end.

Definition m100 := of_Z (-100).
Definition p100 := of_Z 100.

Definition upd_double (k : ffield) (v : pyval) (p : params) : upd :=
  match c_double v with inr e => Reject e | inl x => Put (setF p k x) end.
Definition upd_cint (k : ifield) (v : pyval) (p : params) : upd :=
  match c_int v with inr e => Reject e | inl x => Put (setI p k x) end.
Definition upd_int (k : ifield) (lo hi : Z) (v : pyval) (p : params) : upd :=
  match check_int v lo hi with inr e => Reject e | inl x => Put (setI p k x) end.
Definition upd_bool (k : bfield) (v : pyval) (p : params) : upd :=
  Put (setB p k (truthy v)).
Definition upd_enum (k : ifield) (tbl : list (Z * string)) (v : pyval) (p : params) : upd :=
  match check_discrete tbl v with inr e => Reject e | inl z => Put (setI p k z) end.
Definition upd_list (k : lfield) (ok : f64 -> bool) (v : pyval) (p : params) : upd :=
  match check_list ok v with inr e => Reject e | inl l => Put (setL p k l) end.

(** The list bounds: sep 1574, mu 1615, redshifts and densities
    1994/2030/2068/2106/2142/2420, pixelsize 2350, fsky 2386. *)
Definition ok_sep x := fltb f0 x && fltb x (of_Z 10000).
Definition ok_mu x := fltb (of_Z (-1)) x && fltb x f1.
Definition ok_redshift x := fleb f0 x && fltb x (of_Z 10).
Definition ok_pixelsize x := fltb f0 x && fltb x (of_Z 1000).
Definition ok_fsky x := fltb f0 x && fleb x f1.

(** coffe.pyx:1180-1190. *)
Definition upd_omega_cdm (v : pyval) (p : params) : upd :=
  match check_num v m100 p100 with
  | inr e => Reject e
  | inl x =>
      if allclose x (pf p Omega0_cdm) then Keep
      else if check_omegas [x; pf p Omega0_baryon; pf p Omega0_gamma; pf p Omega0_nu]
      then let p1 := setF p Omega0_cdm x in
           let p2 := setF p1 Omega0_m (fadd (pf p1 Omega0_cdm) (pf p1 Omega0_baryon)) in
           Put (balance p2)
      else Reject ValueError
  end.

(** [Omega0_cdm = Omega0_m - Omega0_baryon - Omega0_nu] (1216, 1237, 1516). *)
Definition rebalance_cdm (p : params) : params :=
  setF p Omega0_cdm (fsub (fsub (pf p Omega0_m) (pf p Omega0_baryon)) (pf p Omega0_nu)).

(** coffe.pyx:1208-1219. *)
Definition upd_omega_m (v : pyval) (p : params) : upd :=
  match check_num v m100 p100 with
  | inr e => Reject e
  | inl x =>
      if allclose x (pf p Omega0_m) then Keep
      else if check_omegas [x; pf p Omega0_gamma]
      then Put (balance (rebalance_cdm (setF p Omega0_m x)))
      else Reject ValueError
  end.

(** coffe.pyx:1229-1239. *)
Definition upd_omega_baryon (v : pyval) (p : params) : upd :=
  match check_num v m100 p100 with
  | inr e => Reject e
  | inl x =>
      if allclose x (pf p Omega0_baryon) then Keep
      else if check_omegas [x; pf p Omega0_cdm; pf p Omega0_gamma]
      then Put (balance (rebalance_cdm (setF p Omega0_baryon x)))
      else Reject ValueError
  end.

(** coffe.pyx:1249-1256. *)
Definition upd_omega_gamma (v : pyval) (p : params) : upd :=
  match check_num v m100 p100 with
  | inr e => Reject e
  | inl x =>
      if allclose x (pf p Omega0_gamma) then Keep
      else if check_omegas [x; pf p Omega0_m]
      then Put (balance (setF p Omega0_gamma x))
      else Reject ValueError
  end.

(** coffe.pyx:1276-1283: h changes, Omega0_nu does not. *)
Definition upd_h (v : pyval) (p : params) : upd :=
  match check_num v f0 p100 with
  | inr e => Reject e
  | inl x => if allclose x (pf p F_h) then Keep else Put (balance (setF p F_h x))
  end.

(** coffe.pyx:1506-1518: m_ncdm is stored before the division by h, which
    raises ZeroDivisionError when h is zero (Python float division). *)
Definition upd_m_ncdm (v : pyval) (p : params) : upd :=
  match check_num v m100 p100 with
  | inr e => Reject e
  | inl x =>
      if allclose x (pf p F_m_ncdm) then Keep
      else let p1 := setF p F_m_ncdm x in
           if feqb (pf p F_h) f0 then Part p1 ZeroDivisionError
           else let nu := fdiv (fdiv (fdiv x (lit 9314 100)) (pf p F_h)) (pf p F_h) in
                Put (balance (rebalance_cdm (setF p1 Omega0_nu nu)))
  end.

(** coffe.pyx:1543-1549. *)
Definition upd_N_ncdm (v : pyval) (p : params) : upd :=
  match check_int v (-100) 100 with
  | inr e => Reject e
  | inl z => if allclose (of_Z z) (of_Z (pi p I_N_ncdm)) then Keep
             else Put (setI p I_N_ncdm z)
  end.

(** k_min 2905-2910, k_max 2922-2927. *)
Definition upd_k (k knorm : ffield) (lo hi : f64) (v : pyval) (p : params) : upd :=
  match check_num v lo hi with
  | inr e => Reject e
  | inl x => Put (setF (setF p k x) knorm x)
  end.

(** coffe.pyx:2173-2195. *)
Definition upd_populations (v : pyval) (p : params) : upd :=
  match check_populations v with
  | inl [a; b; c; d] =>
      Put (setI (setI (setI (setI p I_pop1 a) I_pop2 b) I_pop3 c) I_pop4 d)
  | inl _ => Reject ValueError
  | inr e => Reject e
  end.

(** coffe.pyx:1644-1654: [self._parameter] (missing "s") does not exist. *)
Definition upd_integrals_fftlog_sampling (v : pyval) : upd :=
  match check_int v 0 1000000 with
  | inr e => Reject e
  | inl _ => Reject AttributeError
  end.

Definition attr_update (a : attr) (v : pyval) (p : params) : upd :=
  match a with
  | A_A_s =>                                                   (* 1452-1462 *)
      match check_num v m100 p100 with
      | inr e => Reject e | inl x => Put (setF p F_A_s x) end
  | A_N_ncdm => upd_N_ncdm v p
  | A_N_ur => upd_close F_N_ur m100 p100 v p                   (* 1489 *)
  | A_T_cmb => upd_close F_T_cmb m100 p100 v p                 (* 1473 *)
  | A_YHe => upd_close F_YHe m100 p100 v p                     (* 1527 *)
  | A_background_sampling => upd_int I_background_bins 0 2147483647 v p   (* 2515 *)
  | A_covariance_cosmic => upd_bool B_covariance_cosmic v p    (* 2205 *)
  | A_covariance_integration_method =>                          (* 2258 *)
      upd_enum I_covariance_integration_method allowed_covariance_integration_methods v p
  | A_covariance_integration_sampling =>                        (* 2284 *)
      upd_int I_covariance_integration_bins 0 1000000 v p
  | A_covariance_interpolation_method =>                        (* 2313 *)
      upd_enum I_covariance_interpolation_method allowed_interpolation_2d_methods v p
  | A_covariance_mixed => upd_bool B_covariance_mixed v p       (* 2221 *)
  | A_covariance_poisson => upd_bool B_covariance_poisson v p   (* 2236 *)
  | A_covariance_populations => upd_populations v p
  | A_deltaz => upd_list L_deltaz ok_redshift v p               (* 2412 *)
  | A_fsky => upd_list L_fsky ok_fsky v p                       (* 2376 *)
  | A_h => upd_h v p
  | A_has_binned_covariance => upd_bool B_covariance_window v p (* 2540 *)
  | A_has_d1 => upd_bool B_d1 v p                               (* 2608 *)
  | A_has_d2 => upd_bool B_d2 v p
  | A_has_density => upd_bool B_den v p                         (* 2555 *)
  | A_has_flatsky_local => upd_bool B_flatsky_local v p         (* 2720 *)
  | A_has_flatsky_local_nonlocal => upd_bool B_flatsky_local_nonlocal v p  (* 2738 *)
  | A_has_flatsky_nonlocal => upd_bool B_flatsky_nonlocal v p   (* 2756 *)
  | A_has_g1 => upd_bool B_g1 v p
  | A_has_g2 => upd_bool B_g2 v p
  | A_has_g3 => upd_bool B_g3 v p
  | A_has_g4 => upd_bool B_g4 v p
  | A_has_g5 => upd_bool B_g5 v p                               (* 2697 *)
  | A_has_lensing => upd_bool B_len v p                         (* 2592 *)
  | A_has_only_cross_correlations => upd_bool B_only_cross v p  (* 1129 *)
  | A_has_rsd => upd_bool B_rsd v p                             (* 2574 *)
  | A_integrals_fftlog_sampling => upd_integrals_fftlog_sampling v
  | A_integration_1d_prec =>                                    (* 2473 *)
      match check_flt v f0 f1 with
      | inr e => Reject e | inl x => Put (setF p F_integration_1d_prec x) end
  | A_integration_1d_type =>                                    (* 2449 *)
      upd_enum I_integration_1d_type allowed_integration_1d_types v p
  | A_integration_sampling => upd_int I_integration_bins 0 2147483647 v p (* 2495 *)
  | A_k_max => upd_k F_k_max F_k_max_norm (lit 1 10) (of_Z 1000) v p
  | A_k_min => upd_k F_k_min F_k_min_norm f0 (lit 1 1000) v p
  | A_k_per_decade_for_bao => upd_double F_k_per_decade_for_bao v p       (* 1306-1382 *)
  | A_k_per_decade_for_pk => upd_double F_k_per_decade_for_pk v p
  | A_l =>                                                      (* 1946 *)
      match check_multipoles v with inr e => Reject e | inl l => Put (setM p l) end
  | A_l_max_g => upd_cint I_l_max_g v p
  | A_l_max_ur => upd_cint I_l_max_ur v p
  | A_m_ncdm => upd_m_ncdm v p
  | A_mu => upd_list L_mu ok_mu v p                             (* 1604 *)
  | A_n_s => upd_close F_n_s m100 p100 v p                      (* 1414 *)
  | A_number_density1 => upd_list L_density1 ok_redshift v p    (* 2098 *)
  | A_number_density2 => upd_list L_density2 ok_redshift v p    (* 2134 *)
  | A_omega_baryon => upd_omega_baryon v p
  | A_omega_cdm => upd_omega_cdm v p
  | A_omega_gamma => upd_omega_gamma v p
  | A_omega_m => upd_omega_m v p
  | A_pixelsize => upd_list L_pixelsize ok_pixelsize v p        (* 2340 *)
  | A_pk_type => upd_enum I_pk_type allowed_pk_types v p        (* 2806 *)
  | A_radiation_streaming_trigger_tau_over_tau_k => upd_double F_radiation_streaming_trigger v p
  | A_sep => upd_list L_sep ok_sep v p                          (* 1563 *)
  | A_sigma8 => upd_close F_sigma8 m100 p100 v p                (* 1430 *)
  | A_start_large_k_at_tau_h_over_tau_k => upd_double F_start_large_k_at_tau_h_over_tau_k v p
  | A_tol_perturb_integration => upd_double F_tol_perturb_integration v p
  | A_ur_fluid_trigger_tau_over_tau_k => upd_double F_ur_fluid_trigger v p
  | A_verbose => upd_bool B_verbose v p                         (* 1017 *)
  | A_w0 => upd_close F_w0 m100 p100 v p                        (* 1298 *)
  | A_wa => upd_close F_wa m100 p100 v p                        (* 1398 *)
  | A_z_max => upd_list L_zmax ok_redshift v p                  (* 2060 *)
  | A_z_mean => upd_list L_z_mean ok_redshift v p               (* 1986 *)
  | A_z_min => upd_list L_zmin ok_redshift v p                  (* 2022 *)
  | A_readonly => Reject AttributeError
  end.

(** ** Which caches each setter drops *)

(** The caches of the object (coffe.pyx:948-992).  [CPk] is the power spectrum
    (splines and flag), [CBg] the background, [CInt] the integrals. *)
Inductive cache := CBg | CPk | CInt | CCorr | CMult | CAvg | CCov | CACov.
Scheme Equality for cache.

Definition free_all := [CBg; CPk; CInt; CCorr; CMult; CAvg; CCov; CACov].

Definition attr_frees (a : attr) : list cache :=
  match a with
  | A_sigma8 | A_A_s => [CPk; CInt; CCorr; CMult; CAvg; CCov; CACov]  (* 1434-1441, 1455-1462 *)
  | A_sep => [CCorr; CMult]                                       (* 1586-1587 *)
  | A_mu => [CCorr]                                               (* 1629 *)
  | A_l => [CMult; CAvg; CCov; CACov]                             (* 1970-1973 *)
  | A_z_mean | A_deltaz => [CCorr; CMult; CCov]                   (* 2007-2009, 2433-2435 *)
  | A_z_min | A_z_max => [CCorr; CMult; CCov; CACov]              (* 2043-2046, 2081-2084 *)
  | A_number_density1 | A_number_density2 | A_covariance_populations
  | A_covariance_cosmic | A_covariance_mixed | A_covariance_poisson
  | A_covariance_integration_method | A_covariance_integration_sampling
  | A_covariance_interpolation_method | A_pixelsize | A_fsky
  | A_has_binned_covariance => [CCov; CACov]                      (* 2098-2400, 2540 *)
  | A_integration_sampling | A_has_lensing | A_has_only_cross_correlations =>
      [CCorr; CMult; CAvg]                                        (* 2497, 2594, 1131 *)
  | A_has_density | A_has_rsd => [CCorr; CMult; CAvg; CCov; CACov]  (* 2557-2561, 2576-2580 *)
  | A_has_flatsky_local | A_has_flatsky_local_nonlocal | A_has_flatsky_nonlocal =>
      [CInt; CCorr; CMult; CAvg]                                  (* 2722-2725 *)
  | A_verbose | A_readonly | A_integrals_fftlog_sampling => []
  | _ => free_all                              (* self._free_except_parameters() *)
  end.

(** ** Getters *)

(** The getters of coffe.pyx:1001-2915. *)
Definition floats (l : list f64) : pyval := VList (map VFloat l).
Definition enum_name (tbl : list (Z * string)) (z : Z) : pyval :=
  match lookup_code tbl z with Some s => VStr s | None => VOther end.

(** The property getters: the value Python hands out for an attribute.  The getters of coffe.pyx:1001-2915. *)
Definition get_attr (a : attr) (p : params) : pyval :=
  match a with
  | A_A_s => VFloat (pf p F_A_s)
  | A_N_ncdm => VInt (pi p I_N_ncdm)
  | A_N_ur => VFloat (pf p F_N_ur)
  | A_T_cmb => VFloat (pf p F_T_cmb)
  | A_YHe => VFloat (pf p F_YHe)
  | A_background_sampling => VInt (pi p I_background_bins)
  | A_covariance_cosmic => VBool (pb p B_covariance_cosmic)
  | A_covariance_integration_method =>
      enum_name allowed_covariance_integration_methods (pi p I_covariance_integration_method)
  | A_covariance_integration_sampling => VInt (pi p I_covariance_integration_bins)
  | A_covariance_interpolation_method =>
      enum_name allowed_interpolation_2d_methods (pi p I_covariance_interpolation_method)
  | A_covariance_mixed => VBool (pb p B_covariance_mixed)
  | A_covariance_poisson => VBool (pb p B_covariance_poisson)
  | A_covariance_populations =>
      VList [VInt (pi p I_pop1); VInt (pi p I_pop2); VInt (pi p I_pop3); VInt (pi p I_pop4)]
  | A_deltaz => floats (pl p L_deltaz)
  | A_fsky => floats (pl p L_fsky)
  | A_h => VFloat (pf p F_h)
  | A_has_binned_covariance => VBool (pb p B_covariance_window)
  | A_has_d1 => VBool (pb p B_d1)
  | A_has_d2 => VBool (pb p B_d2)
  | A_has_density => VBool (pb p B_den)
  | A_has_flatsky_local => VBool (pb p B_flatsky_local)
  | A_has_flatsky_local_nonlocal => VBool (pb p B_flatsky_local_nonlocal)
  | A_has_flatsky_nonlocal => VBool (pb p B_flatsky_nonlocal)
  | A_has_g1 => VBool (pb p B_g1)
  | A_has_g2 => VBool (pb p B_g2)
  | A_has_g3 => VBool (pb p B_g3)
  | A_has_g4 => VBool (pb p B_g4)
  | A_has_g5 => VBool (pb p B_g5)
  | A_has_lensing => VBool (pb p B_len)
  | A_has_only_cross_correlations => VBool (pb p B_only_cross)
  | A_has_rsd => VBool (pb p B_rsd)
  | A_integrals_fftlog_sampling => VInt (pi p I_bessel_bins)
  | A_integration_1d_prec => VFloat (pf p F_integration_1d_prec)
  | A_integration_1d_type =>
      enum_name allowed_integration_1d_types (pi p I_integration_1d_type)
  | A_integration_sampling => VInt (pi p I_integration_bins)
  | A_k_max => VFloat (pf p F_k_max)
  | A_k_min => VFloat (pf p F_k_min)
  | A_k_per_decade_for_bao => VFloat (pf p F_k_per_decade_for_bao)
  | A_k_per_decade_for_pk => VFloat (pf p F_k_per_decade_for_pk)
  | A_l => VList (map VInt (pm p))
  | A_l_max_g => VInt (pi p I_l_max_g)
  | A_l_max_ur => VInt (pi p I_l_max_ur)
  | A_m_ncdm => VFloat (pf p F_m_ncdm)
  | A_mu => floats (pl p L_mu)
  | A_n_s => VFloat (pf p F_n_s)
  | A_number_density1 => floats (pl p L_density1)
  | A_number_density2 => floats (pl p L_density2)
  | A_omega_baryon => VFloat (pf p Omega0_baryon)
  | A_omega_cdm => VFloat (pf p Omega0_cdm)
  | A_omega_gamma => VFloat (pf p Omega0_gamma)
  | A_omega_m => VFloat (pf p Omega0_m)
  | A_pixelsize => floats (pl p L_pixelsize)
  | A_pk_type => enum_name allowed_pk_types (pi p I_pk_type)
  | A_radiation_streaming_trigger_tau_over_tau_k => VFloat (pf p F_radiation_streaming_trigger)
  | A_sep => floats (pl p L_sep)
  | A_sigma8 => VFloat (pf p F_sigma8)
  | A_start_large_k_at_tau_h_over_tau_k => VFloat (pf p F_start_large_k_at_tau_h_over_tau_k)
  | A_tol_perturb_integration => VFloat (pf p F_tol_perturb_integration)
  | A_ur_fluid_trigger_tau_over_tau_k => VFloat (pf p F_ur_fluid_trigger)
  | A_verbose => VBool (pb p B_verbose)
  | A_w0 => VFloat (pf p F_w0)
  | A_wa => VFloat (pf p F_wa)
  | A_z_max => floats (pl p L_zmax)
  | A_z_mean => floats (pl p L_z_mean)
  | A_z_min => floats (pl p L_zmin)
  | A_readonly => VOther
  end.
