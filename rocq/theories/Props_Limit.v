(** * Property C72: the flat sky is the limit of the full sky *)
From Coq Require Import Reals Lra Lia List ZArith Bool.
From Coquelicot Require Import Coquelicot.
From Coq Require Import List FunctionalExtensionality.
Import ListNotations.
From Verif Require Import Integrals CExpr Terms Signal TermsMeta TermsSum Additive SignalSum
  Lookup Exchange ExchangeSignal Built Weights Props_Terms Legendre Multipoles Flat Props_Multipoles.
Open Scope R_scope.
#[local] Opaque nonintegrated single_integrated double_integrated.

(** ** Specification *)

(** The same universe seen from a distance [k] times larger: separations, tables and all
    functions of the redshift are the same. *)
Definition stretched (E : env) (k : R) : env :=
  mkEnv (con E) (sw E)
        (fun f x => match f with
           | bg_comoving_distance => k * spl E bg_comoving_distance x
           | bg_z_as_chi => spl E bg_z_as_chi (x / k)
           | f => spl E f x end)
        (tab1 E) (tab2 E) (present E) (par_h E) (omega_cdm E) (omega_baryon E).

(** The flat-sky option of the local terms. *)
Definition flattened (E : env) : env :=
  mkEnv (con E) (fun g => match g with flatsky_local => true | g => sw E g end)
        (spl E) (tab1 E) (tab2 E) (present E) (par_h E) (omega_cdm E) (omega_baryon E).

(** A background without jumps at redshift [z], at a positive distance. *)
Record smooth_at (E : env) (z : R) : Prop := {
  sm_pos : 0 < spl E bg_comoving_distance z;
  sm_inverse : spl E bg_z_as_chi (spl E bg_comoving_distance z) = z;
  sm_redshift : continuous (spl E bg_z_as_chi) (spl E bg_comoving_distance z);
  sm_functions : forall f,
    In f [bg_D1; bg_f; bg_conformal_Hz; bg_G1; bg_G2; par_galaxy_bias1; par_galaxy_bias2] ->
    continuous (spl E f) z }.

(** ** Limits *)
Lemma lim_inverse : forall (f F : R -> R) (k0 : R),
  (forall k, k0 < k -> f k = F (/ k)) -> continuous F 0 -> is_lim f p_infty (F 0).
Proof.
  intros f F k0 H C.
  apply (is_lim_ext_loc (fun k => F (/ k))).
  - exists k0. intros k Hk. symmetry. apply H. exact Hk.
  - apply (is_lim_comp F Rinv p_infty (F 0) 0).
    + apply is_lim_continuity. apply continuity_pt_filterlim. exact C.
    + change (Rbar.Finite 0) with (Rbar_inv p_infty).
      apply is_lim_inv; [apply is_lim_id|discriminate].
    + exists 0. intros k Hk Q. injection Q as Q. apply Rinv_neq_0_compat in Q; [exact Q|lra].
Qed.

Lemma lim_sum : forall A (l : list A) (f : A -> R -> R) (g : A -> R),
  (forall x, In x l -> is_lim (f x) p_infty (g x)) ->
  is_lim (fun k => sum_over l (fun x => f x k)) p_infty (sum_over l g).
Proof.
  unfold sum_over. induction l as [|x l IH]; intros f g H; cbn [map fold_right].
  - apply is_lim_const.
  - apply (is_lim_plus' _ _ p_infty (g x) (fold_right Rplus 0 (map g l))).
    + apply H. left. reflexivity.
    + apply IH. intros y Hy. apply H. right. exact Hy.
Qed.

(** ** The kernels, as functions of the inverse of the distance *)
Section Kernel.
Variable E : env.
Variables chi s m : R.
Hypothesis Hchi : 0 < chi.
Hypothesis Hs : 0 < s.
Hypothesis Hm : -1 <= m <= 1.
#[local] Notation T n l := (tab1 E (K n l false) result s).
#[local] Notation w := (s ^ 2 * (1 - m ^ 2) / 2).
#[local] Notation u1 t := (t / (chi - t * (s * m / 2))).
#[local] Notation u2 t := (t / (chi + t * (s * m / 2))).
#[local] Notation rho t := ((chi - t * (s * m / 2)) / (chi + t * (s * m / 2))).
#[local] Notation e t := (w * (t / (chi - t * (s * m / 2))) * (t / (chi + t * (s * m / 2)))).

Definition shape (j j' : field) (t : R) : R :=
  match j, j' with
  | Density, Density => T 0%Z 0%Z
  | Density, Redshift => T 0%Z 0%Z / 3 - (2 / 3 - w * (2 - e t) * rho t / s ^ 2) * T 0%Z 2%Z
  | Density, Velocity => (s * m + w * u2 t) * T 1%Z 1%Z
  | Redshift, Redshift =>
      (1 + 2 * (1 - e t) ^ 2) / 15 * T 0%Z 0%Z
      - (1 + 11 * (1 - e t) ^ 2 - 18 * (1 - e t) * w * (2 - e t) / s ^ 2) / 21 * T 0%Z 2%Z
      + (8 * s ^ 4 - 80 * s ^ 2 * w + 140 * w ^ 2
         + e t * (- 24 * s ^ 4 + 120 * s ^ 2 * w - 140 * w ^ 2)
         + e t ^ 2 * (12 * s ^ 4 - 40 * s ^ 2 * w + 35 * w ^ 2)) / 35 / s ^ 4 * T 0%Z 4%Z
  | Redshift, Velocity =>
      (3 * (s * m) - 4 * w * u1 t + 2 * e t * w * u1 t + 3 * w * u2 t) / 5 * T 1%Z 1%Z
      + (- 2 * (s * m) ^ 3 + s * m * (6 * w / rho t - 2 * w + 2 * w * rho t)
         - 3 * w ^ 2 * u1 t / rho t + 3 * w ^ 2 * u1 t - 2 * w ^ 2 * u2 t - e t * w ^ 2 * u1 t)
        / 5 / s ^ 2 * T 1%Z 3%Z
  | Velocity, Velocity =>
      (1 - e t) / 3 * T 2%Z 0%Z
      - ((s * m + w * u2 t) * (- (s * m) + w * u1 t) + s ^ 2 * (1 - e t) / 3) * T 2%Z 2%Z
  | _, _ => 0
  end.

Definition ordered (j j' : field) : bool :=
  match j, j' with
  | Density, (Density | Redshift | Velocity) | Redshift, (Redshift | Velocity) | Velocity, Velocity => true
  | _, _ => false
  end.

Lemma base_shape : forall j j' k, ordered j j' = true -> s < k * chi ->
  let a := k * chi - s * m / 2 in let b := k * chi + s * m / 2 in
  base E j j' a b (cosine a b s) = shape j j' (/ k).
Proof.
  intros j j' k O Hk a b.
  assert (Kp : 0 < k) by (apply (Rmult_lt_reg_r chi); lra).
  assert (S1 : - s <= s * m <= s) by (split; nra).
  assert (A : 0 < a) by (unfold a; lra). assert (B : 0 < b) by (unfold b; lra).
  assert (Q : a ^ 2 + b ^ 2 - 2 * a * b * cosine a b s = s ^ 2) by (apply law_of_cosines; lra).
  assert (SQ : sqrt (s ^ 2) = s) by (rewrite <- Rsqr_pow2; apply sqrt_Rsqr; lra).
  assert (N1 : 2 * (k * chi) - s * m <> 0) by (unfold a in A; lra).
  assert (N2 : 2 * (k * chi) + s * m <> 0) by (unfold b in B; lra).
  destruct j; try discriminate O; destruct j'; try discriminate O; cbn [base shape]; rewrite Q; unfold table; rewrite SQ;
    unfold cosine, a, b; field; repeat split; try lra.
Qed.
End Kernel.

(** ** The correlation of two contributions *)
Section Pairs.
Variable E : env.
Variables z s m : R.
Hypothesis SM : smooth_at E z.
Hypothesis Hs : 0 < s.
Hypothesis Hm : -1 <= m <= 1.
#[local] Notation chi := (spl E bg_comoving_distance z).

Definition pair_shape (X Y : contrib) (t : R) : R :=
  if ordered (field_of X) (field_of Y)
  then shape E (spl E bg_comoving_distance z) s m (field_of X) (field_of Y) t
  else shape E (spl E bg_comoving_distance z) s (- m) (field_of Y) (field_of X) t.
Definition pair_value (X Y : contrib) (t : R) : R :=
  weight E First X (spl E bg_comoving_distance z - t * (s * m / 2)) 1
  * weight E Second Y (spl E bg_comoving_distance z + t * (s * m / 2)) 1 * pair_shape X Y t.

Lemma weight_stretched : forall g X k d, plain X = true ->
  weight (stretched E k) g X d 1 = weight E g X (d / k) 1.
Proof. intros g X k d P. destruct X; try discriminate P; destruct g; reflexivity. Qed.

Lemma cosine_swap : forall a b, cosine a b s = cosine b a s.
Proof.
  intros. unfold cosine. replace (2 * a * b) with (2 * b * a) by ring.
  replace (a ^ 2 + b ^ 2) with (b ^ 2 + a ^ 2) by ring. reflexivity.
Qed.

Lemma pair_stretched : forall X Y k, plain X = true -> plain Y = true -> s < k * chi ->
  correlation (stretched E k) X Y (near (stretched E k) z m s) 1 (far (stretched E k) z m s) 1
    (cosine (near (stretched E k) z m s) (far (stretched E k) z m s) s)
  = pair_value X Y (/ k).
Proof.
  intros X Y k PX PY Hk. pose proof (sm_pos _ _ SM) as Cp.
  assert (Kp : 0 < k) by (apply (Rmult_lt_reg_r chi); lra).
  unfold correlation, pair_value. rewrite !weight_stretched by assumption.
  change (near (stretched E k) z m s) with (k * chi - s * m / 2).
  change (far (stretched E k) z m s) with (k * chi + s * m / 2).
  replace ((k * chi - s * m / 2) / k) with (chi - / k * (s * m / 2)) by (field; lra).
  replace ((k * chi + s * m / 2) / k) with (chi + / k * (s * m / 2)) by (field; lra).
  f_equal.
  assert (PL : forall d, place X d 1 = d /\ place Y d 1 = d)
    by (intros; destruct X; try discriminate PX; destruct Y; try discriminate PY; split; reflexivity).
  rewrite (proj1 (PL _)), (proj2 (PL _)). unfold pair_shape, kernel.
  destruct (ordered (field_of X) (field_of Y)) eqn:O.
  - replace (Nat.leb (rank (field_of X)) (rank (field_of Y))) with true
      by (destruct X; try discriminate PX; destruct Y; try discriminate PY; try discriminate O; reflexivity).
    exact (base_shape E chi s m Cp Hs Hm _ _ k O Hk).
  - assert (O2 : ordered (field_of Y) (field_of X) = true)
      by (destruct X; try discriminate PX; destruct Y; try discriminate PY; try discriminate O; reflexivity).
    replace (Nat.leb (rank (field_of X)) (rank (field_of Y))) with false
      by (destruct X; try discriminate PX; destruct Y; try discriminate PY; try discriminate O; reflexivity).
    rewrite cosine_swap.
    pose proof (base_shape E chi s (- m) Cp Hs ltac:(lra) _ _ k O2 Hk) as BS. cbv zeta in BS.
    replace (k * chi - s * - m / 2) with (k * chi + s * m / 2) in BS by field.
    replace (k * chi + s * - m / 2) with (k * chi - s * m / 2) in BS by field.
    exact BS.
Qed.

Lemma shape_continuous : forall v j j', continuous (shape E (spl E bg_comoving_distance z) s v j j') 0.
Proof.
  intros v j j'. pose proof (sm_pos _ _ SM) as Cp.
  apply (ex_derive_continuous (K := R_AbsRing) (V := R_NormedModule) (shape E (spl E bg_comoving_distance z) s v j j') 0).
  cut (ex_derive (fun t : R => shape E (spl E bg_comoving_distance z) s v j j' t) 0); [intros D; exact D|].
  destruct j, j'; cbn [shape]; auto_derive;
  rewrite ?Rmult_0_l, ?Rminus_0_r, ?Rplus_0_r; repeat split; try lra;
  try (apply Rmult_integral_contrapositive_currified; [lra|]; apply Rinv_neq_0_compat; lra).
Qed.

Lemma along_continuous : forall f p, In f [bg_D1; bg_f; bg_conformal_Hz; bg_G1; bg_G2; par_galaxy_bias1; par_galaxy_bias2] ->
  continuous (fun t => spl E f (spl E bg_z_as_chi (spl E bg_comoving_distance z + t * p))) 0.
Proof.
  intros f p Hf.
  apply (continuous_comp (fun t => spl E bg_z_as_chi (spl E bg_comoving_distance z + t * p)) (spl E f)).
  - apply (continuous_comp (fun t : R => spl E bg_comoving_distance z + t * p) (spl E bg_z_as_chi)).
    + apply (ex_derive_continuous (K := R_AbsRing) (V := R_NormedModule) (fun t : R => spl E bg_comoving_distance z + t * p)). auto_derive. exact Logic.I.
    + rewrite Rmult_0_l, Rplus_0_r. apply (sm_redshift _ _ SM).
  - rewrite Rmult_0_l, Rplus_0_r, (sm_inverse _ _ SM). apply (sm_functions _ _ SM). exact Hf.
Qed.

Lemma weight_continuous : forall g X p, plain X = true ->
  continuous (fun t => weight E g X (spl E bg_comoving_distance z + t * p) 1) 0.
Proof.
  intros g X p P.
  destruct X; try discriminate P; unfold weight, redshift, bias, growth, rate, hubble, doppler.
  all: repeat match goal with |- continuous (fun t => _ * _) _ => apply (continuous_mult (K := R_AbsRing)) end.
  all: apply along_continuous; destruct g; cbn; tauto.
Qed.

Lemma pair_continuous : forall X Y, plain X = true -> plain Y = true -> continuous (pair_value X Y) 0.
Proof.
  intros X Y PX PY. unfold pair_value.
  apply (continuous_mult (K := R_AbsRing)); [apply (continuous_mult (K := R_AbsRing))|].
  - apply (continuous_ext (fun t => weight E First X (spl E bg_comoving_distance z + t * (- (s * m / 2))) 1)).
    + intros t. f_equal. ring.
    + apply weight_continuous. exact PX.
  - apply weight_continuous. exact PY.
  - unfold pair_shape. destruct (ordered (field_of X) (field_of Y)); apply shape_continuous.
Qed.

Lemma pair_flat : forall X Y, plain X = true -> plain Y = true -> sw E pk_nonlinear = false ->
  pair_value X Y 0 = series (coefficients (flattened E) z s X Y) m.
Proof.
  intros X Y PX PY L. pose proof (sm_pos _ _ SM) as Cp. unfold pair_value, pair_shape.
  destruct X; try discriminate PX; destruct Y; try discriminate PY;
    unfold weight, redshift; cbn [field_of ordered shape coefficients];
    unfold series; cbn [series_from]; rewrite ?legendre_0, ?legendre_1, ?legendre_2, ?legendre_3, ?legendre_4;
    unfold flat_table; cbn [flattened sw tab1]; rewrite L; cbn [andb];
    rewrite ?Rmult_0_l, ?Rminus_0_r, ?Rplus_0_r, ?(sm_inverse _ _ SM);
    unfold bias, rate, growth, hubble, doppler; cbn [flattened spl tab1 Z.of_nat Pos.of_succ_nat Pos.succ];
    field; lra.
Qed.
End Pairs.

(** ** The theorem *)

(** Partial: the linear spectrum. *)
Theorem C72_limit_partial : forall E ells z s m,
  built E ells -> full_sky_linear E -> smooth_at E z -> 0 < s -> -1 <= m <= 1 ->
  (forall X, con E X = true -> X = den \/ X = rsd \/ X = d1) ->
  is_lim (fun k => xi (stretched E k) z s m) p_infty (xi (flattened E) z s m).
Proof.
  intros E ells z s m B F SM Hs Hm O.
  assert (PL : forall X, con E X = true -> plain X = true) by (intros X HX; destruct (O X HX) as [->|[->| ->]]; reflexivity).
  assert (FL : flat_local (flattened E)) by (constructor; [reflexivity|exact (fl_deriv _ F)|exact PL]).
  assert (BF : built (flattened E) ells) by (destruct B; constructor; assumption).
  rewrite (flat_xi (flattened E) ells BF FL). unfold flat_series.
  rewrite <- (flat_series_sum (flattened E) z s).
  change (enabled_pairs (con (flattened E)) (sw (flattened E) only_cross) 0)
    with (enabled_pairs (con E) (sw E only_cross) 0).
  apply (is_lim_ext_loc (fun k => sum_over (enabled_pairs (con E) (sw E only_cross) 0)
    (fun p => correlation (stretched E k) (fst p) (snd p) (near (stretched E k) z m s) 1 (far (stretched E k) z m s) 1
       (cosine (near (stretched E k) z m s) (far (stretched E k) z m s) s)))).
  - exists (s / spl E bg_comoving_distance z). intros k Hk.
    pose proof (sm_pos _ _ SM) as Cp.
    assert (Hk' : s < k * spl E bg_comoving_distance z).
    { apply (Rmult_lt_compat_r (spl E bg_comoving_distance z)) in Hk; [|exact Cp].
      unfold Rdiv in Hk. rewrite Rmult_assoc, Rinv_l, Rmult_1_r in Hk by lra. exact Hk. }
    assert (BS : built (stretched E k) ells) by (destruct B; constructor; assumption).
    assert (IV : in_view (stretched E k) z m s).
    { constructor.
      - destruct F. constructor; assumption.
      - cbn [stretched spl]. lra.
      - exact Hm.
      - intros _ HL. destruct (O len HL) as [C|[C|C]]; discriminate C.
      - intros X Y HX HY. destruct (O X HX) as [->|[->| ->]], (O Y HY) as [->|[->| ->]]; reflexivity. }
    pose proof (C22_local_partial (stretched E k) ells z m s BS IV) as W.
    change (enabled_pairs (con (stretched E k)) (sw (stretched E k) only_cross) 0)
      with (enabled_pairs (con E) (sw E only_cross) 0) in W. rewrite <- W.
    rewrite xi_parts. unfold local_part, single_part, double_part.
    replace (single_on (stretched E k)) with false by (symmetry; apply (flat_no_single (flattened E) FL)).
    replace (integrated_on (stretched E k)) with false by (symmetry; apply (flat_no_double (flattened E) FL)).
    rewrite !Rplus_0_r. destruct (local_on (stretched E k)) eqn:L; [reflexivity|].
    rewrite (ni_complete (stretched E k) ells BS), <- (with_set_same (complete (stretched E k))).
    apply (ni_off (complete (stretched E k))); [reflexivity|]. rewrite (with_set_same (complete (stretched E k))). exact L.
  - apply (lim_sum (contrib * contrib) _ (fun p k => correlation (stretched E k) (fst p) (snd p) (near (stretched E k) z m s) 1
       (far (stretched E k) z m s) 1 (cosine (near (stretched E k) z m s) (far (stretched E k) z m s) s))).
    intros [X Y] HI. destruct (flat_pairs_plain (flattened E) FL (X, Y) HI) as (PX & PY & _). cbn [fst snd] in *.
    rewrite <- (pair_flat E z s m SM Hs X Y PX PY (fl_lin _ F)).
    apply (lim_inverse _ (pair_value E z s m X Y) (s / spl E bg_comoving_distance z)).
    + intros k Hk. apply pair_stretched; try assumption.
      pose proof (sm_pos _ _ SM) as Cp.
      apply (Rmult_lt_compat_r (spl E bg_comoving_distance z)) in Hk; [|exact Cp].
      unfold Rdiv in Hk. rewrite Rmult_assoc, Rinv_l, Rmult_1_r in Hk by lra. exact Hk.
    + apply pair_continuous; assumption.
Qed.
Print Assumptions C72_limit_partial.

(** The conditions are met with all three contributions. *)
Definition three : contrib -> bool := fun c => match c with den | rsd | d1 => true | _ => false end.
Definition round : env :=
  mkEnv (con plane) (sw universe) (spl plane) (tab1 plane) (tab2 plane) (present plane)
        (par_h plane) (omega_cdm plane) (omega_baryon plane).
Example C72_met : exists E, built E [0; 2]%Z /\ full_sky_linear E /\ smooth_at E 1 /\ con E = three /\
  (forall X, con E X = true -> X = den \/ X = rsd \/ X = d1).
Proof.
  exists (configured round [0; 2]%Z three false).
  split; [apply configured_built|].
  split; [constructor; try reflexivity; [repeat split|intros ? ? ?; reflexivity]|].
  split; [|split; [reflexivity|intros []; try discriminate; auto]].
  constructor.
  - cbn. lra.
  - cbn. lra.
  - change (continuous (fun x : R => x / 10) (10 * 1)).
    apply (ex_derive_continuous (K := R_AbsRing) (V := R_NormedModule) (fun x : R => x / 10)). auto_derive. exact Logic.I.
  - intros f Hf. cbn [In] in Hf.
    repeat (destruct Hf as [<-|Hf]; [cbn [configured round plane spl]; apply (continuous_const (U := R_UniformSpace) (V := R_UniformSpace))|]).
    contradiction.
Qed.
