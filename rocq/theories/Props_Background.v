(** * C45: the background quantities satisfy their defining identities *)
From Coquelicot Require Import Coquelicot.
From Coq Require Import Reals List Lra Lia Psatz.
From Verif Require Import Numeric Background.
Import ListNotations.
Open Scope R_scope.

(** ** Interpolation *)

Lemma segment_left : forall p q, segment p q (fst p) = snd p.
Proof. intros p q. unfold segment. unfold Rdiv. ring. Qed.

Lemma segment_right : forall p q, fst p < fst q -> segment p q (fst q) = snd q.
Proof. intros p q H. unfold segment. field. lra. Qed.

Lemma segment_pos : forall p q x, fst p <= x <= fst q -> fst p < fst q ->
  0 < snd p -> 0 < snd q -> 0 < segment p q x.
Proof.
  intros p q x H L P Q. unfold segment.
  set (t := (x - fst p) / (fst q - fst p)).
  assert (T : 0 <= t <= 1).
  { unfold t. split.
    - apply Rmult_le_pos; [lra|apply Rlt_le, Rinv_0_lt_compat; lra].
    - apply (Rmult_le_reg_r (fst q - fst p)); [lra|].
      unfold Rdiv. rewrite Rmult_assoc, Rinv_l by lra. lra. }
  nra.
Qed.

Lemma linear_first : forall p q rest, increasing (map fst (p :: q :: rest)) ->
  linear (p :: q :: rest) (fst p) = snd p.
Proof.
  intros p q rest H. destruct H as [H _]. simpl.
  destruct rest; [apply segment_left|].
  destruct (Rlt_dec (fst p) (fst q)); [apply segment_left|contradiction].
Qed.

(** Values of the interpolation are positive when the table is. *)
Lemma linear_pos : forall tab x, (2 <= length tab)%nat ->
  increasing (map fst tab) -> Forall (fun p => 0 < snd p) tab ->
  fst (hd (0, 0) tab) <= x <= fst (last tab (0, 0)) -> 0 < linear tab x.
Proof.
  induction tab as [|p [|q rest] IH]; intros x L I F B; simpl in L; try lia.
  inversion F as [|? ? P F']; subst. inversion F' as [|? ? Q F'']; subst.
  destruct I as [I1 I2].
  destruct rest as [|r rest].
  - simpl in *. apply segment_pos; assumption.
  - change (0 < (if Rlt_dec x (fst q) then segment p q x else linear (q :: r :: rest) x)).
    destruct (Rlt_dec x (fst q)) as [A|A].
    + apply segment_pos; try assumption. destruct B as [B _]. simpl in B. split; lra.
    + apply IH; try assumption; [simpl; lia|].
      simpl hd. split; [lra|]. apply B.
Qed.

Lemma glue_continuous : forall (g h : R -> R) p,
  (forall x, continuous g x) -> (forall x, continuous h x) -> g p = h p ->
  forall x, continuous (fun x => if Rlt_dec x p then g x else h x) x.
Proof.
  intros g h p G H E x.
  apply (continuous_ext (fun x => g ((x + p - Rabs (x - p)) / 2) + h ((x + p + Rabs (x - p)) / 2) - g p)).
  - intros y.
    assert (K : g ((y + p - Rabs (y - p)) / 2) + h ((y + p + Rabs (y - p)) / 2) - g p
                = if Rlt_dec y p then g y else h y :> R); [|exact K].
    destruct (Rlt_dec y p) as [L|L].
    + rewrite Rabs_left by lra.
      assert (A1 : (y + p - - (y - p)) / 2 = y :> R) by field.
      assert (A2 : (y + p + - (y - p)) / 2 = p :> R) by field.
      rewrite A1, A2, E. ring.
    + rewrite Rabs_pos_eq by lra.
      assert (A1 : (y + p - (y - p)) / 2 = p :> R) by field.
      assert (A2 : (y + p + (y - p)) / 2 = y :> R) by field.
      rewrite A1, A2. ring.
  - assert (A : forall x, continuous (fun x => Rabs (x - p)) x).
    { intros y. apply (continuous_comp (fun x => x - p) Rabs).
      - apply (ex_derive_continuous (V := R_NormedModule)). auto_derive. exact I.
      - apply continuous_Rabs. }
    assert (L : forall x, continuous (fun x : R => x + p) x).
    { intros y. apply (ex_derive_continuous (V := R_NormedModule)). auto_derive. exact I. }
    assert (D : forall u : R -> R, (forall x, continuous u x) -> forall x, continuous (fun x => u x / 2) x).
    { intros u U y. apply (continuous_comp u (fun v => v / 2)); [apply U|].
      apply (ex_derive_continuous (V := R_NormedModule)). auto_derive. exact I. }
    apply (continuous_minus (V := R_NormedModule)); [|apply continuous_const].
    apply (continuous_plus (V := R_NormedModule)).
    + apply (continuous_comp (fun x => (x + p - Rabs (x - p)) / 2) g); [|apply G].
      apply (D (fun x => x + p - Rabs (x - p))). intros y.
      apply (continuous_minus (V := R_NormedModule)); [apply L|apply A].
    + apply (continuous_comp (fun x => (x + p + Rabs (x - p)) / 2) h); [|apply H].
      apply (D (fun x => x + p + Rabs (x - p))). intros y.
      apply (continuous_plus (V := R_NormedModule)); [apply L|apply A].
Qed.

Lemma segment_continuous : forall p q x, continuous (segment p q) x.
Proof.
  intros p q x. unfold segment. unfold Rdiv.
  apply (ex_derive_continuous (V := R_NormedModule)). auto_derive. exact I.
Qed.

Lemma linear_continuous : forall tab, increasing (map fst tab) ->
  forall x, continuous (linear tab) x.
Proof.
  induction tab as [|p [|q rest] IH]; intros I x.
  - apply continuous_const.
  - apply continuous_const.
  - destruct I as [I1 I2]. destruct rest as [|r rest].
    + apply segment_continuous.
    + change (linear (p :: q :: r :: rest))
        with (fun x => if Rlt_dec x (fst q) then segment p q x else linear (q :: r :: rest) x).
      apply glue_continuous.
      * apply segment_continuous.
      * apply IH. exact I2.
      * rewrite linear_first by exact I2. apply segment_right. exact I1.
Qed.

(** ** The auxiliary tables *)

Lemma increasing_seq : forall (f : nat -> R) n k,
  (forall i, f i < f (S i)) -> increasing (map f (seq k n)).
Proof.
  intros f n. induction n as [|[|n] IH]; intros k H; [exact I|exact I|].
  specialize (IH (S k) H). split; [apply H|exact IH].
Qed.

Lemma aux_bins_pos : 0 < INR aux_bins.
Proof.
  apply lt_0_INR. unfold aux_bins.
  assert (2 ^ 14 <> 0)%nat by (apply Nat.pow_nonzero; lia). lia.
Qed.

Lemma table_fst : forall f, map fst (table f) = map aux_z (seq 0 (S aux_bins)).
Proof. intros f. unfold table. rewrite map_map. reflexivity. Qed.

Lemma table_increasing : forall f, increasing (map fst (table f)).
Proof.
  intros f. rewrite table_fst. apply increasing_seq. intros i. unfold aux_z.
  pose proof aux_bins_pos. rewrite S_INR. unfold Rdiv.
  apply Rmult_lt_compat_r; [apply Rinv_0_lt_compat; assumption|lra].
Qed.

Lemma aux_z_0 : aux_z 0 = 0.
Proof. unfold aux_z, Rdiv. change (INR 0) with 0. ring. Qed.

Lemma aux_z_last : aux_z aux_bins = 100.
Proof. unfold aux_z. field. pose proof aux_bins_pos. lra. Qed.

Lemma table_shape : forall f, exists q rest, table f = (0, f 0) :: q :: rest.
Proof.
  intros f. unfold table.
  assert (B : exists m, aux_bins = S m).
  { exists (aux_bins - 1)%nat. pose proof aux_bins_pos as H. change 0 with (INR 0) in H.
    apply INR_lt in H. lia. }
  destruct B as [m ->]. cbn [seq map].
  rewrite aux_z_0. eexists. eexists. reflexivity.
Qed.

Lemma linear_table_0 : forall f, linear (table f) 0 = f 0.
Proof.
  intros f. destruct (table_shape f) as [q [rest E]].
  pose proof (table_increasing f) as I. rewrite E in *.
  apply (linear_first (0, f 0) q rest). exact I.
Qed.

Lemma table_last : forall f, fst (last (table f) (0, 0)) = 100.
Proof.
  intros f. unfold table. rewrite seq_S, map_app. cbn [map].
  rewrite last_last. cbn [fst]. apply aux_z_last.
Qed.

Lemma linear_table_pos : forall f x, (forall y, 0 < f y) -> 0 <= x <= 100 ->
  0 < linear (table f) x.
Proof.
  intros f x P B.
  destruct (table_shape f) as [q [rest E]].
  apply linear_pos.
  - rewrite E. simpl. lia.
  - apply table_increasing.
  - unfold table. apply Forall_map, Forall_forall. intros i _. apply P.
  - rewrite table_last. rewrite E. cbn [hd fst]. exact B.
Qed.

Lemma wint_continuous : forall X c x, continuous (wint_spline X c) x.
Proof. intros X c x. apply linear_continuous, table_increasing. Qed.

Lemma wint_pos : forall X c x, 0 <= x <= 100 -> 0 < wint_spline X c x.
Proof. intros X c x H. apply linear_table_pos; [|exact H]. intros y. apply exp_pos. Qed.

(** ** The rows *)

Lemma row_z_range : forall bins i, (i < bins)%nat -> 0 <= row_z bins i <= 15.
Proof.
  intros bins i H. unfold row_z.
  destruct (Nat.eq_dec bins 1) as [->|N].
  - assert (i = 0)%nat by lia. subst. simpl. unfold Rdiv. lra.
  - assert (P : 0 < INR (bins - 1)) by (apply lt_0_INR; lia).
    assert (Q : INR i <= INR (bins - 1)) by (apply le_INR; lia).
    pose proof (pos_INR i). split.
    + apply Rmult_le_pos; [lra|apply Rlt_le, Rinv_0_lt_compat; exact P].
    + apply (Rmult_le_reg_r (INR (bins - 1))); [exact P|].
      unfold Rdiv. rewrite Rmult_assoc, Rinv_l by lra. lra.
Qed.

Lemma background_done : forall X c b bins m rows,
  background_init X c b bins m = Done rows ->
  (1 <= bins)%nat /\ (min_size m <= bins)%nat /\
  increasing (map b_chi rows) /\
  rows = map (normalise (b_D1 (brow_at X c b bins 0))) (map (brow_at X c b bins) (seq 0 bins)).
Proof.
  intros X c b bins m rows H. unfold background_init in H.
  destruct bins as [|n]; [discriminate H|].
  cbn [seq map] in H |- *.
  destruct (Nat.ltb (S n) (min_size m)) eqn:L; [discriminate H|].
  apply Nat.ltb_ge in L.
  match type of H with (if ?d then _ else _) = _ => destruct d as [I|I] end; [|discriminate H].
  injection H as H. subst rows.
  split; [lia|]. split; [exact L|]. split; [|reflexivity].
  replace (map b_chi _) with (b_chi (brow_at X c b (S n) 0) :: map b_chi (map (brow_at X c b (S n)) (seq 1 n)));
    [exact I|].
  simpl. f_equal. rewrite !map_map. reflexivity.
Qed.

Lemma min_size_ge2 : forall m, (2 <= min_size m)%nat.
Proof. intros m. do 8 (destruct m as [|m]; [simpl; lia|]). simpl. lia. Qed.

(** C45, first part.  Whenever the background is computed, for every
    cosmology, number of bins and quadrature: there is one row per bin, at the
    redshifts [15 i / (bins - 1)], and in each row the conformal Hubble rate is
    the Hubble rate times the scale factor [1 / (1 + z)]. *)
Theorem C45_rows : forall X c b bins m rows,
  background_init X c b bins m = Done rows ->
  length rows = bins /\
  forall i r, nth_error rows i = Some r ->
    b_z r = 15 * INR i / INR (bins - 1) /\ 0 <= b_z r <= 15 /\
    b_a r = 1 / (1 + b_z r) /\
    b_cH r = b_a r * b_H r.
Proof.
  intros X c b bins m rows H. apply background_done in H. destruct H as [B [_ [_ ->]]].
  split; [rewrite !map_length, seq_length; reflexivity|].
  intros i r E. rewrite !nth_error_map in E.
  destruct (nth_error (seq 0 bins) i) as [k|] eqn:K; [|discriminate E].
  assert (L : (i < bins)%nat).
  { rewrite <- (seq_length bins 0). apply nth_error_Some. rewrite K. discriminate. }
  rewrite (nth_error_nth' _ 0%nat) in K by (rewrite seq_length; exact L).
  rewrite seq_nth in K by exact L. injection K as K. subst k.
  injection E as E. subst r. unfold normalise, brow_at. cbn [b_z b_a b_cH b_H].
  split; [reflexivity|]. split; [apply row_z_range; exact L|]. split; reflexivity.
Qed.

(** C45, today.  The first row is redshift 0: the scale factor is 1, the growth
    factor is 1, the distance is 0, the conformal Hubble rate is the Hubble rate,
    and the Hubble rate is [h H0 sqrt(sum of the density parameters)], where H0 is 100 km/s/Mpc over
    the speed of light in m/s; so it is [h H0] when they add up to 1, i.e. when no density is in massive neutrinos.
    Hypotheses on GSL: an integral over an empty interval is 0, and the growth
    factor the integrator returns is not 0. *)
Theorem C45_today : forall X c b bins m rows,
  background_init X c b bins m = Done rows ->
  (forall f x, x_quad X f x x = 0) ->
  (forall rhs y t, fst (x_evolve X rhs (5 / 100) y t) <> 0) ->
  exists r, nth_error rows 0 = Some r /\
    b_z r = 0 /\ b_a r = 1 /\ b_D1 r = 1 /\ b_chi r = 0 /\ b_cH r = b_H r /\
    b_H r = hub c * (100 * 1000 / 299792458) * sqrt (om_cdm c + om_baryon c + om_gamma c + om_de c) /\
    (om_cdm c + om_baryon c + om_gamma c + om_de c = 1 -> b_H r = hub c * (100 * 1000 / 299792458)).
Proof.
  replace (100 * 1000 / 299792458) with H0 by (unfold H0; lra). intros X c b bins m rows H Q V. apply background_done in H. destruct H as [B [_ [_ ->]]].
  destruct bins as [|n]; [lia|]. cbn [seq map nth_error].
  eexists. split; [reflexivity|].
  assert (Z : row_z (S n) 0 = 0) by (unfold row_z; simpl INR; unfold Rdiv; ring).
  assert (W : wint_spline X c 0 = 1).
  { unfold wint_spline. rewrite linear_table_0. unfold wint_at. rewrite Q, Rmult_0_r. apply exp_0. }
  assert (HH : hubble_rate c (wint_spline X c 0) 0
               = hub c * H0 * sqrt (om_cdm c + om_baryon c + om_gamma c + om_de c)).
  { unfold hubble_rate. rewrite W. unfold e2.
    replace ((om_cdm c + om_baryon c) * (1 + 0) ^ 3 + om_gamma c * (1 + 0) ^ 4 + om_de c * 1)
      with (om_cdm c + om_baryon c + om_gamma c + om_de c) by ring. ring. }
  unfold normalise, brow_at. cbn [b_z b_a b_D1 b_chi b_cH b_H].
  rewrite Z, HH.
  split; [reflexivity|]. split; [field|]. split.
  - unfold Rdiv. apply Rinv_r. destruct (Rlt_dec _ _); [apply V|cbn [fst]; lra].
  - split; [rewrite Q; unfold Rdiv; ring|]. split; [field|]. split; [reflexivity|].
    intros E. rewrite E, sqrt_1. ring.
Qed.

(** ** The derivative of the conformal Hubble rate

    With conformal time [tau], [d tau = - dz / H]; the quantity the code stores
    is [d cH / d tau], i.e. [- H d cH / dz], when the dark energy factor [W]
    satisfies its equation [W' = 3 (1 + w) W / (1 + z)]. *)
Theorem C45_conformal_prime : forall c (w W : R -> R) z,
  -1 < z -> 0 < hub c -> 0 < e2 c (W z) z ->
  is_derive W z (3 * (1 + w z) / (1 + z) * W z) ->
  is_derive (fun y => 1 / (1 + y) * hubble_rate c (W y) y) z
    (- conformal_prime c (w z) (W z) z / hubble_rate c (W z) z).
Proof.
  intros c w W z Z Hh E D.
  assert (H0pos : 0 < H0) by (unfold H0; lra).
  assert (S : 0 < sqrt (e2 c (W z) z)) by (apply sqrt_lt_R0; exact E).
  unfold hubble_rate.
  evar_last.
  { apply (is_derive_mult (fun y => 1 / (1 + y)) (fun y => sqrt (e2 c (W y) y) * hub c * H0)).
    - auto_derive; [lra|reflexivity].
    - apply (is_derive_ext (fun y => scal (hub c * H0) (sqrt (e2 c (W y) y)))).
      + intros y. unfold scal. simpl. unfold mult. simpl. ring.
      + apply (is_derive_scal (fun y => sqrt (e2 c (W y) y)) z (hub c * H0)).
        apply (is_derive_comp sqrt (fun y => e2 c (W y) y)).
        * apply is_derive_Reals, derivable_pt_lim_sqrt. exact E.
        * unfold e2. auto_derive; [eexists; exact D|reflexivity].
    - intros n m. apply Rmult_comm. }
  change (Derive (fun x : R => W x) z) with (Derive W z).
  rewrite (is_derive_unique W z _ D).
  unfold plus, scal, mult. simpl. unfold mult. simpl.
  set (s := sqrt (e2 c (W z) z)) in *.
  assert (SS : s * s = e2 c (W z) z) by (apply sqrt_sqrt; lra).
  unfold conformal_prime.
  apply (Rmult_eq_reg_r (2 * s * (1 + z) ^ 2)).
  2:{ apply Rmult_integral_contrapositive_currified; [lra|]. apply pow_nonzero. lra. }
  transitivity (hub c * H0 * ((1 + z) *
     ((om_cdm c + om_baryon c) * (3 * (1 + z) ^ 2) + om_gamma c * (4 * (1 + z) ^ 3)
      + om_de c * (3 * (1 + w z) / (1 + z) * W z)) - 2 * (s * s))).
  - field. split; lra.
  - rewrite SS. unfold e2. field. repeat split; lra.
Qed.

(** ** The comoving distance *)

(** A quadrature that is exact on continuous integrands. *)
Definition exact (X : external) : Prop := forall f a b,
  (forall x, Rmin a b <= x <= Rmax a b -> continuous f x) -> x_quad X f a b = RInt f a b.

(** Densities are not negative and not all zero. *)
Definition physical (c : cosmo) : Prop :=
  0 <= om_cdm c /\ 0 <= om_baryon c /\ 0 <= om_gamma c /\ 0 <= om_de c /\
  0 < om_cdm c + om_baryon c + om_gamma c + om_de c /\ 0 < hub c.

Lemma e2_pos : forall c W z, physical c -> 0 < W -> 0 <= z -> 0 < e2 c W z.
Proof.
  intros c W z [A [B [C [D [E _]]]]] P Z. unfold e2.
  assert (P3 : 0 < (1 + z) ^ 3) by (apply pow_lt; lra).
  assert (P4 : 0 < (1 + z) ^ 4) by (apply pow_lt; lra).
  destruct (Rlt_dec 0 (om_de c)) as [F|F].
  - assert (0 < om_de c * W) by (apply Rmult_lt_0_compat; assumption).
    assert (0 <= (om_cdm c + om_baryon c) * (1 + z) ^ 3) by (apply Rmult_le_pos; lra).
    assert (0 <= om_gamma c * (1 + z) ^ 4) by (apply Rmult_le_pos; lra). lra.
  - assert (om_de c = 0) as -> by lra.
    destruct (Rlt_dec 0 (om_gamma c)) as [G|G].
    + assert (0 < om_gamma c * (1 + z) ^ 4) by (apply Rmult_lt_0_compat; assumption).
      assert (0 <= (om_cdm c + om_baryon c) * (1 + z) ^ 3) by (apply Rmult_le_pos; lra). lra.
    + assert (om_gamma c = 0) as -> by lra.
      assert (0 < (om_cdm c + om_baryon c) * (1 + z) ^ 3) by (apply Rmult_lt_0_compat; lra). lra.
Qed.

Lemma integrand_continuous : forall X c z, physical c -> 0 <= z <= 100 ->
  continuous (integrand_comoving c (wint_spline X c)) z.
Proof.
  intros X c z P Z. unfold integrand_comoving.
  pose proof (e2_pos c (wint_spline X c z) z P (wint_pos X c z Z) (proj1 Z)) as E.
  apply (continuous_comp (fun y => e2 c (wint_spline X c y) y) (fun v => 1 / sqrt v)).
  - unfold e2. apply (continuous_plus (V := R_NormedModule)).
    + apply (ex_derive_continuous (V := R_NormedModule)). auto_derive. exact I.
    + apply (continuous_scal_r (V := R_NormedModule) (om_de c)). apply wint_continuous.
  - apply (ex_derive_continuous (V := R_NormedModule)). auto_derive.
    pose proof (sqrt_lt_R0 _ E). split; [exact E|]. split; [lra|exact I].
Qed.

Lemma integrand_pos : forall X c z, physical c -> 0 <= z <= 100 ->
  0 < integrand_comoving c (wint_spline X c) z.
Proof.
  intros X c z P Z. unfold integrand_comoving.
  apply Rdiv_lt_0_compat; [lra|]. apply sqrt_lt_R0.
  apply e2_pos; [exact P|apply wint_pos; exact Z|lra].
Qed.

(** The distance's derivative is one over the Hubble rate. *)
Theorem C45_distance : forall X c z, exact X -> physical c -> 0 < z < 15 ->
  is_derive (fun y => x_quad X (integrand_comoving c (wint_spline X c)) 0 y / (hub c * H0)) z
    (/ hubble_rate c (wint_spline X c z) z).
Proof.
  intros X c z EX P Z.
  assert (H0pos : 0 < H0) by (unfold H0; lra).
  assert (Hh : 0 < hub c) by apply P.
  set (f := integrand_comoving c (wint_spline X c)).
  assert (C : forall y, 0 <= y <= 100 -> continuous f y).
  { intros y Y. apply integrand_continuous; assumption. }
  assert (D : is_derive (fun y => x_quad X f 0 y) z (f z)).
  { apply (is_derive_ext_loc (fun y => RInt f 0 y)).
    - assert (R1 : 0 < Rmin z (15 - z)) by (apply Rmin_glb_lt; lra).
      exists (mkposreal _ R1). intros y B. unfold ball in B. simpl in B.
      unfold AbsRing_ball, abs, minus, plus, opp in B. simpl in B.
      pose proof (Rmin_l z (15 - z)). pose proof (Rmin_r z (15 - z)).
      apply Rabs_lt_between in B.
      symmetry. apply EX. intros u U.
      rewrite Rmin_left, Rmax_right in U by lra. apply C. lra.
    - apply (is_derive_RInt (V := R_CompleteNormedModule) f (fun y => RInt f 0 y) 0 z).
      + assert (R1 : 0 < Rmin z (15 - z)) by (apply Rmin_glb_lt; lra).
        exists (mkposreal _ R1). intros y B. unfold ball in B. simpl in B.
        unfold AbsRing_ball, abs, minus, plus, opp in B. simpl in B.
        pose proof (Rmin_l z (15 - z)). pose proof (Rmin_r z (15 - z)).
        apply Rabs_lt_between in B.
        apply (RInt_correct (V := R_CompleteNormedModule)).
        apply (ex_RInt_continuous (V := R_CompleteNormedModule)).
        intros u U. rewrite Rmin_left, Rmax_right in U by lra. apply C. lra.
      + apply C. lra. }
  apply (is_derive_ext (fun y => scal (/ (hub c * H0)) (x_quad X f 0 y))).
  { intros y. unfold scal. simpl. unfold mult. simpl. unfold Rdiv. apply Rmult_comm. }
  evar_last.
  { apply (is_derive_scal (fun y => x_quad X f 0 y) z (/ (hub c * H0))). exact D. }
  unfold f, integrand_comoving, hubble_rate.
  assert (S : 0 < sqrt (e2 c (wint_spline X c z) z)).
  { apply sqrt_lt_R0. apply e2_pos; [exact P|apply wint_pos; lra|lra]. }
  unfold scal. simpl. unfold mult. simpl. field. repeat split; lra.
Qed.

Lemma chi_step : forall X c u v, exact X -> physical c -> 0 <= u < v -> v <= 15 ->
  x_quad X (integrand_comoving c (wint_spline X c)) 0 u
  < x_quad X (integrand_comoving c (wint_spline X c)) 0 v.
Proof.
  intros X c u v EX P U V.
  set (f := integrand_comoving c (wint_spline X c)).
  assert (C : forall y, 0 <= y <= 100 -> continuous f y).
  { intros y Y. apply integrand_continuous; assumption. }
  assert (G : forall s t, 0 <= s -> s <= t -> t <= 15 -> ex_RInt f s t).
  { intros s t S1 S2 S3. apply (ex_RInt_continuous (V := R_CompleteNormedModule)).
    intros y Y. rewrite Rmin_left, Rmax_right in Y by lra. apply C. lra. }
  rewrite !EX.
  - rewrite <- (RInt_Chasles f 0 u v) by (apply G; lra).
    assert (0 < RInt f u v).
    { apply RInt_gt_0; [lra| |].
      - intros y Y. apply integrand_pos; [exact P|lra].
      - intros y Y. apply C. lra. }
    unfold plus. simpl. lra.
  - intros y Y. rewrite Rmin_left, Rmax_right in Y by lra. apply C. lra.
  - intros y Y. rewrite Rmin_left, Rmax_right in Y by lra. apply C. lra.
Qed.

(** The inverse of the distance is well defined: with an exact quadrature the
    initialisation succeeds for every physical cosmology and every number of bins
    the interpolation method accepts. *)
Theorem C45_inverse_defined : forall X c b bins m,
  exact X -> physical c -> (min_size m <= bins)%nat ->
  exists rows, background_init X c b bins m = Done rows /\ increasing (map b_chi rows).
Proof.
  intros X c b bins m EX P L.
  pose proof (min_size_ge2 m) as L2.
  assert (H0pos : 0 < hub c * H0).
  { apply Rmult_lt_0_compat; [apply P|]. unfold H0. lra. }
  assert (IC : increasing (map b_chi (map (brow_at X c b bins) (seq 0 bins)))).
  { rewrite map_map.
    assert (G : forall n k, (k + n <= bins)%nat ->
              increasing (map (fun i => b_chi (brow_at X c b bins i)) (seq k n))).
    { induction n as [|[|n] IH]; intros k K; [exact I|exact I|].
      split; [|apply (IH (S k)); lia].
      unfold brow_at. cbn [b_chi]. unfold Rdiv. apply Rmult_lt_compat_r.
      - apply Rinv_0_lt_compat. exact H0pos.
      - apply chi_step; try assumption.
        + split; [apply row_z_range; lia|]. unfold row_z.
          assert (0 < INR (bins - 1)) by (apply lt_0_INR; lia).
          unfold Rdiv. apply Rmult_lt_compat_r; [apply Rinv_0_lt_compat; assumption|].
          rewrite (S_INR k). lra.
        + apply row_z_range. lia. }
    apply G. lia. }
  unfold background_init.
  destruct bins as [|n]; [lia|]. cbn [seq map] in IC |- *.
  assert (Nat.ltb (S n) (min_size m) = false) as -> by (apply Nat.ltb_ge; exact L).
  destruct (increasing_dec _) as [J|J].
  - eexists. split; [reflexivity|].
    cbn [map]. rewrite map_map. cbn [map] in IC. rewrite map_map in IC |- *.
    exact IC.
  - exfalso. exact (J IC).
Qed.

(** Fewer bins are accepted by the interface (any number from 0 on) but not by
    the interpolation: with the default method, four bins or less. *)
Theorem C45_defined_refuted : forall X c b bins, (bins < 5)%nat ->
  background_init X c b bins 5 = Undefined.
Proof.
  intros X c b bins H. unfold background_init.
  destruct bins as [|n]; [reflexivity|]. cbn [seq map].
  assert (Nat.ltb (S n) (min_size 5) = true) as -> by (apply Nat.ltb_lt; exact H).
  reflexivity.
Qed.

(** ** Dark energy

    For the equation of state [w0 + wa z / (1 + z)] the two tabulated integrals
    have a closed form, and the factor satisfies the equation assumed above. *)
Definition de_factor (c : cosmo) (z : R) : R :=
  exp (3 * ((1 + w0 c + wa c) * ln (1 + z) - wa c * z / (1 + z))).

Lemma integrand_w_RInt : forall c z, 0 <= z ->
  is_RInt (integrand_w (eos c)) 0 z ((1 + w0 c + wa c) * ln (1 + z) - wa c * z / (1 + z)).
Proof.
  intros c z Z.
  set (F := fun y => (1 + w0 c + wa c) * ln (1 + y) - wa c * y / (1 + y)).
  replace ((1 + w0 c + wa c) * ln (1 + z) - wa c * z / (1 + z)) with (minus (F z) (F 0)).
  2:{ unfold minus, plus, opp. simpl. unfold F. rewrite Rplus_0_r, ln_1. field. lra. }
  apply (is_RInt_derive F (integrand_w (eos c))).
  - intros y Y. rewrite Rmin_left, Rmax_right in Y by lra.
    unfold F, integrand_w, eos. auto_derive; [repeat split; lra|]. field. lra.
  - intros y Y. rewrite Rmin_left, Rmax_right in Y by lra.
    unfold integrand_w, eos. apply (ex_derive_continuous (V := R_NormedModule)).
    auto_derive. repeat split; lra.
Qed.

Lemma integrand_x_RInt : forall c z, 0 <= z ->
  is_RInt (integrand_x (eos c)) (1 / (1 + z)) 1
    ((w0 c + wa c) * ln (1 + z) - wa c * z / (1 + z)).
Proof.
  intros c z Z.
  assert (A : 0 < 1 / (1 + z) <= 1).
  { split; [apply Rdiv_lt_0_compat; lra|]. apply (Rmult_le_reg_r (1 + z)); [lra|].
    unfold Rdiv. rewrite Rmult_assoc, Rinv_l; lra. }
  set (F := fun a => (w0 c + wa c) * ln a - wa c * a).
  replace ((w0 c + wa c) * ln (1 + z) - wa c * z / (1 + z)) with (minus (F 1) (F (1 / (1 + z)))).
  2:{ unfold minus, plus, opp. simpl. unfold F. rewrite ln_1.
      replace (1 / (1 + z)) with (/ (1 + z)) by (field; lra).
      rewrite ln_Rinv by lra. field. lra. }
  apply (is_RInt_derive F (integrand_x (eos c))).
  - intros y Y. rewrite Rmin_left, Rmax_right in Y by lra.
    unfold F, integrand_x, eos. auto_derive; [lra|]. field. lra.
  - intros y Y. rewrite Rmin_left, Rmax_right in Y by lra.
    unfold integrand_x, eos. apply (ex_derive_continuous (V := R_NormedModule)).
    auto_derive. repeat split; try lra.
    replace (1 + (1 / y + - (1))) with (1 / y) by ring.
    assert (0 < 1 / y) by (apply Rdiv_lt_0_compat; lra). lra.
Qed.

Lemma de_factor_pos : forall c z, 0 < de_factor c z.
Proof. intros. apply exp_pos. Qed.

Lemma de_factor_derive : forall c z, -1 < z ->
  is_derive (de_factor c) z (3 * (1 + eos c z) / (1 + z) * de_factor c z).
Proof.
  intros c z Z. unfold de_factor, eos. auto_derive; [repeat split; lra|].
  unfold Rdiv. set (e := exp _). field. lra.
Qed.

Theorem C45_dark_energy : forall X c z, exact X -> 0 <= z ->
  wint_at X (eos c) z = de_factor c z /\
  is_derive (de_factor c) z (3 * (1 + eos c z) / (1 + z) * de_factor c z) /\
  xint_at X c (eos c) z
  = (om_cdm c + om_baryon c) / (1 - (om_cdm c + om_baryon c)) * ((1 + z) ^ 3 / de_factor c z).
Proof.
  intros X c z EX Z. split; [|split].
  - unfold wint_at, de_factor. do 2 f_equal. rewrite EX.
    + apply is_RInt_unique, integrand_w_RInt. exact Z.
    + intros y Y. rewrite Rmin_left, Rmax_right in Y by lra.
      unfold integrand_w, eos. apply (ex_derive_continuous (V := R_NormedModule)).
      auto_derive. repeat split; lra.
  - apply de_factor_derive. lra.
  - unfold xint_at. f_equal.
    assert (K : exp (- 3 * ((w0 c + wa c) * ln (1 + z) - wa c * z / (1 + z)))
                = (1 + z) ^ 3 / de_factor c z).
    { unfold de_factor. unfold Rdiv at 2. rewrite <- exp_Ropp.
      replace ((1 + z) ^ 3) with (exp (3 * ln (1 + z))).
      - rewrite <- exp_plus. f_equal. field. lra.
      - rewrite <- Rpower_pow by lra. unfold Rpower. f_equal. simpl. lra. }
    destruct (Req_EM_T z 0) as [->|N].
    + rewrite <- K. rewrite Rplus_0_r, ln_1.
      replace (- 3 * ((w0 c + wa c) * 0 - wa c * 0 / 1)) with 0 by field. symmetry. apply exp_0.
    + rewrite <- K. do 2 f_equal. rewrite EX.
      * apply is_RInt_unique, integrand_x_RInt. exact Z.
      * assert (A : 0 < 1 / (1 + z) <= 1).
        { split; [apply Rdiv_lt_0_compat; lra|]. apply (Rmult_le_reg_r (1 + z)); [lra|].
          unfold Rdiv. rewrite Rmult_assoc, Rinv_l; lra. }
        intros y Y. rewrite Rmin_left, Rmax_right in Y by lra.
        unfold integrand_x, eos. apply (ex_derive_continuous (V := R_NormedModule)).
        auto_derive. repeat split; try lra.
        replace (1 + (1 / y + - (1))) with (1 / y) by ring.
        assert (0 < 1 / y) by (apply Rdiv_lt_0_compat; lra). lra.
Qed.

(** ** Growth of structure

    The equation the code integrates is
    [D'' + (3/a + dlnE/da) D' = 3/2 Om D / (a^5 E^2)] for a flat universe of
    matter and dark energy, [E^2 = Om/a^3 + (1 - Om) W]: radiation is left out of
    it, although it enters the Hubble rate. *)
Definition e2_growth (c : cosmo) (a : R) : R :=
  (om_cdm c + om_baryon c) / a ^ 3
  + (1 - (om_cdm c + om_baryon c)) * de_factor c (1 / a - 1).

Theorem C45_growth_equation : forall X c a D D' dlnE,
  exact X -> 0 < a <= 1 -> 0 < om_cdm c + om_baryon c < 1 ->
  is_derive (fun b => ln (sqrt (e2_growth c b))) a dlnE ->
  growth_ode (eos c) (xint_at X c (eos c)) a (D, D')
  = (D', - (3 / a + dlnE) * D'
         + 3 / 2 * (om_cdm c + om_baryon c) * D / (a ^ 5 * e2_growth c a)).
Proof.
  intros X c a D D' dlnE EX A OM HD.
  set (Om := om_cdm c + om_baryon c) in *.
  assert (Z : 0 <= 1 / a - 1).
  { assert (1 <= 1 / a); [|lra]. apply (Rmult_le_reg_r a); [lra|].
    unfold Rdiv. rewrite Rmult_assoc, Rinv_l by lra. lra. }
  destruct (C45_dark_energy X c (1 / a - 1) EX Z) as [_ [DW XI]]. fold Om in XI.
  set (W := de_factor c (1 / a - 1)) in *.
  assert (WP : 0 < W) by apply de_factor_pos.
  assert (A3 : 0 < a ^ 3) by (apply pow_lt; lra).
  assert (EP : 0 < e2_growth c a).
  { unfold e2_growth. fold Om. fold W.
    assert (0 < Om / a ^ 3) by (apply Rdiv_lt_0_compat; lra).
    assert (0 < (1 - Om) * W) by (apply Rmult_lt_0_compat; lra). lra. }
  assert (DE : is_derive (e2_growth c) a
            (- 3 * Om / a ^ 4 - (1 - Om) * (3 * (1 + eos c (1 / a - 1)) * W) / a)).
  { unfold e2_growth. fold Om.
    apply (is_derive_ext (fun b => plus (Om / b ^ 3) (scal (1 - Om) (de_factor c (1 / b - 1))))).
    { intros t. reflexivity. }
    evar_last.
    { apply (is_derive_plus (V := R_NormedModule)).
      - auto_derive; [repeat apply Rmult_integral_contrapositive_currified; lra|reflexivity].
      - apply (is_derive_scal (fun b => de_factor c (1 / b - 1))).
        apply (is_derive_comp (de_factor c) (fun b => 1 / b - 1)).
        + exact DW.
        + auto_derive; [lra|reflexivity]. }
    unfold plus, scal. simpl. unfold mult. simpl. fold W. field. lra. }
  assert (DL : dlnE = (- 3 * Om / a ^ 4 - (1 - Om) * (3 * (1 + eos c (1 / a - 1)) * W) / a)
                       / (2 * e2_growth c a)).
  { rewrite <- (is_derive_unique _ _ _ HD). apply is_derive_unique.
    evar_last.
    { apply (is_derive_comp (fun v => ln (sqrt v)) (e2_growth c)).
      - auto_derive; [split; [exact EP|]|reflexivity].
        split; [apply sqrt_lt_R0; exact EP|exact I].
      - exact DE. }
    pose proof (sqrt_lt_R0 _ EP) as SP. pose proof (sqrt_sqrt (e2_growth c a)) as SS.
    unfold scal. simpl. unfold mult. simpl.
    set (v := e2_growth c a) in *. set (s := sqrt v) in *.
    replace v with (s * s) by (apply SS; lra). field. repeat split; lra. }
  unfold growth_ode, growth_rhs. cbn [fst snd]. f_equal.
  rewrite XI, DL. unfold e2_growth. fold Om. fold W.
  replace (1 + (1 / a - 1)) with (1 / a) by ring.
  set (w := eos c (1 / a - 1)).
  assert (N1 : Om + (1 - Om) * W * a ^ 3 <> 0).
  { assert (0 < (1 - Om) * W * a ^ 3) by (apply Rmult_lt_0_compat; [apply Rmult_lt_0_compat; lra|exact A3]). lra. }
  field. repeat split; try lra.
Qed.

(** The Jacobian passed along with it is not its derivative: the damping entry
    divides by the bracket it should multiply with.  (The stepping method the
    code selects, [rk2], does not use the Jacobian.) *)
Theorem C45_jacobian_refuted : exists w x a y0 y1,
  0 < a <= 1 /\ 0 < x /\ w = -1 /\
  ~ is_derive (fun v => snd (growth_rhs w x a (y0, v))) y1 (snd (snd (growth_jac w x a))).
Proof.
  exists (-1), 1, 1, 1, 1. split; [lra|]. split; [lra|]. split; [reflexivity|].
  intros H. apply is_derive_unique in H.
  assert (G : is_derive (fun v => snd (growth_rhs (-1) 1 1 (1, v))) 1 (- 9 / 4)).
  { unfold growth_rhs. cbn [fst snd]. auto_derive; [exact I|]. field. }
  apply is_derive_unique in G. rewrite G in H.
  unfold growth_jac in H. cbn [fst snd] in H. lra.
Qed.

(** The other entries of the matrix are right, for every state. *)
Theorem C45_jacobian_rest : forall w x a y0 y1, 0 < a -> 1 + x <> 0 ->
  is_derive (fun v => fst (growth_rhs w x a (v, y1))) y0 (fst (fst (growth_jac w x a))) /\
  is_derive (fun v => fst (growth_rhs w x a (y0, v))) y1 (snd (fst (growth_jac w x a))) /\
  is_derive (fun v => snd (growth_rhs w x a (v, y1))) y0 (fst (snd (growth_jac w x a))).
Proof.
  intros w x a y0 y1 A X. unfold growth_rhs, growth_jac. cbn [fst snd].
  split; [|split]; (auto_derive; [exact I|]); try reflexivity; field; split; try lra.
Qed.

(** ** The two populations

    Each G function is built from its own population's biases only, and
    exchanging the populations exchanges the two functions and nothing else. *)
Definition swap_biases (b : biases) : biases := mkBiases (mag2 b) (mag1 b) (evo2 b) (evo1 b).
Definition swap_row (r : brow) : brow :=
  mkRow (b_z r) (b_a r) (b_H r) (b_cH r) (b_cHp r) (b_D1 r) (b_f r) (b_chi r) (b_G2 r) (b_G1 r).

Theorem C45_populations : forall X c b bins m,
  background_init X c (swap_biases b) bins m
  = match background_init X c b bins m with
    | Done rows => Done (map swap_row rows)
    | r => r
    end.
Proof.
  intros X c b bins m.
  assert (R : forall i, brow_at X c (swap_biases b) bins i = swap_row (brow_at X c b bins i)).
  { intros i. reflexivity. }
  unfold background_init. destruct bins as [|n]; [reflexivity|].
  cbn [seq map]. destruct (Nat.ltb (S n) (min_size m)); [reflexivity|].
  assert (E : map b_chi (brow_at X c (swap_biases b) (S n) 0 ::
                         map (brow_at X c (swap_biases b) (S n)) (seq 1 n))
              = map b_chi (brow_at X c b (S n) 0 :: map (brow_at X c b (S n)) (seq 1 n))).
  { cbn [map]. rewrite !map_map. f_equal. }
  cbn [map] in E. rewrite E. destruct (increasing_dec _) as [J|J]; [|reflexivity].
  f_equal. cbn [map]. rewrite !map_map. f_equal.
Qed.

(** The functions themselves (eq. for G in terms of the Hubble rate, the
    distance, magnification and evolution bias), away from redshift 0. *)
Theorem C45_g_functions : forall X c b bins m rows i r,
  background_init X c b bins m = Done rows -> nth_error rows i = Some r ->
  1 / 10000000000 < b_z r ->
  b_G1 r = b_cHp r / b_cH r ^ 2 + (2 - 5 * mag1 b (b_z r)) / (b_chi r * b_cH r)
           + 5 * mag1 b (b_z r) - evo1 b (b_z r) /\
  b_G2 r = b_cHp r / b_cH r ^ 2 + (2 - 5 * mag2 b (b_z r)) / (b_chi r * b_cH r)
           + 5 * mag2 b (b_z r) - evo2 b (b_z r).
Proof.
  intros X c b bins m rows i r H E Z. apply background_done in H. destruct H as [_ [_ [_ ->]]].
  rewrite !nth_error_map in E.
  destruct (nth_error (seq 0 bins) i) as [k|]; [|discriminate E].
  cbn [option_map] in E. injection E as E. subst r.
  revert Z. unfold normalise, brow_at. cbn [b_z b_G1 b_G2 b_cHp b_cH b_chi].
  intros Z. unfold g_function.
  destruct (Rlt_dec _ _) as [_|N]; [split; reflexivity|contradiction].
Qed.

(** ** The hypotheses are met

    An exact quadrature exists (the Riemann integral), the standard cosmology is
    physical, and the background is then computed with the default 10000 bins. *)
Definition riemann : external :=
  mkExternal (fun f a b => RInt f a b) (fun _ _ y _ => y).
Definition standard : cosmo :=
  mkCosmo (25 / 100) (5 / 100) (9 / 100000) (1 - 30 / 100 - 9 / 100000) (67 / 100) (-1) 0.

Example C45_nonvacuous :
  exact riemann /\ physical standard /\
  (forall f x, x_quad riemann f x x = 0) /\
  om_cdm standard + om_baryon standard + om_gamma standard + om_de standard = 1 /\
  (min_size 5 <= Nat.pow 10 4)%nat /\
  0 < om_cdm standard + om_baryon standard < 1.
Proof.
  split; [intros f a b _; reflexivity|].
  split; [unfold physical, standard; simpl; lra|].
  split; [intros f x; apply (RInt_point (V := R_CompleteNormedModule))|].
  split; [unfold standard; simpl; lra|].
  split; [|unfold standard; simpl; lra].
  apply Nat.leb_le. vm_compute. reflexivity.
Qed.

(** C45, growth factor and growth rate.  If the integrator returns the solution
    [D] of the code's equation, with its derivative, then every row holds
    [D(a) / D(1)] and the logarithmic derivative [dln D / dln a]. *)
Theorem C45_growth_rate : forall X c b bins m rows D D',
  background_init X c b bins m = Done rows ->
  (forall a, 5 / 100 < a <= 1 ->
     x_evolve X (growth_ode (w_spline c) (xint_spline X c)) (5 / 100) (5 / 100, 1) a = (D a, D' a)
     /\ is_derive D a (D' a) /\ 0 < D a) ->
  forall r, In r rows ->
    b_D1 r = D (b_a r) / D 1 /\
    is_derive (fun t => ln (D (exp t))) (ln (b_a r)) (b_f r).
Proof.
  intros X c b bins m rows D D' H HX r I. apply background_done in H. destruct H as [B [_ [_ ->]]].
  apply in_map_iff in I. destruct I as (r0 & <- & I).
  apply in_map_iff in I. destruct I as (i & <- & I). apply in_seq in I.
  assert (Z : 0 <= row_z bins i <= 15) by (apply row_z_range; lia).
  assert (AA : forall z, 0 <= z <= 15 -> 5 / 100 < 1 / (1 + z) <= 1).
  { intros z Hz. split.
    - apply (Rmult_lt_reg_r (1 + z)); [lra|]. unfold Rdiv at 2. rewrite Rmult_assoc, Rinv_l by lra. lra.
    - apply (Rmult_le_reg_r (1 + z)); [lra|]. unfold Rdiv. rewrite Rmult_assoc, Rinv_l by lra. lra. }
  assert (Y : forall j, (j < bins)%nat -> exists a, a = 1 / (1 + row_z bins j) /\ 5 / 100 < a <= 1 /\
     b_D1 (brow_at X c b bins j) = D a /\ b_f (brow_at X c b bins j) = D' a * a / D a).
  { intros j Hj. exists (1 / (1 + row_z bins j)). split; [reflexivity|].
    assert (A := AA _ (row_z_range bins j Hj)). split; [exact A|].
    unfold brow_at. cbn [b_D1 b_f].
    destruct (Rlt_dec (5 / 100) (1 / (1 + row_z bins j))) as [_|N]; [|lra].
    destruct (HX _ A) as (-> & _ & _). split; reflexivity. }
  destruct (Y i ltac:(lia)) as (a & Ea & A & E1 & E2).
  destruct (Y 0%nat ltac:(lia)) as (a0 & Ea0 & _ & E0 & _).
  assert (A0 : a0 = 1).
  { rewrite Ea0. unfold row_z. change (INR 0) with 0. unfold Rdiv. rewrite Rmult_0_r, Rmult_0_l. field. }
  assert (Eb : b_a (brow_at X c b bins i) = a) by (rewrite Ea; reflexivity).
  destruct (HX a A) as (_ & HD & HP).
  unfold normalise. cbn [b_D1 b_a b_f]. rewrite Eb, E1, E2, E0, A0. split; [reflexivity|].
  assert (Ex : exp (ln a) = a) by (apply exp_ln; lra).
  assert (K : is_derive (fun t => ln (D (exp t))) (ln a) (scal (scal (exp (ln a)) (D' a)) (/ D a))).
  { apply (is_derive_comp ln (fun t => D (exp t)) (ln a)).
    - rewrite Ex. apply is_derive_ln. exact HP.
    - apply (is_derive_comp D exp (ln a)); [rewrite Ex; exact HD|]. apply is_derive_exp. }
  evar_last; [exact K|]. unfold scal; cbn; unfold mult; cbn. rewrite Ex. field. lra.
Qed.

(** The hypothesis on the integrator can be met: here it returns [D = a]. *)
Example C45_growth_rate_nonvacuous : exists X D D', forall rhs y a, 5 / 100 < a <= 1 ->
  x_evolve X rhs (5 / 100) y a = (D a, D' a) /\ is_derive D a (D' a) /\ 0 < D a.
Proof.
  exists (mkExternal (fun _ _ _ => 0) (fun _ _ _ a => (a, 1))), (fun a => a), (fun _ => 1).
  intros rhs y a A. split; [reflexivity|]. split; [apply (is_derive_id (K := R_AbsRing))|lra].
Qed.

Print Assumptions C45_rows.
Print Assumptions C45_today.
Print Assumptions C45_conformal_prime.
Print Assumptions C45_distance.
Print Assumptions C45_inverse_defined.
Print Assumptions C45_defined_refuted.
Print Assumptions C45_dark_energy.
Print Assumptions C45_growth_equation.
Print Assumptions C45_growth_rate.
Print Assumptions C45_jacobian_refuted.
Print Assumptions C45_jacobian_rest.
Print Assumptions C45_populations.
Print Assumptions C45_g_functions.
