(** * The whole signal adds up in pairs *)
From Coq Require Import Reals ZArith Bool List Lia Lra FunctionalExtensionality.
Import ListNotations.
From Verif Require Import Integrals CExpr Terms Signal TermsMeta TermsSum Additive.
Open Scope R_scope.
#[local] Arguments upd : simpl never.
#[local] Opaque nonintegrated single_integrated double_integrated flat_den_len flat_len_len.

(** Specification or proof only; nothing in the code. *)
Definition leg_factor (l : nat) (m : R) : R := if Nat.eqb l 0 then 1 else legendre l m.

Lemma value_scale : forall o g, value (scale o g) = g * value o.
Proof. destruct o; intros; simpl; ring. Qed.

Lemma value_times_legendre : forall l m o,
  value (times_legendre l m o) = leg_factor l m * value o.
Proof.
  intros. unfold times_legendre, leg_factor. destruct (Nat.eqb l 0); [ring|].
  apply value_scale.
Qed.

Section Signal.
Variable Q : quadrature.
Hypothesis HQ : linear Q.
Variable E : env.
Hypothesis all_present : forall k, present E k = true.

Lemma q1_zero : forall f, (forall x, f x = 0) -> q1 Q f = 0.
Proof.
  intros f H. transitivity (q1 Q (fun x => 0 * f x)).
  - f_equal. apply functional_extensionality. intros x. rewrite H. ring.
  - rewrite (mul1 Q HQ). ring.
Qed.
Lemma qn_zero : forall d f, (forall x, f x = 0) -> qn Q d f = 0.
Proof.
  intros d f H. transitivity (qn Q d (fun x => 0 * f x)).
  - f_equal. apply functional_extensionality. intros x. rewrite H. ring.
  - rewrite (muln Q HQ). ring.
Qed.

Lemma decomposes_q1 : forall k (w : R -> R) F, (forall x, decomposes (F x)) ->
  decomposes (fun S c => k * q1 Q (fun x => w x * F x S c)).
Proof.
  intros. apply decomposes_scal.
  apply (decomposes_functional R (q1 Q)).
  - apply (add1 Q HQ).
  - apply (mul1 Q HQ).
  - intros x. apply decomposes_scal. apply H.
Qed.
Lemma decomposes_qn : forall d k (w : list R -> R) F, (forall x, decomposes (F x)) ->
  decomposes (fun S c => k * qn Q d (fun x => w x * F x S c)).
Proof.
  intros. apply decomposes_scal.
  apply (decomposes_functional (list R) (qn Q d)).
  - apply (addn Q HQ).
  - apply (muln Q HQ).
  - intros x. apply decomposes_scal. apply H.
Qed.

(** Rewriting a guarded run: when the guard is off the integrand is zero. *)
Lemma run1 : forall (b : bool) k f w g,
  (forall x, value (f x) = w x * g x) -> (b = false -> forall x, g x = 0) ->
  run Q (if b then Quad1 k f else Zero) = k * q1 Q (fun x => w x * g x).
Proof.
  intros b k f w g H H0. destruct b; simpl.
  - f_equal. f_equal. apply functional_extensionality. exact H.
  - rewrite q1_zero; [ring|]. intros x. rewrite H0 by reflexivity. ring.
Qed.
Lemma runn : forall (b : bool) d k f w g,
  (forall x, value (f x) = w x * g x) -> (b = false -> forall x, g x = 0) ->
  run Q (if b then QuadN d k f else Zero) = k * qn Q d (fun x => w x * g x).
Proof.
  intros b d k f w g H H0. destruct b; simpl.
  - f_equal. f_equal. apply functional_extensionality. exact H.
  - rewrite qn_zero; [ring|]. intros x. rewrite H0 by reflexivity. ring.
Qed.

Lemma if_negb : forall A (b : bool) (x y : A), (if negb b then x else y) = if b then y else x.
Proof. destruct b; reflexivity. Qed.

Variable p : point.

Lemma av_z_with_set : forall S c u, av_z (with_set E S c) p u = av_z E p u.
Proof. reflexivity. Qed.

Lemma ni_run : forall o, decomposes (fun S c =>
  run Q (coffe_integrate (with_set E S c) p NonIntegrated o)).
Proof.
  intros o. unfold coffe_integrate. destruct o.
  - apply (decomposes_ext (fun S c =>
      value (nonintegrated (with_set E S c) (p_z p) (p_mu p) (p_sep p)))).
    + intros. rewrite if_negb. destruct (local_on (with_set E S c)) eqn:L; cbn [run].
      * ring.
      * apply ni_off; assumption.
    + apply ni_decomposes. exact all_present.
  - eapply decomposes_ext; [|apply (decomposes_q1 (INR (2 * p_l p + 1))
      (fun x => leg_factor (p_l p) (2 * x - 1))
      (fun x S c => value (nonintegrated (with_set E S c) (p_z p) (2 * x - 1) (p_sep p))))].
    + intros. rewrite if_negb. symmetry. apply run1.
      * intros x. apply value_times_legendre.
      * intros L x. apply ni_off; assumption.
    + intros x. apply ni_decomposes. exact all_present.
  - eapply decomposes_ext; [|apply (decomposes_qn 2 (INR (2 * p_l p + 1))
      (fun v => av_weight E (av_z E p (coord v 0)) * leg_factor (p_l p) (2 * coord v 1 - 1))
      (fun v S c => value (nonintegrated (with_set E S c) (av_z E p (coord v 0))
                             (2 * coord v 1 - 1) (p_sep p))))].
    + intros. rewrite if_negb. symmetry. apply runn.
      * intros x. rewrite value_scale, value_times_legendre. rewrite <- Rmult_assoc. reflexivity.
      * intros L x. apply ni_off; assumption.
    + intros x. apply ni_decomposes. exact all_present.
Qed.

Lemma picked_flat : forall s S c b, In b si_blocks ->
  sw E flatsky_local_nonlocal = true -> sw E output_multipoles = true ->
  single_full_on (with_set E S c) = false -> picked E s S c b = 0.
Proof.
  intros s S c [[q r] l] Hb Hf Ho H. unfold single_full_on in H.
  cbn [with_set con] in H. rewrite !orb_false_iff in H.
  cbn [In si_blocks] in Hb.
  repeat destruct Hb as [Hb|Hb]; try contradiction; inversion Hb; subst;
    try (apply picked_off; unfold guard; cbn [contrib_beq]; rewrite andb_comm; tauto);
    unfold picked; destruct (guard S c _ _); try reflexivity;
    unfold si_den_len, si_rsd_len, si_d1_len; cbn [body]; cbn [incr];
    rewrite incr1_If; cbn [holds]; rewrite Hf, ?Ho; cbn [negb andb incr];
    rewrite ?incr1_If; cbn [holds]; rewrite ?Hf; cbn [negb incr]; ring.
Qed.

Lemma single_full_off : forall S c zm m s x,
  sw E output_multipoles = true ->
  single_full_on (with_set E S c) = false ->
  value (single_integrated (with_set E S c) zm m s x) = 0.
Proof.
  intros S c zm m s x Ho H.
  destruct (sw E flatsky_local_nonlocal) eqn:F.
  - rewrite si_value by exact all_present. apply sum_zero. intros b Hb.
    apply picked_flat; assumption.
  - apply si_off; [assumption|]. revert H. unfold single_full_on, single_on.
    cbn [with_set con sw]. rewrite F. cbn [negb]. rewrite andb_true_r.
    rewrite !orb_false_iff. intros H.
    assert (H1 : (S den || S rsd || S d1) && S len = false) by tauto.
    destruct (S len), (S den), (S rsd), (S d1); cbn in H1; try discriminate; tauto.
Qed.

Lemma si_run : forall o, (o = Multipoles -> sw E output_multipoles = true) ->
  decomposes (fun S c =>
    run Q (coffe_integrate (with_set E S c) p SingleIntegrated o)).
Proof.
  intros o Ho. unfold coffe_integrate. destruct o.
  - eapply decomposes_ext; [|apply (decomposes_q1 1 (fun x => 1)
      (fun x S c => value (single_integrated (with_set E S c) (p_z p) (p_mu p) (p_sep p) x)))].
    + intros. rewrite if_negb. symmetry. apply run1.
      * intros x. symmetry. apply Rmult_1_l.
      * intros L x. apply si_off; assumption.
    + intros x. apply si_decomposes. exact all_present.
  - specialize (Ho eq_refl).
    eapply decomposes_ext; [|apply (decomposes_plus
      (fun S c => if guard S c den len then
         (if sw E flatsky_local_nonlocal
          then 2 * PI * PI * value (flat_den_len E (p_z p) (p_sep p) (p_l p)) else 0) else 0)
      (fun S c => INR (2 * p_l p + 1) * qn Q 2 (fun v => leg_factor (p_l p) (2 * coord v 0 - 1)
        * value (single_integrated (with_set E S c) (p_z p) (2 * coord v 0 - 1) (p_sep p)
                   (coord v 1)))))].
    + intros. rewrite if_negb. symmetry.
      destruct (single_on (with_set E S c)) eqn:L.
      * cbn [run]. f_equal.
        -- unfold guard. cbn [contrib_beq with_set con sw].
           destruct (S den), (S rsd), (S d1), (S len), (sw E flatsky_local_nonlocal);
             cbn [andb orb run]; try reflexivity.
        -- apply runn.
           ++ intros v. apply value_times_legendre.
           ++ intros F v. apply single_full_off; assumption.
      * cbn [run]. replace (guard S c den len) with false.
        -- rewrite qn_zero; [ring|]. intros v. rewrite si_off by assumption. ring.
        -- unfold single_on in L. cbn [with_set con] in L. rewrite !orb_false_iff in L.
           unfold guard. cbn [contrib_beq]. rewrite andb_comm. symmetry. tauto.
    + apply decomposes_guard.
    + apply (decomposes_qn 2 _ _ (fun v S c => value (single_integrated (with_set E S c)
        (p_z p) (2 * coord v 0 - 1) (p_sep p) (coord v 1)))).
      intros v. apply si_decomposes. exact all_present.
  - eapply decomposes_ext; [|apply (decomposes_qn 3 (INR (2 * p_l p + 1))
      (fun v => av_weight E (av_z E p (coord v 0)) * leg_factor (p_l p) (2 * coord v 1 - 1))
      (fun v S c => value (single_integrated (with_set E S c) (av_z E p (coord v 0))
                             (2 * coord v 1 - 1) (p_sep p) (coord v 2))))].
    + intros. rewrite if_negb. symmetry. apply runn.
      * intros x. rewrite value_scale, value_times_legendre. rewrite <- Rmult_assoc. reflexivity.
      * intros L x. apply si_off; assumption.
    + intros x. apply si_decomposes. exact all_present.
Qed.

Lemma double_full_off : forall S c zm m s x1 x2,
  sw E output_multipoles = true ->
  S g4 || S g5 || S len && negb (sw E flatsky_nonlocal) = false ->
  value (double_integrated (with_set E S c) zm m s x1 x2) = 0.
Proof.
  intros S c zm m s x1 x2 Ho H. rewrite !orb_false_iff in H. destruct H as [[H1 H2] H3].
  rewrite di_value by exact all_present. rewrite sum_zero; [ring|].
  intros [[q r] l] Hb. cbn [In di_blocks] in Hb.
  repeat destruct Hb as [Hb|Hb]; try contradiction; inversion Hb; subst;
    try (apply picked_off; unfold guard; cbn [contrib_beq]; rewrite ?H1, ?H2; reflexivity).
  unfold picked, guard. cbn [contrib_beq].
  destruct (S len && negb c) eqn:G; [|reflexivity].
  apply andb_true_iff in G. destruct G as [G _]. rewrite G in H3. cbn [andb] in H3.
  apply negb_false_iff in H3.
  unfold di_len_len; cbn [body]; cbn [incr]. rewrite incr1_If; cbn [holds].
  rewrite H3, Ho. cbn [negb andb incr]. rewrite ?incr1_If; cbn [holds]. rewrite ?H3.
  cbn [negb incr]. ring.
Qed.

Lemma di_run : forall o, (o = Multipoles -> sw E output_multipoles = true) ->
  decomposes (fun S c =>
    run Q (coffe_integrate (with_set E S c) p DoubleIntegrated o)).
Proof.
  intros o Ho. unfold coffe_integrate. destruct o.
  - eapply decomposes_ext; [|apply (decomposes_qn 2 1 (fun v => 1)
      (fun v S c => value (double_integrated (with_set E S c) (p_z p) (p_mu p) (p_sep p)
         (coord v 0) (coord v 1))))].
    + intros. rewrite if_negb. symmetry. apply runn.
      * intros x. symmetry. apply Rmult_1_l.
      * intros L x. apply di_off; assumption.
    + intros x. apply di_decomposes. exact all_present.
  - specialize (Ho eq_refl).
    eapply decomposes_ext; [|apply (decomposes_plus
      (fun S c => if guard S c len len then
         (if sw E flatsky_nonlocal && Nat.even (p_l p)
          then 2 * PI * PI * q1 Q (fun x => value (flat_len_len E (p_z p) (p_sep p) (p_l p) x))
          else 0) else 0)
      (fun S c => INR (2 * p_l p + 1) * qn Q 3 (fun v => leg_factor (p_l p) (2 * coord v 0 - 1)
        * value (double_integrated (with_set E S c) (p_z p) (2 * coord v 0 - 1) (p_sep p)
                   (coord v 1) (coord v 2)))))].
    + intros. rewrite if_negb. symmetry.
      destruct (integrated_on (with_set E S c)) eqn:L.
      * cbn [run]. f_equal.
        -- unfold guard. cbn [contrib_beq with_set con sw].
           destruct (S len), c, (sw E flatsky_nonlocal), (Nat.even (p_l p));
             cbn [andb negb run]; reflexivity.
        -- apply runn.
           ++ intros v. apply value_times_legendre.
           ++ intros F v. apply double_full_off; assumption.
      * cbn [run]. replace (guard S c len len) with false.
        -- rewrite qn_zero; [ring|]. intros v. rewrite di_off by assumption. ring.
        -- unfold integrated_on in L. cbn [with_set con] in L. rewrite !orb_false_iff in L.
           unfold guard. cbn [contrib_beq]. destruct L as [[-> _] _]. reflexivity.
    + apply decomposes_guard.
    + apply (decomposes_qn 3 _ _ (fun v S c => value (double_integrated (with_set E S c)
        (p_z p) (2 * coord v 0 - 1) (p_sep p) (coord v 1) (coord v 2)))).
      intros v. apply di_decomposes. exact all_present.
  - eapply decomposes_ext; [|apply (decomposes_qn 4 (INR (2 * p_l p + 1))
      (fun v => av_weight E (av_z E p (coord v 0)) * leg_factor (p_l p) (2 * coord v 1 - 1))
      (fun v S c => value (double_integrated (with_set E S c) (av_z E p (coord v 0))
                             (2 * coord v 1 - 1) (p_sep p) (coord v 2) (coord v 3))))].
    + intros. rewrite if_negb. symmetry. apply runn.
      * intros x. rewrite value_scale, value_times_legendre. rewrite <- Rmult_assoc. reflexivity.
      * intros L x. apply di_off; assumption.
    + intros x. apply di_decomposes. exact all_present.
Qed.

Lemma signal_decomposes : forall o, (o = Multipoles -> sw E output_multipoles = true) ->
  decomposes (fun S c => signal Q (with_set E S c) p o).
Proof.
  intros o Ho. unfold signal.
  apply (decomposes_plus
    (fun S c => run Q (coffe_integrate (with_set E S c) p NonIntegrated o)
              + run Q (coffe_integrate (with_set E S c) p SingleIntegrated o))).
  - apply decomposes_plus; [apply ni_run|apply si_run; exact Ho].
  - apply di_run. exact Ho.
Qed.
End Signal.
