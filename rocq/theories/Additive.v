(** * Contributions add up in pairs *)
From Coq Require Import Reals ZArith Bool List Lia Lra FunctionalExtensionality.
Import ListNotations.
From Verif Require Import Integrals CExpr Terms Signal TermsMeta TermsSum.
Open Scope R_scope.
#[local] Arguments upd : simpl never.

(** ** Specification *)
(** Specification or proof only; nothing in the code. *)
Definition all_contribs : list contrib := [den; rsd; d1; d2; g1; g2; g3; len; g4; g5].

Fixpoint pairs {A} (l : list A) : list (A * A) :=
  match l with [] => [] | a :: r => map (pair a) r ++ pairs r end.

Definition sum_over {A} (l : list A) (f : A -> R) : R := fold_right Rplus 0 (map f l).

Definition single (X : contrib) : contrib -> bool := fun c => contrib_beq c X.
Definition pair_set (X Y : contrib) : contrib -> bool :=
  fun c => contrib_beq c X || contrib_beq c Y.

(** [F S cross] is a quantity computed with the set [S] of contributions and the
    switch only_cross_correlations.  It decomposes if it is the sum over the
    unordered pairs of different members of [S], plus, unless the switch is on,
    the sum over the members of [S].  Specification or proof only; nothing in the code. *)
Definition decomposes (F : (contrib -> bool) -> bool -> R) : Prop :=
  forall S,
  let cross :=
    sum_over (filter (fun p => S (fst p) && S (snd p)) (pairs all_contribs))
             (fun p => F (pair_set (fst p) (snd p)) true) in
  F S true = cross /\
  F S false = sum_over (filter S all_contribs) (fun X => F (single X) false) + cross.

(** A quadrature rule that is linear in the integrand.  Specification or proof only; nothing in the code. *)
Record linear (Q : quadrature) : Prop := {
  add1 : forall f g, q1 Q (fun x => f x + g x) = q1 Q f + q1 Q g;
  mul1 : forall c f, q1 Q (fun x => c * f x) = c * q1 Q f;
  addn : forall d f g, qn Q d (fun v => f v + g v) = qn Q d f + qn Q d g;
  muln : forall d c f, qn Q d (fun v => c * f v) = c * qn Q d f }.

(** ** Proof *)
Lemma sum_filter : forall A (p : A -> bool) f l,
  sum_over (filter p l) f = sum_over l (fun a => if p a then f a else 0).
Proof.
  unfold sum_over. induction l as [|a l IH]; [reflexivity|]. simpl.
  destruct (p a); simpl; rewrite IH; ring.
Qed.

Lemma sum_plus : forall A (l : list A) f g,
  sum_over l (fun a => f a + g a) = sum_over l f + sum_over l g.
Proof. unfold sum_over. induction l; intros; simpl; [ring|]. rewrite IHl. ring. Qed.

Lemma sum_scal : forall A (l : list A) c f,
  sum_over l (fun a => c * f a) = c * sum_over l f.
Proof. unfold sum_over. induction l; intros; simpl; [ring|]. rewrite IHl. ring. Qed.

Lemma sum_ext : forall A (l : list A) f g, (forall a, f a = g a) ->
  sum_over l f = sum_over l g.
Proof. intros. unfold sum_over. f_equal. apply map_ext. assumption. Qed.

Lemma if_same : forall (b : bool) (r : R), (if b then r else r) = r.
Proof. destruct b; reflexivity. Qed.

Lemma decomposes_guard : forall a b w,
  decomposes (fun S c => if guard S c a b then w else 0).
Proof.
  intros a b w S. cbv zeta. rewrite !sum_filter.
  destruct a, b; unfold guard, sum_over;
    cbn [contrib_beq pairs all_contribs map app fold_right fst snd single pair_set
         andb orb negb];
    rewrite ?if_same, ?Rplus_0_l, ?Rplus_0_r, ?andb_false_r, ?andb_true_r;
    split; try reflexivity;
    repeat match goal with |- context [S ?c] => destruct (S c) end; reflexivity.
Qed.

Lemma decomposes_ext : forall F G, (forall S c, F S c = G S c) ->
  decomposes F -> decomposes G.
Proof.
  intros F G H D S. destruct (D S) as [D1 D2]. cbv zeta in *.
  split; rewrite <- H; [rewrite D1|rewrite D2]; [|f_equal]; apply sum_ext; intros; apply H.
Qed.

Lemma decomposes_zero : decomposes (fun _ _ => 0).
Proof.
  intros S. cbv zeta. rewrite !sum_filter.
  assert (Z : forall A (l : list A) p, sum_over l (fun a => if (p a : bool) then 0 else 0) = 0).
  { unfold sum_over. induction l; intros; simpl; [reflexivity|].
    rewrite if_same, IHl. ring. }
  rewrite !Z. split; ring.
Qed.

Lemma decomposes_plus : forall F G, decomposes F -> decomposes G ->
  decomposes (fun S c => F S c + G S c).
Proof.
  intros F G DF DG S. destruct (DF S) as [F1 F2]. destruct (DG S) as [G1 G2]. cbv zeta in *.
  rewrite !sum_plus. rewrite F1, F2, G1, G2. split; ring.
Qed.

Lemma decomposes_scal : forall k F, decomposes F -> decomposes (fun S c => k * F S c).
Proof.
  intros k F DF S. destruct (DF S) as [F1 F2]. cbv zeta in *.
  rewrite !sum_scal. rewrite F1, F2. split; ring.
Qed.

Lemma decomposes_sum : forall A (l : list A) (F : A -> _),
  (forall a, decomposes (F a)) -> decomposes (fun S c => sum_over l (fun a => F a S c)).
Proof.
  unfold sum_over. induction l; intros F H; simpl; [apply decomposes_zero|].
  apply decomposes_plus; [apply H|apply IHl, H].
Qed.

(** A functional that commutes with sums and multiples preserves decomposition. *)
Lemma decomposes_functional : forall A (I : (A -> R) -> R),
  (forall f g, I (fun v => f v + g v) = I f + I g) ->
  (forall c f, I (fun v => c * f v) = c * I f) ->
  forall F : A -> (contrib -> bool) -> bool -> R,
  (forall v, decomposes (F v)) -> decomposes (fun S c => I (fun v => F v S c)).
Proof.
  intros A I Hp Hm F D S.
  assert (H0 : I (fun _ => 0) = 0).
  { transitivity (I (fun v => 0 * 0)).
    - f_equal. apply functional_extensionality. intros. ring.
    - rewrite (Hm 0 (fun _ => 0)). ring. }
  assert (HS : forall B (l : list B) (f : B -> A -> R),
      I (fun v => sum_over l (fun b => f b v)) = sum_over l (fun b => I (f b))).
  { unfold sum_over. induction l; intros f; simpl; [exact H0|].
    rewrite Hp, IHl. reflexivity. }
  cbv zeta. split.
  - transitivity (I (fun v => sum_over
      (filter (fun p => S (fst p) && S (snd p)) (pairs all_contribs))
      (fun p => F v (pair_set (fst p) (snd p)) true))).
    + f_equal. apply functional_extensionality. intros v. apply (D v S).
    + apply (HS _ _ (fun p v => F v (pair_set (fst p) (snd p)) true)).
  - transitivity (I (fun v =>
      sum_over (filter S all_contribs) (fun X => F v (single X) false) +
      sum_over (filter (fun p => S (fst p) && S (snd p)) (pairs all_contribs))
      (fun p => F v (pair_set (fst p) (snd p)) true))).
    + f_equal. apply functional_extensionality. intros v. apply (D v S).
    + rewrite Hp. f_equal.
      * apply (HS _ _ (fun X v => F v (single X) false)).
      * apply (HS _ _ (fun p v => F v (pair_set (fst p) (snd p)) true)).
Qed.

(** ** Values of the three functions *)
Lemma forallb_present : forall E l, (forall k, present E k = true) ->
  forallb (present E) l = true.
Proof. intros. apply forallb_forall. intros. apply H. Qed.

Section Values.
Variable E : env.
Hypothesis all_present : forall k, present E k = true.

(** Specification or proof only; nothing in the code. *)
Definition ni_s0 zm m s := dens E (args zm m s) ni_prelude.
Definition si_s0 zm m s x := dens E (upd (args zm m s) x_ x) si_prelude.
Definition di_s0 zm m s x1 x2 := dens E (upd (upd (args zm m s) x_1 x1) x_2 x2) di_prelude.

Definition picked (s : store) (S : contrib -> bool) (c : bool)
    (b : contrib * contrib * list stmt) : R :=
  let '(p, q, l) := b in if guard S c p q then incr E s (body l) else 0.

Lemma ni_factor_with_set : forall S c s, ni_factor (with_set E S c) s = ni_factor E s.
Proof. reflexivity. Qed.

Lemma ni_value : forall S c zm m s,
  value (nonintegrated (with_set E S c) zm m s) =
  sum_over ni_blocks (picked (ni_s0 zm m s) S c) * ni_factor E (ni_s0 zm m s).
Proof.
  intros. rewrite nonintegrated_spec. rewrite forallb_present by exact all_present.
  cbn [value]. rewrite dens_with_set by apply ni_free.
  rewrite total_with_set by apply ni_guarded. reflexivity.
Qed.

Lemma si_value : forall S c zm m s x,
  value (single_integrated (with_set E S c) zm m s x) =
  sum_over si_blocks (picked (si_s0 zm m s x) S c).
Proof.
  intros. rewrite single_integrated_spec. rewrite forallb_present by exact all_present.
  cbn [value]. rewrite dens_with_set by apply si_free.
  rewrite total_with_set by apply si_guarded. reflexivity.
Qed.

Lemma di_value : forall S c zm m s x1 x2,
  value (double_integrated (with_set E S c) zm m s x1 x2) =
  sum_over di_blocks (picked (di_s0 zm m s x1 x2) S c) * (coffe_H0 * par_h E) ^ 4.
Proof.
  intros. rewrite double_integrated_spec. rewrite forallb_present by exact all_present.
  cbn [value]. rewrite dens_with_set by apply di_free.
  rewrite total_with_set by apply di_guarded. reflexivity.
Qed.

Lemma picked_decomposes : forall s b, decomposes (fun S c => picked s S c b).
Proof. intros s [[p q] l]. apply decomposes_guard. Qed.

Lemma ni_decomposes : forall zm m s,
  decomposes (fun S c => value (nonintegrated (with_set E S c) zm m s)).
Proof.
  intros. apply (decomposes_ext (fun S c =>
    ni_factor E (ni_s0 zm m s) * sum_over ni_blocks (fun b => picked (ni_s0 zm m s) S c b))).
  - intros. rewrite ni_value. apply Rmult_comm.
  - apply decomposes_scal. apply (decomposes_sum _ _ (fun b S c => picked _ S c b)).
    intros b. apply picked_decomposes.
Qed.

Lemma si_decomposes : forall zm m s x,
  decomposes (fun S c => value (single_integrated (with_set E S c) zm m s x)).
Proof.
  intros. apply (decomposes_ext (fun S c =>
    sum_over si_blocks (fun b => picked (si_s0 zm m s x) S c b))).
  - intros. rewrite si_value. reflexivity.
  - apply (decomposes_sum _ _ (fun b S c => picked _ S c b)).
    intros b. apply picked_decomposes.
Qed.

Lemma di_decomposes : forall zm m s x1 x2,
  decomposes (fun S c => value (double_integrated (with_set E S c) zm m s x1 x2)).
Proof.
  intros. apply (decomposes_ext (fun S c =>
    (coffe_H0 * par_h E) ^ 4 * sum_over di_blocks (fun b => picked (di_s0 zm m s x1 x2) S c b))).
  - intros. rewrite di_value. apply Rmult_comm.
  - apply decomposes_scal. apply (decomposes_sum _ _ (fun b S c => picked _ S c b)).
    intros b. apply picked_decomposes.
Qed.

(** ** When a family is skipped, its terms are zero *)
Lemma sum_zero : forall A (l : list A) f, (forall a, In a l -> f a = 0) -> sum_over l f = 0.
Proof.
  unfold sum_over. induction l; intros f H; simpl; [reflexivity|].
  rewrite H by (left; reflexivity). rewrite IHl by (intros; apply H; right; assumption). ring.
Qed.

Lemma picked_off : forall s S c p q l, guard S c p q = false -> picked s S c (p, q, l) = 0.
Proof. intros. unfold picked. rewrite H. reflexivity. Qed.

Lemma ni_off : forall S c zm m s, local_on (with_set E S c) = false ->
  value (nonintegrated (with_set E S c) zm m s) = 0.
Proof.
  intros S c zm m s H. unfold local_on in H. cbn [with_set con] in H.
  rewrite !orb_false_iff in H. destruct H as [[[[[[H1 H2] H3] H4] H5] H6] H7].
  rewrite ni_value, sum_zero; [ring|]. intros [[p q] l] Hb.
  apply picked_off. apply in_map with (f := fst) in Hb. cbn [fst] in Hb.
  revert Hb. cbn [map ni_blocks fst]. intros Hb. cbn [In] in Hb.
  repeat destruct Hb as [Hb|Hb]; try contradiction; inversion Hb; subst;
    unfold guard; cbn [contrib_beq]; rewrite ?H1, ?H2, ?H3, ?H4, ?H5, ?H6, ?H7; reflexivity.
Qed.

Lemma si_off : forall S c zm m s x, single_on (with_set E S c) = false ->
  value (single_integrated (with_set E S c) zm m s x) = 0.
Proof.
  intros S c zm m s x H. unfold single_on in H. cbn [with_set con] in H.
  rewrite !orb_false_iff in H.
  rewrite si_value. apply sum_zero. intros [[p q] l] Hb.
  apply picked_off. apply in_map with (f := fst) in Hb. cbn [fst] in Hb.
  revert Hb. cbn [map si_blocks fst]. intros Hb. cbn [In] in Hb.
  repeat destruct Hb as [Hb|Hb]; try contradiction; inversion Hb; subst;
    unfold guard; cbn [contrib_beq]; rewrite andb_comm; tauto.
Qed.

Lemma di_off : forall S c zm m s x1 x2, integrated_on (with_set E S c) = false ->
  value (double_integrated (with_set E S c) zm m s x1 x2) = 0.
Proof.
  intros S c zm m s x1 x2 H. unfold integrated_on in H. cbn [with_set con] in H.
  rewrite !orb_false_iff in H. destruct H as [[H1 H2] H3].
  rewrite di_value, sum_zero; [ring|]. intros [[p q] l] Hb.
  apply picked_off. apply in_map with (f := fst) in Hb. cbn [fst] in Hb.
  revert Hb. cbn [map di_blocks fst]. intros Hb. cbn [In] in Hb.
  repeat destruct Hb as [Hb|Hb]; try contradiction; inversion Hb; subst;
    unfold guard; cbn [contrib_beq]; rewrite ?H1, ?H2, ?H3; reflexivity.
Qed.
End Values.
