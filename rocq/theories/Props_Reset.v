(** * reset_contributions and the wavenumber range: C60, C61 *)
From Coq Require Import ZArith Bool List String Lia.
From Verif Require Import F64 PyParams PySet Integrals PyState PySpec PyWrites PyCoherence PyAlways.
Import ListNotations.
Open Scope Z_scope.

(** ** C60 reset_contributions switches everything off *)

(** Specification: the switches, i.e. the attributes whose name starts with has_. *)
Definition is_switch (a : attr) : bool :=
  match a with
  | A_has_density | A_has_rsd | A_has_lensing | A_has_d1 | A_has_d2
  | A_has_g1 | A_has_g2 | A_has_g3 | A_has_g4 | A_has_g5
  | A_has_flatsky_local | A_has_flatsky_local_nonlocal | A_has_flatsky_nonlocal
  | A_has_only_cross_correlations | A_has_binned_covariance => true
  | _ => false
  end.
Definition is_contribution (a : attr) : bool :=
  match a with
  | A_has_density | A_has_rsd | A_has_lensing | A_has_d1 | A_has_d2
  | A_has_g1 | A_has_g2 | A_has_g3 | A_has_g4 | A_has_g5 => true
  | _ => false
  end.

Lemma switch_assign : forall l s, forallb is_switch l = true ->
  exists s', assign_seq (map (fun a => (a, VBool false)) l) s = (s', Ok ONone)
    /\ (forall a, In a l -> get_attr a (sp s') = VBool false)
    /\ (forall a, ~ In a l -> get_attr a (sp s') = get_attr a (sp s)).
Proof.
  induction l as [|b r IH]; intros s H.
  - exists s. split; [reflexivity|]. split; [intros a []|auto].
  - cbn [forallb] in H. apply andb_prop in H. destruct H as [H1 H2].
    assert (E : exists s1, set_attr b (VBool false) s = (s1, Ok ONone)
              /\ get_attr b (sp s1) = VBool false
              /\ forall a, a <> b -> get_attr a (sp s1) = get_attr a (sp s)).
    { destruct b; try discriminate H1; (eexists; split; [reflexivity|]; split; [reflexivity|]);
        intros [] N; try reflexivity; congruence. }
    destruct E as [s1 [E1 [G1 O1]]]. destruct (IH s1 H2) as [s' [E2 [G2 O2]]].
    exists s'. cbn [map assign_seq]. rewrite E1. split; [exact E2|]. split.
    + intros a [<-|Ha]; [|apply G2; exact Ha].
      destruct (in_dec attr_eq_dec b r) as [I|I]; [apply G2; exact I|]. rewrite O2 by exact I. exact G1.
    + intros a N. rewrite O2 by (intros I; apply N; right; exact I). apply O1. intros ->. apply N. left. reflexivity.
Qed.

Lemma has_attrs_all : forall a, In a has_attrs <-> is_switch a = true.
Proof.
  intros a. split; intros H.
  - cbn in H. repeat (destruct H as [<-|H]; [reflexivity|]). contradiction.
  - destruct a; try discriminate H; cbn; tauto.
Qed.

(** If the call returns, every switch reads False, and every other attribute reads
    what it read after the sweep over the parameters with which the call starts
    (C11). *)
Theorem C60_reset : forall s s' o, reset_contributions s = (s', Ok o) ->
  (forall a, is_switch a = true -> get_attr a (sp s') = VBool false)
  /\ (forall a, is_switch a = false -> get_attr a (sp s') = get_attr a (sp (fst (read_parameters s)))).
Proof.
  intros s s' o H.
  assert (X : (forall a, In a has_attrs -> get_attr a (sp s') = VBool false)
    /\ (forall a, ~ In a has_attrs -> get_attr a (sp s') = get_attr a (sp (fst (read_parameters s))))).
  { revert H. unfold reset_contributions.
    generalize (eq_refl : forallb is_switch has_attrs = true). generalize has_attrs.
    generalize (read_parameters s). intros [s1 [o1|e|]] l L H; try discriminate H.
    destruct (switch_assign l s1 L) as [s2 [E [G O]]]. rewrite E in H. injection H as <- <-. split; assumption. }
  destruct X as [G O]. split.
  - intros a Ha. apply G. apply has_attrs_all. exact Ha.
  - intros a Ha. apply O. intros I. apply has_attrs_all in I. congruence.
Qed.
Print Assumptions C60_reset.

(** Once the parameters could be read, the call cannot fail. *)
Theorem C60_reset_succeeds : forall s s1 o, read_parameters s = (s1, Ok o) ->
  snd (reset_contributions s) = Ok ONone.
Proof.
  intros s s1 o H. unfold reset_contributions. rewrite H. generalize (eq_refl : forallb is_switch has_attrs = true).
  generalize has_attrs. intros l L. destruct (switch_assign l s1 L) as [s2 [E _]]. rewrite E. reflexivity.
Qed.
Print Assumptions C60_reset_succeeds.

(** So a computation that follows is refused, for every kind of signal. *)
Theorem C60_nothing_left : forall cl s s' o k, reset_contributions s = (s', Ok o) ->
  coords_ok k (sp s') = true -> snd (compute_bulk cl k false s') = Raise ValueError.
Proof.
  intros cl s s' o k H C. destruct (C60_reset s s' o H) as [G _].
  unfold compute_bulk. rewrite C. cbn [negb].
  assert (A : any_contribution (sp s') = false).
  { unfold any_contribution, needs_div.
    pose proof (G A_has_density eq_refl) as G1. pose proof (G A_has_rsd eq_refl) as G2.
    pose proof (G A_has_lensing eq_refl) as G3. pose proof (G A_has_d1 eq_refl) as G4.
    pose proof (G A_has_d2 eq_refl) as G5. pose proof (G A_has_g1 eq_refl) as G6.
    pose proof (G A_has_g2 eq_refl) as G7. pose proof (G A_has_g3 eq_refl) as G8.
    pose proof (G A_has_g4 eq_refl) as G9. pose proof (G A_has_g5 eq_refl) as G10.
    cbn in *. injection G1 as ->. injection G2 as ->. injection G3 as ->. injection G4 as ->.
    injection G5 as ->. injection G6 as ->. injection G7 as ->. injection G8 as ->.
    injection G9 as ->. injection G10 as ->. reflexivity. }
  rewrite A. reflexivity.
Qed.
Print Assumptions C60_nothing_left.

Example C60_nonvacuous : exists s o,
  reset_contributions (fst (set_attr A_has_g4 (VBool true) coffe0)) = (s, Ok o)
  /\ get_attr A_has_g4 (sp (fst (set_attr A_has_g4 (VBool true) coffe0))) = VBool true.
Proof. eexists. eexists. split; vm_compute; reflexivity. Qed.

(** ** C61 The range of wavenumbers the integrals use is the one the user reads *)

(** [k_min] and [k_max] are what the attributes read; the integrals use their
    copies [k_min_norm] and [k_max_norm] (integrals.c:648-649). *)
Definition same_range (p : params) : Prop :=
  pf p F_k_min_norm = pf p F_k_min /\ pf p F_k_max_norm = pf p F_k_max.

Lemma same_range_closed : forall cl, closed cl same_range.
Proof.
  intros cl. split.
  - intros a v p p' [H1 H2] E.
    destruct (attr_eq_dec a A_k_max) as [->|N1].
    { cbn in E. unfold upd_k in E. destruct (check_num v _ _); [|discriminate]. injection E as <-. split; [exact H1|reflexivity]. }
    destruct (attr_eq_dec a A_k_min) as [->|N2].
    { cbn in E. unfold upd_k in E. destruct (check_num v _ _); [|discriminate]. injection E as <-. split; [reflexivity|exact H2]. }
    pose proof (attr_update_Put _ _ _ _ E) as W. unfold same_range.
    rewrite !(same_except_pf _ _ _ _ W) by (destruct a; (reflexivity || congruence)). split; assumption.
  - intros a v p p' e [H1 H2] E. destruct (attr_update_Part _ _ _ _ _ E) as (-> & _ & W & _).
    unfold same_range. rewrite !(same_except_pf _ _ _ _ W) by reflexivity. split; assumption.
  - intros b x p H. exact H.
  - intros p [H1 H2]. pose proof (mark_same p) as W.
    unfold same_range. rewrite !(same_except_pf _ _ _ _ W) by reflexivity. split; assumption.
  - intros p [H1 H2]. unfold clamp_k. cbv zeta.
    destruct (fltb (pf p F_k_min) _); destruct (fltb _ (pf _ F_k_max)); split; cbn in *; auto.
  - intros p k0 kn H. split; reflexivity.
Qed.

Theorem C61_wavenumber_range : forall cl l s, run cl l coffe0 = Some s ->
  VFloat (pf (sp s) F_k_min_norm) = get_attr A_k_min (sp s)
  /\ VFloat (pf (sp s) F_k_max_norm) = get_attr A_k_max (sp s).
Proof.
  intros cl l s H.
  assert (D : same_range default_params) by (split; reflexivity).
  destruct (run_P cl same_range (same_range_closed cl) l coffe0 s D H) as [H1 H2].
  cbn. rewrite H1, H2. split; reflexivity.
Qed.
Print Assumptions C61_wavenumber_range.

Example C61_nonvacuous : exists s,
  run (mkClass (fun _ => lit 1 100) (fun _ => f1) ) [OpSet A_k_max (VFloat f1)] coffe0 = Some s
  /\ get_attr A_k_max (sp s) = VFloat f1 /\ get_attr A_k_max (sp coffe0) <> VFloat f1.
Proof. eexists. split; [vm_compute; reflexivity|]. split; [vm_compute; reflexivity|vm_compute; discriminate]. Qed.
