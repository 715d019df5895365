(** * Fields that change only when they are assigned. *)
From Coq Require Import ZArith Bool List String Lia.
From Verif Require Import F64 PyParams PySet Integrals PyState PySpec PyWrites PyCoherence PyAlways.
Import ListNotations.
Open Scope Z_scope.
#[local] Arguments view : simpl never.
#[local] Arguments needs_div : simpl never.
#[local] Arguments nonlinear : simpl never.
#[local] Arguments app : simpl nomatch.

(** The attributes an operation assigns with a value of the caller's.
    Specification or proof only; nothing in the code. *)
Definition assigns (a : attr) (o : op) : Prop :=
  match o with
  | OpSet b _ => b = a
  | OpSetParameters l => exists v, In (Some a, v) l
  | OpReset => In a has_attrs
  | _ => False
  end.

Section WithClass.
Variable cl : class_lib.

(** A property of the parameters that survives everything except assignments
    of the attribute [a].  Specification or proof only; nothing in the code. *)
Record kept (a : attr) (P : params -> Prop) : Prop := {
  k_put : forall b v p p', b <> a -> P p -> attr_update b v p = Put p' -> P p';
  k_self : forall p p', P p -> attr_update a (get_attr a p) p = Put p' -> P p';
  k_part : forall b v p p' e, P p -> attr_update b v p = Part p' e -> P p';
  k_bias : forall b x p, P p -> P (setS p b x);
  k_mark : forall p, P p -> P (mark_divergent p);
  k_clamp : forall p, P p -> P (clamp_k cl p);
  k_user : forall p k0 kn, P p ->
    P (setF (setF (setF (setF p F_k_min k0) F_k_max kn) F_k_min_norm k0) F_k_max_norm kn)
}.

Section Kept.
Variable a0 : attr.
Variable P : params -> Prop.
Hypothesis HP : kept a0 P.

Let Q (s : state) : Prop := P (sp s).

Lemma set_attr_K : forall a v s, a <> a0 -> Q s -> Q (fst (set_attr a v s)).
Proof.
  intros a v s N H. unfold set_attr. destruct (attr_update a v (sp s)) eqn:E; simpl; auto.
  - exact (k_put a0 P HP _ _ _ _ N H E).
  - exact (k_part a0 P HP _ _ _ _ _ H E).
Qed.

Lemma set_self_K : forall a s, Q s -> Q (fst (set_attr a (get_attr a (sp s)) s)).
Proof.
  intros a s H. destruct (attr_eq_dec a a0) as [->|N]; [|apply set_attr_K; assumption].
  unfold set_attr. destruct (attr_update a0 _ (sp s)) eqn:E; simpl; auto.
  - exact (k_self a0 P HP _ _ H E).
  - exact (k_part a0 P HP _ _ _ _ _ H E).
Qed.

Lemma ensure_pk_K : forall rc s s', Q s -> ensure_pk cl rc s = Some s' -> Q s'.
Proof.
  intros rc s s' H E. unfold ensure_pk in E. destruct (_ && _).
  - injection E as <-. exact H.
  - unfold ps_init in E. injection E as <-. apply (k_clamp a0 P HP). exact H.
Qed.

Lemma ensure_base_K : forall rc s s', Q s -> ensure_base cl rc s = Some s' -> Q s'.
Proof.
  intros rc s s' H E. unfold ensure_base, bindo in E.
  destruct (ensure_bg rc s) as [s1|] eqn:E1; [|discriminate].
  destruct (ensure_pk cl rc s1) as [s2|] eqn:E2; [|discriminate].
  assert (H1 : Q s1) by (unfold Q; rewrite (ensure_bg_sp _ _ _ E1); exact H).
  pose proof (ensure_pk_K _ _ _ H1 E2) as H2.
  unfold ensure_int in E. destruct (_ && _).
  - injection E as <-. exact H2.
  - unfold Q. rewrite (int_init_sp _ _ E). exact H2.
Qed.

Lemma reassign_K : forall l s, Q s -> Q (fst (reassign_all l s)).
Proof.
  induction l as [|a r IH]; intros s H; [exact H|]. simpl.
  pose proof (set_self_K a s H) as H1.
  destruct (set_attr a (get_attr a (sp s)) s) as [s1 [o|[]|]]; simpl in *; auto.
Qed.

Lemma assign_K : forall l s, (forall v, ~ In (a0, v) l) -> Q s -> Q (fst (assign_seq l s)).
Proof.
  induction l as [|[a v] r IH]; intros s N H; [exact H|]. simpl.
  assert (Na : a <> a0) by (intros ->; apply (N v); left; reflexivity).
  assert (Nr : forall w, ~ In (a0, w) r) by (intros w Hw; apply (N w); right; exact Hw).
  pose proof (set_attr_K a v s Na H) as H1.
  destruct (set_attr a v s) as [s1 [o|e|]]; simpl in *; auto.
Qed.

Lemma known_in : forall l r a v, known l = Some r -> In (a, v) r -> In (Some a, v) l.
Proof.
  induction l as [|[[b|] w] l IH]; intros r a v H I; simpl in H.
  - injection H as <-. destruct I.
  - destruct (known l) as [r'|]; [|discriminate]. injection H as <-.
    destruct I as [E|I]; [injection E as <- <-; left; reflexivity|right; eauto].
  - discriminate.
Qed.

Lemma step_K : forall o s, ~ assigns a0 o -> Q s -> Q (fst (step cl o s)).
Proof.
  intros o s N H. destruct o; simpl in N |- *.
  - apply set_attr_K; [congruence|exact H].
  - unfold set_bias.
    destruct (negb (is_sorted x)); [exact H|].
    destruct (negb (Nat.eqb _ _)); [exact H|].
    destruct x as [|x0 xs]; [exact H|].
    destruct (fltb x0 f0); [exact H|].
    destruct (fltb _ _); [exact H|].
    destruct (negb (spline_ok _)); [exact H|]. apply (k_bias a0 P HP). exact H.
  - unfold set_power_spectrum.
    destruct (negb (is_sorted k)); [exact H|].
    destruct (negb (Nat.eqb _ _)); [exact H|].
    destruct k as [|k0 ks]; [exact H|]. cbv zeta.
    destruct (negb (spline_ok _)); apply (k_user a0 P HP); exact H.
  - apply reassign_K. exact H.
  - unfold set_parameters. destruct (known l) as [r|] eqn:EK; [|exact H]. apply assign_K; [|exact H].
    intros v I. apply N. exists v. exact (known_in _ _ _ _ EK I).
  - unfold reset_contributions, read_parameters.
    pose proof (reassign_K all_attrs s H) as H1.
    destruct (reassign_all all_attrs s) as [s1 [o|e|]]; simpl in H1; try exact H1.
    apply (assign_K (map (fun a => (a, VBool false)) has_attrs) s1); [|exact H1].
    intros v I. apply in_map_iff in I. destruct I as (a & E & I). injection E as -> _. exact (N I).
  - unfold background_getter. destruct (check_num z _ _); [|exact H].
    destruct (ensure_bg false s) as [s1|] eqn:E; [|exact H].
    assert (H1 : Q s1) by (unfold Q; rewrite (ensure_bg_sp _ _ _ E); exact H).
    destruct (c_bg s1); exact H1.
  - unfold maximum_separation. destruct (check_num z _ _); [|exact H].
    destruct (check_num dz _ _); [|exact H].
    destruct (ensure_bg false s) as [s1|] eqn:E; [|exact H].
    assert (H1 : Q s1) by (unfold Q; rewrite (ensure_bg_sp _ _ _ E); exact H).
    destruct (fltb _ _); [exact H1|]. destruct (c_bg s1); exact H1.
  - unfold integral_method.
    destruct (check_num r f0 (of_Z 25000)); [|exact H].
    destruct (check_int n (-2) 4); [|exact H].
    destruct (check_int l 0 4); [|exact H].
    destruct (ensure_base cl false s) as [s1|] eqn:E1; [|exact H].
    pose proof (ensure_base_K false s s1 H E1) as H1.
    destruct (c_int s1) as [ic|]; [|exact H1].
    cbv zeta. destruct (has_key _ _); exact H1.
  - unfold spectrum_method.
    destruct (check_num k _ _); [|exact H].
    destruct (check_num z1 _ _); [|exact H].
    destruct (check_num z2 _ _); [|exact H].
    unfold bindo.
    destruct (ensure_pk cl false s) as [s1|] eqn:E1; [|exact H].
    destruct (ensure_bg false s1) as [s2|] eqn:E2; [|exact H].
    assert (H2 : Q s2).
    { unfold Q. rewrite (ensure_bg_sp _ _ _ E2). apply (ensure_pk_K _ _ _ H E1). }
    destruct (c_pk s2); [|exact H2]. destruct (c_bg s2); [|exact H2].
    destruct (negb _); [exact H2|]. destruct (_ && _ && _); exact H2.
  - unfold compute_point.
    destruct (negb (coords_ok k (sp s))); [exact H|].
    destruct (negb (any_contribution (sp s))); [exact H|].
    assert (H0 : Q (setP s (mark_divergent (sp s)))) by (apply (k_mark a0 P HP); exact H).
    set (s0 := setP s (mark_divergent (sp s))) in *. cbv zeta.
    destruct (ensure_base cl rc s0) as [s1|] eqn:E1; [|exact H0].
    pose proof (ensure_base_K rc s0 s1 H0 E1) as H1.
    destruct (check_point k z r m) as [[pt ells]|]; [|exact H1].
    destruct (sig_value k ells signal_fields s1); exact H1.
  - unfold compute_bulk.
    destruct (negb (coords_ok k (sp s))); [exact H|].
    destruct (negb (any_contribution (sp s))); [exact H|].
    assert (H0 : Q (setP s (mark_divergent (sp s)))) by (apply (k_mark a0 P HP); exact H).
    set (s0 := setP s (mark_divergent (sp s))) in *. cbv zeta. unfold bindo.
    destruct (ensure_base cl rc s0) as [s1|] eqn:E1; [|exact H0].
    destruct (ensure_sig k rc s1) as [s2|] eqn:E2; [|exact H0].
    pose proof (ensure_base_K rc s0 s1 H0 E1) as H1.
    assert (H2 : Q s2).
    { unfold ensure_sig in E2. destruct (_ && _).
      - injection E2 as <-. exact H1.
      - unfold Q. rewrite (sig_init_sp _ _ _ E2). exact H1. }
    destruct (c_sig s2 k); exact H2.
  - unfold compute_cov.
    destruct (negb (coords_ok SMult (sp s))); [exact H|].
    destruct (negb (any_contribution (sp s))); [exact H|].
    assert (H0 : Q (setP s (mark_divergent (sp s)))) by (apply (k_mark a0 P HP); exact H).
    set (s0 := setP s (mark_divergent (sp s))) in *. cbv zeta.
    destruct (negb (cov_lengths_ok k (sp s))); [exact H0|]. unfold bindo.
    destruct (ensure_pk cl rc s0) as [s1|] eqn:E1; [|exact H0].
    destruct (ensure_bg rc s1) as [s2|] eqn:E2; [|exact H0].
    assert (H2 : Q s2).
    { unfold Q. rewrite (ensure_bg_sp _ _ _ E2). apply (ensure_pk_K _ _ _ H0 E1). }
    destruct (check_bins (cov_bins k (sp s2))) as [[]|]; try exact H2.
    unfold ensure_cov. destruct (is_some (c_cov s2 k) && negb rc).
    + destruct (c_cov s2 k); exact H2.
    + destruct (cov_init k s2) as [s3|] eqn:E3; [|exact H2].
      assert (H3 : Q s3) by (unfold Q; rewrite (cov_init_sp _ _ _ E3); exact H2).
      destruct (c_cov s3 k); exact H3.
Qed.

Theorem run_K : forall l s s',
  Forall (fun o => ~ assigns a0 o) l -> P (sp s) -> run cl l s = Some s' -> P (sp s').
Proof.
  induction l as [|o r IH]; intros s s' F H Hr; simpl in Hr.
  - injection Hr as <-. exact H.
  - inversion F as [|? ? N F']; subst. pose proof (step_K o s N H) as H1.
    destruct (step cl o s) as [s1 [ov|e|]]; simpl in *; try discriminate; eauto.
Qed.
End Kept.

(** A [double] that the library does not write and whose re-assignment is
    harmless. *)
Lemma kept_float : forall a k x,
  memb (FF k) lib_fields = false ->
  (forall b, b <> a -> memb (FF k) (attr_writes b) = false) ->
  (forall p p', attr_update a (get_attr a p) p = Put p' -> pf p' k = pf p k) ->
  kept a (fun p => pf p k = x).
Proof.
  intros a k x HL HW HS.
  assert (HM : forall w p p', same_except w p' p -> (forall y, In y w -> In y lib_fields) ->
                 pf p k = x -> pf p' k = x).
  { intros w p p' W I H. rewrite (same_except_pf w p' p k W); [exact H|].
    destruct (memb (FF k) w) eqn:E; [|reflexivity].
    apply memb_In in E. apply I in E. apply memb_In in E. congruence. }
  split.
  - intros b v p p' N H E. rewrite (same_except_pf _ _ _ k (attr_update_Put _ _ _ _ E)); auto.
  - intros p p' H E. rewrite (HS _ _ E). exact H.
  - intros b v p p' e H E. destruct (attr_update_Part _ _ _ _ _ E) as (-> & _ & W & _).
    apply (HM _ p p' W); [|exact H]. intros y [<-|[]]. left. reflexivity.
  - intros b y p H. apply (HM _ p _ (setS_same p b y)); [|exact H].
    intros z [<-|[]]. apply memb_In. destruct b; reflexivity.
  - intros p H. apply (HM _ p _ (mark_same p)); [|exact H].
    intros z [<-|[]]. apply memb_In. reflexivity.
  - intros p H. apply (HM _ p _ (clamp_same cl p)); [|exact H].
    intros z I. apply memb_In. revert z I. unfold k_range. intros z [<-|[<-|[<-|[<-|[]]]]]; reflexivity.
  - intros p k0 kn H. apply (HM k_range p); [|
      intros z I; apply memb_In; revert z I; unfold k_range;
      intros z [<-|[<-|[<-|[<-|[]]]]]; reflexivity|exact H].
    unfold k_range. updates.
Qed.
End WithClass.
