(** * Facts that hold along every history, with no restriction on it. *)
From Coq Require Import ZArith Bool List String Lia.
From Verif Require Import F64 PyParams PySet Integrals PyState PySpec PyWrites PyCoherence.
Import ListNotations.
Open Scope Z_scope.
#[local] Arguments view : simpl never.
#[local] Arguments needs_div : simpl never.
#[local] Arguments nonlinear : simpl never.
#[local] Arguments app : simpl nomatch.

Section WithClass.
Variable cl : class_lib.

(** ** Invariants of the parameters alone *)

(** A property of the parameters that survives every way the object has of
    changing them.  Specification or proof only; nothing in the code. *)
Record closed (P : params -> Prop) : Prop := {
  cl_put : forall a v p p', P p -> attr_update a v p = Put p' -> P p';
  cl_part : forall a v p p' e, P p -> attr_update a v p = Part p' e -> P p';
  cl_bias : forall b x p, P p -> P (setS p b x);
  cl_mark : forall p, P p -> P (mark_divergent p);
  cl_clamp : forall p, P p -> P (clamp_k cl p);
  cl_user : forall p k0 kn, P p ->
    P (setF (setF (setF (setF p F_k_min k0) F_k_max kn) F_k_min_norm k0) F_k_max_norm kn)
}.

Section Closed.
Variable P : params -> Prop.
Hypothesis HP : closed P.

Let Q (s : state) : Prop := P (sp s).

Lemma set_attr_P : forall a v s, Q s -> Q (fst (set_attr a v s)).
Proof.
  intros a v s H. unfold set_attr. destruct (attr_update a v (sp s)) eqn:E; simpl; auto.
  - exact (cl_put P HP _ _ _ _ H E).
  - exact (cl_part P HP _ _ _ _ _ H E).
Qed.

Lemma bg_init_sp : forall s s', bg_init s = Some s' -> sp s' = sp s.
Proof. intros s s' H. unfold bg_init in H. destruct (_ <? 5); [discriminate|]. injection H as <-. reflexivity. Qed.

Lemma ensure_bg_sp : forall rc s s', ensure_bg rc s = Some s' -> sp s' = sp s.
Proof.
  intros rc s s' H. unfold ensure_bg in H. destruct (_ && _);
    [injection H as <-; reflexivity|apply bg_init_sp; exact H].
Qed.

Lemma ensure_pk_P : forall rc s s', Q s -> ensure_pk cl rc s = Some s' -> Q s'.
Proof.
  intros rc s s' H E. unfold ensure_pk in E. destruct (_ && _).
  - injection E as <-. exact H.
  - unfold ps_init in E. injection E as <-. apply (cl_clamp P HP). exact H.
Qed.

Lemma int_init_sp : forall s s', int_init s = Some s' -> sp s' = sp s.
Proof.
  intros s s' H. unfold int_init in H.
  destruct (c_pk s); [|discriminate]. destruct (c_bg s); [|discriminate].
  repeat match type of H with (if ?b then _ else _) = _ => destruct b; [discriminate|] end.
  injection H as <-. reflexivity.
Qed.

Lemma ensure_base_P : forall rc s s', Q s -> ensure_base cl rc s = Some s' -> Q s'.
Proof.
  intros rc s s' H E. unfold ensure_base, bindo in E.
  destruct (ensure_bg rc s) as [s1|] eqn:E1; [|discriminate].
  destruct (ensure_pk cl rc s1) as [s2|] eqn:E2; [|discriminate].
  assert (H1 : Q s1) by (unfold Q; rewrite (ensure_bg_sp _ _ _ E1); exact H).
  pose proof (ensure_pk_P _ _ _ H1 E2) as H2.
  unfold ensure_int in E. destruct (_ && _).
  - injection E as <-. exact H2.
  - unfold Q. rewrite (int_init_sp _ _ E). exact H2.
Qed.

Lemma sig_init_sp : forall k s s', sig_init k s = Some s' -> sp s' = sp s.
Proof. intros k s s' H. destruct (sig_init_form k s s' H) as [r ->]. reflexivity. Qed.

Lemma cov_init_sp : forall k s s', cov_init k s = Some s' -> sp s' = sp s.
Proof.
  intros k s s' H. unfold cov_init in H.
  destruct (c_bg s); [|discriminate]. destruct (c_pk s); [|discriminate].
  match type of H with (if ?b then _ else _) = _ => destruct b; [discriminate|] end.
  injection H as <-. reflexivity.
Qed.

Lemma reassign_P : forall l s, Q s -> Q (fst (reassign_all l s)).
Proof.
  induction l as [|a r IH]; intros s H; [exact H|]. simpl.
  pose proof (set_attr_P a (get_attr a (sp s)) s H) as H1.
  destruct (set_attr a (get_attr a (sp s)) s) as [s1 [o|[]|]]; simpl in *; auto.
Qed.

Lemma assign_P : forall l s, Q s -> Q (fst (assign_seq l s)).
Proof.
  induction l as [|[a v] r IH]; intros s H; [exact H|]. simpl.
  pose proof (set_attr_P a v s H) as H1.
  destruct (set_attr a v s) as [s1 [o|e|]]; simpl in *; auto.
Qed.

Lemma step_P : forall o s, Q s -> Q (fst (step cl o s)).
Proof.
  intros o s H. destruct o; simpl.
  - apply set_attr_P. exact H.
  - unfold set_bias.
    destruct (negb (is_sorted x)); [exact H|].
    destruct (negb (Nat.eqb _ _)); [exact H|].
    destruct x as [|x0 xs]; [exact H|].
    destruct (fltb x0 f0); [exact H|].
    destruct (fltb _ _); [exact H|].
    destruct (negb (spline_ok _)); [exact H|]. apply (cl_bias P HP). exact H.
  - unfold set_power_spectrum.
    destruct (negb (is_sorted k)); [exact H|].
    destruct (negb (Nat.eqb _ _)); [exact H|].
    destruct k as [|k0 ks]; [exact H|]. cbv zeta.
    destruct (negb (spline_ok _)); apply (cl_user P HP); exact H.
  - apply reassign_P. exact H.
  - unfold set_parameters. destruct (known l); [|exact H]. apply assign_P. exact H.
  - unfold reset_contributions, read_parameters.
    pose proof (reassign_P all_attrs s H) as H1.
    destruct (reassign_all all_attrs s) as [s1 [o|e|]]; simpl in H1; try exact H1.
    apply (assign_P (map (fun a => (a, VBool false)) has_attrs) s1 H1).
  - unfold background_getter. destruct (check_num z _ _); [|exact H].
    destruct (ensure_bg false s) as [s1|] eqn:E; [|exact H].
    assert (H1 : Q s1) by (unfold Q; rewrite (ensure_bg_sp _ _ _ E); exact H).
    destruct (c_bg s1); exact H1.
  - unfold maximum_separation. destruct (check_num z _ _); [|exact H].
    destruct (check_num dz _ _); [|exact H].
    destruct (ensure_bg false s) as [s1|] eqn:E; [|exact H].
    assert (H1 : Q s1) by (unfold Q; rewrite (ensure_bg_sp _ _ _ E); exact H).
    destruct (fltb _ _); [exact H1|]. destruct (c_bg s1); exact H1.
  - unfold integral_method.
    destruct (check_num r f0 (of_Z 25000)); [|exact H].
    destruct (check_int n (-2) 4); [|exact H].
    destruct (check_int l 0 4); [|exact H].
    destruct (ensure_base cl false s) as [s1|] eqn:E1; [|exact H].
    pose proof (ensure_base_P false s s1 H E1) as H1.
    destruct (c_int s1) as [ic|]; [|exact H1].
    cbv zeta. destruct (has_key _ _); exact H1.
  - unfold spectrum_method.
    destruct (check_num k _ _); [|exact H].
    destruct (check_num z1 _ _); [|exact H].
    destruct (check_num z2 _ _); [|exact H].
    unfold bindo.
    destruct (ensure_pk cl false s) as [s1|] eqn:E1; [|exact H].
    destruct (ensure_bg false s1) as [s2|] eqn:E2; [|exact H].
    assert (H2 : Q s2).
    { unfold Q. rewrite (ensure_bg_sp _ _ _ E2). apply (ensure_pk_P _ _ _ H E1). }
    destruct (c_pk s2); [|exact H2]. destruct (c_bg s2); [|exact H2].
    destruct (negb _); [exact H2|]. destruct (_ && _ && _); exact H2.
  - unfold compute_point.
    destruct (negb (coords_ok k (sp s))); [exact H|].
    destruct (negb (any_contribution (sp s))); [exact H|].
    assert (H0 : Q (setP s (mark_divergent (sp s)))) by (apply (cl_mark P HP); exact H).
    set (s0 := setP s (mark_divergent (sp s))) in *. cbv zeta.
    destruct (ensure_base cl rc s0) as [s1|] eqn:E1; [|exact H0].
    pose proof (ensure_base_P rc s0 s1 H0 E1) as H1.
    destruct (check_point k z r m) as [[pt ells]|]; [|exact H1].
    destruct (sig_value k ells signal_fields s1); exact H1.
  - unfold compute_bulk.
    destruct (negb (coords_ok k (sp s))); [exact H|].
    destruct (negb (any_contribution (sp s))); [exact H|].
    assert (H0 : Q (setP s (mark_divergent (sp s)))) by (apply (cl_mark P HP); exact H).
    set (s0 := setP s (mark_divergent (sp s))) in *. cbv zeta. unfold bindo.
    destruct (ensure_base cl rc s0) as [s1|] eqn:E1; [|exact H0].
    destruct (ensure_sig k rc s1) as [s2|] eqn:E2; [|exact H0].
    pose proof (ensure_base_P rc s0 s1 H0 E1) as H1.
    assert (H2 : Q s2).
    { unfold ensure_sig in E2. destruct (_ && _).
      - injection E2 as <-. exact H1.
      - unfold Q. rewrite (sig_init_sp _ _ _ E2). exact H1. }
    destruct (c_sig s2 k); exact H2.
  - unfold compute_cov.
    destruct (negb (coords_ok SMult (sp s))); [exact H|].
    destruct (negb (any_contribution (sp s))); [exact H|].
    assert (H0 : Q (setP s (mark_divergent (sp s)))) by (apply (cl_mark P HP); exact H).
    set (s0 := setP s (mark_divergent (sp s))) in *. cbv zeta.
    destruct (negb (cov_lengths_ok k (sp s))); [exact H0|]. unfold bindo.
    destruct (ensure_pk cl rc s0) as [s1|] eqn:E1; [|exact H0].
    destruct (ensure_bg rc s1) as [s2|] eqn:E2; [|exact H0].
    assert (H2 : Q s2).
    { unfold Q. rewrite (ensure_bg_sp _ _ _ E2). apply (ensure_pk_P _ _ _ H0 E1). }
    destruct (check_bins (cov_bins k (sp s2))) as [[]|]; try exact H2.
    unfold ensure_cov. destruct (is_some (c_cov s2 k) && negb rc).
    + destruct (c_cov s2 k); exact H2.
    + destruct (cov_init k s2) as [s3|] eqn:E3; [|exact H2].
      assert (H3 : Q s3) by (unfold Q; rewrite (cov_init_sp _ _ _ E3); exact H2).
      destruct (c_cov s3 k); exact H3.
Qed.

Theorem run_P : forall l s s', P (sp s) -> run cl l s = Some s' -> P (sp s').
Proof.
  induction l as [|o r IH]; intros s s' H Hr; simpl in Hr.
  - injection Hr as <-. exact H.
  - pose proof (step_P o s H) as H1.
    destruct (step cl o s) as [s1 [ov|e|]]; simpl in *; try discriminate; eauto.
Qed.
End Closed.

(** Fields written by the library itself. *)
Lemma closed_same : forall (P : params -> Prop) (w : list field),
  (forall p p', same_except w p' p -> P p -> P p') ->
  (forall a v p p', P p -> attr_update a v p = Put p' -> P p') ->
  memb (FF F_m_ncdm) w = true ->
  memb (FB B_divergent) w = true ->
  forallb (fun x => memb x w) k_range = true ->
  (forall b, memb (FS b) w = true) ->
  closed P.
Proof.
  intros P w HW HPut M1 M2 M3 M4.
  assert (I3 : forall x, In x k_range -> In x w).
  { intros x Hx. rewrite forallb_forall in M3. apply memb_In. apply M3. exact Hx. }
  split.
  - exact HPut.
  - intros a v p p' e H E. destruct (attr_update_Part _ _ _ _ _ E) as (-> & _ & W & _).
    apply (HW p p'); [|exact H]. apply (same_except_incl [FF F_m_ncdm]); [exact W|].
    intros x [<-|[]]. apply memb_In. exact M1.
  - intros b x p H. apply (HW p); [|exact H].
    apply (same_except_incl [FS b]); [apply setS_same|]. intros y [<-|[]]. apply memb_In. apply M4.
  - intros p H. apply (HW p); [|exact H]. apply (same_except_incl [FB B_divergent]); [apply mark_same|].
    intros y [<-|[]]. apply memb_In. exact M2.
  - intros p H. apply (HW p); [|exact H]. apply (same_except_incl k_range); [apply clamp_same|exact I3].
  - intros p k0 kn H. apply (HW p); [|exact H]. apply (same_except_incl k_range); [|exact I3].
    unfold k_range. updates.
Qed.

(** ** Output type and amplitude *)
(** Specification or proof only; nothing in the code. *)
Definition basic (p : params) : Prop :=
  pi p I_output_type = out_MULTIPOLES /\
  (fltb (pf p F_A_s) m100 = false /\ fltb p100 (pf p F_A_s) = false).

Definition lib_fields : list field :=
  [FF F_m_ncdm; FB B_divergent; FF F_k_min; FF F_k_max; FF F_k_min_norm; FF F_k_max_norm;
   FS S_galaxy_bias1; FS S_galaxy_bias2; FS S_galaxy_bias3; FS S_galaxy_bias4;
   FS S_magnification_bias1; FS S_magnification_bias2; FS S_evolution_bias1; FS S_evolution_bias2].

Lemma basic_closed : closed basic.
Proof.
  apply (closed_same basic lib_fields); try reflexivity.
  - intros p p' W [H1 H2]. unfold basic.
    rewrite (same_except_pi _ _ _ I_output_type W eq_refl), (same_except_pf _ _ _ F_A_s W eq_refl). auto.
  - intros a v p p' [H1 H2] E. pose proof (attr_update_Put _ _ _ _ E) as W. split.
    + rewrite (same_except_pi _ _ _ I_output_type W); [exact H1|]. destruct a; reflexivity.
    + destruct (attr_eq_dec a A_A_s) as [->|Hn].
      * simpl in E. destruct (check_num v m100 p100) eqn:C; [|discriminate].
        injection E as <-. simpl. apply (in_range_As v). exact C.
      * rewrite (same_except_pf _ _ _ F_A_s W); [exact H2|]. destruct a; try reflexivity. congruence.
  - intros []; reflexivity.
Qed.

Lemma basic_coffe0 : basic default_params.
Proof. repeat split; vm_compute; reflexivity. Qed.

Lemma run_basic : forall l s, run cl l coffe0 = Some s -> basic (sp s).
Proof. intros l s H. exact (run_P basic basic_closed l coffe0 s basic_coffe0 H). Qed.

(** ** recompute=True is coherent after every history *)

(** Specification or proof only; nothing in the code. *)
Definition bare (s : state) : state := init_state (sp s).

Lemma ensure_base_true_bare : forall s s',
  ensure_base cl true s = Some s' ->
  ensure_base cl true (bare s) =
    Some (mkState (sp s') (c_bg s') (c_pk s') (c_cls s') (c_int s') (fun _ => None) (fun _ => None)).
Proof.
  intros s s' H. unfold ensure_base, bindo in *.
  rewrite ensure_bg_true in *. unfold bg_init in *. simpl sp.
  destruct (_ <? 5); [discriminate|].
  rewrite ensure_pk_true in *. unfold ps_init in *. simpl.
  rewrite ensure_int_true in *. unfold int_init in *. simpl in *.
  repeat match type of H with (if ?b then _ else _) = _ => destruct b; [discriminate|] end.
  injection H as <-. reflexivity.
Qed.

Lemma sig_init_bare : forall k s s2,
  sig_init k s = Some s2 ->
  exists r, c_sig s2 k = Some r /\ sp s2 = sp s /\ c_pk s2 = c_pk s /\
  sig_init k (mkState (sp s) (c_bg s) (c_pk s) (c_cls s) (c_int s) (fun _ => None) (fun _ => None))
   = Some (mkState (sp s) (c_bg s) (c_pk s) (c_cls s) (c_int s)
        (fun k' => if sigkind_beq k k' then Some r else None) (fun _ => None)).
Proof.
  intros k s s2 H. assert (Ek : sigkind_beq k k = true) by (destruct k; reflexivity).
  assert (EV : forall e f, sig_value k e f (mkState (sp s) (c_bg s) (c_pk s) (c_cls s) (c_int s) (fun _ => None) (fun _ => None))
          = sig_value k e f s) by reflexivity.
  unfold sig_init in *. simpl sp.
  destruct k; repeat match type of H with
    | (if ?b then _ else _) = _ => destruct b; [discriminate|] end;
    rewrite EV; destruct (sig_value _ _ _ s); try discriminate; injection H as <-;
    eexists; repeat split; reflexivity.
Qed.

(** A call with recompute=True acts on a used object as on a new one with the
    same parameters. *)
Theorem recompute_bulk_fresh : forall k s s' r,
  compute_bulk cl k true s = (s', r) -> r <> Crash ->
  exists s2, compute_bulk cl k true (init_state (sp s)) = (s2, r) /\ sp s2 = sp s'
    /\ user_spectrum s2 = match r with Ok _ => user_spectrum s' | _ => None end.
Proof.
  intros k s s' r H Hr. unfold compute_bulk in *. simpl sp.
  destruct (negb (coords_ok k (sp s))); [injection H as <- <-; eexists; repeat split|].
  destruct (negb (any_contribution (sp s))); [injection H as <- <-; eexists; repeat split|].
  cbv zeta in *. unfold bindo in *.
  destruct (ensure_base cl true (setP s (mark_divergent (sp s)))) as [s1|] eqn:E1;
    [|injection H as <- <-; congruence].
  pose proof (ensure_base_true_bare _ _ E1) as F1. unfold bare in F1.
  change (setP (init_state (sp s)) (mark_divergent (sp s)))
    with (init_state (sp (setP s (mark_divergent (sp s))))).
  rewrite F1. unfold ensure_sig in *. rewrite andb_false_r in *.
  destruct (sig_init k s1) as [s2|] eqn:E2; [|injection H as <- <-; congruence].
  destruct (sig_init_bare k s1 s2 E2) as (v & V1 & V2 & V3 & V4).
  rewrite V1 in H. injection H as <- <-. rewrite V4. simpl c_sig.
  assert (Ek : sigkind_beq k k = true) by (destruct k; reflexivity). rewrite Ek.
  eexists. split; [reflexivity|]. simpl. split; [congruence|].
  unfold user_spectrum. simpl. rewrite V3. reflexivity.
Qed.

Theorem recompute_bulk_coherent : forall k l s s' r,
  run cl l coffe0 = Some s -> compute_bulk cl k true s = (s', r) -> r <> Crash ->
  exists q s2, could_have_entered q (sp s') /\
    compute_bulk cl k false (fresh_object q None) = (s2, r) /\
    same_except [FB B_divergent] (sp s2) (sp s').
Proof.
  intros k l s s' r Hl H Hr. pose proof (run_basic l s Hl) as [B1 B2].
  destruct (recompute_bulk_fresh k s s' r H Hr) as (s2 & E & P & U).
  pose proof (Inv_init cl k (sp s) B1 B2) as I0.
  destruct (bulk_coherent cl k _ true s2 r I0 E Hr) as (q & s3 & C1 & C2 & C3).
  exists q, s3. rewrite P in *. split; [exact C1|]. split; [|exact C3].
  assert (U2 : user_spectrum s2 = None).
  { unfold compute_bulk in E. simpl sp in E.
    destruct (negb (coords_ok k (sp s))); [injection E as <- <-; reflexivity|].
    destruct (negb (any_contribution (sp s))); [injection E as <- <-; reflexivity|].
    cbv zeta in E. unfold bindo in E.
    destruct (ensure_base cl true _) as [s4|] eqn:E1; [|injection E as <- <-; congruence].
    unfold ensure_sig in E. rewrite andb_false_r in E.
    destruct (sig_init k s4) as [s5|] eqn:E2; [|injection E as <- <-; congruence].
    assert (U4 : user_spectrum s4 = None).
    { clear - E1. unfold ensure_base, bindo in E1.
      rewrite ensure_bg_true in E1. unfold bg_init in E1. destruct (_ <? 5); [discriminate|].
      rewrite ensure_pk_true in E1. unfold ps_init in E1. rewrite ensure_int_true in E1.
      unfold int_init in E1. simpl in E1.
      repeat match type of E1 with (if ?b then _ else _) = _ => destruct b; [discriminate|] end.
      injection E1 as <-. reflexivity. }
    destruct (sig_init_form _ _ _ E2) as [v ->].
    destruct (c_sig (set_sig s4 k v) k); injection E as <- <-; exact U4. }
  rewrite U2 in C2. exact C2.
Qed.

(** ** The background is never stale *)

(** Specification or proof only; nothing in the code. *)
Definition bg_current (s : state) : Prop :=
  forall b, c_bg s = Some b -> bg_core b = view (sp s) bg_core_fields /\
    (pi (sp s) I_background_bins <? 5) = false.

Lemma same_core : forall s p w, bg_current s -> same_except w p (sp s) ->
  disjointb w bg_core_fields = true -> bg_current (setP s p).
Proof.
  intros s p w H W D b Hb. simpl in Hb |- *.
  rewrite (same_except_view _ _ _ _ W D), (same_except_pi _ _ _ I_background_bins W);
    [|apply (disjoint_memb _ _ _ D); reflexivity]. apply H. exact Hb.
Qed.

Lemma set_attr_bg : forall a v s, bg_current s -> bg_current (fst (set_attr a v s)).
Proof.
  intros a v s H. unfold set_attr.
  destruct (attr_update a v (sp s)) as [|p'|e|p' e] eqn:E; simpl; try exact H.
  - pose proof (attr_update_Put _ _ _ _ E) as W. intros b Hb. simpl in *.
    destruct (dropped (attr_frees a) CBg) eqn:Ed; [discriminate|].
    assert (D : disjointb (attr_writes a) bg_core_fields = true)
      by (clear - Ed; destruct a; try reflexivity; discriminate).
    rewrite (same_except_view _ _ _ _ W D), (same_except_pi _ _ _ I_background_bins W);
      [|apply (disjoint_memb _ _ _ D); reflexivity]. apply H. exact Hb.
  - destruct (attr_update_Part _ _ _ _ _ E) as (-> & Hh & W & ->).
    apply (same_core s p' _ H W). reflexivity.
Qed.

Lemma bg_init_current : forall s s', bg_init s = Some s' -> bg_current s'.
Proof.
  intros s s' H. unfold bg_init in H. destruct (_ <? 5) eqn:E; [discriminate|]. injection H as <-.
  intros b Hb. simpl in Hb. injection Hb as <-. split; [reflexivity|exact E].
Qed.

Lemma ensure_bg_current : forall rc s s', bg_current s -> ensure_bg rc s = Some s' -> bg_current s'.
Proof.
  intros rc s s' H E. unfold ensure_bg in E. destruct (_ && _).
  - injection E as <-. exact H.
  - apply (bg_init_current s). exact E.
Qed.

Lemma ensure_pk_current : forall rc s s', bg_current s -> ensure_pk cl rc s = Some s' -> bg_current s'.
Proof.
  intros rc s s' H E. unfold ensure_pk in E. destruct (_ && _).
  - injection E as <-. exact H.
  - unfold ps_init in E. injection E as <-. intros b Hb. simpl in *.
    rewrite (same_except_view _ _ _ bg_core_fields (clamp_same cl (sp s)) eq_refl),
      (same_except_pi _ _ _ I_background_bins (clamp_same cl (sp s)) eq_refl). apply H. exact Hb.
Qed.

Lemma int_init_current : forall s s', bg_current s -> int_init s = Some s' -> bg_current s'.
Proof.
  intros s s' H E. unfold int_init in E.
  destruct (c_pk s); [|discriminate]. destruct (c_bg s) eqn:Eb; [|discriminate].
  repeat match type of E with (if ?b then _ else _) = _ => destruct b; [discriminate|] end.
  injection E as <-. intros b' Hb. simpl in *. apply H. congruence.
Qed.

Lemma ensure_base_current : forall rc s s', bg_current s -> ensure_base cl rc s = Some s' -> bg_current s'.
Proof.
  intros rc s s' H E. unfold ensure_base, bindo in E.
  destruct (ensure_bg rc s) as [s1|] eqn:E1; [|discriminate].
  destruct (ensure_pk cl rc s1) as [s2|] eqn:E2; [|discriminate].
  pose proof (ensure_bg_current _ _ _ H E1) as H1.
  pose proof (ensure_pk_current _ _ _ H1 E2) as H2.
  unfold ensure_int in E. destruct (_ && _).
  - injection E as <-. exact H2.
  - apply (int_init_current s2); assumption.
Qed.

Lemma mark_current : forall s, bg_current s -> bg_current (setP s (mark_divergent (sp s))).
Proof. intros s H. apply (same_core s _ [FB B_divergent] H (mark_same _) eq_refl). Qed.

Lemma set_sig_current : forall s k r, bg_current s -> bg_current (set_sig s k r).
Proof. intros s k r H b Hb. apply H. exact Hb. Qed.

Lemma cov_init_current : forall k s s', bg_current s -> cov_init k s = Some s' -> bg_current s'.
Proof.
  intros k s s' H E. unfold cov_init in E.
  destruct (c_bg s) eqn:Eb; [|discriminate]. destruct (c_pk s); [|discriminate].
  match type of E with (if ?b then _ else _) = _ => destruct b; [discriminate|] end.
  injection E as <-. intros b' Hb. simpl in *. apply H. congruence.
Qed.

Lemma reassign_bg : forall l s, bg_current s -> bg_current (fst (reassign_all l s)).
Proof.
  induction l as [|a r IH]; intros s H; [exact H|]. simpl.
  pose proof (set_attr_bg a (get_attr a (sp s)) s H) as H1.
  destruct (set_attr a (get_attr a (sp s)) s) as [s1 [o|[]|]]; simpl in *; auto.
Qed.

Lemma assign_bg : forall l s, bg_current s -> bg_current (fst (assign_seq l s)).
Proof.
  induction l as [|[a v] r IH]; intros s H; [exact H|]. simpl.
  pose proof (set_attr_bg a v s H) as H1.
  destruct (set_attr a v s) as [s1 [o|e|]]; simpl in *; auto.
Qed.

Theorem step_bg_current : forall o s, bg_current s -> bg_current (fst (step cl o s)).
Proof.
  intros o s H. destruct o; simpl.
  - apply set_attr_bg. exact H.
  - unfold set_bias.
    destruct (negb (is_sorted x)); [exact H|].
    destruct (negb (Nat.eqb _ _)); [exact H|].
    destruct x as [|x0 xs]; [exact H|].
    destruct (fltb x0 f0); [exact H|].
    destruct (fltb _ _); [exact H|].
    destruct (negb (spline_ok _)); [exact H|]. intros b Hb. simpl in *. apply H. exact Hb.
  - unfold set_power_spectrum.
    destruct (negb (is_sorted k)); [exact H|].
    destruct (negb (Nat.eqb _ _)); [exact H|].
    destruct k as [|k0 ks]; [exact H|]. cbv zeta.
    set (p := setF _ F_k_max_norm _).
    assert (W : same_except k_range p (sp s)) by (unfold p, k_range; simpl; updates).
    destruct (negb (spline_ok _)); intros b Hb; simpl in *;
      rewrite (same_except_view _ _ _ bg_core_fields W eq_refl); apply H; exact Hb.
  - apply reassign_bg. exact H.
  - unfold set_parameters. destruct (known l); [|exact H]. apply assign_bg. exact H.
  - unfold reset_contributions, read_parameters.
    pose proof (reassign_bg all_attrs s H) as H1.
    destruct (reassign_all all_attrs s) as [s1 [o|e|]]; simpl in H1; try exact H1.
    apply (assign_bg (map (fun a => (a, VBool false)) has_attrs) s1 H1).
  - unfold background_getter. destruct (check_num z _ _); [|exact H].
    destruct (ensure_bg false s) as [s1|] eqn:E; [|exact H].
    pose proof (ensure_bg_current _ _ _ H E) as H1. destruct (c_bg s1); exact H1.
  - unfold maximum_separation. destruct (check_num z _ _); [|exact H].
    destruct (check_num dz _ _); [|exact H].
    destruct (ensure_bg false s) as [s1|] eqn:E; [|exact H].
    pose proof (ensure_bg_current _ _ _ H E) as H1.
    destruct (fltb _ _); [exact H1|]. destruct (c_bg s1); exact H1.
  - unfold integral_method.
    destruct (check_num r f0 (of_Z 25000)); [|exact H].
    destruct (check_int n (-2) 4); [|exact H].
    destruct (check_int l 0 4); [|exact H].
    destruct (ensure_base cl false s) as [s1|] eqn:E1; [|exact H].
    pose proof (ensure_base_current _ _ _ H E1) as H1.
    destruct (c_int s1) as [ic|]; [|exact H1].
    cbv zeta. destruct (has_key _ _); exact H1.
  - unfold spectrum_method.
    destruct (check_num k _ _); [|exact H].
    destruct (check_num z1 _ _); [|exact H].
    destruct (check_num z2 _ _); [|exact H].
    unfold bindo.
    destruct (ensure_pk cl false s) as [s1|] eqn:E1; [|exact H].
    destruct (ensure_bg false s1) as [s2|] eqn:E2; [|exact H].
    pose proof (ensure_bg_current _ _ _ (ensure_pk_current _ _ _ H E1) E2) as H2.
    destruct (c_pk s2); [|exact H2]. destruct (c_bg s2); [|exact H2].
    destruct (negb _); [exact H2|]. destruct (_ && _ && _); exact H2.
  - unfold compute_point.
    destruct (negb (coords_ok k (sp s))); [exact H|].
    destruct (negb (any_contribution (sp s))); [exact H|].
    pose proof (mark_current s H) as H0.
    set (s0 := setP s (mark_divergent (sp s))) in *. cbv zeta.
    destruct (ensure_base cl rc s0) as [s1|] eqn:E1; [|exact H0].
    pose proof (ensure_base_current _ _ _ H0 E1) as H1.
    destruct (check_point k z r m) as [[pt ells]|]; [|exact H1].
    destruct (sig_value k ells signal_fields s1); exact H1.
  - unfold compute_bulk.
    destruct (negb (coords_ok k (sp s))); [exact H|].
    destruct (negb (any_contribution (sp s))); [exact H|].
    pose proof (mark_current s H) as H0.
    set (s0 := setP s (mark_divergent (sp s))) in *. cbv zeta. unfold bindo.
    destruct (ensure_base cl rc s0) as [s1|] eqn:E1; [|exact H0].
    destruct (ensure_sig k rc s1) as [s2|] eqn:E2; [|exact H0].
    pose proof (ensure_base_current _ _ _ H0 E1) as H1.
    assert (H2 : bg_current s2).
    { unfold ensure_sig in E2. destruct (_ && _).
      - injection E2 as <-. exact H1.
      - destruct (sig_init_form _ _ _ E2) as [v ->]. apply set_sig_current. exact H1. }
    destruct (c_sig s2 k); exact H2.
  - unfold compute_cov.
    destruct (negb (coords_ok SMult (sp s))); [exact H|].
    destruct (negb (any_contribution (sp s))); [exact H|].
    pose proof (mark_current s H) as H0.
    set (s0 := setP s (mark_divergent (sp s))) in *. cbv zeta.
    destruct (negb (cov_lengths_ok k (sp s))); [exact H0|]. unfold bindo.
    destruct (ensure_pk cl rc s0) as [s1|] eqn:E1; [|exact H0].
    destruct (ensure_bg rc s1) as [s2|] eqn:E2; [|exact H0].
    pose proof (ensure_bg_current _ _ _ (ensure_pk_current _ _ _ H0 E1) E2) as H2.
    destruct (check_bins (cov_bins k (sp s2))) as [[]|]; try exact H2.
    unfold ensure_cov. destruct (is_some (c_cov s2 k) && negb rc).
    + destruct (c_cov s2 k); exact H2.
    + destruct (cov_init k s2) as [s3|] eqn:E3; [|exact H2].
      pose proof (cov_init_current _ _ _ H2 E3) as H3.
      destruct (c_cov s3 k); exact H3.
Qed.

Theorem run_bg_current : forall l s s', bg_current s -> run cl l s = Some s' -> bg_current s'.
Proof.
  induction l as [|o r IH]; intros s s' H Hr; simpl in Hr.
  - injection Hr as <-. exact H.
  - pose proof (step_bg_current o s H) as H1.
    destruct (step cl o s) as [s1 [ov|e|]]; simpl in *; try discriminate; eauto.
Qed.

(** comoving_distance, hubble_rate, growth_rate, ... answer as a new object with
    the current parameters would. *)
Theorem background_coherent : forall l s w z,
  run cl l coffe0 = Some s ->
  snd (background_getter w z s) = snd (background_getter w z (init_state (sp s))).
Proof.
  intros l s w z Hl.
  assert (Hc : bg_current s) by (apply (run_bg_current l coffe0 s); [intros b Hb; discriminate|exact Hl]).
  unfold background_getter. destruct (check_num z f0 (of_Z 15)) as [x|]; [|reflexivity].
  unfold ensure_bg. simpl c_bg. simpl is_some. simpl andb. cbv iota.
  destruct (c_bg s) as [b|] eqn:Eb.
  - simpl. rewrite Eb. destruct (Hc b Eb) as [H1 H2]. unfold bg_init. simpl. rewrite H2, H1. reflexivity.
  - simpl. unfold bg_init. simpl. destruct (_ <? 5); reflexivity.
Qed.

Theorem maximum_separation_coherent : forall l s z dz,
  run cl l coffe0 = Some s ->
  snd (maximum_separation z dz s) = snd (maximum_separation z dz (init_state (sp s))).
Proof.
  intros l s z dz Hl.
  assert (Hc : bg_current s) by (apply (run_bg_current l coffe0 s); [intros b Hb; discriminate|exact Hl]).
  unfold maximum_separation. destruct (check_num z f0 (of_Z 15)) as [x|]; [|reflexivity].
  destruct (check_num dz f0 x) as [dx|]; [|reflexivity].
  unfold ensure_bg. simpl c_bg. simpl is_some. simpl andb. cbv iota.
  destruct (c_bg s) as [b|] eqn:Eb.
  - simpl. rewrite Eb. destruct (Hc b Eb) as [H1 H2]. unfold bg_init. simpl. rewrite H2, H1.
    destruct (fltb _ _); reflexivity.
  - simpl. unfold bg_init. simpl. destruct (_ <? 5); [reflexivity|].
    destruct (fltb _ _); reflexivity.
Qed.
End WithClass.
