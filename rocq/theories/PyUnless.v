(** * Facts that hold along the histories that never assign a certain attribute (C09, C89) *)
From Coq Require Import ZArith Bool List String Lia.
From Coq Require Import Floats.SpecFloat.
From Verif Require Import F64 PyParams PySet Integrals PyState PySpec PyWrites PyCoherence PyAlways PyValid.
Import ListNotations.
Open Scope Z_scope.
#[local] Arguments view : simpl never.
#[local] Arguments needs_div : simpl never.
#[local] Arguments nonlinear : simpl never.
#[local] Arguments app : simpl nomatch.

(** The operation gives the attribute a value, by name or through set_parameters.
    Specification or proof only; nothing in the code. *)
Definition assigns (a : attr) (v : pyval) (o : op) : Prop :=
  match o with
  | OpSet b w => (b, w) = (a, v)
  | OpSetParameters l => In (Some a, v) l
  | _ => False
  end.
Definition avoids (bad : attr) (o : op) : Prop := forall v, ~ assigns bad v o.

(** The cold dark matter is what baryons and neutrinos leave of the matter.
    Specification or proof only; nothing in the code. *)
Definition cdm_rest (p : params) : Prop :=
  pf p Omega0_cdm = fsub (fsub (pf p Omega0_m) (pf p Omega0_baryon)) (pf p Omega0_nu).

Lemma rest_same : forall p p', same_except lib_fields p' p -> cdm_rest p -> cdm_rest p'.
Proof.
  intros p p' W H. unfold cdm_rest in *.
  rewrite (same_except_pf _ _ _ Omega0_cdm W eq_refl), (same_except_pf _ _ _ Omega0_m W eq_refl),
    (same_except_pf _ _ _ Omega0_baryon W eq_refl), (same_except_pf _ _ _ Omega0_nu W eq_refl). exact H.
Qed.
Lemma rest_put : forall a v p p', a <> A_omega_cdm -> cdm_rest p -> attr_update a v p = Put p' -> cdm_rest p'.
Proof.
  intros a v p p' N H E.
  destruct (disjointb (attr_writes a) [FF Omega0_cdm; FF Omega0_m; FF Omega0_baryon; FF Omega0_nu]) eqn:D.
  - pose proof (attr_update_Put _ _ _ _ E) as W. unfold cdm_rest in *.
    assert (M := fun x => disjoint_memb _ _ x D).
    rewrite (same_except_pf _ _ _ Omega0_cdm W (M (FF Omega0_cdm) eq_refl)), (same_except_pf _ _ _ Omega0_m W (M (FF Omega0_m) eq_refl)),
      (same_except_pf _ _ _ Omega0_baryon W (M (FF Omega0_baryon) eq_refl)), (same_except_pf _ _ _ Omega0_nu W (M (FF Omega0_nu) eq_refl)). exact H.
  - destruct a; try discriminate D; clear D; try (exfalso; apply N; reflexivity); cbv beta iota delta [attr_update] in E;
      unfold upd_h, upd_m_ncdm, upd_omega_baryon, upd_omega_gamma, upd_omega_m in E;
      destruct (check_num _ _ _); try discriminate; destruct (allclose _ _); try discriminate;
      try (destruct (check_omegas _); try discriminate); try (destruct (feqb _ _); try discriminate);
      injection E as <-; reflexivity.
Qed.
(** The three assignments that compute the dark matter from the rest. *)
Lemma rest_restored : forall a v p p', In a [A_omega_m; A_omega_baryon; A_m_ncdm] -> attr_update a v p = Put p' -> cdm_rest p'.
Proof.
  intros a v p p' I E. repeat destruct I as [<-|I]; try destruct I; cbv beta iota delta [attr_update] in E;
    unfold upd_m_ncdm, upd_omega_baryon, upd_omega_m in E;
    destruct (check_num _ _ _); try discriminate; destruct (allclose _ _); try discriminate;
    try (destruct (check_omegas _); try discriminate); try (destruct (feqb _ _); try discriminate);
    injection E as <-; reflexivity.
Qed.
(** Assigning the stored value again, as reading [parameters] does. *)
Lemma rest_again : forall p p', cdm_rest p -> attr_update A_omega_cdm (get_attr A_omega_cdm p) p = Put p' -> cdm_rest p'.
Proof.
  intros p p' H E. cbv beta iota delta [attr_update get_attr] in E. unfold upd_omega_cdm in E.
  destruct (check_num _ _ _) as [x|] eqn:C; [|discriminate].
  assert (X : x = pf p Omega0_cdm).
  { unfold check_num in C. cbn [as_num] in C. destruct (fltb _ _); [discriminate|]. destruct (fltb _ _); [discriminate|]. injection C as <-. reflexivity. }
  subst x. destruct (allclose _ _) eqn:A; [discriminate|]. destruct (check_omegas _); [|discriminate]. injection E as <-.
  assert (X : pf p Omega0_cdm = S754_nan).
  { revert A. clear. destruct (pf p Omega0_cdm) as [s|s| |s m e]; intros A.
    - rewrite allclose_self in A by reflexivity. discriminate A.
    - destruct s; discriminate A.
    - reflexivity.
    - rewrite allclose_self in A by reflexivity. discriminate A. }
  unfold cdm_rest.
  match goal with |- pf ?q Omega0_cdm = _ => change (pf q Omega0_cdm) with (pf p Omega0_cdm);
    change (pf q Omega0_m) with (fadd (pf p Omega0_cdm) (pf p Omega0_baryon));
    change (pf q Omega0_baryon) with (pf p Omega0_baryon); change (pf q Omega0_nu) with (pf p Omega0_nu) end.
  rewrite X. destruct (pf p Omega0_baryon), (pf p Omega0_nu); reflexivity.
Qed.

(** A property of the parameters that survives every change but assignments of [bad]; the stored value of
    [bad] may be assigned again.  Specification or proof only; nothing in the code. *)
Record kept (cl : class_lib) (bad : attr) (P : params -> Prop) : Prop := {
  Hput : forall a v p p', a <> bad -> P p -> attr_update a v p = Put p' -> P p';
  Hpart : forall a v p p' e, a <> bad -> P p -> attr_update a v p = Part p' e -> P p';
  Hagain : forall p p', P p -> attr_update bad (get_attr bad p) p = Put p' -> P p';
  Hagain_part : forall p p' e, P p -> attr_update bad (get_attr bad p) p = Part p' e -> P p';
  Hbias : forall b x p, P p -> P (setS p b x);
  Hmark : forall p, P p -> P (mark_divergent p);
  Hclamp : forall p, P p -> P (clamp_k cl p);
  Huser : forall p k0 kn, P p ->
    P (setF (setF (setF (setF p F_k_min k0) F_k_max kn) F_k_min_norm k0) F_k_max_norm kn);
  Hreset : ~ In bad has_attrs
}.

Section WithClass.
Variable cl : class_lib.
Variable bad : attr.
Variable P : params -> Prop.
Hypothesis HP : kept cl bad P.
Let Q (s : state) : Prop := P (sp s).

Lemma set_attr_unless : forall a v s, (forall w, (a, v) <> (bad, w)) \/ v = get_attr a (sp s) -> Q s -> Q (fst (set_attr a v s)).
Proof.
  intros a v s G H. assert (D : a <> bad \/ (a = bad /\ v = get_attr a (sp s))).
  { destruct G as [G|G]; [left; intros ->; exact (G v eq_refl)|]. destruct (attr_eq_dec a bad); [right|left]; auto. }
  unfold set_attr. destruct (attr_update a v (sp s)) as [|p'|e|p' e] eqn:E; simpl; auto; destruct D as [D|[-> ->]].
  - exact (Hput _ _ _ HP _ _ _ _ D H E).
  - exact (Hagain _ _ _ HP _ _ H E).
  - exact (Hpart _ _ _ HP _ _ _ _ _ D H E).
  - exact (Hagain_part _ _ _ HP _ _ _ H E).
Qed.
Lemma reassign_unless : forall l s, Q s -> Q (fst (reassign_all l s)).
Proof.
  induction l as [|a r IH]; intros s H; [exact H|]. simpl.
  pose proof (set_attr_unless a (get_attr a (sp s)) s (or_intror eq_refl) H) as H1.
  destruct (set_attr a (get_attr a (sp s)) s) as [s1 [o|[]|]]; simpl in *; auto.
Qed.
Lemma assign_unless : forall l s, (forall v, ~ In (bad, v) l) -> Q s -> Q (fst (assign_seq l s)).
Proof.
  induction l as [|[a v] r IH]; intros s G H; [exact H|]. simpl.
  assert (H1 : Q (fst (set_attr a v s))).
  { apply set_attr_unless; [|exact H]. left. intros w E. apply (G w). left. exact E. }
  assert (G' : forall w, ~ In (bad, w) r) by (intros w I; apply (G w); right; exact I).
  destruct (set_attr a v s) as [s1 [o|e|]]; simpl in *; auto.
Qed.
Lemma known_In : forall l k a v, known l = Some k -> In (a, v) k -> In (Some a, v) l.
Proof.
  induction l as [|[[b|] w] r IH]; intros k a v K I; simpl in K; [injection K as <-; destruct I| |discriminate].
  destruct (known r) as [k'|]; [|discriminate]. injection K as <-. destruct I as [I|I].
  - injection I as -> ->. left. reflexivity.
  - right. exact (IH k' a v eq_refl I).
Qed.
Lemma ensure_pk_unless : forall rc s s', Q s -> ensure_pk cl rc s = Some s' -> Q s'.
Proof.
  intros rc s s' H E. unfold ensure_pk in E. destruct (_ && _).
  - injection E as <-. exact H.
  - unfold ps_init in E. injection E as <-. apply (Hclamp _ _ _ HP). exact H.
Qed.

Lemma ensure_base_unless : forall rc s s', Q s -> ensure_base cl rc s = Some s' -> Q s'.
Proof.
  intros rc s s' H E. unfold ensure_base, bindo in E.
  destruct (ensure_bg rc s) as [s1|] eqn:E1; [|discriminate].
  destruct (ensure_pk cl rc s1) as [s2|] eqn:E2; [|discriminate].
  assert (H1 : Q s1) by (unfold Q; rewrite (ensure_bg_sp _ _ _ E1); exact H).
  pose proof (ensure_pk_unless _ _ _ H1 E2) as H2.
  unfold ensure_int in E. destruct (_ && _).
  - injection E as <-. exact H2.
  - unfold Q. rewrite (int_init_sp _ _ E). exact H2.
Qed.

Lemma step_unless : forall o s, avoids bad o -> Q s -> Q (fst (step cl o s)).
Proof.
  intros o s G H. destruct o; simpl.
  - apply set_attr_unless; [|exact H]. left. intros w E. exact (G w E).
  - unfold set_bias.
    destruct (negb (is_sorted x)); [exact H|].
    destruct (negb (Nat.eqb _ _)); [exact H|].
    destruct x as [|x0 xs]; [exact H|].
    destruct (fltb x0 f0); [exact H|].
    destruct (fltb _ _); [exact H|].
    destruct (negb (spline_ok _)); [exact H|]. apply (Hbias _ _ _ HP). exact H.
  - unfold set_power_spectrum.
    destruct (negb (is_sorted k)); [exact H|].
    destruct (negb (Nat.eqb _ _)); [exact H|].
    destruct k as [|k0 ks]; [exact H|]. cbv zeta.
    destruct (negb (spline_ok _)); apply (Huser _ _ _ HP); exact H.
  - apply reassign_unless. exact H.
  - unfold set_parameters. destruct (known l) as [k|] eqn:K; [|exact H]. apply assign_unless; [|exact H].
    intros v' I. apply (G v'). exact (known_In _ _ _ _ K I).
  - unfold reset_contributions, read_parameters.
    pose proof (reassign_unless all_attrs s H) as H1.
    destruct (reassign_all all_attrs s) as [s1 [o|e|]]; simpl in H1; try exact H1.
    apply (assign_unless (map (fun a => (a, VBool false)) has_attrs) s1); [|exact H1].
    intros w I. apply in_map_iff in I as (a & E & I). injection E as -> _. exact (Hreset _ _ _ HP I).
  - unfold background_getter. destruct (check_num z _ _); [|exact H].
    destruct (ensure_bg false s) as [s1|] eqn:E; [|exact H].
    assert (H1 : Q s1) by (unfold Q; rewrite (ensure_bg_sp _ _ _ E); exact H).
    destruct (c_bg s1); exact H1.
  - unfold maximum_separation. destruct (check_num z _ _); [|exact H].
    destruct (check_num dz _ _); [|exact H].
    destruct (ensure_bg false s) as [s1|] eqn:E; [|exact H].
    assert (H1 : Q s1) by (unfold Q; rewrite (ensure_bg_sp _ _ _ E); exact H).
    destruct (fltb _ _); [exact H1|]. destruct (c_bg s1); exact H1.
  - unfold integral_method.
    destruct (check_num r f0 (of_Z 25000)); [|exact H].
    destruct (check_int n (-2) 4); [|exact H].
    destruct (check_int l 0 4); [|exact H].
    destruct (ensure_base cl false s) as [s1|] eqn:E1; [|exact H].
    pose proof (ensure_base_unless false s s1 H E1) as H1.
    destruct (c_int s1) as [ic|]; [|exact H1].
    cbv zeta. destruct (has_key _ _); exact H1.
  - unfold spectrum_method.
    destruct (check_num k _ _); [|exact H].
    destruct (check_num z1 _ _); [|exact H].
    destruct (check_num z2 _ _); [|exact H].
    unfold bindo.
    destruct (ensure_pk cl false s) as [s1|] eqn:E1; [|exact H].
    destruct (ensure_bg false s1) as [s2|] eqn:E2; [|exact H].
    assert (H2 : Q s2).
    { unfold Q. rewrite (ensure_bg_sp _ _ _ E2). apply (ensure_pk_unless _ _ _ H E1). }
    destruct (c_pk s2); [|exact H2]. destruct (c_bg s2); [|exact H2].
    destruct (negb _); [exact H2|]. destruct (_ && _ && _); exact H2.
  - unfold compute_point.
    destruct (negb (coords_ok k (sp s))); [exact H|].
    destruct (negb (any_contribution (sp s))); [exact H|].
    assert (H0 : Q (setP s (mark_divergent (sp s)))) by (apply (Hmark _ _ _ HP); exact H).
    set (s0 := setP s (mark_divergent (sp s))) in *. cbv zeta.
    destruct (ensure_base cl rc s0) as [s1|] eqn:E1; [|exact H0].
    pose proof (ensure_base_unless rc s0 s1 H0 E1) as H1.
    destruct (check_point k z r m) as [[pt ells]|]; [|exact H1].
    destruct (sig_value k ells signal_fields s1); exact H1.
  - unfold compute_bulk.
    destruct (negb (coords_ok k (sp s))); [exact H|].
    destruct (negb (any_contribution (sp s))); [exact H|].
    assert (H0 : Q (setP s (mark_divergent (sp s)))) by (apply (Hmark _ _ _ HP); exact H).
    set (s0 := setP s (mark_divergent (sp s))) in *. cbv zeta. unfold bindo.
    destruct (ensure_base cl rc s0) as [s1|] eqn:E1; [|exact H0].
    destruct (ensure_sig k rc s1) as [s2|] eqn:E2; [|exact H0].
    pose proof (ensure_base_unless rc s0 s1 H0 E1) as H1.
    assert (H2 : Q s2).
    { unfold ensure_sig in E2. destruct (_ && _).
      - injection E2 as <-. exact H1.
      - unfold Q. rewrite (sig_init_sp _ _ _ E2). exact H1. }
    destruct (c_sig s2 k); exact H2.
  - unfold compute_cov.
    destruct (negb (coords_ok SMult (sp s))); [exact H|].
    destruct (negb (any_contribution (sp s))); [exact H|].
    assert (H0 : Q (setP s (mark_divergent (sp s)))) by (apply (Hmark _ _ _ HP); exact H).
    set (s0 := setP s (mark_divergent (sp s))) in *. cbv zeta.
    destruct (negb (cov_lengths_ok k (sp s))); [exact H0|]. unfold bindo.
    destruct (ensure_pk cl rc s0) as [s1|] eqn:E1; [|exact H0].
    destruct (ensure_bg rc s1) as [s2|] eqn:E2; [|exact H0].
    assert (H2 : Q s2).
    { unfold Q. rewrite (ensure_bg_sp _ _ _ E2). apply (ensure_pk_unless _ _ _ H0 E1). }
    destruct (check_bins (cov_bins k (sp s2))) as [[]|]; try exact H2.
    unfold ensure_cov. destruct (is_some (c_cov s2 k) && negb rc).
    + destruct (c_cov s2 k); exact H2.
    + destruct (cov_init k s2) as [s3|] eqn:E3; [|exact H2].
      assert (H3 : Q s3) by (unfold Q; rewrite (cov_init_sp _ _ _ E3); exact H2).
      destruct (c_cov s3 k); exact H3.
Qed.

Theorem run_unless : forall l s s', Forall (avoids bad) l -> P (sp s) -> run cl l s = Some s' -> P (sp s').
Proof.
  induction l as [|o r IH]; intros s s' G H Hr; simpl in Hr.
  - injection Hr as <-. exact H.
  - inversion G as [|? ? G1 G2]; subst. pose proof (step_unless o s G1 H) as H1.
    destruct (step cl o s) as [s1 [ov|e|]]; simpl in *; try discriminate; eauto.
Qed.
End WithClass.

Lemma rest_kept : forall cl, kept cl A_omega_cdm cdm_rest.
Proof.
  intros cl. split.
  - exact rest_put.
  - intros a v p p' e _ H E. destruct (attr_update_Part _ _ _ _ _ E) as (-> & _ & W & _). apply (rest_same p); [|exact H].
    apply (same_except_incl [FF F_m_ncdm]); [exact W|]. intros x [<-|[]]. apply memb_In. reflexivity.
  - exact rest_again.
  - intros p p' e H E. destruct (attr_update_Part _ _ _ _ _ E) as (Z & _). discriminate Z.
  - intros b x p H. exact H.
  - intros p H. apply (rest_same p); [|exact H]. apply (same_except_incl [FB B_divergent]); [apply mark_same|]. intros y [<-|[]]. apply memb_In. reflexivity.
  - intros p H. apply (rest_same p); [|exact H]. apply (same_except_incl k_range); [apply clamp_same|].
    intros x Hx. apply memb_In. revert x Hx. apply forallb_forall. reflexivity.
  - intros p k0 kn H. exact H.
  - cbn. intros I. repeat destruct I as [I|I]; try discriminate I; destruct I.
Qed.

(** ** Room for dark energy, without massive neutrinos *)

(** Matter and radiation add up to at most 1 (or to no number), in one of the two orders.
    Specification or proof only; nothing in the code. *)
Definition room (p : params) : Prop :=
  fltb f1 (fadd (pf p Omega0_m) (pf p Omega0_gamma)) = false \/ fltb f1 (fadd (pf p Omega0_gamma) (pf p Omega0_m)) = false.
Definition light (p : params) : Prop := pf p F_m_ncdm = f0 /\ pf p Omega0_nu = f0 /\ room p.

Lemma add_0_l : forall x y, fltb f1 (fadd (fadd f0 x) y) = fltb f1 (fadd x y).
Proof. intros [[]|s| |s m e] y; try reflexivity. destruct y as [[]|s| |s m e]; reflexivity. Qed.
Lemma add_0_r : forall x, fltb f1 (fadd x f0) = fltb f1 x.
Proof. intros [[]|s| |s m e]; reflexivity. Qed.
Lemma add_0_3 : forall c b g, fltb f1 (fadd (fadd (fadd f0 c) b) g) = fltb f1 (fadd (fadd c b) g).
Proof.
  intros [[]|s| |s m e] b g; try reflexivity. destruct b as [[]|s| |s m e]; try reflexivity. destruct g as [[]|s| |s m e]; reflexivity.
Qed.
Lemma light_kept : forall cl, kept cl A_m_ncdm light.
Proof.
  assert (S1 : forall w p p', same_except w p' p -> memb (FF F_m_ncdm) w = false -> memb (FF Omega0_nu) w = false ->
    memb (FF Omega0_m) w = false -> memb (FF Omega0_gamma) w = false -> light p -> light p').
  { intros w p p' W M1 M2 M3 M4 (A & B & C). unfold light, room.
    rewrite (same_except_pf _ _ _ F_m_ncdm W M1), (same_except_pf _ _ _ Omega0_nu W M2), (same_except_pf _ _ _ Omega0_m W M3), (same_except_pf _ _ _ Omega0_gamma W M4).
    auto. }
  intros cl. split.
  - intros a v p p' N H E. pose proof (attr_update_Put _ _ _ _ E) as W.
    destruct (disjointb (attr_writes a) [FF F_m_ncdm; FF Omega0_nu; FF Omega0_m; FF Omega0_gamma]) eqn:D.
    + assert (M := fun x => disjoint_memb _ _ x D). exact (S1 _ p p' W (M (FF F_m_ncdm) eq_refl) (M (FF Omega0_nu) eq_refl) (M (FF Omega0_m) eq_refl) (M (FF Omega0_gamma) eq_refl) H).
    + destruct H as (A & B & C).
      destruct a; try discriminate D; clear D W; try (exfalso; apply N; reflexivity); cbv beta iota delta [attr_update] in E.
      * unfold upd_omega_cdm in E. destruct (check_num _ _ _) as [x|]; [|discriminate]. destruct (allclose _ _); [discriminate|].
        destruct (check_omegas _) eqn:K; [|discriminate]. injection E as <-.
        split; [exact A|]. split; [exact B|]. left. rewrite B in K. unfold check_omegas in K. cbn [fold_left] in K. apply negb_true_iff in K.
        rewrite add_0_r, add_0_3 in K. exact K.
      * unfold upd_omega_gamma in E. destruct (check_num _ _ _) as [x|]; [|discriminate]. destruct (allclose _ _); [discriminate|].
        destruct (check_omegas _) eqn:K; [|discriminate]. injection E as <-.
        split; [exact A|]. split; [exact B|]. right. unfold check_omegas in K. cbn [fold_left] in K. apply negb_true_iff in K.
        rewrite add_0_l in K. exact K.
      * unfold upd_omega_m in E. destruct (check_num _ _ _) as [x|]; [|discriminate]. destruct (allclose _ _); [discriminate|].
        destruct (check_omegas _) eqn:K; [|discriminate]. injection E as <-.
        split; [exact A|]. split; [exact B|]. left. unfold check_omegas in K. cbn [fold_left] in K. apply negb_true_iff in K.
        rewrite add_0_l in K. exact K.
  - intros a v p p' e N H E. destruct (attr_update_Part _ _ _ _ _ E) as (Z & _). destruct (N Z).
  - intros p p' (A & _) E. cbv beta iota delta [attr_update get_attr] in E. rewrite A in E. unfold upd_m_ncdm in E. rewrite A in E.
    change (check_num (VFloat f0) m100 p100) with (@inl f64 exn f0) in E. cbv iota in E. change (allclose f0 f0) with true in E. discriminate E.
  - intros p p' e (A & _) E. cbv beta iota delta [attr_update get_attr] in E. rewrite A in E. unfold upd_m_ncdm in E. rewrite A in E.
    change (check_num (VFloat f0) m100 p100) with (@inl f64 exn f0) in E. cbv iota in E. change (allclose f0 f0) with true in E. discriminate E.
  - intros b x p H. exact H.
  - intros p H. exact (S1 _ p _ (mark_same p) eq_refl eq_refl eq_refl eq_refl H).
  - intros p H. exact (S1 _ p _ (clamp_same cl p) eq_refl eq_refl eq_refl eq_refl H).
  - intros p k0 kn H. exact H.
  - cbn. intros I. repeat destruct I as [I|I]; try discriminate I; destruct I.
Qed.
