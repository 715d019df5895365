(** * Configurations the program can be in

    The table of Bessel integrals holds exactly the integrals
    [coffe_integrals_init] computes (integrals.c:580-1423), and the divergent one
    is computed exactly when a contribution that needs it is on (coffe.pyx:1109,
    parser.c:1484).  A signal evaluated in such a configuration equals the one
    evaluated with a table that holds everything. *)
From Coq Require Import Reals ZArith Bool List Lia Lra FunctionalExtensionality.
Import ListNotations.
From Verif Require Import Integrals CExpr Terms Signal TermsMeta TermsSum Additive SignalSum Lookup.
Open Scope R_scope.
#[local] Arguments upd : simpl never.

(** ** Definitions *)
(** Specification or proof only; nothing in the code. *)
Definition expected_keys (E : env) (ells : list Z) : list key :=
  integral_keys (sw E divergent) (sw E flatsky_local_nonlocal) (sw E flatsky_nonlocal)
    (sw E output_multipoles) ells.

Record built (E : env) (ells : list Z) : Prop := {
  bu_table : forall k, present E k = has_key (expected_keys E ells) k;
  bu_div : forall c, con E c = true -> potential c = true -> sw E divergent = true }.

Definition complete (E : env) : env :=
  mkEnv (con E) (sw E) (spl E) (tab1 E) (tab2 E) (fun _ => true)
        (par_h E) (omega_cdm E) (omega_baryon E).

Definition set_div (E : env) (d : bool) : env :=
  mkEnv (con E) (fun f => match f with divergent => d | f => sw E f end)
        (spl E) (tab1 E) (tab2 E) (present E) (par_h E) (omega_cdm E) (omega_baryon E).

(** The configuration with contributions [S], the switch [cross] and the multipoles
    [ells], everything else as in [E].  Specification or proof only; nothing in the code. *)
Definition configured (E : env) (ells : list Z) (S : contrib -> bool) (cross : bool) : env :=
  let d := existsb (fun c => S c && potential c) all_contribs in
  mkEnv S (fun f => match f with only_cross => cross | divergent => d | f => sw E f end)
        (spl E) (tab1 E) (tab2 E)
        (has_key (integral_keys d (sw E flatsky_local_nonlocal) (sw E flatsky_nonlocal)
                    (sw E output_multipoles) ells))
        (par_h E) (omega_cdm E) (omega_baryon E).

(** The multipole asked for is among those the integrals were computed for.
    Specification or proof only; nothing in the code. *)
Definition asked (E : env) (ells : list Z) (p : point) (o : kind) : Prop :=
  o = Multipoles -> sw E output_multipoles = true /\ In (Z.of_nat (p_l p)) ells.

Lemma configured_built : forall E ells S cross, built (configured E ells S cross) ells.
Proof.
  intros. constructor; cbn [configured present con sw].
  - reflexivity.
  - intros c H1 H2. apply existsb_exists. exists c. split.
    + destruct c; cbn; tauto.
    + rewrite H1, H2. reflexivity.
Qed.

(** ** A complete table gives the same signal *)
Lemma eval_complete : forall E s e, eval (complete E) s e = eval E s e.
Proof.
  induction e; simpl; try reflexivity;
    try (rewrite IHe1, IHe2; reflexivity); rewrite IHe; reflexivity.
Qed.
Lemma holds_complete : forall E s c, holds (complete E) s c = holds E s c.
Proof.
  induction c; simpl; rewrite ?eval_complete; try reflexivity; congruence.
Qed.
Lemma dens_complete : forall E l s, dens (complete E) s l = dens E s l.
Proof.
  intros E.
  apply (stmts_ind2 (fun c => forall s, den1 (complete E) s c = den1 E s c)
                    (fun l => forall s, dens (complete E) s l = dens E s l));
    try reflexivity.
  - intros v e s. simpl. rewrite eval_complete. reflexivity.
  - intros e s. simpl. rewrite eval_complete. reflexivity.
  - intros c p q IHp IHq s. rewrite !den1_If, holds_complete. destruct (holds E s c); auto.
  - intros c l IHc IHl s. simpl. rewrite IHc. apply IHl.
Qed.
Lemma incr_complete : forall E s l, incr (complete E) s l = incr E s l.
Proof.
  intros E s.
  apply (stmts_ind2 (fun c => incr1 (complete E) s c = incr1 E s c)
                    (fun l => incr (complete E) s l = incr E s l)); try reflexivity.
  - intros e. simpl. apply eval_complete.
  - intros c p q IHp IHq. rewrite !incr1_If, holds_complete. destruct (holds E s c); auto.
  - intros c l IHc IHl. simpl. rewrite IHc, IHl. reflexivity.
Qed.
Lemma total_complete : forall E s bs, total (complete E) s bs = total E s bs.
Proof. intros. unfold total. f_equal. apply map_ext. intros. apply incr_complete. Qed.

Lemma forallb_true : forall A (l : list A), forallb (fun _ => true) l = true.
Proof. induction l; auto. Qed.

Section Complete.
Variable E : env.
Variable ells : list Z.
Hypothesis B : built E ells.

Lemma ni_complete : forall zm m s, nonintegrated E zm m s = nonintegrated (complete E) zm m s.
Proof.
  intros. pose proof (ni_no_null E ells (bu_table _ _ B) (bu_div _ _ B) zm m s) as N.
  rewrite !nonintegrated_spec in *.
  destruct (forallb (present E) _); [|elim N; reflexivity].
  cbn [complete present]. rewrite forallb_true, dens_complete, total_complete. reflexivity.
Qed.
Lemma si_complete : forall zm m s x, single_integrated E zm m s x = single_integrated (complete E) zm m s x.
Proof.
  intros. pose proof (si_no_null E ells (bu_table _ _ B) (bu_div _ _ B) zm m s x) as N.
  rewrite !single_integrated_spec in *.
  destruct (forallb (present E) _); [|elim N; reflexivity].
  cbn [complete present]. rewrite forallb_true, dens_complete, total_complete. reflexivity.
Qed.
Lemma di_complete : forall zm m s x y, double_integrated E zm m s x y = double_integrated (complete E) zm m s x y.
Proof.
  intros. pose proof (di_no_null E ells (bu_table _ _ B) (bu_div _ _ B) zm m s x y) as N.
  rewrite !double_integrated_spec in *.
  destruct (forallb (present E) _); [|elim N; reflexivity].
  cbn [complete present]. rewrite forallb_true, dens_complete, total_complete. reflexivity.
Qed.
Lemma flat_len_len_complete : forall zm s l x,
  sw E flatsky_nonlocal = true -> sw E output_multipoles = true -> In (Z.of_nat l) ells ->
  flat_len_len E zm s l x = flat_len_len (complete E) zm s l x.
Proof.
  intros. pose proof (flat_len_len_no_null E ells (bu_table _ _ B) zm s l x H H0 H1) as N.
  unfold flat_len_len in *. cbn [complete present]. cbv zeta in *.
  destruct (present E _); [reflexivity|elim N; reflexivity].
Qed.
Lemma flat_den_len_complete : forall zm s l,
  sw E flatsky_local_nonlocal = true -> sw E output_multipoles = true -> In (Z.of_nat l) ells ->
  flat_den_len E zm s l = flat_den_len (complete E) zm s l.
Proof.
  intros. pose proof (flat_den_len_no_null E ells (bu_table _ _ B) zm s l H H0 H1) as N.
  unfold flat_den_len in *. cbn [complete present]. cbv zeta in *.
  destruct (Nat.even l); [|reflexivity]. rewrite forallb_true.
  destruct (forallb _ _); [reflexivity|elim N; reflexivity].
Qed.

#[local] Opaque nonintegrated single_integrated double_integrated flat_len_len flat_den_len.
Lemma integrate_complete : forall p f o, asked E ells p o ->
  coffe_integrate E p f o = coffe_integrate (complete E) p f o.
Proof.
  intros p f o A. unfold coffe_integrate. cbv zeta. unfold asked in A.
  change (local_on (complete E)) with (local_on E).
  change (single_on (complete E)) with (single_on E).
  change (single_full_on (complete E)) with (single_full_on E).
  change (integrated_on (complete E)) with (integrated_on E).
  change (av_weight (complete E)) with (av_weight E).
  change (av_z (complete E)) with (av_z E).
  cbn [complete con sw].
  destruct f.
  - destruct (negb (local_on E)); [reflexivity|].
    destruct o; apply f_equal; try (apply functional_extensionality; intros v);
      rewrite ni_complete; reflexivity.
  - destruct (negb (single_on E)); [reflexivity|].
    destruct o.
    + apply f_equal. apply functional_extensionality. intros v. apply si_complete.
    + destruct (A eq_refl) as [Ho Hl]. apply f_equal2.
      * destruct (true_or_false (sw E flatsky_local_nonlocal)) as [F|F]; rewrite F.
        -- destruct (_ && true); [|reflexivity]. destruct (con E den); [|reflexivity].
           apply f_equal. apply flat_den_len_complete; assumption.
        -- rewrite andb_false_r. reflexivity.
      * destruct (single_full_on E); [|reflexivity].
        apply f_equal. apply functional_extensionality. intros v. rewrite si_complete. reflexivity.
    + apply f_equal. apply functional_extensionality. intros v. rewrite si_complete. reflexivity.
  - destruct (negb (integrated_on E)); [reflexivity|].
    destruct o.
    + apply f_equal. apply functional_extensionality. intros v. apply di_complete.
    + destruct (A eq_refl) as [Ho Hl]. apply f_equal2.
      * destruct (true_or_false (sw E flatsky_nonlocal)) as [F|F]; rewrite F.
        -- destruct (_ && _); [|reflexivity].
           apply f_equal. apply functional_extensionality. intros v.
           apply flat_len_len_complete; assumption.
        -- rewrite andb_false_r. reflexivity.
      * destruct (_ || _); [|reflexivity].
        apply f_equal. apply functional_extensionality. intros v. rewrite di_complete. reflexivity.
    + apply f_equal. apply functional_extensionality. intros v. rewrite di_complete. reflexivity.
Qed.

Lemma signal_complete : forall Q p o, asked E ells p o ->
  signal Q E p o = signal Q (complete E) p o.
Proof. intros. unfold signal. rewrite !integrate_complete by assumption. reflexivity. Qed.
End Complete.

(** ** Without potential contributions the divergent integral does not matter *)
(** Specification or proof only; nothing in the code. *)
Definition divergent_free_c (c : cond) : bool :=
  (fix go (c : cond) : bool := match c with
   | Flag divergent => false
   | Not c => go c
   | And c d | Or c d => go c && go d
   | _ => true
   end) c.
Fixpoint divergent_free1 (c : stmt) : bool :=
  match c with
  | If c p q => divergent_free_c c && forallb divergent_free1 p && forallb divergent_free1 q
  | _ => true
  end.
Definition divergent_free (l : list stmt) : bool := forallb divergent_free1 l.

Section Div.
Variable E : env.
Variable d : bool.
Lemma eval_div : forall s e, eval (set_div E d) s e = eval E s e.
Proof.
  induction e; simpl; try reflexivity;
    try (rewrite IHe1, IHe2; reflexivity); rewrite IHe; reflexivity.
Qed.
Lemma holds_div : forall s c, divergent_free_c c = true -> holds (set_div E d) s c = holds E s c.
Proof.
  induction c; simpl; intros H; rewrite ?eval_div; try reflexivity;
    try (apply andb_true_iff in H; destruct H; rewrite IHc1, IHc2 by assumption; reflexivity).
  - destruct f; try reflexivity. discriminate.
  - rewrite IHc by assumption. reflexivity.
Qed.
Lemma dens_div : forall l s, divergent_free l = true -> dens (set_div E d) s l = dens E s l.
Proof.
  apply (stmts_ind2
    (fun c => forall s, divergent_free1 c = true -> den1 (set_div E d) s c = den1 E s c)
    (fun l => forall s, divergent_free l = true -> dens (set_div E d) s l = dens E s l));
    try reflexivity.
  - intros v e s _. simpl. rewrite eval_div. reflexivity.
  - intros e s _. simpl. rewrite eval_div. reflexivity.
  - intros c p q IHp IHq s H. rewrite !den1_If.
    change (divergent_free1 (If c p q)) with
      (divergent_free_c c && divergent_free p && divergent_free q) in H.
    rewrite !andb_true_iff in H. destruct H as [[Hc Hp] Hq].
    rewrite holds_div by exact Hc. destruct (holds E s c); auto.
  - intros c l IHc IHl s H. simpl in H. apply andb_true_iff in H. destruct H.
    simpl. rewrite IHc by assumption. apply IHl. assumption.
Qed.
Lemma incr_div : forall s l, divergent_free l = true -> incr (set_div E d) s l = incr E s l.
Proof.
  intros s.
  apply (stmts_ind2
    (fun c => divergent_free1 c = true -> incr1 (set_div E d) s c = incr1 E s c)
    (fun l => divergent_free l = true -> incr (set_div E d) s l = incr E s l));
    try reflexivity.
  - intros e _. simpl. apply eval_div.
  - intros c p q IHp IHq H. rewrite !incr1_If.
    change (divergent_free1 (If c p q)) with
      (divergent_free_c c && divergent_free p && divergent_free q) in H.
    rewrite !andb_true_iff in H. destruct H as [[Hc Hp] Hq].
    rewrite holds_div by exact Hc. destruct (holds E s c); auto.
  - intros c l IHc IHl H. simpl in H. apply andb_true_iff in H. destruct H.
    simpl. rewrite IHc, IHl by assumption. reflexivity.
Qed.

Definition is_ren (v : var) : bool := match v with ren | ren1 | ren2 => true | _ => false end.
Definition block_free (b : contrib * contrib * list stmt) : bool :=
  let '(p, q, l) := b in
  potential p || potential q || divergent_free (body l) && adds is_ren no_spline (body l).
Lemma ni_block_free : forallb block_free ni_blocks = true.
Proof. vm_compute. reflexivity. Qed.
Lemma si_block_free : forallb block_free si_blocks = true.
Proof. vm_compute. reflexivity. Qed.
Lemma di_block_free : forallb block_free di_blocks = true.
Proof. vm_compute. reflexivity. Qed.

Hypothesis no_potential : forall c, con E c = true -> potential c = false.

Lemma total_div : forall t t' bs, forallb guarded bs = true -> forallb block_free bs = true ->
  (forall v, is_ren v = false -> t v = t' v) ->
  total (set_div E d) t bs = total E t' bs.
Proof.
  intros t t' bs HG HF HT. unfold total. f_equal. apply map_ext_in. intros [[p q] l] HI.
  rewrite forallb_forall in HG, HF. specialize (HG _ HI). specialize (HF _ HI).
  cbn [snd]. rewrite !(incr_guarded _ _ _ _ _ HG).
  change (guard (con (set_div E d)) (sw (set_div E d) only_cross) p q)
    with (guard (con E) (sw E only_cross) p q).
  destruct (guard (con E) (sw E only_cross) p q) eqn:G; [|reflexivity].
  assert (con E p = true /\ con E q = true) as [Gp Gq].
  { unfold guard in G. destruct (contrib_beq p q) eqn:B.
    - apply internal_contrib_dec_bl in B. subst. apply andb_true_iff in G. tauto.
    - apply andb_true_iff in G. tauto. }
  unfold block_free in HF. rewrite (no_potential p Gp), (no_potential q Gq) in HF.
  cbn [orb] in HF. apply andb_true_iff in HF. destruct HF as [F1 F2].
  rewrite incr_div by exact F1. apply (incr_agree is_ren no_spline E E); [|exact F2].
  constructor; try reflexivity. exact HT.
Qed.

Lemma prelude_div : forall t p c q, divergent_free p = true ->
  (forall v, is_ren v = false -> keepsv v [If (Flag divergent) c q] = true) ->
  forall v, is_ren v = false ->
  dens (set_div E d) t (p ++ [If (Flag divergent) c q]) v = dens E t (p ++ [If (Flag divergent) c q]) v.
Proof.
  intros t p c q HP HK v Hv. rewrite !dens_app.
  rewrite !(dens_keeps v _ [If _ _ _]) by (apply HK; exact Hv).
  rewrite dens_div by exact HP. reflexivity.
Qed.

Hypothesis all_present : forall k, present E k = true.

Lemma ni_div : forall zm m s, nonintegrated (set_div E d) zm m s = nonintegrated E zm m s.
Proof.
  intros. rewrite !nonintegrated_spec. rewrite !forallb_present by exact all_present.
  rewrite dens_div by reflexivity.
  rewrite (total_div _ _ _ ni_guarded ni_block_free (fun v _ => eq_refl)). reflexivity.
Qed.
Lemma si_div : forall zm m s x, single_integrated (set_div E d) zm m s x = single_integrated E zm m s x.
Proof.
  intros. rewrite !single_integrated_spec. rewrite !forallb_present by exact all_present.
  rewrite (total_div _ (dens E (upd (args zm m s) x_ x) si_prelude) _ si_guarded si_block_free);
    [reflexivity|].
  change si_prelude with (removelast si_prelude ++ [last si_prelude Exit]).
  cbn [last si_prelude]. apply prelude_div; [reflexivity|]. intros [] Hv; try reflexivity; discriminate.
Qed.
Lemma di_div : forall zm m s x y, double_integrated (set_div E d) zm m s x y = double_integrated E zm m s x y.
Proof.
  intros. rewrite !double_integrated_spec. rewrite !forallb_present by exact all_present.
  rewrite (total_div _ (dens E (upd (upd (args zm m s) x_1 x) x_2 y) di_prelude) _ di_guarded di_block_free);
    [reflexivity|].
  change di_prelude with (removelast di_prelude ++ [last di_prelude Exit]).
  cbn [last di_prelude]. apply prelude_div; [reflexivity|]. intros [] Hv; try reflexivity; discriminate.
Qed.

#[local] Opaque nonintegrated single_integrated double_integrated.
Lemma integrate_div : forall p f o,
  coffe_integrate (set_div E d) p f o = coffe_integrate E p f o.
Proof.
  intros p f o. unfold coffe_integrate. cbv zeta.
  change (local_on (set_div E d)) with (local_on E).
  change (single_on (set_div E d)) with (single_on E).
  change (single_full_on (set_div E d)) with (single_full_on E).
  change (integrated_on (set_div E d)) with (integrated_on E).
  change (av_weight (set_div E d)) with (av_weight E).
  change (av_z (set_div E d)) with (av_z E).
  change (flat_den_len (set_div E d)) with (flat_den_len E).
  change (flat_len_len (set_div E d)) with (flat_len_len E).
  cbn [set_div con sw].
  assert (forall zm m s, nonintegrated (set_div E d) zm m s = nonintegrated E zm m s) as N by apply ni_div.
  replace (nonintegrated (set_div E d)) with (nonintegrated E)
    by (do 3 (apply functional_extensionality; intro); symmetry; apply ni_div).
  replace (single_integrated (set_div E d)) with (single_integrated E)
    by (do 4 (apply functional_extensionality; intro); symmetry; apply si_div).
  replace (double_integrated (set_div E d)) with (double_integrated E)
    by (do 5 (apply functional_extensionality; intro); symmetry; apply di_div).
  reflexivity.
Qed.
Lemma signal_div : forall Q p o, signal Q (set_div E d) p o = signal Q E p o.
Proof. intros. unfold signal. rewrite !integrate_div. reflexivity. Qed.
End Div.

(** ** Configured signals *)
Lemma signal_configured : forall Q E ells S cross p o, asked E ells p o ->
  signal Q (configured E ells S cross) p o
  = signal Q (with_set (complete (set_div E true)) S cross) p o.
Proof.
  intros Q E ells S cross p o A.
  rewrite (signal_complete _ ells (configured_built E ells S cross)) by exact A.
  set (E' := with_set (complete (set_div E true)) S cross).
  destruct (existsb (fun c => S c && potential c) all_contribs) eqn:D.
  - replace (complete (configured E ells S cross)) with E'; [reflexivity|].
    unfold E', complete, configured, with_set, set_div. cbn [con sw spl tab1 tab2 present par_h omega_cdm omega_baryon]. cbv zeta. rewrite D. f_equal.
    apply functional_extensionality. intros []; reflexivity.
  - replace (complete (configured E ells S cross)) with (set_div E' false).
    + apply signal_div; [|reflexivity].
      intros c Hc. destruct (potential c) eqn:P; [|reflexivity].
      rewrite <- D. symmetry. apply existsb_exists. exists c. split.
      * destruct c; cbn; tauto.
      * cbn [E' with_set con] in Hc. rewrite Hc, P. reflexivity.
    + unfold E', complete, configured, with_set, set_div. cbn [con sw spl tab1 tab2 present par_h omega_cdm omega_baryon]. cbv zeta. rewrite D. f_equal.
      apply functional_extensionality. intros []; reflexivity.
Qed.
