(** * Which functions of redshift each contribution uses *)
From Coq Require Import Reals ZArith Bool List Lia Lra FunctionalExtensionality.
Import ListNotations.
From Verif Require Import Integrals CExpr Terms Signal TermsMeta TermsSum Additive SignalSum.
Open Scope R_scope.
#[local] Arguments upd : simpl never.

(** ** Specification: what each contribution may depend on *)
(** Specification or proof only; nothing in the code. *)
Definition uses (c : contrib) : list spline :=
  match c with
  | den => [par_galaxy_bias1; par_galaxy_bias2]
  | rsd => [bg_f]
  | d1 => [bg_f; bg_conformal_Hz; bg_G1; bg_G2]
  | d2 => [bg_f; bg_conformal_Hz; par_evolution_bias1; par_evolution_bias2]
  | g1 => [bg_G1; bg_G2]
  | g2 => [par_magnification_bias1; par_magnification_bias2]
  | g3 => [bg_f]
  | len => [par_magnification_bias1; par_magnification_bias2]
  | g4 => [par_magnification_bias1; par_magnification_bias2]
  | g5 => [bg_f; bg_conformal_Hz; bg_G1; bg_G2]
  end.

(** Distances, redshifts and growth are used by every term; the average over
    redshift also weights with the Hubble rate.  Specification or proof only; nothing in the code. *)
Definition always (o : kind) : list spline :=
  [bg_comoving_distance; bg_z_as_chi; bg_a; bg_D1]
  ++ match o with AverageMultipoles => [bg_conformal_Hz] | _ => [] end.

(** Two configurations with the same switches, tables and parameters, whose
    functions of redshift agree where a contribution that is on may look.
    Specification or proof only; nothing in the code. *)
Record same_where_used (o : kind) (E E' : env) : Prop := {
  su_con : forall c, con E c = con E' c;
  su_sw : forall f, sw E f = sw E' f;
  su_t1 : forall k t z, tab1 E k t z = tab1 E' k t z;
  su_t2 : forall k t y z, tab2 E k t y z = tab2 E' k t y z;
  su_h : par_h E = par_h E';
  su_cdm : omega_cdm E = omega_cdm E';
  su_b : omega_baryon E = omega_baryon E';
  su_always : forall f, In f (always o) -> forall z, spl E f z = spl E' f z;
  su_used : forall c f, con E c = true -> In f (uses c) -> forall z, spl E f z = spl E' f z }.

(** ** Proof: following which variables can differ *)
Scheme Equality for spline.
(** Specification or proof only; nothing in the code. *)
Definition memf (f : spline) (l : list spline) : bool := existsb (spline_beq f) l.
Lemma memf_In : forall f l, memf f l = true <-> In f l.
Proof.
  intros. unfold memf. rewrite existsb_exists. split.
  - intros [x [H1 H2]]. apply internal_spline_dec_bl in H2. subst. exact H1.
  - intros H. exists f. split; [exact H|apply internal_spline_dec_lb; reflexivity].
Qed.

Section Taint.
Variable badf : spline -> bool.
Fixpoint taint1 (t : var -> bool) (c : stmt) : var -> bool :=
  match c with
  | Set_ v e => let b := negb (clean_e t badf e) in fun w => if var_beq w v then b else t w
  | AddTo e => let b := t res || negb (clean_e t badf e) in
               fun w => if var_beq w res then b else t w
  | If c p q =>
      let tp := (fix go t l := match l with [] => t | c :: l => go (taint1 t c) l end) t p in
      let tq := (fix go t l := match l with [] => t | c :: l => go (taint1 t c) l end) t q in
      let b := negb (clean_c t badf c) in
      fun w => b || tp w || tq w
  | Return _ | Exit => t
  end.
Fixpoint taint (t : var -> bool) (l : list stmt) : var -> bool :=
  match l with [] => t | c :: l => taint (taint1 t c) l end.

Lemma taint1_If : forall t c p q w, taint1 t (If c p q) w =
  negb (clean_c t badf c) || taint t p w || taint t q w.
Proof.
  assert (G : forall l t, (fix go t l := match l with [] => t | c :: l => go (taint1 t c) l end) t l
              = taint t l).
  { induction l; intros; simpl; auto. }
  intros. simpl. rewrite !G. reflexivity.
Qed.

Lemma agree_weaken : forall (t t' : var -> bool) E E' s s',
  (forall v, t' v = false -> t v = false) ->
  agree t badf E E' s s' -> agree t' badf E E' s s'.
Proof. intros t t' E E' s s' H A. constructor; try apply A. intros. apply A. auto. Qed.

Lemma agree_store : forall (t t' : var -> bool) E E' s s' r r',
  agree t badf E E' s s' -> (forall v, t' v = false -> r v = r' v) ->
  agree t' badf E E' r r'.
Proof. intros t t' E E' s s' r r' A H. constructor; try apply A. exact H. Qed.

Lemma taint_agree : forall l t E E' s s', agree t badf E E' s s' ->
  agree (taint t l) badf E E' (dens E s l) (dens E' s' l).
Proof.
  apply (stmts_ind2
    (fun c => forall t E E' s s', agree t badf E E' s s' ->
       agree (taint1 t c) badf E E' (den1 E s c) (den1 E' s' c))
    (fun l => forall t E E' s s', agree t badf E E' s s' ->
       agree (taint t l) badf E E' (dens E s l) (dens E' s' l))).
  - intros v e t E E' s s' A. simpl. eapply agree_store; [exact A|].
    intros w H. simpl in H. unfold upd. destruct (var_beq w v) eqn:W.
    + apply negb_false_iff in H. apply (eval_agree _ _ _ _ _ _ A _ H).
    + apply A. exact H.
  - intros e t E E' s s' A. simpl. eapply agree_store; [exact A|].
    intros w H. simpl in H. unfold upd. destruct (var_beq w res) eqn:W.
    + apply orb_false_iff in H. destruct H as [Hr H]. apply negb_false_iff in H.
      rewrite (eval_agree _ _ _ _ _ _ A _ H). f_equal. apply A. exact Hr.
    + apply A. exact H.
  - intros c p q IHp IHq t E E' s s' A. rewrite !den1_If.
    eapply agree_store; [exact A|]. intros w H. rewrite taint1_If in H.
    rewrite !orb_false_iff in H. destruct H as [[Hc Hp] Hq]. apply negb_false_iff in Hc.
    rewrite (holds_agree _ _ _ _ _ _ A _ Hc).
    destruct (holds E' s' c).
    + apply (IHp _ _ _ _ _ A). exact Hp.
    + apply (IHq _ _ _ _ _ A). exact Hq.
  - intros; assumption.
  - intros; assumption.
  - intros; assumption.
  - intros c l IHc IHl t E E' s s' A. simpl. apply IHl, IHc, A.
Qed.
End Taint.

(** The block of a pair looks only at what the pair may use.  Specification or proof only; nothing in the code. *)
Definition allowed (o : kind) (p q : contrib) : list spline := always o ++ uses p ++ uses q.
Definition looks_ok (o : kind) (pre : list stmt) (b : contrib * contrib * list stmt) : bool :=
  let '(p, q, l) := b in
  let badf := fun f => negb (memf f (allowed o p q)) in
  adds (taint badf (fun _ => false) pre) badf (body l).

Lemma ni_looks : forall o, forallb (looks_ok o ni_prelude) ni_blocks = true.
Proof. intros []; vm_compute; reflexivity. Qed.
Lemma si_looks : forall o, forallb (looks_ok o si_prelude) si_blocks = true.
Proof. intros []; vm_compute; reflexivity. Qed.
Lemma di_looks : forall o, forallb (looks_ok o di_prelude) di_blocks = true.
Proof. intros []; vm_compute; reflexivity. Qed.

Section Same.
Variable o : kind.
Variables E E' : env.
Hypothesis same : same_where_used o E E'.
Hypothesis pE : forall k, present E k = true.
Hypothesis pE' : forall k, present E' k = true.

Lemma guard_same : forall p q,
  guard (con E) (sw E only_cross) p q = guard (con E') (sw E' only_cross) p q.
Proof.
  intros. unfold guard.
  rewrite (su_con _ _ _ same p), (su_con _ _ _ same q), (su_sw _ _ _ same). reflexivity.
Qed.

Lemma guard_both : forall S x p q, guard S x p q = true -> S p = true /\ S q = true.
Proof.
  intros S x p q H. unfold guard in H. destruct (contrib_beq p q) eqn:B.
  - apply internal_contrib_dec_bl in B. subst. apply andb_true_iff in H. tauto.
  - apply andb_true_iff in H. tauto.
Qed.

Lemma total_same : forall a pre bs,
  forallb guarded bs = true -> forallb (looks_ok o pre) bs = true ->
  total E (dens E a pre) bs = total E' (dens E' a pre) bs.
Proof.
  intros a pre bs Hg Hl. unfold total. f_equal. apply map_ext_in.
  intros [[p q] l] Hin. cbn [snd].
  rewrite forallb_forall in Hg, Hl. specialize (Hg _ Hin). specialize (Hl _ Hin).
  rewrite (incr_guarded E _ _ _ _ Hg), (incr_guarded E' _ _ _ _ Hg).
  rewrite guard_same. destruct (guard _ _ p q) eqn:G; [|reflexivity].
  rewrite <- guard_same in G. apply guard_both in G. destruct G as [Gp Gq].
  unfold looks_ok in Hl. cbv zeta in Hl.
  eapply incr_agree; [|exact Hl]. apply taint_agree.
  constructor; try apply same; [reflexivity|].
  intros f Hf z. apply negb_false_iff in Hf. apply memf_In in Hf.
  unfold allowed in Hf. rewrite !in_app_iff in Hf. destruct Hf as [Hf|[Hf|Hf]].
  - apply same. exact Hf.
  - exact (su_used _ _ _ same p f Gp Hf z).
  - exact (su_used _ _ _ same q f Gq Hf z).
Qed.

Lemma base : forall f, In f [bg_comoving_distance; bg_z_as_chi; bg_a; bg_D1] ->
  forall z, spl E f z = spl E' f z.
Proof. intros f H. apply same. unfold always. apply in_app_iff. left. exact H. Qed.

Lemma ni_factor_same : forall a,
  ni_factor E (dens E a ni_prelude) = ni_factor E' (dens E' a ni_prelude).
Proof.
  intros a. unfold ni_factor. rewrite !(su_sw _ _ _ same).
  assert (A : agree (taint (fun f => negb (memf f (always o))) (fun _ => false) ni_prelude)
                (fun f => negb (memf f (always o))) E E'
                (dens E a ni_prelude) (dens E' a ni_prelude)).
  { apply taint_agree. constructor; try apply same; [reflexivity|].
    intros f Hf z. apply negb_false_iff in Hf. apply memf_In in Hf. apply same. exact Hf. }
  assert (Z : dens E a ni_prelude z_mean = dens E' a ni_prelude z_mean
           /\ dens E a ni_prelude z1 = dens E' a ni_prelude z1
           /\ dens E a ni_prelude z2 = dens E' a ni_prelude z2).
  { repeat split; apply A; destruct o; vm_compute; reflexivity. }
  destruct Z as [-> [-> ->]].
  rewrite !(base bg_D1) by (cbn; tauto). reflexivity.
Qed.

Lemma ni_same : forall zm m s,
  value (nonintegrated E zm m s) = value (nonintegrated E' zm m s).
Proof.
  intros. rewrite !nonintegrated_spec, !forallb_present by assumption. cbn [value].
  rewrite (total_same _ _ _ ni_guarded (ni_looks o)), ni_factor_same. reflexivity.
Qed.
Lemma si_same : forall zm m s x,
  value (single_integrated E zm m s x) = value (single_integrated E' zm m s x).
Proof.
  intros. rewrite !single_integrated_spec, !forallb_present by assumption. cbn [value].
  apply (total_same _ _ _ si_guarded (si_looks o)).
Qed.
Lemma di_same : forall zm m s x1 x2,
  value (double_integrated E zm m s x1 x2) = value (double_integrated E' zm m s x1 x2).
Proof.
  intros. rewrite !double_integrated_spec, !forallb_present by assumption. cbn [value].
  rewrite (total_same _ _ _ di_guarded (di_looks o)), (su_h _ _ _ same). reflexivity.
Qed.

Lemma flat_len_len_same : forall zm s l x, con E len = true ->
  value (flat_len_len E zm s l x) = value (flat_len_len E' zm s l x).
Proof.
  intros zm s l x L. unfold flat_len_len. rewrite pE, pE'.
  rewrite !(su_sw _ _ _ same), (su_cdm _ _ _ same), (su_b _ _ _ same), (su_h _ _ _ same).
  rewrite !(base bg_comoving_distance), !(base bg_z_as_chi), !(base bg_D1) by (cbn; tauto).
  rewrite !(su_used _ _ _ same len par_magnification_bias1 L),
          !(su_used _ _ _ same len par_magnification_bias2 L) by (cbn; tauto).
  rewrite !(su_t1 _ _ _ same), !(su_t2 _ _ _ same). reflexivity.
Qed.

Lemma flat_den_len_same : forall zm s l, con E den = true -> con E len = true ->
  value (flat_den_len E zm s l) = value (flat_den_len E' zm s l).
Proof.
  intros zm s l D L. unfold flat_den_len.
  rewrite !(su_sw _ _ _ same), (su_cdm _ _ _ same), (su_b _ _ _ same), (su_h _ _ _ same).
  rewrite !(base bg_D1) by (cbn; tauto).
  rewrite !(su_used _ _ _ same len par_magnification_bias1 L),
          !(su_used _ _ _ same len par_magnification_bias2 L) by (cbn; tauto).
  rewrite !(su_used _ _ _ same den par_galaxy_bias1 D),
          !(su_used _ _ _ same den par_galaxy_bias2 D) by (cbn; tauto).
  replace (forallb (fun k => present E (flat_den_len_key l k)) (seq 0 (S (l / 2))))
    with (forallb (fun k => present E' (flat_den_len_key l k)) (seq 0 (S (l / 2)))).
  2:{ f_equal. apply functional_extensionality. intros. rewrite pE, pE'. reflexivity. }
  destruct (Nat.even l); [|reflexivity]. destruct (forallb _ _); [|reflexivity].
  cbn [value]. do 4 f_equal. f_equal. apply functional_extensionality. intros k.
  rewrite (su_t1 _ _ _ same), (su_t2 _ _ _ same). reflexivity.
Qed.
End Same.

#[local] Opaque nonintegrated single_integrated double_integrated flat_den_len flat_len_len.

Section SameSignal.
Variables E E' : env.
Hypothesis pE : forall k, present E k = true.
Hypothesis pE' : forall k, present E' k = true.
Variable Q : quadrature.
Variable p : point.

Lemma av_z_same : forall o, same_where_used o E E' -> forall u, av_z E p u = av_z E' p u.
Proof.
  intros o same u. unfold av_z.
  rewrite !(base o E E' same bg_z_as_chi), !(base o E E' same bg_comoving_distance)
    by (cbn; tauto). reflexivity.
Qed.

Lemma av_weight_same : same_where_used AverageMultipoles E E' ->
  forall z, av_weight E z = av_weight E' z.
Proof.
  intros same z. unfold av_weight. rewrite (su_h _ _ _ same).
  rewrite (su_always _ _ _ same bg_conformal_Hz); [reflexivity|]. cbn. tauto.
Qed.

Lemma q1_same : forall k f g, (forall x, value (f x) = value (g x)) ->
  run Q (Quad1 k f) = run Q (Quad1 k g).
Proof.
  intros k f g H. cbn [run]. f_equal. f_equal. apply functional_extensionality. exact H.
Qed.
Lemma qn_same : forall d k f g, (forall x, value (f x) = value (g x)) ->
  run Q (QuadN d k f) = run Q (QuadN d k g).
Proof.
  intros d k f g H. cbn [run]. f_equal. f_equal. apply functional_extensionality. exact H.
Qed.

Lemma ni_run_same : forall o, same_where_used o E E' ->
  run Q (coffe_integrate E p NonIntegrated o) = run Q (coffe_integrate E' p NonIntegrated o).
Proof.
  intros o same. unfold coffe_integrate.
  assert (L : local_on E = local_on E')
    by (unfold local_on; rewrite !(su_con _ _ _ same); reflexivity).
  rewrite L. destruct (negb (local_on E')); [reflexivity|].
  destruct o.
  - cbn [run]. rewrite (ni_same _ E E' same pE pE'). reflexivity.
  - apply q1_same. intros x. cbv zeta.
    rewrite !value_times_legendre, (ni_same _ E E' same pE pE'). reflexivity.
  - apply qn_same. intros v. cbv zeta.
    rewrite !value_scale, !value_times_legendre, (av_z_same _ same), (av_weight_same same).
    rewrite (ni_same _ E E' same pE pE'). reflexivity.
Qed.

Lemma si_run_same : forall o, same_where_used o E E' ->
  run Q (coffe_integrate E p SingleIntegrated o) = run Q (coffe_integrate E' p SingleIntegrated o).
Proof.
  intros o same. unfold coffe_integrate.
  assert (S : single_on E = single_on E')
    by (unfold single_on; rewrite !(su_con _ _ _ same); reflexivity).
  assert (F : single_full_on E = single_full_on E')
    by (unfold single_full_on; rewrite !(su_con _ _ _ same), (su_sw _ _ _ same); reflexivity).
  rewrite S, F. destruct (negb (single_on E')); [reflexivity|].
  destruct o.
  - apply q1_same. intros x. apply (si_same _ E E' same pE pE').
  - cbn [run]. apply f_equal2.
    + rewrite (su_sw _ _ _ same). rewrite !(su_con _ _ _ same).
      destruct (con E' len) eqn:CL; [|rewrite !andb_false_r; reflexivity].
      destruct (_ && _ && _); [|reflexivity].
      destruct (con E' den) eqn:D; [|reflexivity].
      cbn [run]. apply f_equal. apply (flat_den_len_same _ E E' same pE pE');
        rewrite (su_con _ _ _ same); assumption.
    + destruct (single_full_on E'); [|reflexivity].
      apply qn_same. intros v. cbv zeta. rewrite !value_times_legendre.
      apply f_equal. apply (si_same _ E E' same pE pE').
  - apply qn_same. intros v. cbv zeta.
    rewrite !value_scale, !value_times_legendre, (av_z_same _ same), (av_weight_same same).
    rewrite (si_same _ E E' same pE pE'). reflexivity.
Qed.

Lemma di_run_same : forall o, same_where_used o E E' ->
  run Q (coffe_integrate E p DoubleIntegrated o) = run Q (coffe_integrate E' p DoubleIntegrated o).
Proof.
  intros o same. unfold coffe_integrate.
  assert (I : integrated_on E = integrated_on E')
    by (unfold integrated_on; rewrite !(su_con _ _ _ same); reflexivity).
  rewrite I. destruct (negb (integrated_on E')); [reflexivity|].
  destruct o.
  - apply qn_same. intros v. apply (di_same _ E E' same pE pE').
  - cbn [run]. apply f_equal2.
    + rewrite !(su_sw _ _ _ same). rewrite !(su_con _ _ _ same).
      destruct (con E' len) eqn:CL; [|reflexivity].
      destruct (_ && _); [|reflexivity].
      apply q1_same. intros x. apply (flat_len_len_same _ E E' same pE pE').
      rewrite (su_con _ _ _ same); assumption.
    + rewrite !(su_con _ _ _ same), (su_sw _ _ _ same).
      destruct (_ || _); [|reflexivity].
      apply qn_same. intros v. cbv zeta. rewrite !value_times_legendre.
      apply f_equal. apply (di_same _ E E' same pE pE').
  - apply qn_same. intros v. cbv zeta.
    rewrite !value_scale, !value_times_legendre, (av_z_same _ same), (av_weight_same same).
    rewrite (di_same _ E E' same pE pE'). reflexivity.
Qed.

Lemma signal_same : forall o, same_where_used o E E' -> signal Q E p o = signal Q E' p o.
Proof.
  intros o same. unfold signal.
  rewrite (ni_run_same o same), (si_run_same o same), (di_run_same o same). reflexivity.
Qed.
End SameSignal.
