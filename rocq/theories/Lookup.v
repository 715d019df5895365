(** * Which integrals the terms look up *)
From Coq Require Import Reals ZArith Bool List Lia Lra FunctionalExtensionality.
Import ListNotations.
From Verif Require Import Integrals CExpr Terms Signal TermsMeta TermsSum.
Open Scope R_scope.
#[local] Arguments upd : simpl never.

(** What a condition is worth when only some switches are known.
    Specification or proof only; nothing in the code. *)
Fixpoint known (K : flag -> option bool) (c : cond) : option bool :=
  match c with
  | Con _ | Lt _ _ | Eq _ _ => None
  | Flag f => K f
  | Finite => Some true
  | Not c => option_map negb (known K c)
  | And c d =>
      match known K c, known K d with
      | Some false, _ | _, Some false => Some false
      | Some true, Some true => Some true
      | _, _ => None
      end
  | Or c d =>
      match known K c, known K d with
      | Some true, _ | _, Some true => Some true
      | Some false, Some false => Some false
      | _, _ => None
      end
  end.

Lemma known_holds : forall K E s c b,
  (forall f v, K f = Some v -> sw E f = v) ->
  known K c = Some b -> holds E s c = b.
Proof.
  intros K E s c b0 HK. revert b0. induction c; simpl; intros b0 H; try discriminate.
  - apply HK. exact H.
  - injection H as <-. reflexivity.
  - destruct (known K c) as [v1|]; simpl in H; [|discriminate]. injection H as <-.
    rewrite (IHc v1) by reflexivity. reflexivity.
  - destruct (known K c1) as [[|]|], (known K c2) as [[|]|]; try discriminate;
      injection H as <-;
      repeat match goal with
      | IH : forall b, Some ?v = Some b -> _ |- _ => rewrite (IH v eq_refl); clear IH end;
      rewrite ?andb_false_r; reflexivity.
  - destruct (known K c1) as [[|]|], (known K c2) as [[|]|]; try discriminate;
      injection H as <-;
      repeat match goal with
      | IH : forall b, Some ?v = Some b -> _ |- _ => rewrite (IH v eq_refl); clear IH end;
      rewrite ?orb_true_r; reflexivity.
Qed.

(** Every key on a path that is possible with the known switches.
    Specification or proof only; nothing in the code. *)
Fixpoint may1 (K : flag -> option bool) (c : stmt) : list key :=
  match c with
  | Set_ _ e | AddTo e | Return e => keys_e e
  | Exit => []
  | If c p q =>
      match known K c with
      | Some true => flat_map (may1 K) p
      | Some false => flat_map (may1 K) q
      | None => flat_map (may1 K) p ++ flat_map (may1 K) q
      end
  end.
Definition may (K : flag -> option bool) (l : list stmt) : list key := flat_map (may1 K) l.

Lemma keys_may : forall K E, (forall f v, K f = Some v -> sw E f = v) ->
  forall l s k, In k (keys E s l) -> In k (may K l).
Proof.
  intros K E HK.
  apply (stmts_ind2
    (fun c => forall s k, In k (keys1 E s c) -> In k (may1 K c))
    (fun l => forall s k, In k (keys E s l) -> In k (may K l))).
  - auto.
  - auto.
  - intros c p q IHp IHq s k. rewrite keys1_If. simpl.
    change (flat_map (may1 K) p) with (may K p). change (flat_map (may1 K) q) with (may K q).
    destruct (known K c) as [b|] eqn:Hk.
    + rewrite (known_holds _ _ _ _ _ HK Hk). destruct b; [apply IHp|apply IHq].
    + rewrite in_app_iff. destruct (holds E s c); intros; [left|right]; eauto.
  - auto.
  - auto.
  - auto.
  - intros c l IHc IHl s k. simpl. rewrite !in_app_iff. intros [H|H]; [left|right]; eauto.
Qed.

(** The contributions whose terms use the divergent integral: the potential
    terms (the comment at src/parser.c:1471-1484). *)
Definition potential (c : contrib) : bool :=
  match c with d2 | g1 | g2 | g3 | g4 | g5 => true | _ => false end.

Definition known_switches (dv lnl nl om : bool) (f : flag) : option bool :=
  match f with
  | divergent => Some dv
  | flatsky_local_nonlocal => Some lnl
  | flatsky_nonlocal => Some nl
  | output_multipoles => Some om
  | _ => None
  end.

(** Keys of a block are in the table, assuming that [divergent] is set when the
    block belongs to a potential term.  Specification or proof only; nothing in the code. *)
Definition block_ok (dv lnl nl om : bool) (b : contrib * contrib * list stmt) : bool :=
  let '(x, y, l) := b in
  (negb dv && (potential x || potential y))
  || forallb (has_key (integral_keys dv lnl nl om [])) (may (known_switches dv lnl nl om) l).

Definition prelude_ok (dv lnl nl om : bool) (l : list stmt) : bool :=
  forallb (has_key (integral_keys dv lnl nl om [])) (may (known_switches dv lnl nl om) l).

Definition bools := [true; false].
Definition every (f : bool -> bool -> bool -> bool -> bool) : bool :=
  forallb (fun a => forallb (fun b => forallb (fun c => forallb (fun d => f a b c d)
    bools) bools) bools) bools.
Lemma every_spec : forall f, every f = true -> forall a b c d, f a b c d = true.
Proof.
  intros f H a b c d. unfold every in H. rewrite forallb_forall in H.
  assert (B : forall x, In x bools) by (intros []; simpl; auto).
  specialize (H a (B a)). rewrite forallb_forall in H.
  specialize (H b (B b)). rewrite forallb_forall in H.
  specialize (H c (B c)). rewrite forallb_forall in H. exact (H d (B d)).
Qed.

Lemma ni_ok : every (fun a b c d => forallb (block_ok a b c d) ni_blocks && prelude_ok a b c d ni_prelude) = true.
Proof. vm_compute. reflexivity. Qed.
Lemma si_ok : every (fun a b c d => forallb (block_ok a b c d) si_blocks && prelude_ok a b c d si_prelude) = true.
Proof. vm_compute. reflexivity. Qed.
Lemma di_ok : every (fun a b c d => forallb (block_ok a b c d) di_blocks && prelude_ok a b c d di_prelude) = true.
Proof. vm_compute. reflexivity. Qed.

Lemma integral_keys_mono : forall dv lnl nl om ells k,
  has_key (integral_keys dv lnl nl om []) k = true ->
  has_key (integral_keys dv lnl nl om ells) k = true.
Proof.
  intros dv lnl nl om ells k. rewrite !has_key_In. unfold integral_keys.
  rewrite !in_app_iff. intros [H|[H|[H|[H|H]]]]; auto.
  - destruct (nl && om); contradiction.
  - destruct (lnl && om); contradiction.
Qed.

Section Table.
Variable E : env.
Variable ells : list Z.
Hypothesis table : forall k, present E k =
  has_key (integral_keys (sw E divergent) (sw E flatsky_local_nonlocal)
             (sw E flatsky_nonlocal) (sw E output_multipoles) ells) k.
Hypothesis div_on : forall c, con E c = true -> potential c = true -> sw E divergent = true.

Let dv := sw E divergent.
Let lnl := sw E flatsky_local_nonlocal.
Let nl := sw E flatsky_nonlocal.
Let om := sw E output_multipoles.

Lemma switches_known : forall f v, known_switches dv lnl nl om f = Some v -> sw E f = v.
Proof. intros f v H. destruct f; try discriminate; injection H as <-; reflexivity. Qed.

Lemma function_keys : forall a p bs,
  forallb guarded bs = true ->
  forallb (block_ok dv lnl nl om) bs = true -> prelude_ok dv lnl nl om p = true ->
  forallb (present E) (all_keys E a p bs) = true.
Proof.
  intros a p bs Hg Hb Hp. unfold all_keys. rewrite forallb_app. apply andb_true_iff. split.
  - apply forallb_forall. intros k Hk. rewrite table. apply integral_keys_mono.
    unfold prelude_ok in Hp. rewrite forallb_forall in Hp. apply Hp.
    apply (keys_may _ E switches_known _ _ _ Hk).
  - apply forallb_forall. intros k Hk. apply in_concat in Hk. destruct Hk as [ks [Hks Hk]].
    apply in_map_iff in Hks. destruct Hks as [[[x y] l] [<- Hin]]. cbn [snd] in Hk.
    rewrite forallb_forall in Hg, Hb.
    specialize (Hg _ Hin). specialize (Hb _ Hin). unfold block_ok in Hb.
    apply orb_true_iff in Hb. destruct Hb as [Hb|Hb].
    + (* divergent is off: the block is off *)
      exfalso. apply andb_true_iff in Hb. destruct Hb as [Hd Hp2].
      apply negb_true_iff in Hd. unfold dv in Hd.
      assert (Off : forall c, potential c = true -> con E c = false).
      { intros c Hc. destruct (con E c) eqn:Ec; [|reflexivity].
        rewrite (div_on c Ec Hc) in Hd. discriminate. }
      unfold guarded in Hg.
      repeat match type of Hg with
      | match ?x with _ => _ end = true => destruct x; try discriminate
      end; cbn [keys] in Hk; rewrite keys1_If in Hk; cbn [holds] in Hk;
      repeat rewrite andb_true_iff in Hg.
      * destruct Hg as [[[H1 H2] _] _]. apply internal_contrib_dec_bl in H1, H2. subst.
        apply orb_true_iff in Hp2. destruct Hp2 as [Hp2|Hp2]; rewrite (Off _ Hp2) in Hk;
          rewrite ?andb_false_r in Hk; cbn in Hk; contradiction.
      * destruct Hg as [[H1 H2] _]. apply internal_contrib_dec_bl in H1, H2. subst.
        rewrite orb_diag in Hp2. rewrite (Off _ Hp2) in Hk. cbn in Hk. contradiction.
    + rewrite table. apply integral_keys_mono. rewrite forallb_forall in Hb. apply Hb.
      apply (keys_may _ E switches_known _ _ _ Hk).
Qed.

Lemma ni_no_null : forall zm m s, nonintegrated E zm m s <> Null.
Proof.
  intros. rewrite nonintegrated_spec, function_keys; [discriminate|apply ni_guarded| |].
  - pose proof (every_spec _ ni_ok dv lnl nl om) as H. apply andb_true_iff in H. apply H.
  - pose proof (every_spec _ ni_ok dv lnl nl om) as H. apply andb_true_iff in H. apply H.
Qed.
Lemma si_no_null : forall zm m s x, single_integrated E zm m s x <> Null.
Proof.
  intros. rewrite single_integrated_spec, function_keys; [discriminate|apply si_guarded| |].
  - pose proof (every_spec _ si_ok dv lnl nl om) as H. apply andb_true_iff in H. apply H.
  - pose proof (every_spec _ si_ok dv lnl nl om) as H. apply andb_true_iff in H. apply H.
Qed.
Lemma di_no_null : forall zm m s x1 x2, double_integrated E zm m s x1 x2 <> Null.
Proof.
  intros. rewrite double_integrated_spec, function_keys; [discriminate|apply di_guarded| |].
  - pose proof (every_spec _ di_ok dv lnl nl om) as H. apply andb_true_iff in H. apply H.
  - pose proof (every_spec _ di_ok dv lnl nl om) as H. apply andb_true_iff in H. apply H.
Qed.

Lemma flat_len_len_no_null : forall zm s l x,
  sw E flatsky_nonlocal = true -> sw E output_multipoles = true -> In (Z.of_nat l) ells ->
  flat_len_len E zm s l x <> Null.
Proof.
  intros zm s l x Hn Ho Hl. unfold flat_len_len.
  replace (present E (K 1 (Z.of_nat l) false)) with true; [discriminate|].
  symmetry. rewrite table, has_key_In. unfold integral_keys. rewrite Hn, Ho. cbn [andb].
  rewrite !in_app_iff. right. right. right. left.
  apply in_map_iff. exists (Z.of_nat l). auto.
Qed.

Lemma flat_den_len_no_null : forall zm s l,
  sw E flatsky_local_nonlocal = true -> sw E output_multipoles = true ->
  In (Z.of_nat l) ells -> flat_den_len E zm s l <> Null.
Proof.
  intros zm s l Hn Ho Hl. unfold flat_den_len.
  destruct (Nat.even l); [|discriminate].
  replace (forallb _ _) with true; [discriminate|].
  symmetry. apply forallb_forall. intros k Hk.
  rewrite table, has_key_In. unfold integral_keys. rewrite Hn, Ho. cbn [andb].
  rewrite !in_app_iff. right. right. right. right.
  apply in_flat_map. exists (Z.of_nat l). split; [exact Hl|].
  unfold flat_den_len_keys. apply in_map_iff. exists k. split; [reflexivity|].
  change 2%Z with (Z.of_nat 2). rewrite <- Nat2Z.inj_div. rewrite Nat2Z.id. exact Hk.
Qed.

#[local] Opaque nonintegrated single_integrated double_integrated flat_len_len flat_den_len.

Lemma true_or_false : forall b : bool, b = true \/ b = false.
Proof. intros []; auto. Qed.

Lemma scale_null : forall o g, o <> Null -> scale o g <> Null.
Proof. intros [] g H; simpl; congruence. Qed.
Lemma times_legendre_null : forall l m o, o <> Null -> times_legendre l m o <> Null.
Proof. intros. unfold times_legendre. destruct (Nat.eqb l 0); [|apply scale_null]; auto. Qed.

Lemma integrate_no_null : forall p f o,
  (o = Multipoles -> sw E output_multipoles = true /\ In (Z.of_nat (p_l p)) ells) ->
  no_null (coffe_integrate E p f o).
Proof.
  intros p f o H. unfold coffe_integrate. destruct f.
  - destruct (negb (local_on E)); [exact I|].
    destruct o; cbn [no_null]; intros; try apply scale_null; try apply times_legendre_null;
      apply ni_no_null.
  - destruct (negb (single_on E)); [exact I|].
    destruct o; cbn [no_null]; intros;
      try (try apply scale_null; try apply times_legendre_null; apply si_no_null).
    destruct (H eq_refl) as [Ho Hl]. split.
    + destruct (true_or_false (sw E flatsky_local_nonlocal)) as [F|F]; rewrite F; rewrite ?andb_false_r; [|exact I].
      destruct (_ && true); [|exact I]. destruct (con E den); [|exact I].
      cbn [no_null]. apply flat_den_len_no_null; assumption.
    + destruct (single_full_on E); [|exact I]. cbn [no_null]. intros.
      apply times_legendre_null, si_no_null.
  - destruct (negb (integrated_on E)); [exact I|].
    destruct o; cbn [no_null]; intros;
      try (try apply scale_null; try apply times_legendre_null; apply di_no_null).
    destruct (H eq_refl) as [Ho Hl]. split.
    + destruct (true_or_false (sw E flatsky_nonlocal)) as [F|F]; rewrite F; rewrite ?andb_false_r; cbn [andb]; [|exact I].
      destruct (_ && _); [|exact I]. cbn [no_null]. intros.
      apply flat_len_len_no_null; assumption.
    + destruct (_ || _); [|exact I]. cbn [no_null]. intros.
      apply times_legendre_null, di_no_null.
Qed.
End Table.
