(** * What a fresh object computes, which histories are covered, and when a
      computation cannot kill the process. *)
From Coq Require Import ZArith Bool List String Lia.
From Verif Require Import F64 PyParams PySet Integrals PyState PySpec PyWrites PyCoherence
  PyCovCoherence PyAlways PyValid.
Import ListNotations.
Open Scope Z_scope.
#[local] Arguments view : simpl never.
#[local] Arguments app : simpl nomatch.

Section WithClass.
Variable cl : class_lib.

(** ** The content of a result computed on a fresh object *)

Lemma fresh_base : forall q u s1,
  ensure_base cl false (setP (fresh_object q u) (mark_divergent q)) = Some s1 ->
  same_except (FB B_divergent :: k_range) (sp s1) q /\
  c_sig s1 = (fun _ => None) /\
  c_bg s1 = Some (mkBg (view q bg_core_fields) (view q bg_G_fields)) /\
  exists ic, c_int s1 = Some ic /\
    ic_pk ic = match u with Some (k, pk) => PkUser k pk | None => PkClass (view q class_fields) end /\
    (needs_div q = true -> ic_div ic = Some (view q div_fields, view q bg_core_fields)).
Proof.
  intros q u s1 H. unfold ensure_base, bindo, ensure_bg in H. simpl is_some in H. cbv iota in H.
  simpl andb in H. cbv iota in H. unfold bg_init in H. simpl sp in H.
  destruct (_ <? 5); [discriminate|].
  pose proof (mark_same q) as MS.
  assert (V1 : view (mark_divergent q) bg_core_fields = view q bg_core_fields)
    by (apply (same_except_view _ _ _ _ MS); reflexivity).
  assert (V2 : view (mark_divergent q) bg_G_fields = view q bg_G_fields)
    by (apply (same_except_view _ _ _ _ MS); reflexivity).
  rewrite V1, V2 in H.
  assert (MS' : same_except (FB B_divergent :: k_range) (mark_divergent q) q)
    by (apply (same_except_incl [FB B_divergent]); [exact MS|intros x [<-|[]]; left; reflexivity]).
  match type of H with match ensure_pk _ _ ?sx with _ => _ end = _ => set (s0 := sx) in * end.
  destruct (ensure_pk cl false s0) as [s2|] eqn:E2; [|discriminate].
  assert (C2 : same_except k_range (sp s2) (mark_divergent q) /\
     c_sig s2 = (fun _ => None) /\ c_bg s2 = c_bg s0 /\ c_int s2 = None /\
     c_pk s2 = Some match u with Some (k, pk) => PkUser k pk | None => PkClass (view q class_fields) end).
  { destruct u as [[kk pp]|].
    - injection E2 as <-. repeat split; apply same_except_refl.
    - injection E2 as <-. simpl. split; [apply clamp_same|]. repeat split.
      do 2 f_equal. apply (same_except_view _ _ _ _ MS). reflexivity. }
  destruct C2 as (W2 & S2 & B2 & I2 & K2).
  assert (W2' : same_except (FB B_divergent :: k_range) (sp s2) q).
  { apply (same_except_trans _ _ (mark_divergent q)); [|exact MS'].
    apply (same_except_incl k_range); [exact W2|]. intros x Hx. right. exact Hx. }
  unfold ensure_int in H. rewrite I2 in H. simpl is_some in H. simpl andb in H. cbv iota in H.
  unfold int_init in H. rewrite K2, B2 in H. unfold s0 in H. simpl c_bg in H. cbv beta iota in H.
  match type of H with (if ?b then _ else _) = _ => destruct b; [discriminate|] end.
  match type of H with (if ?b then _ else _) = _ => destruct b eqn:Hd; [discriminate|] end.
  injection H as <-. simpl. split; [exact W2'|]. split; [exact S2|]. split; [reflexivity|].
  eexists. split; [reflexivity|]. simpl. split; [reflexivity|].
  intros N. rewrite (same_except_pb _ _ _ B_divergent W2 eq_refl).
  unfold mark_divergent at 1. rewrite N. simpl. do 2 f_equal.
  apply (same_except_view _ _ _ _ W2'). reflexivity.
Qed.

Theorem fresh_bulk_content : forall k q u s2 r,
  compute_bulk cl k false (fresh_object q u) = (s2, Ok (OSig k r)) ->
  sg_core r = view q bg_core_fields /\ sg_G r = view q bg_G_fields /\
  sg_view r = view q (signal_fields ++ sig_coord_fields k) /\
  sg_pk r = match u with Some (k, pk) => PkUser k pk | None => PkClass (view q class_fields) end /\
  (needs_div q = true -> sg_div r = Some (view q div_fields, view q bg_core_fields)).
Proof.
  intros k q u s2 r H. unfold compute_bulk in H. simpl sp in H.
  destruct (negb (coords_ok k q)); [discriminate|].
  destruct (negb (any_contribution q)); [discriminate|]. cbv zeta in H. unfold bindo in H.
  destruct (ensure_base cl false _) as [s1|] eqn:E1; [|discriminate].
  destruct (fresh_base _ _ _ E1) as (W & S & B & ic & IC & IP & ID).
  unfold ensure_sig in H. rewrite S in H. simpl is_some in H. simpl andb in H. cbv iota in H.
  destruct (sig_init k s1) as [s3|] eqn:E3; [|discriminate].
  assert (V : exists r', sig_value k (pm (sp s1)) (signal_fields ++ sig_coord_fields k) s1 = Some r'
              /\ c_sig s3 k = Some r').
  { unfold sig_init in E3. destruct k;
      repeat match type of E3 with (if ?b then _ else _) = _ => destruct b; [discriminate|] end;
      (destruct (sig_value _ _ _ s1) as [r'|]; [|discriminate]); injection E3 as <-;
      exists r'; auto. }
  destruct V as (r' & V & Cs). rewrite Cs in H. injection H as <- <-.
  unfold sig_value in V. rewrite B, IC in V.
  destruct (forallb _ _); [|discriminate]. injection V as <-. simpl.
  split; [reflexivity|]. split; [reflexivity|].
  split; [apply (same_except_view _ _ _ _ W); destruct k; reflexivity|]. split; [exact IP|].
  intros N. rewrite (needs_div_same _ _ _ W eq_refl), N. exact (ID N).
Qed.

Theorem fresh_cov_content : forall k q u s2 r,
  compute_cov cl k false (fresh_object q u) = (s2, Ok (OCov k r)) ->
  cv_core r = view q bg_core_fields /\
  cv_pk r = match u with Some (k, pk) => PkUser k pk | None => PkClass (view q class_fields) end /\
  exists q', same_except (FB B_divergent :: k_range) q' q /\ cv_view r = view q' (cov_fields k).
Proof.
  intros k q u s2 r H. unfold compute_cov in H. simpl sp in H.
  destruct (negb (coords_ok SMult q)); [discriminate|].
  destruct (negb (any_contribution q)); [discriminate|]. cbv zeta in H.
  destruct (negb (cov_lengths_ok k q)); [discriminate|]. unfold bindo in H.
  set (s0 := setP (fresh_object q u) (mark_divergent q)) in *.
  destruct (ensure_pk cl false s0) as [s1|] eqn:E1; [|discriminate].
  destruct (ensure_bg false s1) as [s3|] eqn:E2; [|discriminate].
  pose proof (mark_same q) as MS.
  assert (MS' : same_except (FB B_divergent :: k_range) (mark_divergent q) q)
    by (apply (same_except_incl [FB B_divergent]); [exact MS|intros x [<-|[]]; left; reflexivity]).
  assert (W1 : same_except (FB B_divergent :: k_range) (sp s1) q /\ c_bg s1 = None /\ c_cov s1 = (fun _ => None)
    /\ c_pk s1 = Some match u with Some (k, pk) => PkUser k pk | None => PkClass (view q class_fields) end).
  { destruct u as [[kk pp]|].
    - injection E1 as <-. auto.
    - injection E1 as <-. simpl. split; [|split; [reflexivity|split; [reflexivity|]]].
      2: { do 2 f_equal. apply (same_except_view _ _ _ _ MS). reflexivity. }
      apply (same_except_trans _ _ (mark_divergent q)); [|exact MS'].
      apply (same_except_incl k_range); [apply clamp_same|]. intros x Hx. right. exact Hx. }
  destruct W1 as (W1 & B1 & C1 & K1).
  unfold ensure_bg in E2. rewrite B1 in E2. simpl in E2. unfold bg_init in E2.
  destruct (_ <? 5); [discriminate|]. injection E2 as <-. simpl sp in H.
  destruct (check_bins _) as [[]|]; [|discriminate|discriminate].
  unfold ensure_cov in H. simpl c_cov in H. rewrite C1 in H. simpl is_some in H. simpl andb in H. cbv iota in H.
  unfold cov_init in H. simpl c_bg in H. simpl c_pk in H. cbv iota beta in H.
  rewrite K1 in H.
  match type of H with match (if ?b then _ else _) with _ => _ end = _ => destruct b; [discriminate|] end.
  simpl c_cov in H. rewrite internal_covkind_dec_lb in H by reflexivity. injection H as <- <-. simpl.
  split.
  - apply (same_except_view _ _ _ _ W1). reflexivity.
  - split; [reflexivity|]. exists (sp s1). split; [exact W1|reflexivity].
Qed.

(** ** Histories covered by the coherence theorems *)

(** Configuring an object.  Specification or proof only; nothing in the code. *)
Definition configures (o : op) : Prop :=
  match o with
  | OpSet _ _ | OpSetBias _ _ _ | OpParameters | OpSetParameters _ | OpReset => True
  | _ => False
  end.
(** Computing on it, with the default recompute=False.  Specification or proof only; nothing in the code. *)
Definition computes (o : op) : Prop :=
  match o with
  | OpBackground _ _ | OpMaxSep _ _ | OpSpectrum _ _ _ _
  | OpPoint _ _ _ _ false | OpBulk _ false | OpCov _ false => True
  | _ => False
  end.

Definition no_cache' (s : state) : Prop := no_cache s /\ c_cls s = None.

Lemma set_attr_cls : forall a v s, c_cls (fst (set_attr a v s)) = c_cls s.
Proof. intros a v s. unfold set_attr. destruct (attr_update a v (sp s)); reflexivity. Qed.

Lemma assign_no_cache : forall l s, no_cache' s -> no_cache' (fst (assign_seq l s)).
Proof.
  induction l as [|[a v] r IH]; intros s H; [exact H|]. simpl.
  assert (H1 : no_cache' (fst (set_attr a v s)))
    by (split; [apply set_attr_no_cache; apply H|rewrite set_attr_cls; apply H]).
  destruct (set_attr a v s) as [s1 [o|e|]]; simpl in *; auto.
Qed.

Lemma reassign_no_cache : forall l s, no_cache' s -> no_cache' (fst (reassign_all l s)).
Proof.
  induction l as [|a r IH]; intros s H; [exact H|]. simpl.
  assert (H1 : no_cache' (fst (set_attr a (get_attr a (sp s)) s)))
    by (split; [apply set_attr_no_cache; apply H|rewrite set_attr_cls; apply H]).
  destruct (set_attr a (get_attr a (sp s)) s) as [s1 [o|[]|]]; simpl in *; auto.
Qed.

Lemma configure_no_cache : forall o s, configures o -> no_cache' s -> no_cache' (fst (step cl o s)).
Proof.
  intros o s C H. destruct o; try destruct C; cbn [step].
  - apply (assign_no_cache [(a, v)] s) in H. simpl in H.
    destruct (set_attr a v s) as [s1 [ov|e|]]; exact H.
  - unfold set_bias.
    repeat match goal with |- context [if ?b then (s, _) else _] => destruct b; [exact H|] end.
    destruct x; [exact H|].
    repeat match goal with |- context [if ?b then (s, _) else _] => destruct b; [exact H|] end.
    destruct H as ((H1 & H2 & H3 & H4 & H5) & H6). repeat split; simpl; auto; intros kk.
    + rewrite H4. destruct kk; reflexivity.
    + rewrite H5. destruct kk; reflexivity.
  - unfold read_parameters. apply reassign_no_cache. exact H.
  - unfold set_parameters. destruct (known l); [apply assign_no_cache; exact H|exact H].
  - unfold reset_contributions. pose proof (reassign_no_cache all_attrs s H) as H1.
    unfold read_parameters. destruct (reassign_all all_attrs s) as [s1 [o|e|]]; simpl in H1; try exact H1.
    apply assign_no_cache. exact H1.
Qed.

Lemma set_safe_no_cache : forall k s a, no_cache s -> set_safe k s a.
Proof. intros k s a (H1 & H2 & H3 & H4 & H5). destruct a; simpl; auto. Qed.
Lemma cov_set_safe_no_cache : forall k s a, no_cache s -> cov_set_safe k s a.
Proof. intros k s a (H1 & H2 & H3 & H4 & H5). destruct a; simpl; auto. Qed.

Lemma seq_safe_no_cache : forall k l s, no_cache s -> seq_safe k l s.
Proof.
  induction l as [|[a v] r IH]; intros s H; simpl; [exact I|].
  split; [apply set_safe_no_cache; exact H|].
  pose proof (set_attr_no_cache a v s H) as H1. destruct (set_attr a v s) as [s1 [o|e|]]; auto.
Qed.
Lemma cov_seq_safe_no_cache : forall k l s, no_cache s -> cov_seq_safe k l s.
Proof.
  induction l as [|[a v] r IH]; intros s H; simpl; [exact I|].
  split; [apply cov_set_safe_no_cache; exact H|].
  pose proof (set_attr_no_cache a v s H) as H1. destruct (set_attr a v s) as [s1 [o|e|]]; auto.
Qed.

(** Configure first, compute afterwards: covered, for every output. *)
Theorem configure_then_compute : forall k l1 l2 s, no_cache' s ->
  Forall configures l1 -> Forall computes l2 -> safe_history cl k (l1 ++ l2) s.
Proof.
  induction l1 as [|o r IH]; intros l2 s N F1 F2; cbn [app].
  - clear F1 N. revert s. induction F2 as [|o r Ho F2 IH]; intros s; cbn [safe_history]; [exact I|].
    split; [destruct o; try destruct Ho; try destruct rc; simpl in *; tauto|].
    destruct (step cl o s) as [s1 [ov|e|]]; auto.
  - cbn [safe_history]. inversion_clear F1. split.
    + destruct N as [N N6]. pose proof N as (N1 & N2 & N3 & N4 & N5).
      destruct o; try contradiction; cbn [op_safe]; auto using set_safe_no_cache.
      destruct (known l); auto using seq_safe_no_cache.
    + pose proof (configure_no_cache o s H N) as N1.
      destruct (step cl o s) as [s1 [ov|e|]]; simpl in N1; auto.
Qed.

Theorem cov_configure_then_compute : forall k l1 l2 s, no_cache' s ->
  Forall configures l1 -> Forall computes l2 -> cov_safe_history cl k (l1 ++ l2) s.
Proof.
  induction l1 as [|o r IH]; intros l2 s N F1 F2; cbn [app].
  - clear F1 N. revert s. induction F2 as [|o r Ho F2 IH]; intros s; cbn [cov_safe_history]; [exact I|].
    split; [destruct o; try destruct Ho; try destruct rc; simpl in *; tauto|].
    destruct (step cl o s) as [s1 [ov|e|]]; auto.
  - cbn [cov_safe_history]. inversion_clear F1. split.
    + destruct N as [N N6]. pose proof N as (N1 & N2 & N3 & N4 & N5).
      destruct o; try contradiction; cbn [cov_op_safe]; auto using cov_set_safe_no_cache.
      destruct (known l); auto using cov_seq_safe_no_cache.
    + pose proof (configure_no_cache o s H N) as N1.
      destruct (step cl o s) as [s1 [ov|e|]]; simpl in N1; auto.
Qed.

(** Attributes that may be changed at any time, between any computations.
    Specification or proof only; nothing in the code. *)
Definition free_attr (a : attr) : bool :=
  match a with
  | A_z_mean | A_deltaz | A_covariance_interpolation_method | A_l | A_sep | A_z_min | A_z_max
  | A_m_ncdm => false
  | _ => true
  end.
Definition free_op (o : op) : Prop :=
  match o with
  | OpSet a _ => free_attr a = true
  | OpSetParameters l => Forall (fun x => match fst x with Some a => free_attr a = true | None => True end) l
  | OpParameters | OpReset | OpBackground _ _ | OpMaxSep _ _ | OpSpectrum _ _ _ _
  | OpPoint _ _ _ _ false | OpBulk _ false | OpCov _ false => True
  | _ => False
  end.

Lemma set_safe_free : forall k s a, free_attr a = true -> set_safe k s a.
Proof. intros k s a H. destruct a; try discriminate H; exact I. Qed.
Lemma cov_set_safe_free : forall k s a, free_attr a = true -> cov_set_safe k s a.
Proof. intros k s a H. destruct a; try discriminate H; exact I. Qed.

Lemma known_free : forall l m, known l = Some m ->
  Forall (fun x => match fst x with Some a => free_attr a = true | None => True end) l ->
  Forall (fun av => free_attr (fst av) = true) m.
Proof.
  induction l as [|[[a|] v] r IH]; simpl; intros m H F; try discriminate.
  - injection H as <-. constructor.
  - destruct (known r); [|discriminate]. injection H as <-. inversion_clear F. constructor; auto.
Qed.
Lemma seq_safe_free : forall k l s, Forall (fun av => free_attr (fst av) = true) l -> seq_safe k l s.
Proof.
  induction l as [|[a v] r IH]; intros s F; simpl; [exact I|]. inversion_clear F.
  split; [apply set_safe_free; assumption|]. destruct (set_attr a v s) as [s1 [o|e|]]; auto.
Qed.
Lemma cov_seq_safe_free : forall k l s, Forall (fun av => free_attr (fst av) = true) l -> cov_seq_safe k l s.
Proof.
  induction l as [|[a v] r IH]; intros s F; simpl; [exact I|]. inversion_clear F.
  split; [apply cov_set_safe_free; assumption|]. destruct (set_attr a v s) as [s1 [o|e|]]; auto.
Qed.

Theorem free_ops_safe : forall k l s, Forall free_op l -> safe_history cl k l s.
Proof.
  induction l as [|o r IH]; intros s F; cbn [safe_history]; [exact I|]. inversion_clear F. split.
  - destruct o; try destruct rc; try contradiction; cbn [op_safe]; auto using set_safe_free.
    cbn [free_op] in H. destruct (known l) eqn:E; auto. apply seq_safe_free. exact (known_free _ _ E H).
  - destruct (step cl o s) as [s1 [ov|e|]]; auto.
Qed.
Theorem cov_free_ops_safe : forall k l s, Forall free_op l -> cov_safe_history cl k l s.
Proof.
  induction l as [|o r IH]; intros s F; cbn [cov_safe_history]; [exact I|]. inversion_clear F. split.
  - destruct o; try destruct rc; try contradiction; cbn [cov_op_safe]; auto using cov_set_safe_free.
    cbn [free_op] in H. destruct (known l) eqn:E; auto. apply cov_seq_safe_free. exact (known_free _ _ E H).
  - destruct (step cl o s) as [s1 [ov|e|]]; auto.
Qed.

(** ** A fresh object does not crash *)

Lemma needed_keys_present : forall k p, is_mult p = true ->
  (needs_div p = true -> pb p B_divergent = true) ->
  forall x, In x (needed_keys k p (pm p)) -> In x (keys_of p).
Proof.
  intros k p M D x H. unfold needed_keys in H. unfold keys_of, integral_keys. rewrite M.
  rewrite !andb_true_r.
  apply in_app_or in H as [H|H]; [apply in_or_app; left; exact H|].
  apply in_app_or in H as [H|H].
  { destruct (needs_div p); [|destruct H]. rewrite D by reflexivity.
    apply in_or_app. right. apply in_or_app. left. exact H. }
  do 3 (apply in_or_app; right).
  destruct k; try destruct H.
  apply in_app_or in H as [H|H].
  - destruct (pb p B_len && pb p B_flatsky_nonlocal && negb (pb p B_only_cross)) eqn:E; [|destruct H].
    apply andb_prop in E as [E _]. apply andb_prop in E as [_ E]. rewrite E.
    apply in_or_app. left. apply in_map_iff in H as (y & <- & Hy). apply filter_In in Hy as [Hy _].
    apply in_map_iff. exists y. auto.
  - destruct (pb p B_len && pb p B_den && pb p B_flatsky_local_nonlocal) eqn:E; [|destruct H].
    apply andb_prop in E as [_ E]. rewrite E.
    apply in_or_app. right. apply in_flat_map in H as (y & Hy & Hx). apply filter_In in Hy as [Hy _].
    apply in_flat_map. exists y. auto.
Qed.

Theorem fresh_no_crash : forall k q u,
  5 <= pi q I_background_bins -> pi q I_output_type = out_MULTIPOLES ->
  (needs_div q = true \/ pb q B_divergent = true ->
     (List.length (pl q L_z_mean) <= List.length (pl q L_deltaz))%nat) ->
  (k = SAvg -> (List.length (pl q L_zmin) <= List.length (pl q L_zmax))%nat) ->
  (u <> None -> pi q I_pk_type = pk_LINEAR) ->
  snd (compute_bulk cl k false (fresh_object q u)) <> Crash.
Proof.
  intros k q u Hb Ho Hd Ha Hu. unfold compute_bulk. simpl sp.
  destruct (negb (coords_ok k q)); [discriminate|].
  destruct (negb (any_contribution q)); [discriminate|]. cbv zeta. unfold bindo.
  destruct (ensure_base cl false (setP (fresh_object q u) (mark_divergent q))) as [s1|] eqn:E1.
  - destruct (fresh_base _ _ _ E1) as (W & S & B & _).
    assert (IC : exists ic, c_int s1 = Some ic /\ ic_keys ic = keys_of (sp s1) /\
               (needs_div (sp s1) = true -> pb (sp s1) B_divergent = true)).
    { unfold ensure_base, bindo, ensure_bg in E1. simpl is_some in E1. simpl andb in E1. cbv iota in E1.
      unfold bg_init in E1. destruct (_ <? 5); [discriminate|].
      destruct (ensure_pk _ _ _) as [s2|] eqn:E2; [|discriminate].
      assert (I2 : c_int s2 = None /\ same_except k_range (sp s2) (mark_divergent q)).
      { unfold ensure_pk in E2. destruct (_ && _).
        - injection E2 as <-. split; [reflexivity|apply same_except_refl].
        - unfold ps_init in E2. injection E2 as <-. split; [reflexivity|apply clamp_same]. }
      destruct I2 as [I2 W2]. unfold ensure_int in E1. rewrite I2 in E1. simpl is_some in E1. simpl andb in E1.
      cbv iota in E1. unfold int_init in E1.
      destruct (c_pk s2); [|discriminate]. destruct (c_bg s2); [|discriminate].
      repeat match type of E1 with (if ?b then _ else _) = _ => destruct b; [discriminate|] end.
      injection E1 as <-. simpl. eexists. split; [reflexivity|]. split; [reflexivity|].
      intros N. rewrite (same_except_pb _ _ _ B_divergent W2 eq_refl).
      rewrite (needs_div_same _ _ _ W2 eq_refl) in N.
      unfold mark_divergent in *. destruct (needs_div q) eqn:Nq; [reflexivity|congruence]. }
    destruct IC as (ic & IC & KK & DD).
    unfold ensure_sig. rewrite S. simpl is_some. simpl andb. cbv iota.
    assert (V : forall fs, exists r, sig_value k (pm (sp s1)) fs s1 = Some r).
    { intros fs. unfold sig_value. rewrite B, IC, KK.
      replace (forallb (has_key (keys_of (sp s1))) (needed_keys k (sp s1) (pm (sp s1)))) with true;
        [eexists; reflexivity|].
      symmetry. apply forallb_forall. intros x Hx. apply has_key_In.
      apply (needed_keys_present k); auto. unfold is_mult.
      rewrite (same_except_pi _ _ _ I_output_type W eq_refl), Ho. reflexivity. }
    destruct (V (signal_fields ++ sig_coord_fields k)) as [r V'].
    unfold sig_init. rewrite V'.
    replace (match k with
      | SAvg => if Nat.ltb (List.length (pl (sp s1) L_zmax)) (List.length (pl (sp s1) L_zmin)) then None
                else Some (set_sig s1 k r)
      | _ => Some (set_sig s1 k r) end) with (Some (set_sig s1 k r)).
    + simpl c_sig. rewrite internal_sigkind_dec_lb by reflexivity. discriminate.
    + destruct k; try reflexivity.
      rewrite (same_except_pl _ _ _ L_zmax W eq_refl), (same_except_pl _ _ _ L_zmin W eq_refl).
      specialize (Ha eq_refl). apply Nat.ltb_ge in Ha. rewrite Ha. reflexivity.
  - exfalso. unfold ensure_base, bindo, ensure_bg in E1. simpl is_some in E1. simpl andb in E1. cbv iota in E1.
    unfold bg_init in E1. simpl sp in E1.
    assert (P5 : (pi (mark_divergent q) I_background_bins <? 5) = false).
    { rewrite (same_except_pi _ _ _ I_background_bins (mark_same q) eq_refl). lia. }
    rewrite P5 in E1.
    match type of E1 with match ensure_pk _ _ ?sx with _ => _ end = _ => set (s0 := sx) in * end.
    assert (E2 : exists s2, ensure_pk cl false s0 = Some s2 /\ c_pk s2 <> None /\ c_bg s2 <> None /\ c_int s2 = None /\
        same_except k_range (sp s2) (mark_divergent q) /\ (nonlinear (sp s2) = true -> c_cls s2 <> None)).
    { destruct u as [[kk pp]|].
      - exists s0. repeat split; try discriminate.
        intros N. exfalso. unfold nonlinear in N. simpl in N.
        rewrite (same_except_pi _ _ _ I_pk_type (mark_same q) eq_refl), Hu in N by discriminate. discriminate.
      - eexists. split; [reflexivity|]. repeat split; try discriminate. simpl. apply clamp_same. }
    destruct E2 as (s2 & E2 & P & Bg & I2 & W2 & Nc). rewrite E2 in E1.
    unfold ensure_int in E1. rewrite I2 in E1. simpl is_some in E1. simpl andb in E1. cbv iota in E1.
    unfold int_init in E1. destruct (c_pk s2); [|congruence]. destruct (c_bg s2); [|congruence].
    assert (X1 : nonlinear (sp s2) && match c_cls s2 with Some _ => false | None => true end = false).
    { destruct (nonlinear (sp s2)); [|reflexivity]. destruct (c_cls s2); [reflexivity|]. exfalso. apply Nc; reflexivity. }
    rewrite X1 in E1.
    assert (X2 : pb (sp s2) B_divergent && Nat.ltb (List.length (pl (sp s2) L_deltaz)) (List.length (pl (sp s2) L_z_mean)) = false).
    { rewrite (same_except_pb _ _ _ B_divergent W2 eq_refl), (same_except_pl _ _ _ L_deltaz W2 eq_refl),
        (same_except_pl _ _ _ L_z_mean W2 eq_refl).
      rewrite (same_except_pl _ _ _ L_deltaz (mark_same q) eq_refl), (same_except_pl _ _ _ L_z_mean (mark_same q) eq_refl).
      destruct (pb (mark_divergent q) B_divergent) eqn:Dv; [|reflexivity]. simpl. apply Nat.ltb_ge.
      apply Hd. unfold mark_divergent in Dv. destruct (needs_div q); auto. }
    rewrite X2 in E1. discriminate.
Qed.

(** A supplied spectrum on a fresh object. *)
Lemma fresh_object_reached : forall q k pk s' ,
  set_power_spectrum k pk (init_state q) = (s', Ok ONone) ->
  same_except k_range (sp s') q /\ user_spectrum s' = Some (k, pk) /\
  c_bg s' = None /\ c_int s' = None /\ c_cls s' = None /\
  (forall x, c_sig s' x = None) /\ (forall x, c_cov s' x = None).
Proof.
  intros q k pk s' H. unfold set_power_spectrum in H.
  destruct (negb (is_sorted k)); [discriminate|]. destruct (negb (Nat.eqb _ _)); [discriminate|].
  destruct k as [|k0 kr]; [discriminate|]. cbv zeta in H. destruct (negb (spline_ok _)); [discriminate|].
  injection H as <-. split.
  2: { repeat split; intros []; reflexivity. }
  simpl sp. repeat (apply se_setF; [|apply memb_In; reflexivity]). apply same_except_refl.
Qed.

(** ** recompute=True for the covariance, after every history *)

Lemma recompute_cov_fresh : forall k s s' r,
  compute_cov cl k true s = (s', r) -> r <> Crash ->
  exists s2, compute_cov cl k true (init_state (sp s)) = (s2, r) /\ sp s2 = sp s' /\
    user_spectrum s2 = None.
Proof.
  intros k s s' r H Hr. unfold compute_cov in *. simpl sp.
  destruct (negb (coords_ok SMult (sp s))); [injection H as <- <-; eexists; repeat split|].
  destruct (negb (any_contribution (sp s))); [injection H as <- <-; eexists; repeat split|].
  cbv zeta in *.
  destruct (negb (cov_lengths_ok k (sp s))); [injection H as <- <-; eexists; repeat split|].
  unfold bindo in *. rewrite ensure_pk_true in *. unfold ps_init in *. simpl sp in *.
  rewrite ensure_bg_true in *. unfold bg_init in *. simpl sp in *.
  destruct (_ <? 5); [injection H as <- <-; congruence|]. simpl sp in *.
  destruct (check_bins _) as [[]|]; [|injection H as <- <-; eexists; repeat split|injection H as <- <-; congruence].
  unfold ensure_cov in *. rewrite !andb_false_r in *. unfold cov_init in *. simpl sp in *.
  simpl c_bg in *. simpl c_pk in *. cbv beta iota in *.
  match type of H with match (if ?b then _ else _) with _ => _ end = _ => destruct b end;
    [injection H as <- <-; congruence|].
  simpl c_cov in *. rewrite internal_covkind_dec_lb in * by reflexivity.
  injection H as <- <-. eexists. repeat split.
Qed.

Theorem recompute_cov_coherent : forall k l s s' r,
  run cl l coffe0 = Some s -> compute_cov cl k true s = (s', r) -> r <> Crash ->
  exists q s2, could_have_entered q (sp s') /\
    compute_cov cl k false (fresh_object q None) = (s2, r) /\
    same_except [FB B_divergent] (sp s2) (sp s').
Proof.
  intros k l s s' r Hl H Hr. pose proof (run_basic cl l s Hl) as [B1 B2].
  destruct (recompute_cov_fresh k s s' r H Hr) as (s2 & E & P & U).
  pose proof (CInv_init cl k (sp s) B2) as I0.
  destruct (cov_coherent cl k _ true s2 r I0 E Hr) as (q & s3 & C1 & C2 & C3).
  exists q, s3. rewrite P, U in *. auto.
Qed.
End WithClass.

(** ** What a computation leaves alone *)

Section Leaves.
Variable cl : class_lib.

(** Specification or proof only; nothing in the code. *)
Definition any_compute (o : op) : Prop :=
  match o with
  | OpBackground _ _ | OpMaxSep _ _ | OpIntegral _ _ _ | OpSpectrum _ _ _ _
  | OpPoint _ _ _ _ _ | OpBulk _ _ | OpCov _ _ => True
  | _ => False
  end.

(** The relation every computation establishes.  Specification or proof only; nothing in the code. *)
Definition left_alone (rc : bool) (s s' : state) : Prop :=
  same_except (FB B_divergent :: k_range) (sp s') (sp s) /\
  (rc = false -> c_pk s <> None -> c_pk s' = c_pk s).

Lemma la_refl : forall rc s, left_alone rc s s.
Proof. intros rc s. split; [apply same_except_refl|auto]. Qed.
Lemma la_trans : forall rc a b c, left_alone rc a b -> left_alone rc b c -> left_alone rc a c.
Proof.
  intros rc a b c [H1 H2] [H3 H4]. split; [exact (same_except_trans _ _ _ _ H3 H1)|].
  intros R N. rewrite H4; auto. rewrite H2; auto.
Qed.
Lemma la_mark : forall rc s, left_alone rc s (setP s (mark_divergent (sp s))).
Proof.
  intros rc s. split; [|auto]. simpl. apply (same_except_incl [FB B_divergent]); [apply mark_same|].
  intros x [<-|[]]. left. reflexivity.
Qed.
Lemma la_bg : forall rc rc' s s', ensure_bg rc' s = Some s' -> left_alone rc s s'.
Proof.
  intros rc rc' s s' H. unfold ensure_bg in H. destruct (_ && _).
  - injection H as <-. apply la_refl.
  - unfold bg_init in H. destruct (_ <? 5); [discriminate|]. injection H as <-. split; [apply same_except_refl|auto].
Qed.
Lemma la_pk : forall rc s s', ensure_pk cl rc s = Some s' -> left_alone rc s s'.
Proof.
  intros rc s s' H. unfold ensure_pk in H.
  destruct (is_some (c_pk s) && negb rc) eqn:E.
  - injection H as <-. apply la_refl.
  - unfold ps_init in H. injection H as <-. split.
    + simpl. apply (same_except_incl k_range); [apply clamp_same|]. intros x Hx. right. exact Hx.
    + intros -> N. destruct (c_pk s); [discriminate|congruence].
Qed.
Lemma la_int : forall rc rc' s s', ensure_int rc' s = Some s' -> left_alone rc s s'.
Proof.
  intros rc rc' s s' H. unfold ensure_int in H. destruct (_ && _).
  - injection H as <-. apply la_refl.
  - unfold int_init in H. destruct (c_pk s) eqn:Ek; [|discriminate]. destruct (c_bg s); [|discriminate].
    repeat match type of H with (if ?b then _ else _) = _ => destruct b; [discriminate|] end.
    injection H as <-. split; [apply same_except_refl|auto].
Qed.
Lemma la_sig : forall k rc rc' s s', ensure_sig k rc' s = Some s' -> left_alone rc s s'.
Proof.
  intros k rc rc' s s' H. unfold ensure_sig in H. destruct (_ && _).
  - injection H as <-. apply la_refl.
  - destruct (sig_init_form k s s' H) as [r ->]. split; [apply same_except_refl|auto].
Qed.
Lemma la_cov : forall k rc rc' s s', ensure_cov k rc' s = Some s' -> left_alone rc s s'.
Proof.
  intros k rc rc' s s' H. unfold ensure_cov in H. destruct (_ && _).
  - injection H as <-. apply la_refl.
  - unfold cov_init in H. destruct (c_bg s); [|discriminate]. destruct (c_pk s) eqn:Ek; [|discriminate].
    match type of H with (if ?b then _ else _) = _ => destruct b; [discriminate|] end.
    injection H as <-. split; [apply same_except_refl|auto].
Qed.
Lemma la_base : forall rc s s', ensure_base cl rc s = Some s' -> left_alone rc s s'.
Proof.
  intros rc s s' H. unfold ensure_base, bindo in H.
  destruct (ensure_bg rc s) as [s1|] eqn:E1; [|discriminate].
  destruct (ensure_pk cl rc s1) as [s2|] eqn:E2; [|discriminate].
  apply (la_trans _ _ s1); [exact (la_bg _ _ _ _ E1)|].
  apply (la_trans _ _ s2); [exact (la_pk _ _ _ E2)|]. exact (la_int _ _ _ _ H).
Qed.

Definition recomputes (o : op) : bool :=
  match o with OpPoint _ _ _ _ rc | OpBulk _ rc | OpCov _ rc => rc | _ => false end.

Theorem compute_leaves_alone : forall o s, any_compute o -> left_alone (recomputes o) s (fst (step cl o s)).
Proof.
  intros o s C. destruct o; try destruct C; cbn [step recomputes].
  - unfold background_getter. destruct (check_num z f0 (of_Z 15)); [|apply la_refl].
    destruct (ensure_bg false s) as [s1|] eqn:E; [|apply la_refl].
    destruct (c_bg s1); exact (la_bg _ _ _ _ E).
  - unfold maximum_separation. destruct (check_num z f0 (of_Z 15)); [|apply la_refl].
    destruct (check_num dz f0 f); [|apply la_refl].
    destruct (ensure_bg false s) as [s1|] eqn:E; [|apply la_refl].
    destruct (fltb _ _); [exact (la_bg _ _ _ _ E)|]. destruct (c_bg s1); exact (la_bg _ _ _ _ E).
  - unfold integral_method.
    destruct (check_num r f0 (of_Z 25000)); [|apply la_refl].
    destruct (check_int n (-2) 4); [|apply la_refl]. destruct (check_int l 0 4); [|apply la_refl].
    destruct (ensure_base cl false s) as [s1|] eqn:E; [|apply la_refl].
    destruct (c_int s1); [|exact (la_base _ _ _ E)].
    cbv zeta. destruct (has_key _ _); exact (la_base _ _ _ E).
  - unfold spectrum_method.
    destruct (check_num k _ _); [|apply la_refl]. destruct (check_num z1 _ _); [|apply la_refl].
    destruct (check_num z2 _ _); [|apply la_refl]. unfold bindo.
    destruct (ensure_pk cl false s) as [s1|] eqn:E; [|apply la_refl].
    destruct (ensure_bg false s1) as [s2|] eqn:E2; [|apply la_refl].
    assert (L : left_alone false s s2) by (apply (la_trans _ _ s1); [exact (la_pk _ _ _ E)|exact (la_bg _ _ _ _ E2)]).
    destruct (c_pk s2); [|exact L]. destruct (c_bg s2); [|exact L].
    destruct (negb (in_table cl p f)); [exact L|]. destruct (_ && _); exact L.
  - unfold compute_point. destruct (negb (coords_ok k (sp s))); [apply la_refl|].
    destruct (negb (any_contribution (sp s))); [apply la_refl|]. cbv zeta.
    destruct (ensure_base cl rc _) as [s1|] eqn:E; [|apply la_mark].
    assert (L : left_alone rc s s1) by (eapply la_trans; [apply la_mark|exact (la_base _ _ _ E)]).
    destruct (check_point k z r m) as [[pt ells]|]; [|exact L].
    destruct (sig_value _ _ _ s1); exact L.
  - unfold compute_bulk. destruct (negb (coords_ok k (sp s))); [apply la_refl|].
    destruct (negb (any_contribution (sp s))); [apply la_refl|]. cbv zeta. unfold bindo.
    destruct (ensure_base cl rc _) as [s1|] eqn:E; [|apply la_mark].
    assert (L : left_alone rc s s1) by (eapply la_trans; [apply la_mark|exact (la_base _ _ _ E)]).
    destruct (ensure_sig k rc s1) as [s2|] eqn:E2; [|apply la_mark].
    assert (L2 : left_alone rc s s2) by (eapply la_trans; [exact L|exact (la_sig _ _ _ _ _ E2)]).
    destruct (c_sig s2 k); exact L2.
  - unfold compute_cov. destruct (negb (coords_ok SMult (sp s))); [apply la_refl|].
    destruct (negb (any_contribution (sp s))); [apply la_refl|]. cbv zeta.
    destruct (negb (cov_lengths_ok k (sp s))); [apply la_mark|]. unfold bindo.
    destruct (ensure_pk cl rc _) as [s1|] eqn:E; [|apply la_mark].
    destruct (ensure_bg rc s1) as [s2|] eqn:E2; [|apply la_mark].
    assert (L : left_alone rc s s2).
    { eapply la_trans; [apply la_mark|]. eapply la_trans; [exact (la_pk _ _ _ E)|exact (la_bg _ _ _ _ E2)]. }
    destruct (check_bins _) as [[]|]; try exact L.
    destruct (ensure_cov k rc s2) as [s3|] eqn:E3; [|exact L].
    assert (L2 : left_alone rc s s3) by (eapply la_trans; [exact L|exact (la_cov _ _ _ _ _ E3)]).
    destruct (c_cov s3 k); exact L2.
Qed.

Theorem computes_keep_user_spectrum : forall l s s' kpk,
  Forall any_compute l -> Forall (fun o => recomputes o = false) l ->
  user_spectrum s = Some kpk -> run cl l s = Some s' -> user_spectrum s' = Some kpk.
Proof.
  induction l as [|o r IH]; intros s s' kpk F R U H; simpl in H.
  - injection H as <-. exact U.
  - inversion_clear F as [|? ? F1 F2]. inversion_clear R as [|? ? R1 R2].
    pose proof (compute_leaves_alone o s F1) as [_ L]. rewrite R1 in L.
    assert (N : c_pk s <> None) by (intros N; unfold user_spectrum in U; rewrite N in U; discriminate).
    specialize (L eq_refl N).
    destruct (step cl o s) as [s1 [ov|e|]]; try discriminate; simpl in L;
      (apply (IH s1 s' kpk F2 R2); [unfold user_spectrum in *; rewrite L; exact U|exact H]).
Qed.
End Leaves.

(** ** A single point is computed from the same tables as the bulk result *)

Section Point.
Variable cl : class_lib.

Lemma bulk_leaves_base : forall k rc s s' r,
  compute_bulk cl k rc s = (s', Ok (OSig k r)) ->
  c_bg s' <> None /\ c_pk s' <> None /\ c_int s' <> None /\ c_sig s' k = Some r /\
  coords_ok k (sp s') = true /\ any_contribution (sp s') = true /\
  (needs_div (sp s') = true -> pb (sp s') B_divergent = true).
Proof.
  intros k rc s s' r H. pose proof (compute_leaves_alone cl (OpBulk k rc) s I) as [L _].
  cbn [step] in L. rewrite H in L. simpl in L.
  unfold compute_bulk in H.
  destruct (coords_ok k (sp s)) eqn:C; [|discriminate].
  destruct (any_contribution (sp s)) eqn:A; [|discriminate]. cbn [negb] in H. cbv zeta in H. unfold bindo in H.
  destruct (ensure_base cl rc _) as [s1|] eqn:E1; [|discriminate].
  destruct (ensure_sig k rc s1) as [s2|] eqn:E2; [|discriminate].
  destruct (c_sig s2 k) as [r'|] eqn:E3; [|discriminate]. injection H as <- <-.
  assert (B : c_bg s1 <> None /\ c_pk s1 <> None /\ c_int s1 <> None /\
     same_except k_range (sp s1) (mark_divergent (sp s))).
  { unfold ensure_base, bindo in E1.
    destruct (ensure_bg rc _) as [t1|] eqn:F1; [|discriminate].
    assert (B1 : c_bg t1 <> None /\ sp t1 = mark_divergent (sp s)).
    { unfold ensure_bg in F1. destruct (is_some (c_bg _) && negb rc) eqn:G.
      - injection F1 as <-. split; [|reflexivity]. simpl in *. destruct (c_bg s); [discriminate|discriminate G].
      - unfold bg_init in F1. destruct (_ <? 5); [discriminate|]. injection F1 as <-. split; [discriminate|reflexivity]. }
    destruct (ensure_pk cl rc t1) as [t2|] eqn:F2; [|discriminate].
    assert (B2 : c_bg t2 <> None /\ c_pk t2 <> None /\ same_except k_range (sp t2) (mark_divergent (sp s))).
    { destruct B1 as [B1 B1']. unfold ensure_pk in F2. destruct (is_some (c_pk t1) && negb rc) eqn:G.
      - injection F2 as <-. split; [exact B1|]. split; [destruct (c_pk t1); [discriminate|discriminate G]|].
        rewrite B1'. apply same_except_refl.
      - unfold ps_init in F2. injection F2 as <-. simpl. split; [exact B1|]. split; [discriminate|].
        rewrite B1'. apply clamp_same. }
    destruct B2 as (B2 & P2 & W2). unfold ensure_int in E1. destruct (is_some (c_int t2) && negb rc) eqn:G.
    - injection E1 as <-. repeat split; auto. destruct (c_int t2); [discriminate|discriminate G].
    - unfold int_init in E1. destruct (c_pk t2) eqn:K2; [|congruence]. destruct (c_bg t2) eqn:G2; [|congruence].
      repeat match type of E1 with (if ?b then _ else _) = _ => destruct b; [discriminate|] end.
      injection E1 as <-. simpl. repeat split; auto; try discriminate; congruence. }
  destruct B as (B1 & B2 & B3 & W).
  assert (S : c_bg s2 = c_bg s1 /\ c_pk s2 = c_pk s1 /\ c_int s2 = c_int s1 /\ sp s2 = sp s1).
  { unfold ensure_sig in E2. destruct (_ && _); [injection E2 as <-; auto|].
    destruct (sig_init_form _ _ _ E2) as [v ->]. auto. }
  destruct S as (S1 & S2 & S3 & S4). rewrite S1, S2, S3, S4 in *. repeat split; auto.
  - rewrite (coords_same k _ _ _ L), C; [reflexivity|]. destruct k; reflexivity.
  - rewrite (contribution_same _ _ _ L eq_refl). exact A.
  - intros N. rewrite (same_except_pb _ _ _ B_divergent W eq_refl).
    rewrite (needs_div_same _ _ _ W eq_refl), (needs_div_same _ _ _ (mark_same (sp s)) eq_refl) in N.
    unfold mark_divergent. rewrite N. reflexivity.
Qed.

Theorem point_matches_bulk : forall k s rc s' r z x m s'' pt v,
  Inv cl k s -> op_safe k s (OpBulk k rc) ->
  compute_bulk cl k rc s = (s', Ok (OSig k r)) ->
  compute_point cl k z x m false s' = (s'', Ok (OPoint k pt v)) ->
  sg_core v = sg_core r /\ sg_G v = sg_G r /\ sg_pk v = sg_pk r /\ sg_cls v = sg_cls r /\
  sg_iview v = sg_iview r /\ sg_div v = sg_div r /\
  sg_view r = sg_view v ++ view (sp s') (sig_coord_fields k).
Proof.
  intros k s rc s' r z x m s'' pt v HI Hs H Hp.
  assert (I' : Inv cl k s').
  { destruct (step_Inv cl k (OpBulk k rc) s HI Hs) as [J|J]; cbn [step] in J; rewrite H in J; simpl in J;
      [exact J|discriminate]. }
  destruct (bulk_leaves_base k rc s s' r H) as (B1 & B2 & B3 & R & C & A & D).
  destruct I' as [B S]. destruct (S r R) as (ic & Hic & -> & Hav).
  unfold compute_point in Hp. rewrite C, A in Hp. cbn [negb] in Hp. cbv zeta in Hp.
  assert (E : ensure_base cl false (setP s' (mark_divergent (sp s'))) = Some (setP s' (mark_divergent (sp s')))).
  { unfold ensure_base, bindo, ensure_bg, ensure_pk, ensure_int. simpl.
    destruct (c_bg s') eqn:X1; [|congruence]. simpl. destruct (c_pk s') eqn:X2; [|congruence]. simpl.
    rewrite ?X1, ?X2. simpl. rewrite Hic. reflexivity. }
  rewrite E in Hp. destruct (check_point k z x m) as [[pt' ells]|]; [|discriminate].
  unfold sig_value in Hp. simpl c_bg in Hp. simpl c_int in Hp. rewrite Hic in Hp.
  destruct (c_bg s') as [b|] eqn:Eb; [|congruence].
  destruct (forallb _ _); [|discriminate]. injection Hp as <- <- <-. simpl.
  rewrite (proj1 (i_core cl k s' B b Eb)), (i_G cl k s' B b Eb).
  rewrite (needs_div_same _ _ _ (mark_same (sp s')) eq_refl).
  pose proof (same_except_view _ _ _ signal_fields (mark_same (sp s')) eq_refl) as W.
  repeat split. transitivity (view (sp s') signal_fields ++ view (sp s') (sig_coord_fields k)).
  - exact (map_app (getf (sp s')) signal_fields (sig_coord_fields k)).
  - symmetry. exact (f_equal (fun l => l ++ view (sp s') (sig_coord_fields k)) W).
Qed.
End Point.
