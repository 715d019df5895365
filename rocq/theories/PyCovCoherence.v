(** * Cache coherence of the two covariance outputs: invariant and proof. *)
From Coq Require Import ZArith Bool List String Lia.
From Verif Require Import F64 PyParams PySet Integrals PyState PySpec PyWrites PyCoherence.
Import ListNotations.
Open Scope Z_scope.
#[local] Arguments view : simpl never.
#[local] Arguments needs_div : simpl never.
#[local] Arguments nonlinear : simpl never.
#[local] Arguments app : simpl nomatch.

Section WithClass.
Variable cl : class_lib.
Variable k : covkind.

(** The condition under which coffe_covariance_init is defined.  Specification or proof only; nothing in the code. *)
Definition cov_defined (p : params) : Prop :=
  match k with
  | KCov => True
  | KACov => Nat.eqb (List.length (pl p L_zmin)) 0
             || (nonlinear p &&
                 negb (Nat.eqb (List.length (pl p L_z_mean)) (List.length (pl p L_zmin)))) = false
  end.

Record CInv (s : state) : Prop := {
  c_As : fltb (pf (sp s) F_A_s) m100 = false /\ fltb p100 (pf (sp s) F_A_s) = false;
  c_core : forall b, c_bg s = Some b ->
     bg_core b = view (sp s) bg_core_fields /\ (pi (sp s) I_background_bins <? 5) = false;
  c_pks : match c_pk s with
         | None => True
         | Some (PkUser ks _) => user_range ks (sp s)
         | Some (PkClass c) => pk_origin cl c (sp s)
         end;
  c_val : forall r, c_cov s k = Some r ->
     exists pk, c_pk s = Some pk /\
       r = mkCov (view (sp s) bg_core_fields) pk (view (sp s) (cov_fields k)) /\
       cov_defined (sp s) /\ check_bins (cov_bins k (sp s)) = Some true
}.

Lemma CInv_init : forall p,
  fltb (pf p F_A_s) m100 = false /\ fltb p100 (pf p F_A_s) = false -> CInv (init_state p).
Proof. intros p HA. split; simpl; try discriminate; auto. Qed.

Definition cov_kept (w : list field) (s : state) : Prop :=
  disjointb w (cov_fields k) = true /\ disjointb w bg_core_fields = true /\
  (k = KACov -> memb (FL L_z_mean) w = false \/ nonlinear (sp s) = false).

Lemma CInv_update : forall s p' fr w,
  CInv s -> same_except w p' (sp s) ->
  fltb (pf p' F_A_s) m100 = false /\ fltb p100 (pf p' F_A_s) = false ->
  (dropped fr CBg = true \/ disjointb w bg_core_fields = true) ->
  (dropped fr CPk = true \/ disjointb w (class_fields ++ k_range) = true \/ c_pk s = None) ->
  (dropped fr CPk = false \/ dropped fr (cache_of_cov k) = true \/ c_cov s k = None) ->
  (dropped fr (cache_of_cov k) = true \/ c_cov s k = None \/ cov_kept w s) ->
  CInv (drop fr (setP s p')).
Proof.
  intros s p' fr w [A C P V] H HA Hbg Hpk Hpc Hcov. split; simpl.
  - exact HA.
  - intros b Hb. destruct (dropped fr CBg) eqn:E; [discriminate|].
    destruct Hbg as [Hbg|Hbg]; [discriminate|]. destruct (C b Hb) as [C1 C2].
    rewrite (same_except_view _ _ _ _ H Hbg), (same_except_pi _ _ _ I_background_bins H).
    + auto.
    + apply (disjoint_memb _ _ _ Hbg). reflexivity.
  - destruct (dropped fr CPk) eqn:E; [exact I|].
    destruct Hpk as [Hpk|[Hpk|Hpk]]; [discriminate| |rewrite Hpk; exact I].
    destruct (c_pk s) as [[ks pk|c]|] eqn:Ep; auto.
    + unfold user_range in *. destruct ks; [exact P|].
      rewrite (same_except_view w _ _ k_range H); [exact P|].
      apply (disjoint_sub _ _ _ Hpk). reflexivity.
    + apply (pk_origin_update cl _ _ _ _ P H Hpk).
  - intros r Hr. destruct (dropped fr (cache_of_cov k)) eqn:E; [discriminate|].
    destruct Hcov as [Hcov|[Hcov|Hcov]]; [discriminate|congruence|].
    destruct Hpc as [Hpc|[Hpc|Hpc]]; [|discriminate|congruence]. rewrite Hpc.
    destruct (V r Hr) as (pk & V1 & V2 & V3 & V4). destruct Hcov as (K1 & K2 & K3).
    exists pk. split; [exact V1|]. split; [|split].
    + rewrite V2, (same_except_view _ _ _ _ H K2), (same_except_view _ _ _ _ H K1). reflexivity.
    + unfold cov_defined in *. destruct k; [exact I|].
      assert (Z1 : pl p' L_zmin = pl (sp s) L_zmin)
        by (apply (same_except_pl _ _ _ _ H); apply (disjoint_memb _ _ _ K1); reflexivity).
      assert (N1 : nonlinear p' = nonlinear (sp s))
        by (apply (nonlinear_same _ _ _ H); apply (disjoint_memb _ _ _ K1); reflexivity).
      rewrite Z1, N1. destruct (K3 eq_refl) as [K4|K4].
      * rewrite (same_except_pl _ _ _ L_z_mean H K4). exact V3.
      * rewrite K4 in *. exact V3.
    + rewrite <- V4. unfold cov_bins. pose proof (same_except_view _ _ _ _ H K1) as EV.
      clear - EV. unfold view, cov_fields in EV.
      destruct k; simpl in EV; injection EV; intros; congruence.
Qed.

Lemma drop_nil_CInv : forall s p, CInv (drop [] (setP s p)) -> CInv (setP s p).
Proof. intros s p [A C P V]. split; auto. Qed.

Ltac alt := first [ left; reflexivity | right; reflexivity | right; left; reflexivity
                  | right; right; reflexivity | right; right; assumption ].

Lemma set_attr_CInv : forall a v s,
  CInv s -> cov_set_safe k s a -> CInv (fst (set_attr a v s)).
Proof.
  intros a v s HI Hs. unfold set_attr.
  destruct (attr_update a v (sp s)) as [|p'|e|p' e] eqn:E; simpl; try exact HI.
  - pose proof (attr_update_Put _ _ _ _ E) as W.
    assert (HA : fltb (pf p' F_A_s) m100 = false /\ fltb p100 (pf p' F_A_s) = false).
    { destruct (attr_eq_dec a A_A_s) as [->|Hn].
      - simpl in E. destruct (check_num v m100 p100) eqn:Ck; [|discriminate].
        injection E as <-. simpl. apply (in_range_As v). exact Ck.
      - rewrite (same_except_pf _ _ _ F_A_s W); [apply (c_As s HI)|].
        destruct a; try reflexivity. congruence. }
    apply (CInv_update s p' (attr_frees a) (attr_writes a) HI W);
      clear W E; [exact HA| | | |];
      destruct a; simpl in Hs; try alt;
      try (destruct k; alt);
      try (right; left; exact Hs);
      try (right; right; unfold cov_kept; repeat split; try reflexivity;
           try (left; reflexivity); try (destruct k; reflexivity); fail).
    all: unfold cov_kept; destruct k; try (left; reflexivity); right.
    + right. repeat split; try reflexivity. left; reflexivity.
    + destruct Hs as [Hs|[Hs|Hs]]; [discriminate| |left; exact Hs].
      right. repeat split; try reflexivity. right; exact Hs.
  - destruct (attr_update_Part _ _ _ _ _ E) as (-> & Hh & W & ->).
    simpl in Hs. destruct Hs as [Hs|Hs]; [|congruence].
    apply drop_nil_CInv.
    apply (CInv_update s p' [] [FF F_m_ncdm] HI W).
    + rewrite (same_except_pf _ _ _ F_A_s W eq_refl). apply (c_As s HI).
    + alt.
    + right; right; exact Hs.
    + alt.
    + right; right. unfold cov_kept. destruct k; repeat split; try reflexivity; left; reflexivity.
Qed.

Lemma CInv_pk_cov : forall s, CInv s -> c_pk s = None -> c_cov s k = None.
Proof.
  intros s HI H. destruct (c_cov s k) eqn:E; [|reflexivity].
  destruct (c_val s HI _ E) as (pk & P & _). congruence.
Qed.

(** ** Initialisation routines *)

Lemma bg_init_CInv : forall s s', CInv s -> bg_init s = Some s' ->
  CInv s' /\ sp s' = sp s /\ c_pk s' = c_pk s /\ c_cov s' = c_cov s.
Proof.
  intros s s' [A C P V] H. unfold bg_init in H.
  destruct (pi (sp s) I_background_bins <? 5) eqn:E; [discriminate|].
  injection H as <-. simpl. split; [|auto]. split; simpl; auto.
  intros b Hb. injection Hb as <-. auto.
Qed.

Lemma ps_init_CInv : forall s s', CInv s -> c_cov s k = None -> ps_init cl s = Some s' ->
  CInv s' /\ same_except k_range (sp s') (sp s) /\ c_cov s' = c_cov s.
Proof.
  intros s s' [A C P V] Hn H. unfold ps_init in H. injection H as <-.
  pose proof (clamp_same cl (sp s)) as W. simpl. split; [|auto]. split; simpl.
  - rewrite (same_except_pf _ _ _ F_A_s W eq_refl). exact A.
  - intros b Hb. destruct (C b Hb) as [C1 C2].
    rewrite (same_except_view _ _ _ bg_core_fields W eq_refl),
            (same_except_pi _ _ _ I_background_bins W eq_refl). auto.
  - exists (sp s). repeat split; auto. apply same_except_sym. exact W.
  - intros r Hr. congruence.
Qed.

Lemma ensure_bg_CInv : forall rc s s', CInv s -> ensure_bg rc s = Some s' ->
  CInv s' /\ sp s' = sp s /\ c_pk s' = c_pk s /\ c_cov s' = c_cov s.
Proof.
  intros rc s s' HI H. unfold ensure_bg in H.
  destruct (is_some (c_bg s) && negb rc).
  - injection H as <-. auto.
  - apply bg_init_CInv; assumption.
Qed.

Lemma ensure_pk_CInv : forall rc s s', CInv s -> (rc = false \/ c_cov s k = None) ->
  ensure_pk cl rc s = Some s' ->
  CInv s' /\ same_except k_range (sp s') (sp s) /\ c_cov s' k = c_cov s k /\
  (c_cov s k <> None -> s' = s).
Proof.
  intros rc s s' HI Hn H. unfold ensure_pk in H.
  assert (Hc : is_some (c_pk s) && negb rc = false -> c_cov s k = None).
  { intros E. destruct Hn as [->|Hn]; [|exact Hn]. rewrite andb_true_r in E.
    apply (CInv_pk_cov s HI). destruct (c_pk s); [discriminate|reflexivity]. }
  destruct (is_some (c_pk s) && negb rc).
  - injection H as <-. split; [exact HI|]. split; [apply same_except_refl|auto].
  - destruct (ps_init_CInv s s' HI (Hc eq_refl) H) as (I1 & W & E).
    split; [exact I1|]. split; [exact W|]. rewrite E, (Hc eq_refl). split; [reflexivity|congruence].
Qed.

Lemma int_init_CInv : forall s s', CInv s -> int_init s = Some s' ->
  CInv s' /\ sp s' = sp s /\ c_cov s' = c_cov s.
Proof.
  intros s s' [A C P V] H. unfold int_init in H.
  destruct (c_pk s) eqn:Ep; [|discriminate]. destruct (c_bg s) eqn:Eb; [|discriminate].
  repeat match type of H with (if ?b then _ else _) = _ => destruct b; [discriminate|] end.
  injection H as <-. simpl. split; [|auto]. destruct s; simpl in *; subst; split; assumption.
Qed.

Lemma ensure_base_CInv : forall rc s s', CInv s -> (rc = false \/ c_cov s k = None) ->
  ensure_base cl rc s = Some s' -> CInv s'.
Proof.
  intros rc s s' HI Hn H. unfold ensure_base, bindo in H.
  destruct (ensure_bg rc s) as [s1|] eqn:E1; [|discriminate].
  destruct (ensure_pk cl rc s1) as [s2|] eqn:E2; [|discriminate].
  destruct (ensure_bg_CInv rc s s1 HI E1) as (I1 & P1 & K1 & C1).
  destruct (ensure_pk_CInv rc s1 s2 I1) as (I2 & _); [rewrite C1; exact Hn|exact E2|].
  unfold ensure_int in H. destruct (is_some (c_int s2) && negb rc).
  - injection H as <-. exact I2.
  - apply (int_init_CInv s2 s' I2 H).
Qed.

Lemma cov_init_CInv : forall s s', check_bins (cov_bins k (sp s)) = Some true -> CInv s -> cov_init k s = Some s' ->
  CInv s' /\ sp s' = sp s /\ c_pk s' = c_pk s.
Proof.
  intros s s' HB [A C P V] H. unfold cov_init in H.
  destruct (c_bg s) as [b|] eqn:Eb; [|discriminate].
  destruct (c_pk s) as [pk|] eqn:Ep; [|discriminate].
  match type of H with (if ?b then _ else _) = _ => destruct b eqn:Ed; [discriminate|] end.
  injection H as <-. simpl. rewrite ?Ep. split; [|auto].
  assert (Ek : covkind_beq k k = true) by (destruct k; reflexivity).
  split; simpl; auto.
  - intros r Hr. rewrite Ek in Hr. injection Hr as <-. exists pk. split; [reflexivity|].
    rewrite (proj1 (C b eq_refl)). split; [reflexivity|].
    split; [|exact HB]. unfold cov_defined. clear - Ed. destruct k; [exact I|exact Ed].
Qed.

(** Computing the other covariance frees this one (covariance.c:488-489). *)
Lemma cov_init_other : forall k' s s', k' <> k -> CInv s -> cov_init k' s = Some s' -> CInv s'.
Proof.
  intros k' s s' Hne [A C P V] H. unfold cov_init in H.
  destruct (c_bg s) as [b|] eqn:Eb; [|discriminate].
  destruct (c_pk s) as [pk|] eqn:Ep; [|discriminate].
  match type of H with (if ?b then _ else _) = _ => destruct b eqn:Ed; [discriminate|] end.
  injection H as <-.
  assert (Ek : covkind_beq k' k = false).
  { destruct (covkind_beq k' k) eqn:E; [|reflexivity].
    apply internal_covkind_dec_bl in E. congruence. }
  split; simpl; auto.
  - intros r Hr. rewrite Ek in Hr. discriminate.
Qed.

Lemma mark_CInv : forall s, CInv s -> CInv (setP s (mark_divergent (sp s))).
Proof.
  intros s HI. pose proof (mark_same (sp s)) as W.
  apply drop_nil_CInv.
  apply (CInv_update s _ [] [FB B_divergent] HI W); try alt.
  - rewrite (same_except_pf _ _ _ F_A_s W eq_refl). apply (c_As s HI).
  - right; right. unfold cov_kept. destruct k; repeat split; try reflexivity; left; reflexivity.
Qed.

Lemma setsig_CInv : forall s k' r, CInv s -> CInv (set_sig s k' r).
Proof. intros s k' r [A C P V]. split; assumption. Qed.

Lemma compute_bulk_CInv : forall k' rc s,
  CInv s -> (rc = false \/ c_cov s k = None) -> CInv (fst (compute_bulk cl k' rc s)).
Proof.
  intros k' rc s HI Hs. unfold compute_bulk.
  destruct (negb (coords_ok k' (sp s))); [exact HI|].
  destruct (negb (any_contribution (sp s))); [exact HI|].
  pose proof (mark_CInv s HI) as I0.
  set (s0 := setP s (mark_divergent (sp s))) in *. cbv zeta. unfold bindo.
  destruct (ensure_base cl rc s0) as [s1|] eqn:E1; [|exact I0].
  destruct (ensure_sig k' rc s1) as [s2|] eqn:E2; [|exact I0].
  pose proof (ensure_base_CInv rc s0 s1 I0 Hs E1) as I1.
  assert (I2 : CInv s2).
  { unfold ensure_sig in E2. destruct (is_some (c_sig s1 k') && negb rc).
    - injection E2 as <-. exact I1.
    - destruct (sig_init_form k' s1 s2 E2) as [r ->]. apply setsig_CInv. exact I1. }
  destruct (c_sig s2 k'); exact I2.
Qed.

Lemma compute_point_CInv : forall k' z r m rc s,
  CInv s -> (rc = false \/ c_cov s k = None) -> CInv (fst (compute_point cl k' z r m rc s)).
Proof.
  intros k' z r m rc s HI Hs. unfold compute_point.
  destruct (negb (coords_ok k' (sp s))); [exact HI|].
  destruct (negb (any_contribution (sp s))); [exact HI|].
  pose proof (mark_CInv s HI) as I0.
  set (s0 := setP s (mark_divergent (sp s))) in *. cbv zeta.
  destruct (ensure_base cl rc s0) as [s1|] eqn:E1; [|exact I0].
  pose proof (ensure_base_CInv rc s0 s1 I0 Hs E1) as I1.
  destruct (check_point k' z r m) as [[pt ells]|]; [|exact I1].
  destruct (sig_value k' ells signal_fields s1); exact I1.
Qed.

Definition erase_cov (s : state) : state :=
  mkState (sp s) (c_bg s) (c_pk s) (c_cls s) (c_int s) (c_sig s) (fun _ => None).

Lemma erase_CInv : forall s, CInv s -> CInv (erase_cov s).
Proof. intros s [A C P V]. split; simpl; auto. discriminate. Qed.

Lemma cov_init_erase : forall k' s, cov_init k' (erase_cov s) = cov_init k' s.
Proof. reflexivity. Qed.

Lemma compute_cov_CInv : forall k' rc s,
  CInv s -> (rc = false \/ k' = k \/ c_cov s k = None) ->
  CInv (fst (compute_cov cl k' rc s)) \/ snd (compute_cov cl k' rc s) = Crash.
Proof.
  intros k' rc s HI Hs. unfold compute_cov.
  destruct (negb (coords_ok SMult (sp s))); [left; exact HI|].
  destruct (negb (any_contribution (sp s))); [left; exact HI|].
  pose proof (mark_CInv s HI) as I0.
  set (s0 := setP s (mark_divergent (sp s))) in *. cbv zeta.
  destruct (negb (cov_lengths_ok k' (sp s))); [left; exact I0|]. unfold bindo.
  destruct (ensure_pk cl rc s0) as [s1|] eqn:E1; [|right; reflexivity].
  destruct (ensure_bg rc s1) as [s2|] eqn:E2; [|right; reflexivity].
  assert (Cases : (rc = false \/ c_cov s k = None) \/ (rc = true /\ k' = k /\ c_cov s k <> None)).
  { destruct rc; [|auto]. destruct (c_cov s k) eqn:E; [|auto].
    destruct Hs as [Hs|[Hs|Hs]]; [discriminate| |discriminate].
    right. repeat split; auto. discriminate. }
  destruct Cases as [Hc|(-> & -> & Hc)].
  - destruct (ensure_pk_CInv rc s0 s1 I0 Hc E1) as (I1 & _).
    destruct (ensure_bg_CInv rc s1 s2 I1 E2) as (I2 & _).
    destruct (check_bins (cov_bins k' (sp s2))) as [[]|] eqn:EB; [|left; exact I2|right; reflexivity].
    unfold ensure_cov. destruct (is_some (c_cov s2 k') && negb rc).
    + left. destruct (c_cov s2 k'); exact I2.
    + destruct (cov_init k' s2) as [s3|] eqn:E3; [|right; reflexivity].
      assert (I3 : CInv s3).
      { destruct (covkind_eq_dec k' k) as [->|Hne].
        - apply (cov_init_CInv s2 s3 EB I2 E3).
        - apply (cov_init_other k' s2 s3 Hne I2 E3). }
      left. destruct (c_cov s3 k'); exact I3.
  - rewrite ensure_pk_true in E1. rewrite ensure_bg_true in E2.
    assert (F1 : ps_init cl (erase_cov s0) = Some (erase_cov s1))
      by (unfold ps_init in *; injection E1 as <-; reflexivity).
    destruct (ps_init_CInv _ _ (erase_CInv _ I0) eq_refl F1) as (I1 & W1 & _).
    assert (F2 : bg_init (erase_cov s1) = Some (erase_cov s2)).
    { unfold bg_init in *. simpl. destruct (_ <? 5); [discriminate|].
      injection E2 as <-. reflexivity. }
    destruct (bg_init_CInv _ _ I1 F2) as (I2 & P2 & _). simpl in P2, W1.
    assert (EB : check_bins (cov_bins k (sp s2)) = Some true).
    { change (c_cov s k) with (c_cov s0 k) in Hc.
      destruct (c_cov s0 k) as [r|] eqn:Er; [|congruence].
      destruct (c_val s0 I0 r Er) as (_ & _ & _ & _ & EB). rewrite <- EB, P2.
      unfold cov_bins. destruct k;
        rewrite ?(same_except_pl _ _ _ L_z_mean W1 eq_refl), ?(same_except_pl _ _ _ L_deltaz W1 eq_refl),
          ?(same_except_pl _ _ _ L_zmin W1 eq_refl), ?(same_except_pl _ _ _ L_zmax W1 eq_refl); reflexivity. }
    rewrite EB. unfold ensure_cov. rewrite andb_false_r.
    destruct (cov_init k s2) as [s3|] eqn:E3; [|right; reflexivity].
    rewrite <- cov_init_erase in E3.
    destruct (cov_init_CInv (erase_cov s2) s3 EB I2 E3) as (I3 & _).
    left. destruct (c_cov s3 k); exact I3.
Qed.

Lemma integral_CInv : forall r n l s, CInv s -> CInv (fst (integral_method cl r n l s)).
Proof.
  intros r n l s HI. unfold integral_method.
  destruct (check_num r f0 (of_Z 25000)); [|exact HI].
  destruct (check_int n (-2) 4); [|exact HI].
  destruct (check_int l 0 4); [|exact HI].
  destruct (ensure_base cl false s) as [s1|] eqn:E1; [|exact HI].
  pose proof (ensure_base_CInv false s s1 HI (or_introl eq_refl) E1) as I1.
  destruct (c_int s1) as [ic|]; [|exact I1].
  cbv zeta. destruct (has_key _ _); exact I1.
Qed.

Lemma spectrum_CInv : forall c a z1 z2 s, CInv s -> CInv (fst (spectrum_method cl c a z1 z2 s)).
Proof.
  intros c a z1 z2 s HI. unfold spectrum_method.
  destruct (check_num a _ _); [|exact HI].
  destruct (check_num z1 _ _); [|exact HI].
  destruct (check_num z2 _ _); [|exact HI].
  unfold bindo.
  destruct (ensure_pk cl false s) as [s1|] eqn:E1; [|exact HI].
  destruct (ensure_bg false s1) as [s2|] eqn:E2; [|exact HI].
  destruct (ensure_pk_CInv false s s1 HI (or_introl eq_refl) E1) as (I1 & _).
  destruct (ensure_bg_CInv false s1 s2 I1 E2) as (I2 & _).
  destruct (c_pk s2); [|exact I2]. destruct (c_bg s2); [|exact I2].
  destruct (negb _); [exact I2|]. destruct (_ && _ && _); exact I2.
Qed.

Lemma background_CInv : forall w z s, CInv s -> CInv (fst (background_getter w z s)).
Proof.
  intros w z s HI. unfold background_getter.
  destruct (check_num z _ _); [|exact HI].
  destruct (ensure_bg false s) as [s1|] eqn:E1; [|exact HI].
  destruct (ensure_bg_CInv false s s1 HI E1) as (I1 & _).
  destruct (c_bg s1); exact I1.
Qed.

Lemma maxsep_CInv : forall z dz s, CInv s -> CInv (fst (maximum_separation z dz s)).
Proof.
  intros z dz s HI. unfold maximum_separation.
  destruct (check_num z _ _); [|exact HI].
  destruct (check_num dz _ _); [|exact HI].
  destruct (ensure_bg false s) as [s1|] eqn:E1; [|exact HI].
  destruct (ensure_bg_CInv false s s1 HI E1) as (I1 & _).
  destruct (fltb _ _); [exact I1|]. destruct (c_bg s1); exact I1.
Qed.

Lemma set_bias_CInv : forall b x y s, CInv s ->
  (is_galaxy_bias b = false \/ c_cov s k = None) -> CInv (fst (set_bias b x y s)).
Proof.
  intros b x y s HI H1. unfold set_bias.
  destruct (negb (is_sorted x)); [exact HI|].
  destruct (negb (Nat.eqb _ _)); [exact HI|].
  destruct x as [|x0 xs]; [exact HI|].
  destruct (fltb x0 f0); [exact HI|].
  destruct (fltb _ _); [exact HI|].
  destruct (negb (spline_ok _)); [exact HI|]. simpl fst.
  pose proof (setS_same (sp s) b (combine (x0 :: xs) y)) as W.
  apply (CInv_update s _ [CCorr; CMult] [FS b] HI W); try alt.
  - rewrite (same_except_pf _ _ _ F_A_s W eq_refl). apply (c_As s HI).
  - right. destruct H1 as [H1|H1]; [right|left; exact H1].
    unfold cov_kept. destruct b; try discriminate; destruct k; repeat split; try reflexivity; left; reflexivity.
Qed.

Lemma set_power_spectrum_CInv : forall ks pk s, CInv s -> c_cov s k = None ->
  CInv (fst (set_power_spectrum ks pk s)).
Proof.
  intros ks pk s HI Hs. unfold set_power_spectrum.
  destruct (negb (is_sorted ks)); [exact HI|].
  destruct (negb (Nat.eqb _ _)); [exact HI|].
  destruct HI as [A C P V].
  destruct ks as [|k0 ks].
  - simpl fst. split; simpl; auto. intros r Hr. destruct k; simpl in Hr; congruence.
  - cbv zeta.
    set (p := setF _ F_k_max_norm _).
    assert (W : same_except k_range p (sp s)) by (unfold p, k_range; simpl; updates).
    assert (C' : forall b, c_bg s = Some b -> bg_core b = view p bg_core_fields /\
               (pi (sp s) I_background_bins <? 5) = false).
    { intros b Hb. rewrite (same_except_view _ _ _ bg_core_fields W eq_refl). auto. }
    destruct (negb (spline_ok _)); simpl fst; split; simpl; auto.
    + intros r Hr. destruct k; simpl in Hr; congruence.
    + intros r Hr. destruct k; simpl in Hr; congruence.
Qed.

(** ** Sequences of assignments *)

Lemma assign_seq_CInv : forall l s, CInv s -> cov_seq_safe k l s -> CInv (fst (assign_seq l s)).
Proof.
  induction l as [|[a v] r IH]; intros s HI Hs; [exact HI|].
  simpl in Hs |- *. destruct Hs as [Hs Hr].
  pose proof (set_attr_CInv a v s HI Hs) as I1.
  destruct (set_attr a v s) as [s1 [o|e|]]; simpl in *; auto.
Qed.

(** Specification or proof only; nothing in the code. *)
Definition cclean (s : state) : Prop := c_pk s = None /\ c_cov s k = None.

Lemma cclean_safe : forall s a, cclean s -> cov_set_safe k s a.
Proof. intros s a (H1 & H2). destruct a; simpl; auto. Qed.

Lemma set_attr_cclean : forall a v s, cclean s -> cclean (fst (set_attr a v s)).
Proof.
  intros a v s (H1 & H2). unfold set_attr, cclean.
  destruct (attr_update a v (sp s)); simpl; auto. rewrite H1, H2.
  destruct (dropped _ CPk), (dropped _ (cache_of_cov k)); auto.
Qed.

Lemma assign_seq_cclean : forall l s, CInv s -> cclean s ->
  CInv (fst (assign_seq l s)) /\ cclean (fst (assign_seq l s)).
Proof.
  induction l as [|[a v] r IH]; intros s HI Hc; [auto|]. simpl.
  pose proof (set_attr_CInv a v s HI (cclean_safe s a Hc)) as I1.
  pose proof (set_attr_cclean a v s Hc) as C1.
  destruct (set_attr a v s) as [s1 [o|e|]]; simpl in *; auto.
Qed.

Lemma reassign_cclean : forall l s, CInv s -> cclean s ->
  CInv (fst (reassign_all l s)) /\ cclean (fst (reassign_all l s)).
Proof.
  induction l as [|a r IH]; intros s HI Hc; [auto|]. simpl.
  pose proof (set_attr_CInv a (get_attr a (sp s)) s HI (cclean_safe s a Hc)) as I1.
  pose proof (set_attr_cclean a (get_attr a (sp s)) s Hc) as C1.
  destruct (set_attr a (get_attr a (sp s)) s) as [s1 [o|[]|]]; simpl in *; auto.
Qed.

Lemma read_parameters_CInv : forall s, CInv s ->
  CInv (fst (read_parameters s)) /\ cclean (fst (read_parameters s)).
Proof.
  intros s HI. unfold read_parameters.
  assert (HA : exists r, all_attrs = A_A_s :: r) by (eexists; reflexivity).
  destruct HA as [rest ->]. cbn [reassign_all].
  pose proof (c_As s HI) as [A1 A2].
  assert (E : set_attr A_A_s (get_attr A_A_s (sp s)) s
            = (drop (attr_frees A_A_s) (setP s (setF (sp s) F_A_s (pf (sp s) F_A_s))), Ok ONone)).
  { unfold set_attr. simpl attr_update. unfold check_num. simpl as_num. cbv iota beta.
    rewrite A1, A2. reflexivity. }
  pose proof (set_attr_CInv A_A_s (get_attr A_A_s (sp s)) s HI I) as I1.
  rewrite E in *. simpl fst in I1. cbv iota beta.
  apply reassign_cclean; [exact I1|]. unfold cclean. simpl. destruct k; auto.
Qed.

Lemma reset_CInv : forall s, CInv s -> CInv (fst (reset_contributions s)).
Proof.
  intros s HI. unfold reset_contributions.
  destruct (read_parameters_CInv s HI) as [I1 C1].
  destruct (read_parameters s) as [s1 [o|e|]]; simpl in I1, C1; try exact I1.
  apply (assign_seq_cclean _ s1 I1 C1).
Qed.

Theorem step_CInv : forall o s, CInv s -> cov_op_safe k s o ->
  CInv (fst (step cl o s)) \/ snd (step cl o s) = Crash.
Proof.
  intros o s HI Hs. destruct o; simpl in Hs |- *;
    match goal with |- context [compute_cov] => idtac | _ => left end.
  - apply set_attr_CInv; assumption.
  - apply set_bias_CInv; assumption.
  - apply set_power_spectrum_CInv; assumption.
  - apply (read_parameters_CInv s HI).
  - unfold set_parameters. destruct (known l); [|exact HI]. apply assign_seq_CInv; assumption.
  - apply reset_CInv. exact HI.
  - apply background_CInv. exact HI.
  - apply maxsep_CInv. exact HI.
  - apply integral_CInv; assumption.
  - apply spectrum_CInv. exact HI.
  - apply compute_point_CInv; assumption.
  - apply compute_bulk_CInv; assumption.
  - apply compute_cov_CInv; assumption.
Qed.

Theorem run_CInv : forall l s s', CInv s -> cov_safe_history cl k l s -> run cl l s = Some s' -> CInv s'.
Proof.
  induction l as [|o r IH]; intros s s' HI Hs Hr; simpl in *.
  - injection Hr as <-. exact HI.
  - destruct Hs as [Ho Hs].
    destruct (step_CInv o s HI Ho) as [I1|I1];
      destruct (step cl o s) as [s1 [ov|e|]]; simpl in *; try discriminate; eauto.
Qed.

(** ** Comparison with a fresh object *)

(** Specification or proof only; nothing in the code. *)
Definition out_fields : list field := FB B_divergent :: k_range.

Lemma cov_pre_same : forall p' p, same_except out_fields p' p ->
  coords_ok SMult p' = coords_ok SMult p /\ any_contribution p' = any_contribution p /\
  cov_lengths_ok k p' = cov_lengths_ok k p /\ cov_bins k p' = cov_bins k p /\
  (cov_defined p' <-> cov_defined p).
Proof.
  intros p' p H.
  split; [apply (coords_same SMult _ _ _ H eq_refl)|].
  split; [apply (contribution_same _ _ _ H eq_refl)|].
  assert (L : forall x, pl p' x = pl p x)
    by (intros x; apply (same_except_pl _ _ _ x H); destruct x; reflexivity).
  assert (N : nonlinear p' = nonlinear p) by apply (nonlinear_same _ _ _ H eq_refl).
  split; [|split].
  - unfold cov_lengths_ok. destruct k; simpl; rewrite !L; reflexivity.
  - unfold cov_bins. destruct k; rewrite !L; reflexivity.
  - unfold cov_defined. destruct k; [tauto|]. rewrite !L, N. tauto.
Qed.

Lemma cov_fresh : forall s2 o,
  CInv s2 ->
  coords_ok SMult (sp s2) = true -> any_contribution (sp s2) = true ->
  cov_lengths_ok k (sp s2) = true ->
  c_pk s2 <> None -> c_bg s2 <> None ->
  (check_bins (cov_bins k (sp s2)) = Some false /\ o = Raise ValueError \/
   exists r, c_cov s2 k = Some r /\ check_bins (cov_bins k (sp s2)) = Some true /\ o = Ok (OCov k r)) ->
  exists q s3, could_have_entered q (sp s2) /\
    compute_cov cl k false (fresh_object q (user_spectrum s2)) = (s3, o) /\
    same_except [FB B_divergent] (sp s3) (sp s2).
Proof.
  intros s2 o HI H1 H2 H3 Hp Hb Ho.
  destruct (c_bg s2) as [b|] eqn:Eb; [|congruence].
  destruct (c_core s2 HI b Eb) as [Hcore Hbins].
  destruct (c_pk s2) as [pk|] eqn:Epk; [|congruence].
  assert (G : forall q sx,
    could_have_entered q (sp s2) ->
    ensure_pk cl false (setP (fresh_object q (user_spectrum s2)) (mark_divergent q)) = Some sx ->
    same_except [FB B_divergent] (sp sx) (sp s2) ->
    c_pk sx = Some pk -> c_bg sx = None -> c_cov sx k = None ->
    exists s3, compute_cov cl k false (fresh_object q (user_spectrum s2)) = (s3, o)
      /\ same_except [FB B_divergent] (sp s3) (sp s2)).
  { intros q sx [Hq _] E1 W X1 X2 X3.
    destruct (cov_pre_same _ _ Hq) as (Q1 & Q2 & Q3 & _).
    assert (W' : same_except out_fields (sp sx) (sp s2)).
    { apply (same_except_incl [FB B_divergent]); [exact W|]. intros x [<-|[]]. left; reflexivity. }
    destruct (cov_pre_same _ _ W') as (_ & _ & _ & Q4 & Q5).
    unfold compute_cov. simpl sp. rewrite Q1, Q2, Q3, H1, H2, H3. simpl negb. cbv iota zeta.
    rewrite E1. unfold bindo, ensure_bg. rewrite X2. simpl is_some. simpl andb. cbv iota.
    unfold bg_init. rewrite (same_except_pi _ _ _ I_background_bins W' eq_refl), Hbins. simpl sp.
    rewrite Q4.
    destruct Ho as [[B1 ->]|(r & B0 & B1 & ->)]; rewrite B1.
    - eexists. split; [reflexivity|exact W].
    - destruct (c_val s2 HI r B0) as (pk' & V1 & V2 & V3 & V4).
      assert (pk' = pk) by congruence. subst pk'.
      unfold ensure_cov. simpl c_cov. rewrite X3. simpl is_some. simpl andb. cbv iota.
      unfold cov_init. simpl c_bg. simpl c_pk. rewrite X1. simpl sp.
      apply Q5 in V3. unfold cov_defined in V3.
      assert (Ek : covkind_beq k k = true) by (destruct k; reflexivity).
      assert (VF : view (sp sx) (cov_fields k) = view (sp s2) (cov_fields k))
        by (apply (same_except_view _ _ _ _ W); destruct k; reflexivity).
      assert (VC : view (sp sx) bg_core_fields = view (sp s2) bg_core_fields)
        by (apply (same_except_view _ _ _ _ W); reflexivity).
      match goal with |- context [if match k with KCov => false | KACov => ?b end then _ else _] =>
        assert (Ed : match k with KCov => false | KACov => b end = false)
          by (clear - V3; destruct k; [reflexivity|exact V3]); rewrite Ed end.
      simpl c_cov. rewrite Ek, VF. simpl bg_core. rewrite VC, V2.
      eexists. split; [reflexivity|exact W]. }
  pose proof (c_pks s2 HI) as HO. rewrite Epk in HO.
  destruct pk as [ks pks|c].
  - assert (EU : user_spectrum s2 = Some (ks, pks)) by (unfold user_spectrum; rewrite Epk; reflexivity).
    rewrite EU in G |- *.
    set (q := setB (sp s2) B_divergent false).
    assert (Hq : same_except [FB B_divergent] q (sp s2)) by (unfold q; updates).
    assert (CE : could_have_entered q (sp s2)).
    { split; [|reflexivity]. apply (same_except_incl [FB B_divergent]); [exact Hq|].
      intros x [<-|[]]. left; reflexivity. }
    destruct (G q _ CE eq_refl) as (s3 & E1 & E2); simpl; auto.
    + apply (same_except_trans _ _ q); [apply mark_same|exact Hq].
    + exists q, s3. auto.
  - destruct HO as (q0 & O1 & O2 & O3).
    assert (EU : user_spectrum s2 = None) by (unfold user_spectrum; rewrite Epk; reflexivity).
    rewrite EU in G |- *.
    set (q := setB q0 B_divergent false).
    assert (Hq : same_except [FB B_divergent] q q0) by (unfold q; updates).
    assert (CE : could_have_entered q (sp s2)).
    { split; [|reflexivity]. apply (same_except_trans _ _ q0).
      - apply (same_except_incl [FB B_divergent]); [exact Hq|]. intros x [<-|[]]. left; reflexivity.
      - apply (same_except_incl k_range); [exact O1|]. intros x Hx. right; exact Hx. }
    assert (Wm : same_except [FB B_divergent] (mark_divergent q) q0)
      by (apply (same_except_trans _ _ q); [apply mark_same|exact Hq]).
    assert (Ec : view (mark_divergent q) class_fields = c)
      by (rewrite (same_except_view _ _ _ class_fields Wm eq_refl); auto).
    assert (Wc : same_except [FB B_divergent] (clamp_k cl (mark_divergent q)) (sp s2)).
    { intros x Hx. rewrite <- O3. destruct (in_k_range_dec x) as [Hk|Hk].
      - apply clamp_cong; [rewrite Ec; exact O2| |exact Hk].
        intros y Hy. apply Wm. intros [<-|[]]. apply memb_In in Hy. discriminate.
      - rewrite (clamp_same cl (mark_divergent q) x Hk), (clamp_same cl q0 x Hk). apply Wm. exact Hx. }
    destruct (G q _ CE eq_refl) as (s3 & E1 & E2); simpl; auto.
    + rewrite Ec. reflexivity.
    + exists q, s3. auto.
Qed.

(** What compute_covariance_bulk / compute_average_covariance_bulk return is
    what a fresh object returns. *)
Theorem cov_coherent : forall s rc s' r,
  CInv s -> compute_cov cl k rc s = (s', r) -> r <> Crash ->
  exists q s2, could_have_entered q (sp s') /\
    compute_cov cl k false (fresh_object q (user_spectrum s')) = (s2, r) /\
    (same_except [FB B_divergent] (sp s2) (sp s')).
Proof.
  intros s rc s' r HI H Hr.
  pose proof (compute_cov_CInv k rc s HI (or_intror (or_introl eq_refl))) as I1.
  rewrite H in I1. simpl in I1. destruct I1 as [I1|I1]; [|congruence].
  assert (Early : forall e,
    same_except [FB B_divergent] (sp s') (sp s) -> user_spectrum s' = user_spectrum s -> r = Raise e ->
    (forall q, could_have_entered q (sp s) -> exists s2, same_except [FB B_divergent] (sp s2) q /\
       compute_cov cl k false (fresh_object q (user_spectrum s)) = (s2, r)) ->
    exists q s2, could_have_entered q (sp s') /\
    compute_cov cl k false (fresh_object q (user_spectrum s')) = (s2, r) /\
    same_except [FB B_divergent] (sp s2) (sp s')).
  { intros e W U -> HF. set (q := setB (sp s) B_divergent false).
    assert (Hq : same_except [FB B_divergent] q (sp s)) by (unfold q; updates).
    assert (CE : could_have_entered q (sp s)).
    { split; [|reflexivity]. apply (same_except_incl [FB B_divergent]); [exact Hq|].
      intros x [<-|[]]. left; reflexivity. }
    assert (Hq' : same_except [FB B_divergent] q (sp s'))
      by (apply (same_except_trans _ _ (sp s)); [exact Hq|apply same_except_sym; exact W]).
    destruct (HF q CE) as (s2 & W2 & E). rewrite U.
    exists q, s2. split; [|split; [exact E|]].
    - split; [|reflexivity]. apply (same_except_incl [FB B_divergent]); [exact Hq'|].
      intros x [<-|[]]. left; reflexivity.
    - apply (same_except_trans _ _ q); assumption. }
  unfold compute_cov in H.
  destruct (coords_ok SMult (sp s)) eqn:Ec; simpl in H.
  2: { injection H as <- <-. apply (Early ValueError); auto; [apply same_except_refl|].
       intros q [Hq _]. destruct (cov_pre_same _ _ Hq) as (Q1 & Q2 & Q3 & _).
       unfold compute_cov. simpl sp. rewrite Q1, Ec.
       eexists; split; [|reflexivity]. apply same_except_refl. }
  destruct (any_contribution (sp s)) eqn:Ea; simpl in H.
  2: { injection H as <- <-. apply (Early ValueError); auto; [apply same_except_refl|].
       intros q [Hq _]. destruct (cov_pre_same _ _ Hq) as (Q1 & Q2 & Q3 & _).
       unfold compute_cov. simpl sp. rewrite Q1, Q2, Ec, Ea.
       eexists; split; [|reflexivity]. apply same_except_refl. }
  destruct (cov_lengths_ok k (sp s)) eqn:El; simpl in H.
  2: { injection H as <- <-. apply (Early ValueError); auto; [apply mark_same|].
       intros q [Hq _]. destruct (cov_pre_same _ _ Hq) as (Q1 & Q2 & Q3 & _).
       unfold compute_cov. simpl sp. rewrite Q1, Q2, Q3, Ec, Ea, El.
       eexists; split; [|reflexivity]. simpl. apply mark_same. }
  clear Early.
  pose proof (mark_CInv s HI) as I0.
  set (s0 := setP s (mark_divergent (sp s))) in *.
  unfold bindo in H.
  destruct (ensure_pk cl rc s0) as [s1|] eqn:E1; [|injection H as <- <-; congruence].
  destruct (ensure_bg rc s1) as [s2|] eqn:E2; [|injection H as <- <-; congruence].
  assert (W1 : same_except k_range (sp s1) (sp s0) /\ c_pk s1 <> None).
  { unfold ensure_pk in E1. destruct (is_some (c_pk s0) && negb rc) eqn:E.
    - injection E1 as <-. split; [apply same_except_refl|].
      destruct (c_pk s0); [discriminate|discriminate].
    - unfold ps_init in E1. injection E1 as <-. split; [apply clamp_same|discriminate]. }
  assert (W2 : sp s2 = sp s1 /\ c_pk s2 = c_pk s1 /\ c_bg s2 <> None).
  { unfold ensure_bg in E2. destruct (is_some (c_bg s1) && negb rc) eqn:E.
    - injection E2 as <-. repeat split; auto. destruct (c_bg s1); discriminate.
    - unfold bg_init in E2. destruct (_ <? 5); [discriminate|]. injection E2 as <-.
      repeat split; auto. discriminate. }
  destruct W1 as [W1 W1']. destruct W2 as (W2 & W2' & W2'').
  assert (W : same_except out_fields (sp s2) (sp s)).
  { rewrite W2. apply (same_except_trans _ _ (sp s0)).
    - apply (same_except_incl k_range); [exact W1|]. intros x Hx; right; exact Hx.
    - apply (same_except_incl [FB B_divergent]); [apply mark_same|].
      intros x [<-|[]]. left; reflexivity. }
  destruct (cov_pre_same _ _ W) as (Q1 & Q2 & Q3 & _).
  destruct (check_bins (cov_bins k (sp s2))) as [[]|] eqn:EB; [| |injection H as <- <-; congruence].
  - destruct (ensure_cov k rc s2) as [s3|] eqn:E3; [|injection H as <- <-; congruence].
    destruct (c_cov s3 k) as [v|] eqn:E4; [|injection H as <- <-; congruence].
    injection H as <- <-.
    assert (W3 : sp s3 = sp s2 /\ c_pk s3 = c_pk s2 /\ c_bg s3 = c_bg s2).
    { unfold ensure_cov in E3. destruct (is_some (c_cov s2 k) && negb rc).
      - injection E3 as <-. auto.
      - unfold cov_init in E3. destruct (c_bg s2); [|discriminate].
        destruct (c_pk s2); [|discriminate].
        match type of E3 with (if ?b then _ else _) = _ => destruct b; [discriminate|] end.
        injection E3 as <-. auto. }
    destruct W3 as (W3 & W3' & W3'').
    apply cov_fresh; auto; try congruence.
    right. exists v. rewrite W3. auto.
  - injection H as <- <-. apply cov_fresh; auto; try congruence.
Qed.

End WithClass.
