(** * Cache coherence of the three signal outputs: invariant and proof. *)
From Coq Require Import ZArith Bool List String Lia.
From Verif Require Import F64 PyParams PySet Integrals PyState PySpec PyWrites.
Import ListNotations.
Open Scope Z_scope.
#[local] Arguments view : simpl never.
#[local] Arguments needs_div : simpl never.
#[local] Arguments nonlinear : simpl never.
#[local] Arguments app : simpl nomatch.

(** ** The table of integrals covers what the signal needs *)

Lemma needed_subset :
  forall k p ells dv b1 b2 ells',
  (needs_div p = true -> dv = true) ->
  (k = SMult -> b1 = pb p B_flatsky_local_nonlocal /\ b2 = pb p B_flatsky_nonlocal
                /\ (b1 || b2 = true -> ells = ells')) ->
  forallb (has_key (integral_keys dv b1 b2 true ells')) (needed_keys k p ells) = true.
Proof.
  intros k p ells dv b1 b2 ells' Hd Hk.
  apply forallb_forall. intros x Hx. apply has_key_In.
  unfold needed_keys in Hx. unfold integral_keys.
  apply in_app_or in Hx as [Hx|Hx]; [apply in_or_app; left; exact Hx|].
  apply in_or_app; right.
  apply in_app_or in Hx as [Hx|Hx].
  { destruct (needs_div p); [|destruct Hx]. rewrite (Hd eq_refl).
    apply in_or_app; left; exact Hx. }
  destruct k; try destruct Hx.
  destruct (Hk eq_refl) as (E1 & E2 & E3). clear Hk.
  apply in_or_app; right. apply in_or_app; right.
  rewrite !andb_true_r.
  apply in_app_or in Hx as [Hx|Hx].
  - destruct (pb p B_flatsky_nonlocal); rewrite ?andb_false_r in Hx;
      [|simpl in Hx; destruct Hx].
    subst b2. rewrite orb_true_r in E3.
    rewrite (E3 eq_refl) in Hx. apply in_or_app; left.
    destruct (pb p B_len && true && negb (pb p B_only_cross)); [|destruct Hx].
    apply in_map_iff in Hx as [l [<- Hl]]. apply in_map_iff. exists l.
    split; [reflexivity|]. apply filter_In in Hl. tauto.
  - destruct (pb p B_flatsky_local_nonlocal); rewrite ?andb_false_r in Hx;
      [|destruct Hx].
    subst b1. simpl in E3. rewrite (E3 eq_refl) in Hx. apply in_or_app; right.
    destruct (pb p B_len && pb p B_den && true); [|destruct Hx].
    apply in_flat_map in Hx as [l [Hl Hx]]. apply in_flat_map. exists l.
    split; [|exact Hx]. apply filter_In in Hl. tauto.
Qed.

(** ** Narrowing the wavenumber range *)

Section WithClass.
Variable cl : class_lib.

Lemma clamp_same : forall q, same_except k_range (clamp_k cl q) q.
Proof.
  intros q. unfold clamp_k. cbv zeta.
  destruct (fltb (pf q F_k_min) (klo cl (view q class_fields)));
    match goal with |- context [if ?b then _ else _] => destruct b end;
    unfold k_range; updates.
Qed.

Lemma clamp_cong :
  forall q q', view q class_fields = view q' class_fields ->
  (forall x, In x k_range -> getf q x = getf q' x) ->
  forall x, In x k_range -> getf (clamp_k cl q) x = getf (clamp_k cl q') x.
Proof.
  intros q q' Hc Hk x Hx.
  assert (E1 : pf q F_k_min = pf q' F_k_min)
    by (pose proof (Hk (FF F_k_min) ltac:(in_list)) as E; simpl in E; congruence).
  assert (E2 : pf q F_k_max = pf q' F_k_max)
    by (pose proof (Hk (FF F_k_max) ltac:(in_list)) as E; simpl in E; congruence).
  assert (E3 : pf q F_k_min_norm = pf q' F_k_min_norm)
    by (pose proof (Hk (FF F_k_min_norm) ltac:(in_list)) as E; simpl in E; congruence).
  assert (E4 : pf q F_k_max_norm = pf q' F_k_max_norm)
    by (pose proof (Hk (FF F_k_max_norm) ltac:(in_list)) as E; simpl in E; congruence).
  unfold clamp_k. cbv zeta. rewrite Hc, E1.
  set (lo := klo cl (view q' class_fields)).
  set (hi := khi cl (view q' class_fields)).
  assert (Em : forall b, pf (if b : bool then setF (setF q F_k_min lo) F_k_min_norm lo else q) F_k_max
             = pf (if b then setF (setF q' F_k_min lo) F_k_min_norm lo else q') F_k_max)
    by (intros []; simpl; exact E2).
  rewrite Em.
  destruct (fltb (pf q' F_k_min) lo);
    match goal with |- context [if ?b then _ else _] => destruct b end;
    unfold k_range in Hx; simpl in Hx;
    destruct Hx as [<-|[<-|[<-|[<-|[]]]]]; simpl; congruence.
Qed.

(** Specification or proof only; nothing in the code. *)
Definition with_k_range (p q : params) : params :=
  setF (setF (setF (setF p F_k_min (pf q F_k_min)) F_k_max (pf q F_k_max))
             F_k_min_norm (pf q F_k_min_norm)) F_k_max_norm (pf q F_k_max_norm).

Lemma with_k_range_same : forall p q, same_except k_range (with_k_range p q) p.
Proof. intros. unfold with_k_range, k_range. updates. Qed.

Lemma with_k_range_in : forall p q x, In x k_range -> getf (with_k_range p q) x = getf q x.
Proof.
  intros p q x Hx. unfold k_range in Hx. simpl in Hx.
  destruct Hx as [<-|[<-|[<-|[<-|[]]]]]; reflexivity.
Qed.

(** The origin of the current spectrum survives an update that leaves alone
    what CLASS is given.  Specification or proof only; nothing in the code. *)
Definition pk_origin (c : list fval) (p : params) : Prop :=
  exists q, same_except k_range q p /\ c = view q class_fields /\
            params_eq (clamp_k cl q) p.

Lemma in_k_range_dec : forall x, {In x k_range} + {~ In x k_range}.
Proof.
  intros x. destruct (memb x k_range) eqn:E.
  - left. apply memb_In. exact E.
  - right. intros H. apply memb_In in H. congruence.
Qed.

Lemma pk_origin_update :
  forall c p p' w, pk_origin c p -> same_except w p' p ->
  disjointb w (class_fields ++ k_range) = true -> pk_origin c p'.
Proof.
  intros c p p' w (q & Hq & Hc & He) Hw Hd.
  assert (Dw : forall x, In x (class_fields ++ k_range) -> getf p' x = getf p x).
  { intros x Hx. apply Hw. intros Hi. unfold disjointb in Hd.
    rewrite forallb_forall in Hd. specialize (Hd x Hx).
    apply memb_In in Hi. rewrite Hi in Hd. discriminate. }
  exists (with_k_range p' q).
  assert (Hcv : view (with_k_range p' q) class_fields = view q class_fields).
  { unfold view. apply map_ext_in. intros x Hx.
    destruct (in_k_range_dec x) as [Hk|Hk].
    - apply with_k_range_in. exact Hk.
    - rewrite (with_k_range_same p' q x Hk).
      rewrite Dw by (apply in_or_app; left; exact Hx).
      symmetry. apply Hq. exact Hk. }
  repeat split.
  - apply with_k_range_same.
  - rewrite Hcv. exact Hc.
  - intros x. destruct (in_k_range_dec x) as [Hk|Hk].
    + rewrite (clamp_cong (with_k_range p' q) q Hcv
                 (fun y Hy => with_k_range_in p' q y Hy) x Hk).
      rewrite He. symmetry. apply Dw. apply in_or_app; right; exact Hk.
    + rewrite (clamp_same (with_k_range p' q) x Hk).
      apply with_k_range_same. exact Hk.
Qed.

Lemma pk_origin_ext :
  forall c p p', pk_origin c p -> params_eq p' p -> pk_origin c p'.
Proof.
  intros c p p' (q & Hq & Hc & He) H. exists q. repeat split; auto.
  - apply (same_except_trans _ _ p); [exact Hq|].
    apply same_except_sym. apply params_eq_same. exact H.
  - intros x. rewrite He, H. reflexivity.
Qed.

Definition user_range (ks : list f64) (p : params) : Prop :=
  match ks with
  | [] => False
  | k0 :: _ => view p k_range = [VF k0; VF (last ks k0); VF k0; VF (last ks k0)]
  end.

(** ** The invariant *)

Section WithKind.
Variable k : sigkind.

(** Specification or proof only; nothing in the code. *)
Definition int_core : list field :=
  [FF F_k_min_norm; FF F_k_max_norm; FI I_bessel_bins; FI I_pk_type].
Definition div_flags : list field := [FB B_d2; FB B_g1; FB B_g2; FB B_g3; FB B_g4; FB B_g5].
Definition flat_flags : list field := [FB B_flatsky_local_nonlocal; FB B_flatsky_nonlocal].

Record Base (s : state) : Prop := {
  i_out : pi (sp s) I_output_type = out_MULTIPOLES;
  i_As : fltb (pf (sp s) F_A_s) m100 = false /\ fltb p100 (pf (sp s) F_A_s) = false;
  i_core : forall b, c_bg s = Some b ->
     bg_core b = view (sp s) bg_core_fields /\ (pi (sp s) I_background_bins <? 5) = false;
  i_G : forall b, c_bg s = Some b -> bg_G b = view (sp s) bg_G_fields;
  i_pk : match c_pk s with
         | None => True
         | Some (PkUser ks _) => user_range ks (sp s)
         | Some (PkClass c) => pk_origin c (sp s)
         end;
  i_cls : nonlinear (sp s) = true ->
          match c_pk s with
          | None => True
          | Some (PkUser _ _) => c_cls s = None
          | Some (PkClass c) => c_cls s = Some c
          end;
  i_int : forall ic, c_int s = Some ic ->
     c_pk s = Some (ic_pk ic) /\ c_bg s <> None /\
     ic_cls ic = (if nonlinear (sp s) then c_cls s else None) /\
     (nonlinear (sp s) = true -> c_cls s <> None) /\
     ic_view ic = view (sp s) (int_fields (sp s)) /\
     (exists dv b1 b2 ells,
        ic_keys ic = integral_keys dv b1 b2 true ells /\
        (needs_div (sp s) = true -> dv = true) /\
        (k = SMult -> b1 = pb (sp s) B_flatsky_local_nonlocal /\
                      b2 = pb (sp s) B_flatsky_nonlocal /\
                      (b1 || b2 = true -> ells = pm (sp s)))) /\
     (needs_div (sp s) = true ->
        ic_div ic = Some (view (sp s) div_fields, view (sp s) bg_core_fields) /\
        Nat.ltb (List.length (pl (sp s) L_deltaz)) (List.length (pl (sp s) L_z_mean)) = false)
}.

Definition avg_ok (p : params) : Prop :=
  k = SAvg -> Nat.ltb (List.length (pl p L_zmax)) (List.length (pl p L_zmin)) = false.

Definition Sigs (s : state) : Prop :=
  forall r, c_sig s k = Some r ->
    exists ic, c_int s = Some ic /\
      r = mkSig (view (sp s) bg_core_fields) (view (sp s) bg_G_fields)
                (ic_pk ic) (ic_cls ic) (ic_view ic)
                (if needs_div (sp s) then ic_div ic else None)
                (view (sp s) (signal_fields ++ sig_coord_fields k))
      /\ avg_ok (sp s).

Definition Inv (s : state) : Prop := Base s /\ Sigs s.

Lemma Inv_init : forall p,
  pi p I_output_type = out_MULTIPOLES ->
  fltb (pf p F_A_s) m100 = false /\ fltb p100 (pf p F_A_s) = false ->
  Inv (init_state p).
Proof.
  intros p Ho HA. split.
  - split; simpl; try discriminate; auto.
  - intros r Hr. discriminate.
Qed.

Lemma needs_div_same : forall w p' p,
  same_except w p' p -> disjointb w div_flags = true -> needs_div p' = needs_div p.
Proof.
  intros w p' p H D. unfold needs_div.
  pose proof (same_except_view _ _ _ _ H D) as E. unfold view, div_flags in E. simpl in E.
  injection E as -> -> -> -> -> ->. reflexivity.
Qed.

Lemma nonlinear_same : forall w p' p,
  same_except w p' p -> memb (FI I_pk_type) w = false -> nonlinear p' = nonlinear p.
Proof. intros w p' p H M. unfold nonlinear. rewrite (same_except_pi _ _ _ _ H M). reflexivity. Qed.

Lemma int_fields_linear : forall p, nonlinear p = false -> int_fields p = int_core.
Proof.
  intros p H. unfold int_fields, nonlinear in *. destruct (pi p I_pk_type =? pk_LINEAR);
    [reflexivity | discriminate].
Qed.
Lemma int_fields_nonlinear : forall p, nonlinear p = true ->
  int_fields p = int_core ++ [FI I_covariance_interpolation_method].
Proof.
  intros p H. unfold int_fields, nonlinear in *. destruct (pi p I_pk_type =? pk_LINEAR);
    [discriminate | reflexivity].
Qed.

Lemma disjoint_pk_type : forall w, disjointb w int_core = true -> memb (FI I_pk_type) w = false.
Proof.
  intros w H. apply (disjoint_memb _ _ _ H). reflexivity.
Qed.

Lemma int_view_same : forall w p' p,
  same_except w p' p -> disjointb w int_core = true ->
  (memb (FI I_covariance_interpolation_method) w = false \/ nonlinear p = false) ->
  view p' (int_fields p') = view p (int_fields p).
Proof.
  intros w p' p H D M.
  pose proof (nonlinear_same _ _ _ H (disjoint_pk_type _ D)) as N.
  destruct (nonlinear p) eqn:E.
  - rewrite (int_fields_nonlinear p' N), (int_fields_nonlinear p E).
    apply (same_except_view w); [exact H|].
    destruct M as [M|M]; [|discriminate].
    unfold disjointb in *. rewrite forallb_app, D. simpl. rewrite M. reflexivity.
  - rewrite (int_fields_linear p' N), (int_fields_linear p E).
    apply (same_except_view w); assumption.
Qed.

(** ** Preservation by an assignment *)

(** Specification or proof only; nothing in the code. *)
Definition int_kept (w : list field) (s : state) : Prop :=
  disjointb w int_core = true /\
  disjointb w bg_core_fields = true /\
  (memb (FI I_covariance_interpolation_method) w = false \/ nonlinear (sp s) = false) /\
  disjointb w div_flags = true /\
  (disjointb w div_fields = true \/ needs_div (sp s) = false) /\
  (k = SMult -> disjointb w flat_flags = true /\
     (memb FM w = false \/
      (pb (sp s) B_flatsky_local_nonlocal = false /\ pb (sp s) B_flatsky_nonlocal = false))).

Lemma Inv_update : forall s p' fr w,
  Inv s -> same_except w p' (sp s) ->
  memb (FI I_output_type) w = false ->
  fltb (pf p' F_A_s) m100 = false /\ fltb p100 (pf p' F_A_s) = false ->
  (dropped fr CBg = true \/ disjointb w bg_core_fields = true) ->
  (dropped fr CBg = true \/ disjointb w bg_G_fields = true \/ c_bg s = None) ->
  (dropped fr CPk = true \/ disjointb w (class_fields ++ k_range) = true \/ c_pk s = None) ->
  (dropped fr CPk = false \/ dropped fr CInt = true \/ c_int s = None) ->
  (dropped fr CBg = false \/ dropped fr CInt = true \/ c_int s = None) ->
  (dropped fr CInt = true \/ c_int s = None \/ int_kept w s) ->
  (dropped fr CInt = false \/ dropped fr (cache_of_sig k) = true \/ c_sig s k = None) ->
  (dropped fr (cache_of_sig k) = true \/ c_sig s k = None \/
     (disjointb w (signal_fields ++ sig_coord_fields k) = true /\
      disjointb w bg_core_fields = true /\ disjointb w bg_G_fields = true)) ->
  Inv (drop fr (setP s p')).
Proof.
  intros s p' fr w [B S] H Ho HA Hbg HG Hpk Hpi Hbi Hint His Hsig.
  assert (Hbg' : c_bg (drop fr (setP s p')) = if dropped fr CBg then None else c_bg s)
    by reflexivity.
  split.
  - split.
    + simpl. rewrite (same_except_pi _ _ _ _ H Ho). apply (i_out s B).
    + simpl. exact HA.
    + intros b Hb. rewrite Hbg' in Hb. destruct (dropped fr CBg); [discriminate|].
      destruct Hbg as [Hbg|Hbg]; [discriminate|].
      destruct (i_core s B b Hb) as [H1 H2]. simpl. split.
      * rewrite H1. symmetry. apply (same_except_view w); assumption.
      * rewrite (same_except_pi w p' (sp s)); [exact H2|exact H|].
        apply (disjoint_memb _ _ _ Hbg). reflexivity.
    + intros b Hb. rewrite Hbg' in Hb. destruct (dropped fr CBg); [discriminate|].
      destruct HG as [HG|[HG|HG]]; [discriminate| |congruence].
      simpl. rewrite (i_G s B b Hb). symmetry. apply (same_except_view w); assumption.
    + simpl. destruct (dropped fr CPk); [exact I|].
      pose proof (i_pk s B) as HP.
      destruct (c_pk s) as [[ks pks|c]|]; [| |exact I].
      * destruct Hpk as [Hpk|[Hpk|Hpk]]; try discriminate.
        destruct ks as [|k0 ks]; [exact HP|]. simpl in HP |- *.
        rewrite <- HP. apply (same_except_view w _ _ k_range H).
        unfold disjointb in *. rewrite forallb_app in Hpk.
        apply andb_true_iff in Hpk. exact (proj2 Hpk).
      * destruct Hpk as [Hpk|[Hpk|Hpk]]; try discriminate.
        apply (pk_origin_update c (sp s) p' w HP H Hpk).
    + simpl. intros N. destruct (dropped fr CPk); [exact I|].
      pose proof (i_cls s B) as HC.
      destruct (c_pk s) as [src|] eqn:E; [|exact I].
      destruct Hpk as [Hpk|[Hpk|Hpk]]; try discriminate.
      apply HC. rewrite <- (nonlinear_same w p' (sp s) H); [exact N|].
      apply (disjoint_memb _ _ _ Hpk). reflexivity.
    + simpl. intros ic Hic. destruct (dropped fr CInt); [discriminate|].
      destruct Hint as [Hint|[Hint|Hint]]; [discriminate|congruence|].
      destruct Hpi as [Hpi|[Hpi|Hpi]]; [|discriminate|congruence].
      destruct Hbi as [Hbi|[Hbi|Hbi]]; [|discriminate|congruence].
      rewrite Hpi, Hbi.
      destruct Hint as (D1 & D2 & D3 & D4 & D5 & D6).
      pose proof (nonlinear_same _ _ _ H (disjoint_pk_type _ D1)) as N.
      pose proof (needs_div_same _ _ _ H D4) as ND.
      destruct (i_int s B ic Hic) as (I1 & I2 & I3 & I4 & I5 & (dv & b1 & b2 & ells & K1 & K2 & K3) & I7).
      rewrite N, ND. repeat split; auto.
      * rewrite I5. symmetry. apply (int_view_same w); assumption.
      * exists dv, b1, b2, ells. split; [exact K1|]. split; [exact K2|].
        intros Hk. repeat split.
        -- destruct (K3 Hk) as (F1 & F2 & F3). destruct (D6 Hk) as (G1 & G2).
           pose proof (same_except_view _ _ _ _ H G1) as E. unfold view, flat_flags in E.
           simpl in E. injection E as E1 E2. congruence.
        -- destruct (K3 Hk) as (F1 & F2 & F3). destruct (D6 Hk) as (G1 & G2).
           pose proof (same_except_view _ _ _ _ H G1) as E. unfold view, flat_flags in E.
           simpl in E. injection E as E1 E2. congruence.
        -- intros Hb. destruct (K3 Hk) as (F1 & F2 & F3). destruct (D6 Hk) as (G1 & G2).
           destruct G2 as [G2|[G2 G3]].
           ++ rewrite (same_except_pm _ _ _ H G2). apply F3. exact Hb.
           ++ rewrite F1, F2, G2, G3 in Hb. discriminate.
      * destruct (I7 H0) as [J1 J2]. rewrite J1. do 2 f_equal.
        -- destruct D5 as [D5|D5]; [|congruence]. symmetry. apply (same_except_view w); assumption.
        -- symmetry. apply (same_except_view w); assumption.
      * destruct (I7 H0) as [J1 J2].
        destruct D5 as [D5|D5]; [|congruence].
        pose proof (same_except_view _ _ _ _ H D5) as E. unfold view, div_fields in E.
        simpl in E. injection E as E1 E2 E3. rewrite E1, E2. exact J2.
  - intros r Hr. simpl in Hr.
    destruct (dropped fr (cache_of_sig k)) eqn:Dk; [discriminate|].
    destruct Hsig as [Hsig|[Hsig|(E1 & E2 & E3)]]; [discriminate|congruence|].
    destruct His as [His|[His|His]]; [|discriminate|congruence].
    destruct (S r Hr) as (ic & Hic & Hrv & Ha). exists ic.
    split; [simpl; rewrite His; exact Hic|]. simpl.
    assert (ND : needs_div p' = needs_div (sp s)).
    { apply (needs_div_same w); [exact H|].
      apply (disjoint_sub _ _ _ E1). destruct k; reflexivity. }
    split.
    + rewrite ND, Hrv. f_equal; symmetry; apply (same_except_view w); assumption.
    + intros Hk. unfold avg_ok in Ha. specialize (Ha Hk).
      assert (M1 : memb (FL L_zmax) w = false /\ memb (FL L_zmin) w = false)
        by (rewrite Hk in E1; split; apply (disjoint_memb _ _ _ E1); reflexivity).
      destruct M1 as [M1 M2].
      rewrite (same_except_pl _ _ _ _ H M1), (same_except_pl _ _ _ _ H M2). exact Ha.
Qed.

Lemma in_range_As : forall v x, check_num v m100 p100 = inl x ->
  fltb x m100 = false /\ fltb p100 x = false.
Proof.
  intros v x H. unfold check_num in H. destruct (as_num v) as [y|]; [|discriminate].
  destruct (fltb y m100) eqn:E1; [discriminate|].
  destruct (fltb p100 y) eqn:E2; [discriminate|]. injection H as <-. auto.
Qed.

Lemma drop_nil_Inv : forall s, Inv (drop [] s) -> Inv s.
Proof.
  intros s [B S]. split.
  - destruct B. split; assumption.
  - intros r Hr. apply (S r). simpl. destruct k; exact Hr.
Qed.

Ltac alt := first [ left; reflexivity | right; reflexivity | right; left; reflexivity
                  | right; right; reflexivity | right; right; assumption ].

Lemma set_attr_Inv : forall a v s,
  Inv s -> set_safe k s a -> Inv (fst (set_attr a v s)).
Proof.
  intros a v s HI Hs. unfold set_attr.
  destruct (attr_update a v (sp s)) as [|p'|e|p' e] eqn:E; simpl; try exact HI.
  - pose proof (attr_update_Put _ _ _ _ E) as W.
    assert (HA : fltb (pf p' F_A_s) m100 = false /\ fltb p100 (pf p' F_A_s) = false).
    { destruct (attr_eq_dec a A_A_s) as [->|Hn].
      - simpl in E. destruct (check_num v m100 p100) eqn:C; [|discriminate].
        injection E as <-. simpl. apply (in_range_As v). exact C.
      - rewrite (same_except_pf _ _ _ F_A_s W); [apply (i_As s (proj1 HI))|].
        destruct a; try reflexivity. congruence. }
    destruct HI as [B S].
    assert (CS : c_int s = None -> c_sig s k = None).
    { intros Hn. destruct (c_sig s k) eqn:Ek; [|reflexivity].
      destruct (S _ Ek) as (ic & Hic & _). congruence. }
    apply (Inv_update s p' (attr_frees a) (attr_writes a) (conj B S) W);
      clear W E; [| exact HA | | | | | | | |];
      destruct a; simpl in Hs; try alt;
      try (right; right; unfold int_kept; repeat split; try reflexivity;
           try (left; reflexivity); try (right; left; reflexivity); fail);
      try reflexivity.
    all: try (destruct k; try alt; right; right; repeat split; reflexivity).
    all: try (destruct Hs as [Hs|Hs]; [right; left; exact Hs|];
              right; right; unfold int_kept; repeat split; try reflexivity;
              try (left; reflexivity); try (right; exact Hs);
              try (right; tauto); fail).
    (* l *)
    + destruct Hs as [Hs|[Hs|Hs]].
      * right; right. unfold int_kept. repeat split; try reflexivity;
          try (left; reflexivity); intuition congruence.
      * right; left. exact Hs.
      * right; right. unfold int_kept. repeat split; try reflexivity;
          try (left; reflexivity). right. exact Hs.
    (* sep, z_max, z_min for the averaged output *)
    + destruct Hs as [Hs|Hs];
        [ destruct k; [left; reflexivity|left; reflexivity|congruence]
        | destruct k; [left; reflexivity|left; reflexivity|right; left; exact Hs]].
    + destruct Hs as [Hs|Hs];
        [ destruct k; [left; reflexivity|left; reflexivity|congruence]
        | destruct k; [left; reflexivity|left; reflexivity|right; left; exact Hs]].
    + destruct Hs as [Hs|Hs];
        [ destruct k; [left; reflexivity|left; reflexivity|congruence]
        | destruct k; [left; reflexivity|left; reflexivity|right; left; exact Hs]].
  - destruct (attr_update_Part _ _ _ _ _ E) as (-> & Hh & W & ->).
    simpl in Hs. destruct Hs as [Hs|Hs]; [|congruence].
    apply drop_nil_Inv.
    apply (Inv_update s p' [] [FF F_m_ncdm] HI W).
    + reflexivity.
    + rewrite (same_except_pf _ _ _ F_A_s W eq_refl). apply (i_As s (proj1 HI)).
    + alt.
    + alt.
    + right; right; exact Hs.
    + alt.
    + alt.
    + right; right. unfold int_kept; repeat split; try reflexivity; left; reflexivity.
    + alt.
    + right; right. destruct k; repeat split; reflexivity.
Qed.

(** ** Preservation by the initialisation routines *)

(** Specification or proof only; nothing in the code. *)
Definition noint (s : state) : state :=
  mkState (sp s) (c_bg s) (c_pk s) (c_cls s) None (c_sig s) (c_cov s).

Lemma Base_noint : forall s, Base s -> Base (noint s).
Proof. intros s [H1 H2 H3 H4 H5 H6 H7]. split; simpl; auto. discriminate. Qed.

Lemma Sigs_none : forall s, c_sig s k = None -> Sigs s.
Proof. intros s H r Hr. congruence. Qed.

Lemma Inv_int_sig : forall s, Inv s -> c_int s = None -> c_sig s k = None.
Proof.
  intros s [B S] H. destruct (c_sig s k) eqn:E; [|reflexivity].
  destruct (S _ E) as (ic & Hic & _). congruence.
Qed.

Lemma Base_pk_int : forall s, Base s -> c_pk s = None -> c_int s = None.
Proof.
  intros s B H. destruct (c_int s) eqn:E; [|reflexivity].
  destruct (i_int s B _ E) as (I1 & _). congruence.
Qed.

Lemma Base_bg_int : forall s, Base s -> c_bg s = None -> c_int s = None.
Proof.
  intros s B H. destruct (c_int s) eqn:E; [|reflexivity].
  destruct (i_int s B _ E) as (_ & I1 & _). congruence.
Qed.

Lemma bg_init_Base : forall s s', Base s -> bg_init s = Some s' ->
  Base s' /\ (Sigs s -> Sigs s') /\ c_sig s' = c_sig s /\ sp s' = sp s /\
  c_bg s' <> None /\ c_pk s' = c_pk s /\ c_int s' = c_int s /\ c_cls s' = c_cls s.
Proof.
  intros s s' B H. unfold bg_init in H.
  destruct (pi (sp s) I_background_bins <? 5) eqn:E; [discriminate|].
  injection H as <-. simpl.
  split; [|split; [exact (fun S => S)|repeat split; auto; discriminate]].
  destruct B as [H1 H2 H3 H4 H5 H6 H7]. split; simpl; auto.
  - intros b Hb. injection Hb as <-. split; [reflexivity|exact E].
  - intros b Hb. injection Hb as <-. reflexivity.
  - intros ic Hic. destruct (H7 ic Hic) as (J1 & J2 & J3). split; [exact J1|]. split; [discriminate|exact J3].
Qed.

Lemma ps_init_Base : forall s s', Base (noint s) -> ps_init cl s = Some s' ->
  Base (noint s') /\ c_sig s' = c_sig s /\ same_except k_range (sp s') (sp s) /\
  c_bg s' = c_bg s /\ c_pk s' <> None /\ c_int s' = c_int s /\ user_spectrum s' = None /\
  pb (sp s') B_divergent = pb (sp s) B_divergent.
Proof.
  intros s s' B H. unfold ps_init in H. injection H as <-.
  pose proof (clamp_same (sp s)) as W.
  simpl. split.
  - split; simpl.
    + rewrite (same_except_pi _ _ _ I_output_type W eq_refl). apply (i_out _ B).
    + rewrite (same_except_pf _ _ _ F_A_s W eq_refl). apply (i_As _ B).
    + intros b Hb. destruct (i_core _ B b Hb) as [H1 H2]. simpl in *.
      rewrite (same_except_view _ _ _ bg_core_fields W eq_refl), (same_except_pi _ _ _ I_background_bins W eq_refl). auto.
    + intros b Hb. rewrite (same_except_view _ _ _ bg_G_fields W eq_refl). apply (i_G _ B b Hb).
    + exists (sp s). repeat split; auto. apply same_except_sym. exact W.
    + auto.
    + discriminate.
  - repeat split; auto; try discriminate.
    apply (same_except_pb _ _ _ _ W eq_refl).
Qed.

Lemma int_init_Base : forall s s', Base (noint s) ->
  (needs_div (sp s) = true -> pb (sp s) B_divergent = true) ->
  int_init s = Some s' ->
  Base s' /\ c_sig s' = c_sig s /\ sp s' = sp s /\ c_bg s' = c_bg s /\
  c_pk s' = c_pk s /\ c_int s' <> None.
Proof.
  intros s s' B Hd H. unfold int_init in H.
  destruct (c_pk s) as [pk|] eqn:Epk; [|discriminate].
  destruct (c_bg s) as [bg|] eqn:Ebg; [|discriminate].
  destruct (nonlinear (sp s) && match c_cls s with Some _ => false | None => true end) eqn:Ec;
    [discriminate|].
  destruct (pb (sp s) B_divergent &&
            Nat.ltb (List.length (pl (sp s) L_deltaz)) (List.length (pl (sp s) L_z_mean))) eqn:El;
    [discriminate|].
  injection H as <-. simpl.
  split; [|rewrite ?Epk, ?Ebg; repeat split; auto; discriminate].
  split; simpl.
  - apply (i_out _ B).
  - apply (i_As _ B).
  - rewrite <- Ebg. apply (i_core _ B).
  - rewrite <- Ebg. apply (i_G _ B).
  - pose proof (i_pk _ B) as HP. simpl in HP. rewrite Epk in HP. exact HP.
  - pose proof (i_cls _ B) as HP. simpl in HP. rewrite Epk in HP. exact HP.
  - intros ic Hic. injection Hic as <-. simpl.
    split; [reflexivity|]. split; [discriminate|]. split; [reflexivity|].
    split.
    { intros N. rewrite N in Ec. destruct (c_cls s); [discriminate|discriminate]. }
    split; [reflexivity|]. split.
    + exists (pb (sp s) B_divergent), (pb (sp s) B_flatsky_local_nonlocal),
             (pb (sp s) B_flatsky_nonlocal), (pm (sp s)).
      split; [|split; auto].
      unfold keys_of, is_mult. rewrite (i_out _ B : pi (sp s) I_output_type = _). reflexivity.
    + intros ND. rewrite (Hd ND) in El |- *. simpl in El.
      destruct (i_core _ B bg Ebg) as [H1 _]. rewrite H1. split; [reflexivity|exact El].
Qed.

(** The lazy path: nothing cached is rebuilt. *)
Lemma ensure_bg_lazy : forall s s', Inv s -> ensure_bg false s = Some s' ->
  Inv s' /\ sp s' = sp s /\ c_bg s' <> None /\ c_pk s' = c_pk s /\
  c_int s' = c_int s /\ c_cls s' = c_cls s.
Proof.
  intros s s' [B S] H. unfold ensure_bg in H.
  destruct (c_bg s) eqn:E; simpl in H.
  - injection H as <-. split; [split; auto|]. repeat split; auto; congruence.
  - destruct (bg_init_Base s s' B H) as (B' & S' & H1 & H2 & H3 & H4 & H5 & H6).
    split; [split; auto|]. repeat split; auto.
Qed.

Lemma ensure_pk_lazy : forall s s', Inv s -> ensure_pk cl false s = Some s' ->
  Inv s' /\ same_except k_range (sp s') (sp s) /\ c_bg s' = c_bg s /\ c_pk s' <> None /\
  c_int s' = c_int s /\ user_spectrum s' = user_spectrum s /\
  pb (sp s') B_divergent = pb (sp s) B_divergent.
Proof.
  intros s s' [B S] H. unfold ensure_pk in H.
  destruct (c_pk s) eqn:E; simpl in H.
  - injection H as <-. split; [split; auto|]. split; [apply same_except_refl|]. repeat split; auto; congruence.
  - destruct (ps_init_Base s s' (Base_noint s B) H) as (B' & H1 & H2 & H3 & H4 & H5 & H6 & H7).
    pose proof (Base_pk_int s B E) as Ei.
    pose proof (Inv_int_sig s (conj B S) Ei) as Es.
    assert (Hs' : noint s' = s').
    { unfold noint. rewrite <- Ei, <- H5. destruct s'; reflexivity. }
    rewrite Hs' in B'. split.
    + split; [exact B'|]. apply Sigs_none. rewrite H1. exact Es.
    + repeat split; auto. rewrite H6. unfold user_spectrum. rewrite E. reflexivity.
Qed.

Lemma ensure_int_lazy : forall s s', Inv s ->
  (c_int s <> None \/ (needs_div (sp s) = true -> pb (sp s) B_divergent = true)) ->
  ensure_int false s = Some s' ->
  Inv s' /\ sp s' = sp s /\ c_bg s' = c_bg s /\ c_pk s' = c_pk s /\ c_int s' <> None.
Proof.
  intros s s' [B S] Hd H. unfold ensure_int in H.
  destruct (c_int s) eqn:E; simpl in H.
  - injection H as <-. split; [split; auto|]. repeat split; auto; congruence.
  - destruct Hd as [Hd|Hd]; [congruence|].
    destruct (int_init_Base s s' (Base_noint s B) Hd H) as (B' & H1 & H2 & H3 & H4 & H5).
    split; [|auto]. split; [exact B'|]. apply Sigs_none. rewrite H1.
    apply (Inv_int_sig s (conj B S) E).
Qed.

Lemma ensure_base_lazy : forall s s', Inv s ->
  (c_int s <> None \/ (needs_div (sp s) = true -> pb (sp s) B_divergent = true)) ->
  ensure_base cl false s = Some s' ->
  Inv s' /\ same_except k_range (sp s') (sp s) /\ c_bg s' <> None /\ c_pk s' <> None /\
  c_int s' <> None /\ user_spectrum s' = user_spectrum s.
Proof.
  intros s s' HI Hd H. unfold ensure_base, bindo in H.
  destruct (ensure_bg false s) as [s1|] eqn:E1; [|discriminate].
  destruct (ensure_pk cl false s1) as [s2|] eqn:E2; [|discriminate].
  destruct (ensure_bg_lazy s s1 HI E1) as (I1 & P1 & G1 & K1 & T1 & C1).
  destruct (ensure_pk_lazy s1 s2 I1 E2) as (I2 & P2 & G2 & K2 & T2 & U2 & D2).
  assert (Hd2 : c_int s2 <> None \/ (needs_div (sp s2) = true -> pb (sp s2) B_divergent = true)).
  { destruct Hd as [Hd|Hd]; [left; congruence|right].
    rewrite (needs_div_same _ _ _ P2 eq_refl), D2, P1. exact Hd. }
  destruct (ensure_int_lazy s2 s' I2 Hd2 H) as (I3 & P3 & G3 & K3 & T3).
  split; [exact I3|]. split; [rewrite P3, <- P1; exact P2|].
  split; [congruence|]. split; [congruence|]. split; [exact T3|].
  unfold user_spectrum in *. rewrite K3, U2, K1. reflexivity.
Qed.

(** The recompute path: everything is rebuilt. *)
Lemma ensure_bg_true : forall s, ensure_bg true s = bg_init s.
Proof. intros. unfold ensure_bg. rewrite andb_false_r. reflexivity. Qed.
Lemma ensure_pk_true : forall s, ensure_pk cl true s = ps_init cl s.
Proof. intros. unfold ensure_pk. rewrite andb_false_r. reflexivity. Qed.
Lemma ensure_int_true : forall s, ensure_int true s = int_init s.
Proof. intros. unfold ensure_int. rewrite andb_false_r. reflexivity. Qed.

Lemma ensure_base_rebuild : forall s s', Base s ->
  (needs_div (sp s) = true -> pb (sp s) B_divergent = true) ->
  ensure_base cl true s = Some s' ->
  Base s' /\ c_sig s' = c_sig s /\ same_except k_range (sp s') (sp s) /\ c_int s' <> None.
Proof.
  intros s s' B Hd H. unfold ensure_base, bindo in H.
  rewrite ensure_bg_true in H.
  destruct (bg_init s) as [s1|] eqn:E1; [|discriminate].
  rewrite ensure_pk_true in H.
  destruct (ps_init cl s1) as [s2|] eqn:E2; [|discriminate].
  rewrite ensure_int_true in H.
  destruct (bg_init_Base s s1 B E1) as (B1 & _ & Q1 & P1 & G1 & K1 & T1 & C1).
  destruct (ps_init_Base s1 s2 (Base_noint s1 B1) E2) as (B2 & Q2 & P2 & G2 & K2 & T2 & U2 & D2).
  assert (Hd2 : needs_div (sp s2) = true -> pb (sp s2) B_divergent = true).
  { rewrite (needs_div_same _ _ _ P2 eq_refl), D2, P1. exact Hd. }
  destruct (int_init_Base s2 s' B2 Hd2 H) as (B3 & Q3 & P3 & G3 & K3 & T3).
  split; [exact B3|]. split; [congruence|]. split; [|exact T3].
  rewrite P3, <- P1. exact P2.
Qed.

Lemma sig_init_Inv : forall s s', Base s -> sig_init k s = Some s' ->
  Inv s' /\ sp s' = sp s /\ c_pk s' = c_pk s.
Proof.
  intros s s' B H.
  assert (HV : exists r, sig_value k (pm (sp s)) (signal_fields ++ sig_coord_fields k) s = Some r
               /\ s' = set_sig s k r /\ avg_ok (sp s)).
  { unfold sig_init in H. unfold avg_ok. destruct k.
    - destruct (sig_value SCorr _ _ s); [|discriminate]. injection H as <-. eexists; repeat split.
      discriminate.
    - destruct (sig_value SMult _ _ s); [|discriminate]. injection H as <-. eexists; repeat split.
      discriminate.
    - destruct (Nat.ltb _ _) eqn:L in H; [discriminate|].
      destruct (sig_value SAvg _ _ s); [|discriminate]. injection H as <-. eexists; repeat split.
      intros _. exact L. }
  destruct HV as (r & HV & -> & Ha). simpl. split; [|auto].
  split; [destruct B as [H1 H2 H3 H4 H5 H6 H7]; split; assumption|].
  intros r' Hr. simpl in Hr.
  assert (Ek : sigkind_beq k k = true) by (destruct k; reflexivity).
  rewrite Ek in Hr. injection Hr as <-.
  unfold sig_value in HV.
  destruct (c_bg s) as [bg|] eqn:Eb; [|discriminate].
  destruct (c_int s) as [ic|] eqn:Ei; [|discriminate].
  match type of HV with (if ?b then _ else _) = _ => destruct b end; [|discriminate].
  injection HV as <-. exists ic. split; [exact Ei|]. split; [|exact Ha].
  simpl. rewrite (proj1 (i_core s B bg Eb)), (i_G s B bg Eb). reflexivity.
Qed.

Lemma set_sig_other : forall s k' r, k' <> k -> Inv s -> Inv (set_sig s k' r).
Proof.
  intros s k' r Hk [B S]. split.
  - destruct B as [H1 H2 H3 H4 H5 H6 H7]; split; assumption.
  - intros r' Hr. simpl in Hr.
    destruct (sigkind_beq k' k) eqn:E.
    + apply internal_sigkind_dec_bl in E. congruence.
    + exact (S r' Hr).
Qed.

Lemma sig_init_form : forall k' s s', sig_init k' s = Some s' -> exists r, s' = set_sig s k' r.
Proof.
  intros k' s s' H. unfold sig_init in H.
  destruct k'; repeat match type of H with
    | (if ?b then _ else _) = _ => destruct b; [discriminate|]
    | match ?x with _ => _ end = _ => destruct x; [|discriminate] end;
    injection H as <-; eauto.
Qed.

Lemma mark_same : forall p, same_except [FB B_divergent] (mark_divergent p) p.
Proof. intros p. unfold mark_divergent. destruct (needs_div p); updates. Qed.

Lemma mark_ok : forall p, needs_div (mark_divergent p) = true -> pb (mark_divergent p) B_divergent = true.
Proof.
  intros p H. rewrite (needs_div_same _ _ _ (mark_same p) eq_refl) in H.
  unfold mark_divergent. rewrite H. reflexivity.
Qed.

Lemma mark_Inv : forall s, Inv s -> Inv (setP s (mark_divergent (sp s))).
Proof.
  intros s HI. pose proof (mark_same (sp s)) as W.
  apply drop_nil_Inv.
  apply (Inv_update s _ [] [FB B_divergent] HI W); try alt.
  - reflexivity.
  - rewrite (same_except_pf _ _ _ F_A_s W eq_refl). apply (i_As s (proj1 HI)).
  - right; right. unfold int_kept; repeat split; try reflexivity; left; reflexivity.
  - right; right. destruct k; repeat split; reflexivity.
Qed.

(** compute_*_bulk *)
Lemma compute_bulk_Inv : forall k' rc s,
  Inv s -> (rc = false \/ k' = k \/ c_sig s k = None) ->
  Inv (fst (compute_bulk cl k' rc s)).
Proof.
  intros k' rc s HI Hs. unfold compute_bulk.
  destruct (negb (coords_ok k' (sp s))); [exact HI|].
  destruct (negb (any_contribution (sp s))); [exact HI|].
  pose proof (mark_Inv s HI) as I0.
  set (s0 := setP s (mark_divergent (sp s))) in *. cbv zeta.
  assert (Hd : needs_div (sp s0) = true -> pb (sp s0) B_divergent = true) by apply mark_ok.
  unfold bindo.
  destruct (ensure_base cl rc s0) as [s1|] eqn:E1; [|exact I0].
  destruct (ensure_sig k' rc s1) as [s2|] eqn:E2; [|exact I0].
  assert (I2 : Inv s2).
  { unfold ensure_sig in E2. destruct rc; simpl in E2.
    - rewrite andb_false_r in E2.
      destruct (ensure_base_rebuild s0 s1 (proj1 I0) Hd E1) as (B1 & Q1 & P1 & T1).
      destruct (sigkind_eq_dec k' k) as [->|Hne].
      + apply (sig_init_Inv s1 s2 B1 E2).
      + destruct (sig_init_form k' s1 s2 E2) as [r ->].
        apply set_sig_other; [exact Hne|]. split; [exact B1|]. apply Sigs_none.
        rewrite Q1. destruct Hs as [Hs|[Hs|Hs]]; [discriminate|contradiction|exact Hs].
    - destruct (ensure_base_lazy s0 s1 I0 (or_intror Hd) E1) as (I1 & _).
      rewrite andb_true_r in E2.
      destruct (is_some (c_sig s1 k')); [injection E2 as <-; exact I1|].
      destruct (sigkind_eq_dec k' k) as [->|Hne].
      + apply (sig_init_Inv s1 s2 (proj1 I1) E2).
      + destruct (sig_init_form k' s1 s2 E2) as [r ->].
        apply set_sig_other; assumption. }
  destruct (c_sig s2 k'); exact I2.
Qed.

Lemma compute_point_Inv : forall k' z r m rc s,
  Inv s -> (rc = false \/ c_sig s k = None) ->
  Inv (fst (compute_point cl k' z r m rc s)).
Proof.
  intros k' z r m rc s HI Hs. unfold compute_point.
  destruct (negb (coords_ok k' (sp s))); [exact HI|].
  destruct (negb (any_contribution (sp s))); [exact HI|].
  pose proof (mark_Inv s HI) as I0.
  set (s0 := setP s (mark_divergent (sp s))) in *. cbv zeta.
  assert (Hd : needs_div (sp s0) = true -> pb (sp s0) B_divergent = true) by apply mark_ok.
  destruct (ensure_base cl rc s0) as [s1|] eqn:E1; [|exact I0].
  assert (I1 : Inv s1).
  { destruct rc.
    - destruct (ensure_base_rebuild s0 s1 (proj1 I0) Hd E1) as (B1 & Q1 & P1 & T1).
      split; [exact B1|]. apply Sigs_none. rewrite Q1.
      destruct Hs as [Hs|Hs]; [discriminate|exact Hs].
    - apply (ensure_base_lazy s0 s1 I0 (or_intror Hd) E1). }
  destruct (check_point k' z r m) as [[pt ells]|]; [|exact I1].
  destruct (sig_value k' ells signal_fields s1); exact I1.
Qed.

Lemma cov_init_Inv : forall k' s s', Inv s -> cov_init k' s = Some s' -> Inv s'.
Proof.
  intros k' s s' [B S] H. unfold cov_init in H.
  destruct (c_bg s) eqn:Eb; [|discriminate]. destruct (c_pk s) eqn:Ep; [|discriminate].
  match type of H with (if ?b then _ else _) = _ => destruct b end; [discriminate|].
  injection H as <-. destruct s; simpl in *; subst. split.
  - destruct B as [H1 H2 H3 H4 H5 H6 H7]; split; assumption.
  - exact S.
Qed.

Lemma compute_cov_Inv : forall k' rc s,
  Inv s -> (rc = false \/ (c_int s = None /\ c_sig s k = None)) ->
  Inv (fst (compute_cov cl k' rc s)).
Proof.
  intros k' rc s HI Hs. unfold compute_cov.
  destruct (negb (coords_ok SMult (sp s))); [exact HI|].
  destruct (negb (any_contribution (sp s))); [exact HI|].
  pose proof (mark_Inv s HI) as I0.
  set (s0 := setP s (mark_divergent (sp s))) in *. cbv zeta.
  destruct (negb (cov_lengths_ok k' (sp s))); [exact I0|].
  unfold bindo.
  destruct (ensure_pk cl rc s0) as [s1|] eqn:E1; [|exact I0].
  destruct (ensure_bg rc s1) as [s2|] eqn:E2; [|exact I0].
  assert (I2 : Inv s2).
  { destruct rc.
    - destruct Hs as [Hs|[Hs1 Hs2]]; [discriminate|].
      rewrite ensure_pk_true in E1. rewrite ensure_bg_true in E2.
      destruct (ps_init_Base s0 s1 (Base_noint s0 (proj1 I0)) E1)
        as (B1 & Q1 & P1 & G1 & K1 & T1 & _).
      assert (Hn : noint s1 = s1).
      { unfold noint. assert (En : c_int s1 = None) by (rewrite T1; exact Hs1).
        rewrite <- En. destruct s1; reflexivity. }
      rewrite Hn in B1.
      destruct (bg_init_Base s1 s2 B1 E2) as (B2 & _ & Q2 & _).
      split; [exact B2|]. apply Sigs_none. rewrite Q2, Q1. exact Hs2.
    - destruct (ensure_pk_lazy s0 s1 I0 E1) as (I1 & _).
      destruct (ensure_bg_lazy s1 s2 I1 E2) as (I2 & _). exact I2. }
  destruct (check_bins (cov_bins k' (sp s2))) as [[]|]; try exact I2.
  unfold ensure_cov. destruct (is_some (c_cov s2 k') && negb rc).
  - destruct (c_cov s2 k'); exact I2.
  - destruct (cov_init k' s2) as [s3|] eqn:E3; [|exact I2].
    pose proof (cov_init_Inv k' s2 s3 I2 E3) as I3. destruct (c_cov s3 k'); exact I3.
Qed.

Lemma integral_Inv : forall r n l s, Inv s ->
  (c_int s <> None \/ needs_div (sp s) = false \/ pb (sp s) B_divergent = true) ->
  Inv (fst (integral_method cl r n l s)).
Proof.
  intros r n l s HI Hs. unfold integral_method.
  destruct (check_num r f0 (of_Z 25000)); [|exact HI].
  destruct (check_int n (-2) 4); [|exact HI].
  destruct (check_int l 0 4); [|exact HI].
  destruct (ensure_base cl false s) as [s1|] eqn:E1; [|exact HI].
  assert (I1 : Inv s1).
  { apply (ensure_base_lazy s s1 HI); [|exact E1].
    destruct Hs as [Hs|[Hs|Hs]]; [left; exact Hs|right|right]; intros; congruence. }
  destruct (c_int s1) as [ic|]; [|exact I1].
  cbv zeta. destruct (has_key _ _); exact I1.
Qed.

Lemma spectrum_Inv : forall c a z1 z2 s, Inv s -> Inv (fst (spectrum_method cl c a z1 z2 s)).
Proof.
  intros c a z1 z2 s HI. unfold spectrum_method.
  destruct (check_num a _ _); [|exact HI].
  destruct (check_num z1 _ _); [|exact HI].
  destruct (check_num z2 _ _); [|exact HI].
  unfold bindo.
  destruct (ensure_pk cl false s) as [s1|] eqn:E1; [|exact HI].
  destruct (ensure_bg false s1) as [s2|] eqn:E2; [|exact HI].
  destruct (ensure_pk_lazy s s1 HI E1) as (I1 & _).
  destruct (ensure_bg_lazy s1 s2 I1 E2) as (I2 & _).
  destruct (c_pk s2); [|exact I2]. destruct (c_bg s2); [|exact I2].
  destruct (negb _); [exact I2|]. destruct (_ && _ && _); exact I2.
Qed.

Lemma background_Inv : forall w z s, Inv s -> Inv (fst (background_getter w z s)).
Proof.
  intros w z s HI. unfold background_getter.
  destruct (check_num z _ _); [|exact HI].
  destruct (ensure_bg false s) as [s1|] eqn:E1; [|exact HI].
  destruct (ensure_bg_lazy s s1 HI E1) as (I1 & _).
  destruct (c_bg s1); exact I1.
Qed.

Lemma maxsep_Inv : forall z dz s, Inv s -> Inv (fst (maximum_separation z dz s)).
Proof.
  intros z dz s HI. unfold maximum_separation.
  destruct (check_num z _ _); [|exact HI].
  destruct (check_num dz _ _); [|exact HI].
  destruct (ensure_bg false s) as [s1|] eqn:E1; [|exact HI].
  destruct (ensure_bg_lazy s s1 HI E1) as (I1 & _).
  destruct (fltb _ _); [exact I1|]. destruct (c_bg s1); exact I1.
Qed.

Lemma set_bias_Inv : forall b x y s, Inv s ->
  (is_galaxy_bias b = true \/ c_bg s = None) -> (k <> SAvg \/ c_sig s SAvg = None) ->
  Inv (fst (set_bias b x y s)).
Proof.
  intros b x y s HI H1 H2. unfold set_bias.
  destruct (negb (is_sorted x)); [exact HI|].
  destruct (negb (Nat.eqb _ _)); [exact HI|].
  destruct x as [|x0 xs]; [exact HI|].
  destruct (fltb x0 f0); [exact HI|].
  destruct (fltb _ _); [exact HI|].
  destruct (negb (spline_ok _)); [exact HI|]. simpl fst.
  pose proof (setS_same (sp s) b (combine (x0 :: xs) y)) as W.
  apply (Inv_update s _ [CCorr; CMult] [FS b] HI W); try alt.
  - reflexivity.
  - rewrite (same_except_pf _ _ _ F_A_s W eq_refl). apply (i_As s (proj1 HI)).
  - destruct H1 as [H1|H1]; [|right; right; exact H1].
    destruct b; try discriminate; alt.
  - right; right. unfold int_kept; repeat split; try reflexivity; left; reflexivity.
  - destruct k; try alt.
    right; left. destruct H2 as [H2|H2]; [congruence|exact H2].
Qed.

Lemma set_power_spectrum_Inv : forall ks pk s, Inv s ->
  (ks <> [] \/ c_int s = None) -> c_sig s k = None ->
  (nonlinear (sp s) = true -> c_cls s = None) ->
  Inv (fst (set_power_spectrum ks pk s)) \/ snd (set_power_spectrum ks pk s) = Crash.
Proof.
  intros ks pk s HI Hk Hs Hn. unfold set_power_spectrum.
  destruct (negb (is_sorted ks)); [left; exact HI|].
  destruct (negb (Nat.eqb _ _)); [left; exact HI|].
  destruct ks as [|k0 ks].
  - left. destruct Hk as [Hk|Hk]; [congruence|]. simpl fst.
    destruct HI as [[H1 H2 H3 H4 H5 H6 H7] S]. split.
    + split; simpl; auto. rewrite Hk. discriminate.
    + apply Sigs_none. simpl. destruct k; exact Hs.
  - cbv zeta. destruct (negb (spline_ok _)); [right; reflexivity|]. left. simpl fst.
    set (p := setF _ F_k_max_norm _).
    assert (W : same_except k_range p (sp s)) by (unfold p, k_range; simpl; updates).
    destruct HI as [[H1 H2 H3 H4 H5 H6 H7] S]. split.
    + split; simpl.
      * exact H1.
      * exact H2.
      * intros b Hb. destruct (H3 b Hb) as [J1 J2].
        rewrite (same_except_view _ _ _ bg_core_fields W eq_refl). auto.
      * intros b Hb. rewrite (same_except_view _ _ _ bg_G_fields W eq_refl). auto.
      * reflexivity.
      * rewrite (nonlinear_same _ _ _ W eq_refl). exact Hn.
      * discriminate.
    + apply Sigs_none. simpl. destruct k; exact Hs.
Qed.

(** Sequences of assignments *)
Lemma assign_seq_Inv : forall l s, Inv s -> seq_safe k l s -> Inv (fst (assign_seq l s)).
Proof.
  induction l as [|[a v] r IH]; intros s HI Hs; [exact HI|].
  simpl in Hs |- *. destruct Hs as [Hs Hr].
  pose proof (set_attr_Inv a v s HI Hs) as I1.
  destruct (set_attr a v s) as [s1 [o|e|]]; simpl in *; auto.
Qed.

(** Nothing but the background is cached.  Specification or proof only; nothing in the code. *)
Definition clean (s : state) : Prop := c_pk s = None /\ c_int s = None /\ c_sig s k = None.

Lemma clean_safe : forall s a, clean s -> set_safe k s a.
Proof.
  intros s a (H1 & H2 & H3).
  destruct a; simpl; auto; destruct k; auto; left; discriminate.
Qed.

Lemma set_attr_clean : forall a v s, clean s -> clean (fst (set_attr a v s)).
Proof.
  intros a v s (H1 & H2 & H3). unfold set_attr, clean.
  destruct (attr_update a v (sp s)); simpl; auto.
  rewrite H1, H2, H3.
  destruct (dropped _ CPk), (dropped _ CInt), (dropped _ (cache_of_sig k)); auto.
Qed.

Lemma assign_seq_clean : forall l s, Inv s -> clean s ->
  Inv (fst (assign_seq l s)) /\ clean (fst (assign_seq l s)).
Proof.
  induction l as [|[a v] r IH]; intros s HI Hc; [auto|]. simpl.
  pose proof (set_attr_Inv a v s HI (clean_safe s a Hc)) as I1.
  pose proof (set_attr_clean a v s Hc) as C1.
  destruct (set_attr a v s) as [s1 [o|e|]]; simpl in *; auto.
Qed.

Lemma reassign_clean : forall l s, Inv s -> clean s ->
  Inv (fst (reassign_all l s)) /\ clean (fst (reassign_all l s)).
Proof.
  induction l as [|a r IH]; intros s HI Hc; [auto|]. simpl.
  pose proof (set_attr_Inv a (get_attr a (sp s)) s HI (clean_safe s a Hc)) as I1.
  pose proof (set_attr_clean a (get_attr a (sp s)) s Hc) as C1.
  destruct (set_attr a (get_attr a (sp s)) s) as [s1 [o|[]|]]; simpl in *; auto.
Qed.

(** Reading [parameters] first re-assigns A_s, which drops everything but the
    background. *)
Lemma read_parameters_Inv : forall s, Inv s ->
  Inv (fst (read_parameters s)) /\ clean (fst (read_parameters s)).
Proof.
  intros s HI. unfold read_parameters.
  assert (HA : exists r, all_attrs = A_A_s :: r) by (eexists; reflexivity).
  destruct HA as [rest ->]. cbn [reassign_all].
  pose proof (i_As s (proj1 HI)) as [A1 A2].
  assert (E : set_attr A_A_s (get_attr A_A_s (sp s)) s
            = (drop (attr_frees A_A_s) (setP s (setF (sp s) F_A_s (pf (sp s) F_A_s))), Ok ONone)).
  { unfold set_attr. simpl attr_update. unfold check_num. simpl as_num. cbv iota beta.
    rewrite A1, A2. reflexivity. }
  pose proof (set_attr_Inv A_A_s (get_attr A_A_s (sp s)) s HI I) as I1.
  rewrite E in *. simpl fst in I1. cbv iota beta.
  apply reassign_clean; [exact I1|]. unfold clean. simpl. destruct k; auto.
Qed.

Lemma reset_Inv : forall s, Inv s -> Inv (fst (reset_contributions s)).
Proof.
  intros s HI. unfold reset_contributions.
  destruct (read_parameters_Inv s HI) as [I1 C1].
  destruct (read_parameters s) as [s1 [o|e|]]; simpl in I1, C1; try exact I1.
  apply (assign_seq_clean _ s1 I1 C1).
Qed.

Theorem step_Inv : forall o s, Inv s -> op_safe k s o ->
  Inv (fst (step cl o s)) \/ snd (step cl o s) = Crash.
Proof.
  intros o s HI Hs. destruct o; simpl in Hs |- *;
    match goal with |- context [set_power_spectrum] => idtac | _ => left end.
  - apply set_attr_Inv; assumption.
  - destruct Hs. apply set_bias_Inv; assumption.
  - destruct Hs as (H1 & H2 & H3). exact (set_power_spectrum_Inv k0 pk s HI H1 H2 H3).
  - apply (read_parameters_Inv s HI).
  - unfold set_parameters. destruct (known l); [|exact HI]. apply assign_seq_Inv; assumption.
  - apply reset_Inv. exact HI.
  - apply background_Inv. exact HI.
  - apply maxsep_Inv. exact HI.
  - apply integral_Inv; assumption.
  - apply spectrum_Inv. exact HI.
  - apply compute_point_Inv; assumption.
  - apply compute_bulk_Inv; assumption.
  - apply compute_cov_Inv; assumption.
Qed.

Theorem run_Inv : forall l s s', Inv s -> safe_history cl k l s -> run cl l s = Some s' -> Inv s'.
Proof.
  induction l as [|o r IH]; intros s s' HI Hs Hr; simpl in *.
  - injection Hr as <-. exact HI.
  - destruct Hs as [Ho Hs].
    destruct (step_Inv o s HI Ho) as [I1|I1];
      destruct (step cl o s) as [s1 [ov|e|]]; simpl in *; try discriminate; eauto.
Qed.

(** ** Comparison with a fresh object *)

Lemma coords_same : forall w p' p, same_except w p' p ->
  disjointb w (sig_coord_fields k) = true -> coords_ok k p' = coords_ok k p.
Proof.
  intros w p' p H D. pose proof (same_except_view _ _ _ _ H D) as E.
  unfold coords_ok. destruct k; unfold view, sig_coord_fields in E; simpl in E;
    injection E; intros; congruence.
Qed.

(** Specification or proof only; nothing in the code. *)
Definition contribution_fields : list field :=
  [FB B_den; FB B_rsd; FB B_len; FB B_d1] ++ div_flags.

Lemma contribution_same : forall w p' p, same_except w p' p ->
  disjointb w contribution_fields = true -> any_contribution p' = any_contribution p.
Proof.
  intros w p' p H D. pose proof (same_except_view _ _ _ _ H D) as E.
  unfold any_contribution, needs_div. unfold view, contribution_fields in E; simpl in E.
  injection E as -> -> -> -> -> -> -> -> -> ->. reflexivity.
Qed.

Definition sig_full (p : params) (ic : intc) : sig :=
  mkSig (view p bg_core_fields) (view p bg_G_fields) (ic_pk ic) (ic_cls ic) (ic_view ic)
        (if needs_div p then ic_div ic else None) (view p (signal_fields ++ sig_coord_fields k)).

Lemma fresh_tail : forall s1 ic sx,
  Base s1 -> c_int s1 = Some ic -> avg_ok (sp s1) ->
  same_except [FB B_divergent] (sp sx) (sp s1) ->
  pb (sp sx) B_divergent = needs_div (sp s1) ->
  c_bg sx = Some (mkBg (view (sp s1) bg_core_fields) (view (sp s1) bg_G_fields)) ->
  c_pk sx = Some (ic_pk ic) ->
  (nonlinear (sp s1) = true -> c_cls sx = c_cls s1) ->
  c_int sx = None -> c_sig sx k = None ->
  exists s2 s3, ensure_int false sx = Some s2 /\ ensure_sig k false s2 = Some s3 /\
    c_sig s3 k = Some (sig_full (sp s1) ic) /\ sp s3 = sp sx.
Proof.
  intros s1 ic sx B Hic Ha W Hdv Hbg Hpk Hcls Hint Hsig.
  destruct (i_int s1 B ic Hic) as (J1 & J2 & J3 & J4 & J5 & J6 & J7).
  pose proof (nonlinear_same _ _ _ W eq_refl) as N.
  pose proof (needs_div_same _ _ _ W eq_refl) as ND.
  assert (Ez : pl (sp sx) L_z_mean = pl (sp s1) L_z_mean) by apply (same_except_pl _ _ _ _ W eq_refl).
  assert (Ed : pl (sp sx) L_deltaz = pl (sp s1) L_deltaz) by apply (same_except_pl _ _ _ _ W eq_refl).
  assert (EI : ensure_int false sx = Some
     (mkState (sp sx) (c_bg sx) (c_pk sx) (c_cls sx)
       (Some (mkInt (ic_pk ic) (ic_cls ic) (ic_view ic) (keys_of (sp sx))
                (if needs_div (sp s1) then ic_div ic else None))) (c_sig sx) (c_cov sx))).
  { unfold ensure_int. rewrite Hint. simpl is_some. cbv iota beta. simpl andb. cbv iota.
    unfold int_init. rewrite Hpk, Hbg, N, Hdv, Ez, Ed.
    assert (C1 : nonlinear (sp s1) && match c_cls sx with Some _ => false | None => true end = false).
    { destruct (nonlinear (sp s1)) eqn:E; [|reflexivity]. rewrite (Hcls eq_refl).
      destruct (c_cls s1); [reflexivity|]. exfalso. apply (J4 eq_refl). reflexivity. }
    rewrite C1.
    assert (C2 : needs_div (sp s1) &&
       Nat.ltb (List.length (pl (sp s1) L_deltaz)) (List.length (pl (sp s1) L_z_mean)) = false).
    { destruct (needs_div (sp s1)); [|reflexivity]. apply (J7 eq_refl). }
    rewrite C2. do 3 f_equal. f_equal.
    - rewrite J3. destruct (nonlinear (sp s1)); [apply Hcls; reflexivity|reflexivity].
    - rewrite J5. apply (int_view_same _ _ _ W eq_refl). left; reflexivity.
    - simpl bg_core. destruct (needs_div (sp s1)); [|reflexivity].
      destruct (J7 eq_refl) as [-> _].
      rewrite (same_except_view _ _ _ div_fields W eq_refl). reflexivity. }
  eexists; eexists. split; [exact EI|].
  assert (EV : forall m, sig_value k (pm m) (signal_fields ++ sig_coord_fields k)
    (mkState (sp sx) (c_bg sx) (c_pk sx) (c_cls sx)
       (Some (mkInt (ic_pk ic) (ic_cls ic) (ic_view ic) (keys_of (sp sx))
                (if needs_div (sp s1) then ic_div ic else None))) (c_sig sx) (c_cov sx))
    = if forallb (has_key (keys_of (sp sx))) (needed_keys k (sp sx) (pm m))
      then Some (sig_full (sp s1) ic) else None).
  { intros m. unfold sig_value. simpl. rewrite Hbg.
    destruct (forallb _ _); [|reflexivity]. f_equal. unfold sig_full. simpl. f_equal.
    - rewrite ND. destruct (needs_div (sp s1)); reflexivity.
    - apply (same_except_view _ _ _ _ W). destruct k; reflexivity. }
  assert (EK : forallb (has_key (keys_of (sp sx))) (needed_keys k (sp sx) (pm (sp sx))) = true).
  { unfold keys_of, is_mult.
    rewrite (same_except_pi _ _ _ I_output_type W eq_refl), (i_out s1 B). simpl Z.eqb.
    apply needed_subset; [rewrite ND; intros; congruence|auto]. }
  unfold ensure_sig. simpl c_sig. rewrite Hsig. simpl is_some. simpl andb. cbv iota.
  assert (EA : k = SAvg -> Nat.ltb (List.length (pl (sp sx) L_zmax)) (List.length (pl (sp sx) L_zmin)) = false).
  { intros Ek. specialize (Ha Ek).
    rewrite (same_except_pl _ _ _ L_zmax W eq_refl), (same_except_pl _ _ _ L_zmin W eq_refl). exact Ha. }
  assert (Ek : sigkind_beq k k = true) by (destruct k; reflexivity).
  unfold sig_init. simpl sp. specialize (EV (sp sx)). rewrite EK in EV.
  split.
  - destruct k; rewrite ?(EA eq_refl), EV; reflexivity.
  - simpl. rewrite Ek. split; reflexivity.
Qed.

Lemma fresh_agrees : forall s1 r,
  Inv s1 -> c_sig s1 k = Some r ->
  coords_ok k (sp s1) = true -> any_contribution (sp s1) = true ->
  exists q s2, could_have_entered q (sp s1) /\
    compute_bulk cl k false (fresh_object q (user_spectrum s1)) = (s2, Ok (OSig k r)) /\
    same_except [FB B_divergent] (sp s2) (sp s1).
Proof.
  intros s1 r [B S] Hr Hc Ha.
  destruct (S r Hr) as (ic & Hic & -> & Hav). fold (sig_full (sp s1) ic).
  destruct (i_int s1 B ic Hic) as (J1 & J2 & J3 & J4 & J5 & J6 & J7).
  assert (Hbins : (pi (sp s1) I_background_bins <? 5) = false).
  { destruct (c_bg s1) as [b|] eqn:E; [|congruence]. apply (i_core s1 B b E). }
  (* what does not depend on the origin of the spectrum *)
  assert (G : forall q sx,
    could_have_entered q (sp s1) ->
    ensure_pk cl false
      (mkState (mark_divergent q)
         (Some (mkBg (view (mark_divergent q) bg_core_fields) (view (mark_divergent q) bg_G_fields)))
         (c_pk (fresh_object q (user_spectrum s1))) None None (fun _ => None) (fun _ => None)) = Some sx ->
    same_except [FB B_divergent] (sp sx) (sp s1) ->
    pb (sp sx) B_divergent = needs_div (sp s1) ->
    c_bg sx = Some (mkBg (view (mark_divergent q) bg_core_fields) (view (mark_divergent q) bg_G_fields)) ->
    c_pk sx = Some (ic_pk ic) ->
    (nonlinear (sp s1) = true -> c_cls sx = c_cls s1) ->
    c_int sx = None -> c_sig sx k = None ->
    exists s2, compute_bulk cl k false (fresh_object q (user_spectrum s1)) = (s2, Ok (OSig k (sig_full (sp s1) ic)))
      /\ same_except [FB B_divergent] (sp s2) (sp s1)).
  { intros q sx [Hq Hq0] Hpk W1 W2 W3 W4 W5 W6 W7.
    assert (Wm : same_except (FB B_divergent :: k_range) (mark_divergent q) (sp s1)).
    { apply (same_except_trans _ _ q); [|exact Hq].
      apply (same_except_incl [FB B_divergent]); [apply mark_same|].
      intros x [<-|[]]. left; reflexivity. }
    rewrite (same_except_view _ _ _ bg_core_fields Wm eq_refl),
            (same_except_view _ _ _ bg_G_fields Wm eq_refl) in W3.
    destruct (fresh_tail s1 ic sx B Hic Hav W1 W2 W3 W4 W5 W6 W7)
      as (s2 & s3 & E2 & E3 & E4 & E5).
    exists s3. split; [|rewrite E5; exact W1].
    unfold compute_bulk. simpl sp.
    assert (Dk : disjointb (FB B_divergent :: k_range) (sig_coord_fields k) = true)
      by (destruct k; reflexivity).
    rewrite (coords_same _ _ _ Hq Dk), Hc, (contribution_same _ _ _ Hq eq_refl), Ha.
    simpl negb. cbv iota zeta.
    unfold ensure_base, bindo.
    assert (Eb : ensure_bg false (setP (fresh_object q (user_spectrum s1)) (mark_divergent q))
       = Some (mkState (mark_divergent q)
         (Some (mkBg (view (mark_divergent q) bg_core_fields) (view (mark_divergent q) bg_G_fields)))
         (c_pk (fresh_object q (user_spectrum s1))) None None (fun _ => None) (fun _ => None))).
    { unfold ensure_bg, bg_init. simpl.
      rewrite (same_except_pi _ _ _ I_background_bins Wm eq_refl), Hbins. reflexivity. }
    rewrite Eb, Hpk, E2, E3, E4. reflexivity. }
  destruct (ic_pk ic) as [ks pk|c] eqn:Epk.
  - (* user-supplied spectrum *)
    assert (NL : nonlinear (sp s1) = false).
    { destruct (nonlinear (sp s1)) eqn:E; [|reflexivity].
      pose proof (i_cls s1 B E) as H1. rewrite J1 in H1. exfalso. apply (J4 eq_refl). exact H1. }
    assert (EU : user_spectrum s1 = Some (ks, pk)) by (unfold user_spectrum; rewrite J1; reflexivity).
    rewrite EU in G |- *.
    set (q := setB (sp s1) B_divergent false).
    assert (Hq : same_except [FB B_divergent] q (sp s1)) by (unfold q; updates).
    assert (CE : could_have_entered q (sp s1)).
    { split; [|reflexivity]. apply (same_except_incl [FB B_divergent]); [exact Hq|].
      intros x [<-|[]]. left; reflexivity. }
    destruct (G q _ CE eq_refl) as (s2 & E1 & E2); simpl; auto.
    + apply (same_except_trans _ _ q); [apply mark_same|exact Hq].
    + unfold mark_divergent. rewrite (needs_div_same _ _ _ Hq eq_refl).
      destruct (needs_div (sp s1)); reflexivity.
    + intros; congruence.
    + exists q, s2. auto.
  - pose proof (i_pk s1 B) as HO. rewrite J1 in HO. destruct HO as (q0 & O1 & O2 & O3).
    assert (EU : user_spectrum s1 = None) by (unfold user_spectrum; rewrite J1; reflexivity).
    rewrite EU in G |- *.
    set (q := setB q0 B_divergent false).
    assert (Hq : same_except [FB B_divergent] q q0) by (unfold q; updates).
    assert (CE : could_have_entered q (sp s1)).
    { split; [|reflexivity]. apply (same_except_trans _ _ q0).
      - apply (same_except_incl [FB B_divergent]); [exact Hq|]. intros x [<-|[]]. left; reflexivity.
      - apply (same_except_incl k_range); [exact O1|]. intros x Hx. right; exact Hx. }
    assert (Wm : same_except [FB B_divergent] (mark_divergent q) q0)
      by (apply (same_except_trans _ _ q); [apply mark_same|exact Hq]).
    assert (NDq : needs_div q = needs_div (sp s1)).
    { rewrite (needs_div_same _ _ _ (proj1 CE) eq_refl). reflexivity. }
    assert (Ec : view (mark_divergent q) class_fields = c)
      by (rewrite (same_except_view _ _ _ class_fields Wm eq_refl); auto).
    assert (Wc : same_except [FB B_divergent] (clamp_k cl (mark_divergent q)) (sp s1)).
    { intros x Hx. rewrite <- O3. destruct (in_k_range_dec x) as [Hk|Hk].
      - apply clamp_cong; [rewrite Ec; exact O2| |exact Hk].
        intros y Hy. apply Wm. intros [<-|[]]. apply memb_In in Hy. discriminate.
      - rewrite (clamp_same (mark_divergent q) x Hk), (clamp_same q0 x Hk). apply Wm. exact Hx. }
    destruct (G q _ CE eq_refl) as (s2 & E1 & E2); simpl; auto.
    + rewrite (same_except_pb _ _ _ B_divergent (clamp_same (mark_divergent q)) eq_refl).
      unfold mark_divergent. rewrite NDq. destruct (needs_div (sp s1)); reflexivity.
    + rewrite Ec. reflexivity.
    + intros NL. rewrite Ec. pose proof (i_cls s1 B NL) as H1. rewrite J1 in H1. auto.
    + exists q, s2. auto.
Qed.

(** What compute_*_bulk returns is what a fresh object returns. *)
Theorem bulk_coherent : forall s rc s' r,
  Inv s -> compute_bulk cl k rc s = (s', r) -> r <> Crash ->
  exists q s2, could_have_entered q (sp s') /\
    compute_bulk cl k false (fresh_object q (user_spectrum s')) = (s2, r) /\
    same_except [FB B_divergent] (sp s2) (sp s').
Proof.
  intros s rc s' r HI H Hr.
  pose proof (compute_bulk_Inv k rc s HI (or_intror (or_introl eq_refl))) as I1.
  rewrite H in I1. simpl in I1.
  assert (Early : forall e,
    s' = s -> r = Raise e ->
    (forall q, could_have_entered q (sp s) ->
       compute_bulk cl k false (fresh_object q (user_spectrum s)) = (fresh_object q (user_spectrum s), r)) ->
    exists q s2, could_have_entered q (sp s') /\
    compute_bulk cl k false (fresh_object q (user_spectrum s')) = (s2, r) /\
    same_except [FB B_divergent] (sp s2) (sp s')).
  { intros e -> -> HF. set (q := setB (sp s) B_divergent false).
    assert (Hq : same_except [FB B_divergent] q (sp s)) by (unfold q; updates).
    assert (CE : could_have_entered q (sp s)).
    { split; [|reflexivity]. apply (same_except_incl [FB B_divergent]); [exact Hq|].
      intros x [<-|[]]. left; reflexivity. }
    exists q, (fresh_object q (user_spectrum s)). auto. }
  unfold compute_bulk in H.
  assert (Dk : disjointb (FB B_divergent :: k_range) (sig_coord_fields k) = true)
    by (destruct k; reflexivity).
  destruct (coords_ok k (sp s)) eqn:Ec; simpl in H.
  2: { injection H as <- <-. apply (Early ValueError); auto. intros q [Hq _].
       unfold compute_bulk. simpl sp. rewrite (coords_same _ _ _ Hq Dk), Ec. reflexivity. }
  destruct (any_contribution (sp s)) eqn:Ea; simpl in H.
  2: { injection H as <- <-. apply (Early ValueError); auto. intros q [Hq _].
       unfold compute_bulk. simpl sp.
       rewrite (coords_same _ _ _ Hq Dk), Ec, (contribution_same _ _ _ Hq eq_refl), Ea. reflexivity. }
  clear Early.
  pose proof (mark_Inv s HI) as I0.
  set (s0 := setP s (mark_divergent (sp s))) in *.
  assert (Hd : needs_div (sp s0) = true -> pb (sp s0) B_divergent = true) by apply mark_ok.
  unfold bindo in H.
  destruct (ensure_base cl rc s0) as [s1|] eqn:E1; [|injection H as <- <-; congruence].
  destruct (ensure_sig k rc s1) as [s2|] eqn:E2; [|injection H as <- <-; congruence].
  destruct (c_sig s2 k) as [v|] eqn:E3; injection H as <- <-; [|congruence].
  assert (W1 : same_except k_range (sp s1) (sp s0)).
  { destruct rc.
    - apply (ensure_base_rebuild s0 s1 (proj1 I0) Hd E1).
    - apply (ensure_base_lazy s0 s1 I0 (or_intror Hd) E1). }
  assert (W2 : sp s2 = sp s1).
  { unfold ensure_sig in E2. destruct (is_some (c_sig s1 k) && negb rc).
    - injection E2 as <-. reflexivity.
    - destruct (sig_init_form k s1 s2 E2) as [? ->]. reflexivity. }
  assert (W : same_except (FB B_divergent :: k_range) (sp s2) (sp s)).
  { rewrite W2. apply (same_except_trans _ _ (sp s0)).
    - apply (same_except_incl k_range); [exact W1|]. intros x Hx; right; exact Hx.
    - apply (same_except_incl [FB B_divergent]); [apply mark_same|].
      intros x [<-|[]]. left; reflexivity. }
  apply fresh_agrees; auto.
  - rewrite (coords_same _ _ _ W Dk). exact Ec.
  - rewrite (contribution_same _ _ _ W eq_refl). exact Ea.
Qed.

End WithKind.
End WithClass.
