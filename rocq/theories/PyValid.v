(** * Validation, ranges, density budgets, reading parameters (C06-C11, C50, C51). *)
From Coq Require Import ZArith Bool List String Lia.
From Verif Require Import F64 PyParams PySet Integrals PyState PySpec PyWrites PyCoherence PyAlways.
Import ListNotations.
Open Scope Z_scope.
#[local] Arguments view : simpl never.
#[local] Arguments app : simpl nomatch.

(** ** Specification: the documented ranges *)

(** A stored double is NaN or lies in [lo, hi].  Specification or proof only; nothing in the code. *)
Definition within (lo hi x : f64) : Prop :=
  is_nan x = true \/ (fleb lo x = true /\ fleb x hi = true).

(** Range of each directly assignable double (messages of _check_parameter in
    the setters of coffe.pyx). *)
Definition documented_range (f : ffield) : option (f64 * f64) :=
  match f with
  | F_w0 | F_wa | F_n_s | F_sigma8 | F_A_s | F_T_cmb | F_N_ur | F_m_ncdm | F_YHe
  | Omega0_gamma => Some (of_Z (-100), of_Z 100)
  | F_h => Some (of_Z 0, of_Z 100)
  | F_integration_1d_prec => Some (of_Z 0, of_Z 1)
  | _ => None
  end.

Definition documented_int_range (i : ifield) : option (Z * Z) :=
  match i with
  | I_N_ncdm => Some (-100, 100)
  | I_background_bins | I_integration_bins => Some (0, 2147483647)
  | I_covariance_integration_bins | I_bessel_bins => Some (0, 1000000)
  | I_pop1 | I_pop2 | I_pop3 | I_pop4 => Some (1, 4)
  | I_pk_type => Some (0, 3)
  | I_integration_1d_type | I_covariance_integration_method
  | I_covariance_interpolation_method => Some (1, 2)
  | I_l_max_g | I_l_max_ur => Some (-2147483648, 2147483647)
  | _ => None
  end.

Definition documented_element (l : lfield) (x : f64) : Prop :=
  match l with
  | L_sep => fltb (of_Z 0) x = true /\ fltb x (of_Z 10000) = true
  | L_mu => fltb (of_Z (-1)) x = true /\ fltb x (of_Z 1) = true
  | L_pixelsize => fltb (of_Z 0) x = true /\ fltb x (of_Z 1000) = true
  | L_fsky => fltb (of_Z 0) x = true /\ fleb x (of_Z 1) = true
  | _ => fleb (of_Z 0) x = true /\ fltb x (of_Z 10) = true
  end.

Record ranges_ok (p : params) : Prop := {
  ro_double : forall f lo hi, documented_range f = Some (lo, hi) -> within lo hi (pf p f);
  ro_int : forall i lo hi, documented_int_range i = Some (lo, hi) -> lo <= pi p i <= hi;
  ro_list : forall l, Forall (documented_element l) (pl p l);
  ro_multipoles : Forall (fun l => 0 <= l <= 9) (pm p)
}.

(** ** The checks *)

Lemma check_num_within : forall v lo hi x,
  is_nan lo = false -> is_nan hi = false -> check_num v lo hi = inl x -> within lo hi x.
Proof.
  intros v lo hi x Hl Hh H. unfold check_num in H.
  destruct (as_num v) as [y|]; [|discriminate].
  destruct (fltb y lo) eqn:E1; [discriminate|]. destruct (fltb hi y) eqn:E2; [discriminate|].
  injection H as <-. unfold within. destruct (is_nan y) eqn:E; [left; reflexivity|right].
  split; apply not_fltb_fleb; assumption.
Qed.

Lemma check_flt_within : forall v lo hi x,
  is_nan lo = false -> is_nan hi = false -> check_flt v lo hi = inl x -> within lo hi x.
Proof.
  intros v lo hi x Hl Hh H. unfold check_flt in H. destruct v as [y|y|y|y|y|]; try discriminate.
  destruct (fltb y lo) eqn:E1; [discriminate|]. destruct (fltb hi y) eqn:E2; [discriminate|].
  injection H as <-. unfold within. destruct (is_nan y) eqn:E; [left; reflexivity|right].
  split; apply not_fltb_fleb; assumption.
Qed.

Lemma check_int_range : forall v lo hi x, check_int v lo hi = inl x -> lo <= x <= hi.
Proof.
  intros v lo hi x H. unfold check_int in H. destruct (as_int v) as [y|]; [|discriminate].
  destruct (y <? lo) eqn:E1; [discriminate|]. destruct (hi <? y) eqn:E2; [discriminate|].
  injection H as <-. lia.
Qed.

Lemma c_int_range : forall v x, PySet.c_int v = inl x -> -2147483648 <= x <= 2147483647.
Proof.
  assert (A : forall y x, int32 y = inl x -> -2147483648 <= x <= 2147483647).
  { intros y x H. unfold int32 in H.
    destruct ((-2147483648 <=? y) && (y <=? 2147483647)) eqn:E; [|discriminate].
    injection H as <-. apply andb_prop in E. lia. }
  intros v x H. unfold PySet.c_int in H.
  destruct v as [f|y|y|y|y|]; cbn [as_int] in H; try discriminate; try exact (A _ _ H).
  destruct (is_finite f); [exact (A _ _ H)|]. destruct (is_nan f); discriminate.
Qed.

Lemma check_discrete_in : forall tbl v z, check_discrete tbl v = inl z -> In z (map fst tbl).
Proof.
  intros tbl v z H. unfold check_discrete, lookup_name, lookup_code in H.
  destruct v as [y|y|y|y|y|]; try discriminate.
  - destruct (find (fun p => feqb y (of_Z (fst p))) tbl) as [[c n]|] eqn:E; [|discriminate].
    injection H as <-. apply find_some in E as [E1 E2]. apply (in_map fst) in E1. exact E1.
  - simpl as_int in H. cbv iota in H.
    destruct (find (fun p => fst p =? y) tbl) as [[c n]|] eqn:E; [|discriminate].
    injection H as <-. apply find_some in E as [E1 E2]. apply Z.eqb_eq in E2.
    simpl in E2. subst. apply (in_map fst) in E1. exact E1.
  - simpl as_int in H. cbv iota in H.
    destruct (find (fun p => fst p =? (if y then 1 else 0)) tbl) as [[c n]|] eqn:E; [|discriminate].
    injection H as <-. apply find_some in E as [E1 E2]. apply Z.eqb_eq in E2.
    simpl in E2. subst. apply (in_map fst) in E1. exact E1.
  - destruct (find (fun p => String.eqb (snd p) y) tbl) as [[c n]|] eqn:E; [|discriminate].
    injection H as <-. apply find_some in E as [E1 E2]. apply (in_map fst) in E1. exact E1.
Qed.

Lemma check_list_ok : forall ok v l, check_list ok v = inl l -> forallb ok l = true.
Proof.
  intros ok v l H. unfold check_list in H. destruct (elements v); [|discriminate].
  destruct (map_res as_float _) as [fs|]; [|discriminate].
  destruct (forallb ok fs) eqn:E; [|discriminate]. injection H as <-. exact E.
Qed.

Lemma check_multipoles_ok : forall v l, check_multipoles v = inl l -> Forall (fun l => 0 <= l <= 9) l.
Proof.
  intros v l H. unfold check_multipoles in H. destruct (elements v); [|discriminate].
  destruct (map_res _ _) as [zs|]; [|discriminate].
  destruct (forallb _ zs) eqn:E; [|discriminate]. injection H as <-.
  apply Forall_forall. intros x Hx. rewrite forallb_forall in E. specialize (E x Hx).
  apply andb_prop in E. lia.
Qed.

Lemma pops_range : forall l zs, forallb in_1234 l = true -> map_res PySet.c_int l = inl zs ->
  Forall (fun z => 1 <= z <= 4) zs.
Proof.
  induction l as [|a r IH]; intros zs H M; simpl in *.
  - injection M as <-. constructor.
  - apply andb_prop in H as [H1 H2].
    destruct (PySet.c_int a) as [z|] eqn:C; [|discriminate].
    destruct (map_res PySet.c_int r) as [zr|]; [|discriminate]. injection M as <-.
    constructor; [|apply IH; auto].
    unfold PySet.c_int in C. unfold in_1234 in H1.
    destruct a as [f|y|y|y|y|]; cbn [as_int as_num] in *; try discriminate.
    + destruct (is_finite f); [|destruct (is_nan f); discriminate].
      assert (T : f = of_Z 1 \/ f = of_Z 2 \/ f = of_Z 3 \/ f = of_Z 4).
      { cbn [existsb] in H1. repeat (apply orb_prop in H1; destruct H1 as [H1|H1]);
          try discriminate; [left|right;left|right;right;left|right;right;right]; exact (feqb_finite _ _ _ _ H1). }
      destruct T as [->|[->|[->| ->]]]; vm_compute in C; injection C as <-; lia.
    + unfold int32 in C. destruct (_ && _) in C; [|discriminate]. injection C as <-. apply andb_prop in H1. lia.
    + unfold int32 in C. destruct (_ && _) in C; [|discriminate]. injection C as <-. apply andb_prop in H1. lia.
Qed.

Lemma check_populations_range : forall v a b c d, check_populations v = inl [a; b; c; d] ->
  1 <= a <= 4 /\ 1 <= b <= 4 /\ 1 <= c <= 4 /\ 1 <= d <= 4.
Proof.
  intros v a b c d H. unfold check_populations in H. destruct (elements v); [|discriminate].
  destruct (map_res py_int _); [|discriminate]. destruct (negb (Nat.eqb _ _)); [discriminate|].
  destruct (forallb in_1234 l) eqn:E; [|discriminate].
  cbn [negb] in H. pose proof (pops_range _ _ E H) as F.
  repeat match goal with F : Forall _ (_ :: _) |- _ => inversion_clear F end. auto.
Qed.

(** ** One field at a time *)

(** A predicate on one field is kept by every operation if it is kept by the
    assignments, the field not being one the library itself rewrites. *)
Lemma closed_field : forall cl (x : field) (P : fval -> Prop),
  (forall a v p p', P (getf p x) -> attr_update a v p = Put p' -> P (getf p' x)) ->
  (forall a v p p' e, P (getf p x) -> attr_update a v p = Part p' e -> P (getf p' x)) ->
  memb x (FB B_divergent :: k_range) = false ->
  (forall b, x <> FS b) ->
  closed cl (fun p => P (getf p x)).
Proof.
  intros cl x P H1 H2 M MS. split; auto.
  - intros b y p H. rewrite (setS_same p b y x); [exact H|]. intros [E|[]]. exact (MS b (eq_sym E)).
  - intros p H. rewrite (mark_same p x); [exact H|]. intros [E|[]]. rewrite <- E in M. discriminate.
  - intros p H. rewrite (clamp_same cl p x); [exact H|]. intros I.
    apply (in_cons (FB B_divergent)) in I. apply memb_In in I. congruence.
  - intros p k0 kn H.
    assert (W : same_except k_range
      (setF (setF (setF (setF p F_k_min k0) F_k_max kn) F_k_min_norm k0) F_k_max_norm kn) p).
    { repeat (apply se_setF; [|apply memb_In; reflexivity]). apply same_except_refl. }
    rewrite (W x); [exact H|]. intros I.
    apply (in_cons (FB B_divergent)) in I. apply memb_In in I. congruence.
Qed.

(** Case analysis on the attribute, when it may write the field at all. *)
Lemma put_other : forall a v p p' x, attr_update a v p = Put p' ->
  memb x (attr_writes a) = false -> getf p' x = getf p x.
Proof. intros a v p p' x E M. exact (same_except_get _ _ _ _ (attr_update_Put _ _ _ _ E) M). Qed.

Ltac other_attr a v p p' x E M :=
  destruct (memb x (attr_writes a)) eqn:M;
  [destruct a; try discriminate M; clear M | rewrite (put_other a v p p' x E M); assumption].

Lemma not_nan_100 : is_nan m100 = false /\ is_nan p100 = false.
Proof. split; reflexivity. Qed.

(** ** C07: every stored value stays in its documented range *)

(** Specification or proof only; nothing in the code. *)
Definition PF (P : f64 -> Prop) (v : fval) : Prop := match v with VF x => P x | _ => True end.
Definition PI (P : Z -> Prop) (v : fval) : Prop := match v with VI x => P x | _ => True end.
Definition PL (P : list f64 -> Prop) (v : fval) : Prop := match v with VL x => P x | _ => True end.
Definition PM (P : list Z -> Prop) (v : fval) : Prop := match v with VM x => P x | _ => True end.

Lemma upd_close_within : forall k lo hi v p p', is_nan lo = false -> is_nan hi = false ->
  upd_close k lo hi v p = Put p' -> within lo hi (pf p' k).
Proof.
  intros k lo hi v p p' Hl Hh E. unfold upd_close in E.
  destruct (check_num v lo hi) as [x|] eqn:C; [|discriminate].
  destruct (allclose _ _); [discriminate|]. injection E as <-. simpl.
  rewrite internal_ffield_dec_lb by reflexivity. exact (check_num_within _ _ _ _ Hl Hh C).
Qed.

Lemma part_m_ncdm : forall a v p p' e, attr_update a v p = Part p' e ->
  exists x, p' = setF p F_m_ncdm x /\ within m100 p100 x.
Proof.
  intros a v p p' e E. destruct (attr_update_Part _ _ _ _ _ E) as (-> & _ & _ & _).
  simpl in E. unfold upd_m_ncdm in E. destruct (check_num v m100 p100) as [x|] eqn:C; [|discriminate].
  destruct (allclose _ _); [discriminate|]. destruct (feqb _ _); [|discriminate].
  injection E as <- <-. exists x. split; [reflexivity|].
  refine (check_num_within _ _ _ _ _ _ C); reflexivity.
Qed.

Lemma upd_h_within : forall v p p', upd_h v p = Put p' -> within f0 p100 (pf p' F_h).
Proof.
  intros v p p' E. unfold upd_h in E. destruct (check_num v f0 p100) as [x|] eqn:C; [|discriminate].
  destruct (allclose _ _); [discriminate|]. injection E as <-.
  refine (check_num_within _ _ _ _ _ _ C); reflexivity.
Qed.

Lemma upd_m_ncdm_within : forall v p p', upd_m_ncdm v p = Put p' -> within m100 p100 (pf p' F_m_ncdm).
Proof.
  intros v p p' E. unfold upd_m_ncdm in E. destruct (check_num v m100 p100) as [x|] eqn:C; [|discriminate].
  destruct (allclose _ _); [discriminate|]. destruct (feqb _ _); [discriminate|]. injection E as <-.
  refine (check_num_within _ _ _ _ _ _ C); reflexivity.
Qed.

Lemma upd_gamma_within : forall v p p', upd_omega_gamma v p = Put p' -> within m100 p100 (pf p' Omega0_gamma).
Proof.
  intros v p p' E. unfold upd_omega_gamma in E. destruct (check_num v m100 p100) as [x|] eqn:C; [|discriminate].
  destruct (allclose _ _); [discriminate|]. destruct (check_omegas _); [|discriminate]. injection E as <-.
  refine (check_num_within _ _ _ _ _ _ C); reflexivity.
Qed.

Lemma double_closed : forall cl f lo hi, documented_range f = Some (lo, hi) ->
  closed cl (fun p => PF (within lo hi) (getf p (FF f))).
Proof.
  intros cl f lo hi R. apply closed_field.
  - intros a v p p' H E.
    destruct (memb (FF f) (attr_writes a)) eqn:M;
      [|rewrite (put_other a v p p' (FF f) E M); assumption].
    destruct f; try discriminate R; injection R as <- <-;
      destruct a; try discriminate M; clear M; cbv beta iota delta [attr_update] in E; simpl;
      try (first [ refine (upd_close_within _ _ _ _ _ _ _ _ E); reflexivity
                 | exact (upd_h_within _ _ _ E) | exact (upd_m_ncdm_within _ _ _ E)
                 | exact (upd_gamma_within _ _ _ E) ]).
    + destruct (check_num v m100 p100) eqn:C; [|discriminate]. injection E as <-.
      refine (check_num_within _ _ _ _ _ _ C); reflexivity.
    + destruct (check_flt v f0 f1) eqn:C; [|discriminate]. injection E as <-.
      refine (check_flt_within _ _ _ _ _ _ C); reflexivity.
  - intros a v p p' e H E. destruct (part_m_ncdm _ _ _ _ _ E) as (x & -> & Hx).
    destruct f; try discriminate R; try exact H. injection R as <- <-. exact Hx.
  - destruct f; try discriminate R; reflexivity.
  - discriminate.
Qed.

Lemma upd_int_range : forall k lo hi v p p', upd_int k lo hi v p = Put p' -> lo <= pi p' k <= hi.
Proof.
  intros k lo hi v p p' E. unfold upd_int in E. destruct (check_int v lo hi) eqn:C; [|discriminate].
  injection E as <-. simpl. rewrite internal_ifield_dec_lb by reflexivity.
  exact (check_int_range _ _ _ _ C).
Qed.

Lemma upd_enum_range : forall k tbl v p p', upd_enum k tbl v p = Put p' -> In (pi p' k) (map fst tbl).
Proof.
  intros k tbl v p p' E. unfold upd_enum in E. destruct (check_discrete tbl v) eqn:C; [|discriminate].
  injection E as <-. simpl. rewrite internal_ifield_dec_lb by reflexivity.
  exact (check_discrete_in _ _ _ C).
Qed.

Lemma upd_cint_range : forall k v p p', upd_cint k v p = Put p' -> -2147483648 <= pi p' k <= 2147483647.
Proof.
  intros k v p p' E. unfold upd_cint in E. destruct (PySet.c_int v) eqn:C; [|discriminate].
  injection E as <-. simpl. rewrite internal_ifield_dec_lb by reflexivity.
  exact (c_int_range _ _ C).
Qed.

Lemma upd_N_ncdm_range : forall v p p', upd_N_ncdm v p = Put p' -> -100 <= pi p' I_N_ncdm <= 100.
Proof.
  intros v p p' E. unfold upd_N_ncdm in E. destruct (check_int v (-100) 100) eqn:C; [|discriminate].
  destruct (allclose _ _); [discriminate|]. injection E as <-. exact (check_int_range _ _ _ _ C).
Qed.

Lemma upd_pops_range : forall v p p', upd_populations v p = Put p' ->
  1 <= pi p' I_pop1 <= 4 /\ 1 <= pi p' I_pop2 <= 4 /\ 1 <= pi p' I_pop3 <= 4 /\ 1 <= pi p' I_pop4 <= 4.
Proof.
  intros v p p' E. unfold upd_populations in E.
  destruct (check_populations v) as [[|a [|b [|c [|d [|? ?]]]]]|] eqn:C; try discriminate.
  injection E as <-. exact (check_populations_range _ _ _ _ _ C).
Qed.

Lemma int_closed : forall cl i lo hi, documented_int_range i = Some (lo, hi) ->
  closed cl (fun p => PI (fun z => lo <= z <= hi) (getf p (FI i))).
Proof.
  intros cl i lo hi R. apply closed_field.
  - intros a v p p' H E.
    destruct (memb (FI i) (attr_writes a)) eqn:M;
      [|rewrite (put_other a v p p' (FI i) E M); assumption].
    destruct i; try discriminate R; injection R as <- <-;
      destruct a; try discriminate M; clear M; cbv beta iota delta [attr_update] in E;
      cbn [getf PI];
      first [ exact (upd_int_range _ _ _ _ _ _ E) | exact (upd_cint_range _ _ _ _ E)
            | exact (upd_N_ncdm_range _ _ _ E)
            | apply upd_enum_range in E; simpl in E; lia
            | apply upd_pops_range in E; tauto ].
  - intros a v p p' e H E. destruct (part_m_ncdm _ _ _ _ _ E) as (x & -> & Hx). exact H.
  - destruct i; try discriminate R; reflexivity.
  - discriminate.
Qed.

Lemma upd_list_ok : forall k ok v p p', upd_list k ok v p = Put p' -> forallb ok (pl p' k) = true.
Proof.
  intros k ok v p p' E. unfold upd_list in E. destruct (check_list ok v) eqn:C; [|discriminate].
  injection E as <-. simpl. rewrite internal_lfield_dec_lb by reflexivity.
  exact (check_list_ok _ _ _ C).
Qed.

Lemma forallb_doc : forall l ok xs,
  (forall x, ok x = true -> documented_element l x) ->
  forallb ok xs = true -> Forall (documented_element l) xs.
Proof.
  intros l ok xs H F. apply Forall_forall. intros x Hx. rewrite forallb_forall in F. auto.
Qed.

Lemma list_closed : forall cl l, closed cl (fun p => PL (Forall (documented_element l)) (getf p (FL l))).
Proof.
  intros cl l. apply closed_field.
  - intros a v p p' H E.
    destruct (memb (FL l) (attr_writes a)) eqn:M;
      [|rewrite (put_other a v p p' (FL l) E M); assumption].
    destruct l; destruct a; try discriminate M; clear M; cbv beta iota delta [attr_update] in E;
      cbn [getf PL]; apply upd_list_ok in E;
      (eapply forallb_doc; [|exact E]); intros x Hx; apply andb_prop in Hx; exact Hx.
  - intros a v p p' e H E. destruct (part_m_ncdm _ _ _ _ _ E) as (x & -> & Hx). exact H.
  - reflexivity.
  - discriminate.
Qed.

Lemma mult_closed : forall cl, closed cl (fun p => PM (Forall (fun l => 0 <= l <= 9)) (getf p FM)).
Proof.
  intros cl. apply closed_field.
  - intros a v p p' H E.
    destruct (memb FM (attr_writes a)) eqn:M;
      [|rewrite (put_other a v p p' FM E M); assumption].
    destruct a; try discriminate M; clear M. cbv beta iota delta [attr_update] in E.
    destruct (check_multipoles v) eqn:C; [|discriminate]. injection E as <-.
    exact (check_multipoles_ok _ _ C).
  - intros a v p p' e H E. destruct (part_m_ncdm _ _ _ _ _ E) as (x & -> & Hx). exact H.
  - reflexivity.
  - discriminate.
Qed.

Lemma default_ranges : ranges_ok default_params.
Proof.
  split.
  - intros f lo hi H. right.
    destruct f; try discriminate H; injection H as <- <-; split; vm_compute; reflexivity.
  - intros i lo hi H. destruct i; try discriminate H; injection H as <- <-; simpl; unfold pk_LINEAR; lia.
  - intros l. destruct (lfield_eq_dec l L_sep) as [->|N].
    + apply (forallb_doc L_sep ok_sep); [|vm_compute; reflexivity].
      intros x Hx. apply andb_prop in Hx. exact Hx.
    + destruct l; try congruence; cbn [default_params pl default_pl];
        (constructor; [split; vm_compute; reflexivity|constructor]).
  - repeat constructor; lia.
Qed.

(** Every history keeps every directly assignable value in its documented range
    (or NaN, which the checks let through). *)
Theorem run_ranges_ok : forall cl l s, run cl l coffe0 = Some s -> ranges_ok (sp s).
Proof.
  intros cl l s H. pose proof default_ranges as D. destruct D as [D1 D2 D3 D4]. split.
  - intros f lo hi R.
    exact (run_P cl _ (double_closed cl f lo hi R) l coffe0 s (D1 f lo hi R) H).
  - intros i lo hi R. exact (run_P cl _ (int_closed cl i lo hi R) l coffe0 s (D2 i lo hi R) H).
  - intros k. exact (run_P cl _ (list_closed cl k) l coffe0 s (D3 k) H).
  - exact (run_P cl _ (mult_closed cl) l coffe0 s D4 H).
Qed.

(** ** C06: a rejected assignment changes nothing *)

Theorem set_attr_reject : forall a v s s' e,
  set_attr a v s = (s', Raise e) ->
  ~ (a = A_m_ncdm /\ feqb (pf (sp s) F_h) f0 = true) -> s' = s.
Proof.
  intros a v s s' e H N. unfold set_attr in H.
  destruct (attr_update a v (sp s)) as [|p'|e'|p' e'] eqn:E; try (injection H as <- <-; reflexivity);
    try discriminate.
  destruct (attr_update_Part _ _ _ _ _ E) as (Ha & Hh & _ & _). exfalso. apply N.
  split; [exact Ha|exact Hh].
Qed.

Theorem set_bias_reject : forall k x y s s' e, set_bias k x y s = (s', Raise e) -> s' = s.
Proof.
  intros k x y s s' e H. unfold set_bias in H.
  repeat match type of H with
  | (if ?b then _ else _) = _ => destruct b; [try (injection H as <- <-; reflexivity); discriminate|]
  end.
  destruct x; [injection H as <- <-; reflexivity|].
  repeat match type of H with
  | (if ?b then _ else _) = _ => destruct b; [try (injection H as <- <-; reflexivity); discriminate|]
  end. discriminate.
Qed.

Theorem set_pk_reject : forall k pk s s' e,
  set_power_spectrum k pk s = (s', Raise e) -> k <> [] -> s' = s.
Proof.
  intros k pk s s' e H N. unfold set_power_spectrum in H.
  destruct (negb (is_sorted k)); [injection H as <- <-; reflexivity|].
  destruct (negb (Nat.eqb _ _)); [injection H as <- <-; reflexivity|].
  destruct k; [congruence|]. cbv zeta in H. destruct (negb (spline_ok _)); discriminate.
Qed.

(** ** C08, C09: the density budgets *)

(** Specification or proof only; nothing in the code. *)
Definition de_budget (p : params) : Prop :=
  pf p Omega0_de = fsub (fsub f1 (pf p Omega0_m)) (pf p Omega0_gamma).
Definition de_default (p : params) : Prop :=
  pf p Omega0_de = pf default_params Omega0_de /\
  pf p Omega0_m = pf default_params Omega0_m /\
  pf p Omega0_gamma = pf default_params Omega0_gamma.

Lemma de_closed : forall cl, closed cl (fun p => de_budget p \/ de_default p).
Proof.
  intros cl. apply (closed_same cl _ lib_fields); try reflexivity.
  - intros p p' W H. unfold de_budget, de_default in *.
    rewrite (same_except_pf _ _ _ Omega0_de W eq_refl), (same_except_pf _ _ _ Omega0_m W eq_refl),
      (same_except_pf _ _ _ Omega0_gamma W eq_refl). exact H.
  - intros a v p p' H E.
    destruct (disjointb (attr_writes a) [FF Omega0_de; FF Omega0_m; FF Omega0_gamma]) eqn:D.
    + pose proof (attr_update_Put _ _ _ _ E) as W. unfold de_budget, de_default in *.
      assert (M := fun x => disjoint_memb _ _ x D).
      rewrite (same_except_pf _ _ _ Omega0_de W (M (FF Omega0_de) eq_refl)), (same_except_pf _ _ _ Omega0_m W (M (FF Omega0_m) eq_refl)),
        (same_except_pf _ _ _ Omega0_gamma W (M (FF Omega0_gamma) eq_refl)). exact H.
    + left. destruct a; try discriminate D; clear D H; cbv beta iota delta [attr_update] in E;
      unfold upd_h, upd_m_ncdm, upd_omega_baryon, upd_omega_cdm, upd_omega_gamma, upd_omega_m in E;
      destruct (check_num _ _ _); try discriminate; destruct (allclose _ _); try discriminate;
      try (destruct (check_omegas _); try discriminate); try (destruct (feqb _ _); try discriminate);
      injection E as <-; reflexivity.
  - intros []; reflexivity.
Qed.

Theorem run_de_budget : forall cl l s, run cl l coffe0 = Some s ->
  pf (sp s) Omega0_de = fsub (fsub (of_Z 1) (pf (sp s) Omega0_m)) (pf (sp s) Omega0_gamma) \/
  (pf (sp s) Omega0_m = lit 3 10 /\ pf (sp s) Omega0_gamma = lit 9 100000 /\
   pf (sp s) Omega0_de = fsub (of_Z 1) (fadd (lit 3 10) (lit 9 100000))).
Proof.
  intros cl l s H.
  assert (B : de_budget (sp s) \/ de_default (sp s)).
  { apply (run_P cl _ (de_closed cl) l coffe0 s); [right; repeat split|exact H]. }
  destruct B as [B|(B1 & B2 & B3)]; [left; exact B|right].
  rewrite B1, B2, B3. repeat split.
Qed.

(** Omega_cdm is computed from Omega_m, or Omega_m from Omega_cdm without the
    neutrino term.  Specification or proof only; nothing in the code. *)
Definition m_budget (p : params) : Prop :=
  pf p Omega0_cdm = fsub (fsub (pf p Omega0_m) (pf p Omega0_baryon)) (pf p Omega0_nu) \/
  pf p Omega0_m = fadd (pf p Omega0_cdm) (pf p Omega0_baryon).

Lemma m_closed : forall cl, closed cl m_budget.
Proof.
  intros cl. apply (closed_same cl _ lib_fields); try reflexivity.
  - intros p p' W H. unfold m_budget in *.
    rewrite (same_except_pf _ _ _ Omega0_cdm W eq_refl), (same_except_pf _ _ _ Omega0_m W eq_refl),
      (same_except_pf _ _ _ Omega0_baryon W eq_refl), (same_except_pf _ _ _ Omega0_nu W eq_refl). exact H.
  - intros a v p p' H E.
    destruct (disjointb (attr_writes a) [FF Omega0_cdm; FF Omega0_m; FF Omega0_baryon; FF Omega0_nu]) eqn:D.
    + pose proof (attr_update_Put _ _ _ _ E) as W. unfold m_budget in *.
      assert (M := fun x => disjoint_memb _ _ x D).
      rewrite (same_except_pf _ _ _ Omega0_cdm W (M (FF Omega0_cdm) eq_refl)), (same_except_pf _ _ _ Omega0_m W (M (FF Omega0_m) eq_refl)),
      (same_except_pf _ _ _ Omega0_baryon W (M (FF Omega0_baryon) eq_refl)), (same_except_pf _ _ _ Omega0_nu W (M (FF Omega0_nu) eq_refl)). exact H.
    + destruct a; try discriminate D; clear D; cbv beta iota delta [attr_update] in E;
      unfold upd_h, upd_m_ncdm, upd_omega_baryon, upd_omega_cdm, upd_omega_gamma, upd_omega_m in E;
      destruct (check_num _ _ _); try discriminate; destruct (allclose _ _); try discriminate;
      try (destruct (check_omegas _); try discriminate); try (destruct (feqb _ _); try discriminate);
      injection E as <-; first [left; reflexivity | right; reflexivity].
  - intros []; reflexivity.
Qed.

Theorem run_m_budget : forall cl l s, run cl l coffe0 = Some s ->
  pf (sp s) Omega0_cdm =
    fsub (fsub (pf (sp s) Omega0_m) (pf (sp s) Omega0_baryon)) (pf (sp s) Omega0_nu) \/
  pf (sp s) Omega0_m = fadd (pf (sp s) Omega0_cdm) (pf (sp s) Omega0_baryon).
Proof.
  intros cl l s H. apply (run_P cl _ (m_closed cl) l coffe0 s); [left; reflexivity|exact H].
Qed.

(** ** C10: set_parameters *)

(** Spec: which assignment failed. *)
Theorem set_parameters_spec : forall l s s' r, set_parameters l s = (s', r) ->
  (* an unknown name: nothing happens *)
  (In None (map fst l) /\ s' = s /\ r = Raise AttributeError) \/
  (* all names known: the values are assigned one after the other, up to the first that fails *)
  (exists l', map (fun av => (Some (fst av), snd av)) l' = l /\
   ((exists ss, r = Ok ONone /\ List.length ss = List.length l' /\ last ss s = s' /\
       forall i a v, nth_error l' i = Some (a, v) ->
         exists si sj, nth_error (s :: ss) i = Some si /\ nth_error ss i = Some sj /\
           set_attr a v si = (sj, Ok ONone)) \/
    (exists pre a v post sm e, l' = pre ++ (a, v) :: post /\
       set_parameters (map (fun av => (Some (fst av), snd av)) pre) s = (sm, Ok ONone) /\
       set_attr a v sm = (s', Raise e) /\ r = Raise e))).
Proof.
  assert (K1 : forall l, known l = None -> In None (map fst l)).
  { induction l as [|[[a|] v] r IH]; simpl; intros H; auto; try discriminate.
    destruct (known r); [discriminate|]. right. auto. }
  assert (K2 : forall l k, known l = Some k -> map (fun av => (Some (fst av), snd av)) k = l).
  { induction l as [|[[a|] v] r IH]; simpl; intros k H; try discriminate.
    - injection H as <-. reflexivity.
    - destruct (known r) eqn:E; [|discriminate]. injection H as <-. simpl. rewrite (IH l eq_refl). reflexivity. }
  assert (K3 : forall l, known (map (fun av : attr * pyval => (Some (fst av), snd av)) l) = Some l).
  { induction l as [|[a v] r IH]; simpl; [reflexivity|]. rewrite IH. reflexivity. }
  assert (OKN : forall a v s s1 o, set_attr a v s = (s1, Ok o) -> o = ONone).
  { intros a v s s1 o H. unfold set_attr in H. destruct (attr_update a v (sp s)); congruence. }
  intros l s s' r H. unfold set_parameters in H.
  destruct (known l) as [l'|] eqn:K.
  2: { injection H as <- <-. left. auto. }
  right. exists l'. split; [auto|]. clear K l.
  revert s s' r H. induction l' as [|[a v] t IH]; intros s s' r H.
  - simpl in H. injection H as <- <-. left. exists []. repeat split; auto.
    intros [|i] a v Hi; discriminate.
  - simpl in H. destruct (set_attr a v s) as [s1 r1] eqn:E. destruct r1 as [o|e|].
    + pose proof (OKN _ _ _ _ _ E) as ->.
      destruct (IH s1 s' r H) as [(ss & -> & L & La & Hn)|(pre & a' & v' & post & sm & e & -> & P1 & P2 & ->)].
      * left. exists (s1 :: ss). repeat split.
        -- simpl. rewrite L. reflexivity.
        -- destruct ss as [|x y]; [exact La|]. simpl in *. clear - La. revert x La.
           induction y as [|b y IHy]; intros x La; [exact La|]. apply (IHy b). exact La.
        -- intros [|i] a2 v2 Hi.
           ++ simpl in Hi. injection Hi as <- <-. exists s, s1. auto.
           ++ simpl in Hi. destruct (Hn i a2 v2 Hi) as (si & sj & N1 & N2 & N3).
              exists si, sj. auto.
      * right. exists ((a, v) :: pre), a', v', post, sm, e. repeat split; auto.
        unfold set_parameters in *. rewrite K3 in *. simpl. rewrite E. exact P1.
    + injection H as <- <-. right. exists [], a, v, t, s, e. repeat split; auto.
    + exfalso. unfold set_attr in E. destruct (attr_update a v (sp s)); discriminate.
Qed.

(** ** C50: option names *)

(** Specification or proof only; nothing in the code. *)
Definition option_table (a : attr) : option (list (Z * string)) :=
  match a with
  | A_pk_type => Some allowed_pk_types
  | A_integration_1d_type => Some allowed_integration_1d_types
  | A_covariance_integration_method => Some allowed_covariance_integration_methods
  | A_covariance_interpolation_method => Some allowed_interpolation_2d_methods
  | _ => None
  end.

Lemma lookup_name_sound : forall tbl n z, lookup_name tbl n = Some z -> In (z, n) tbl.
Proof.
  intros tbl n z H. unfold lookup_name in H. destruct (find _ tbl) as [[c m]|] eqn:E; [|discriminate].
  injection H as <-. apply find_some in E as [E1 E2]. apply String.eqb_eq in E2. simpl in *. subst. exact E1.
Qed.

Theorem option_round_trip : forall a tbl n s, option_table a = Some tbl -> In n (map snd tbl) ->
  exists s', set_attr a (VStr n) s = (s', Ok ONone) /\ get_attr a (sp s') = VStr n.
Proof.
  intros a tbl n s T I. destruct a; try discriminate T; injection T as <-; simpl in I;
    repeat (destruct I as [<-|I]; [eexists; split; reflexivity|]); destruct I.
Qed.

Theorem option_rejected : forall a tbl n s, option_table a = Some tbl -> ~ In n (map snd tbl) ->
  set_attr a (VStr n) s = (s, Raise ValueError).
Proof.
  intros a tbl n s T I.
  assert (L : lookup_name tbl n = None).
  { destruct (lookup_name tbl n) eqn:E; [|reflexivity]. exfalso. apply I.
    apply lookup_name_sound in E. apply (in_map snd) in E. exact E. }
  destruct a; try discriminate T; injection T as <-; unfold set_attr;
    cbv beta iota delta [attr_update]; unfold upd_enum, check_discrete; rewrite L; reflexivity.
Qed.

(** ** C51: reading back what was assigned *)

(** Float-valued attributes.  Specification or proof only; nothing in the code. *)
Definition float_attr (a : attr) : option ffield :=
  match a with
  | A_A_s => Some F_A_s | A_N_ur => Some F_N_ur | A_T_cmb => Some F_T_cmb | A_YHe => Some F_YHe
  | A_h => Some F_h | A_m_ncdm => Some F_m_ncdm | A_n_s => Some F_n_s
  | A_omega_baryon => Some Omega0_baryon | A_omega_cdm => Some Omega0_cdm
  | A_omega_gamma => Some Omega0_gamma | A_omega_m => Some Omega0_m
  | A_sigma8 => Some F_sigma8 | A_w0 => Some F_w0 | A_wa => Some F_wa
  | A_integration_1d_prec => Some F_integration_1d_prec
  | A_k_max => Some F_k_max | A_k_min => Some F_k_min
  | A_k_per_decade_for_bao => Some F_k_per_decade_for_bao
  | A_k_per_decade_for_pk => Some F_k_per_decade_for_pk
  | A_radiation_streaming_trigger_tau_over_tau_k => Some F_radiation_streaming_trigger
  | A_start_large_k_at_tau_h_over_tau_k => Some F_start_large_k_at_tau_h_over_tau_k
  | A_tol_perturb_integration => Some F_tol_perturb_integration
  | A_ur_fluid_trigger_tau_over_tau_k => Some F_ur_fluid_trigger
  | _ => None
  end.

(** An accepted float is read back exactly, or the object is unchanged and the
    old value is the one np.allclose does not tell from the new one. *)
Theorem float_read_back : forall a f x s s', float_attr a = Some f ->
  set_attr a (VFloat x) s = (s', Ok ONone) ->
  get_attr a (sp s') = VFloat x \/
  (s' = s /\ exists old, get_attr a (sp s) = VFloat old /\ allclose x old = true).
Proof.
  intros a f x s s' F H. unfold set_attr in H.
  destruct a; try discriminate F; clear F; cbv beta iota delta [attr_update] in H;
    unfold upd_h, upd_m_ncdm, upd_omega_baryon, upd_omega_cdm, upd_omega_gamma, upd_omega_m,
      upd_close, upd_k, upd_double, check_num, check_flt, c_double in H; simpl as_num in H; cbv beta iota in H;
    repeat match type of H with context [if ?b then _ else _] =>
      destruct b eqn:?; try discriminate end;
    cbv beta iota in H; injection H as <-;
    first [ left; reflexivity
          | right; split; [reflexivity|]; eexists; split; [reflexivity|assumption] ].
Qed.

(** Flags, integers and lists are read back as entered.  Specification or proof only; nothing in the code. *)
Definition bool_attr (a : attr) : bool :=
  match a with
  | A_covariance_cosmic | A_covariance_mixed | A_covariance_poisson | A_has_binned_covariance
  | A_has_d1 | A_has_d2 | A_has_density | A_has_flatsky_local | A_has_flatsky_local_nonlocal
  | A_has_flatsky_nonlocal | A_has_g1 | A_has_g2 | A_has_g3 | A_has_g4 | A_has_g5
  | A_has_lensing | A_has_only_cross_correlations | A_has_rsd | A_verbose => true
  | _ => false
  end.
Theorem bool_read_back : forall a v s, bool_attr a = true ->
  exists s', set_attr a v s = (s', Ok ONone) /\ get_attr a (sp s') = VBool (truthy v).
Proof. intros a v s B. destruct a; try discriminate B; eexists; split; reflexivity. Qed.

Definition list_attr (a : attr) : bool :=
  match a with
  | A_deltaz | A_fsky | A_mu | A_number_density1 | A_number_density2 | A_pixelsize | A_sep
  | A_z_max | A_z_mean | A_z_min => true
  | _ => false
  end.

Lemma map_res_floats : forall l, map_res as_float (map VFloat l) = inl l.
Proof. induction l as [|x r IH]; [reflexivity|]. simpl. rewrite IH. reflexivity. Qed.

Lemma check_list_floats : forall ok l, check_list ok (floats l) = if forallb ok l then inl l else inr ValueError.
Proof. intros ok l. unfold check_list, floats, elements. rewrite map_res_floats. reflexivity. Qed.

Theorem list_read_back : forall a l s s', list_attr a = true ->
  set_attr a (floats l) s = (s', Ok ONone) -> get_attr a (sp s') = floats l.
Proof.
  intros a l s s' B H. unfold set_attr in H.
  destruct a; try discriminate B; cbv beta iota delta [attr_update] in H; unfold upd_list in H;
    rewrite check_list_floats in H; destruct (forallb _ l); try discriminate; injection H as <-; reflexivity.
Qed.

Lemma map_res_ints : forall l, map_res (fun x => match as_int x with
     | Some z => inl z | None => inr TypeError end) (map VInt l) = inl l.
Proof. induction l as [|x r IH]; [reflexivity|]. simpl. rewrite IH. reflexivity. Qed.

Theorem multipoles_read_back : forall l s s',
  set_attr A_l (VList (map VInt l)) s = (s', Ok ONone) ->
  get_attr A_l (sp s') = VList (map VInt l).
Proof.
  intros l s s' H. unfold set_attr in H. cbv beta iota delta [attr_update] in H.
  unfold check_multipoles, elements in H. rewrite map_res_ints in H.
  destruct (forallb _ l); [|discriminate]. injection H as <-. reflexivity.
Qed.

Definition int_attr (a : attr) : bool :=
  match a with
  | A_background_sampling | A_integration_sampling | A_covariance_integration_sampling
  | A_l_max_g | A_l_max_ur => true
  | _ => false
  end.
Theorem int_read_back : forall a z s s', int_attr a = true ->
  set_attr a (VInt z) s = (s', Ok ONone) -> get_attr a (sp s') = VInt z.
Proof.
  intros a z s s' B H. unfold set_attr in H.
  destruct a; try discriminate B; cbv beta iota delta [attr_update] in H;
    unfold upd_int, upd_cint, check_int, PySet.c_int, int32 in H; simpl as_int in H; cbv beta iota in H;
    repeat match type of H with context [if ?b then _ else _] =>
      destruct b eqn:?; try discriminate end;
    cbv beta iota in H; injection H as <-; reflexivity.
Qed.

(** ** C11: reading [parameters] *)

(** Every value is one its own setter would accept and leave as it is.
    Specification or proof only; nothing in the code. *)
Record settled (p : params) : Prop := {
  se_float : forall a f lo hi, float_attr a = Some f -> documented_range f = Some (lo, hi) ->
     is_nan (pf p f) = false;
  se_omega : forall f, In f [Omega0_cdm; Omega0_m; Omega0_baryon; Omega0_gamma; F_h; F_m_ncdm] ->
     is_finite (pf p f) = true /\ fleb (of_Z (-100)) (pf p f) = true /\ fleb (pf p f) (of_Z 100) = true;
  se_k : fleb (of_Z 0) (pf p F_k_min) = true /\ fleb (pf p F_k_min) (lit 1 1000) = true /\
         fleb (lit 1 10) (pf p F_k_max) = true /\ fleb (pf p F_k_max) (of_Z 1000) = true;
  se_norm : pf p F_k_min_norm = pf p F_k_min /\ pf p F_k_max_norm = pf p F_k_max;
  se_ranges : ranges_ok p
}.

Lemma fleb_not_fltb : forall x y, fleb x y = true -> fltb y x = false.
Proof.
  intros x y H. destruct (fltb y x) eqn:E; [|reflexivity]. exfalso.
  revert H E. unfold fleb, fltb.
  pose proof (SFcompare_antisym x y) as A. destruct (SpecFloat.SFcompare x y) as [c|] eqn:C.
  - unfold SpecFloat.SFleb, SpecFloat.SFltb. rewrite C. destruct (SpecFloat.SFcompare y x) as [d|]; [|discriminate].
    destruct c, d; try discriminate; simpl in A; congruence.
  - unfold SpecFloat.SFleb. rewrite C. discriminate.
Qed.

Lemma params_eq_f : forall p q, params_eq p q -> forall f, pf p f = pf q f.
Proof. intros p q H f. specialize (H (FF f)). simpl in H. congruence. Qed.
Lemma params_eq_i : forall p q, params_eq p q -> forall f, pi p f = pi q f.
Proof. intros p q H f. specialize (H (FI f)). simpl in H. congruence. Qed.
Lemma params_eq_l : forall p q, params_eq p q -> forall f, pl p f = pl q f.
Proof. intros p q H f. specialize (H (FL f)). simpl in H. congruence. Qed.
Lemma params_eq_m : forall p q, params_eq p q -> pm p = pm q.
Proof. intros p q H. specialize (H FM). simpl in H. congruence. Qed.

Lemma settled_eq : forall p q, params_eq p q -> settled q -> settled p.
Proof.
  intros p q E [H1 H2 H3 H4 [R1 R2 R3 R4]].
  pose proof (params_eq_f _ _ E) as Ef. pose proof (params_eq_i _ _ E) as Ei.
  pose proof (params_eq_l _ _ E) as El. pose proof (params_eq_m _ _ E) as Em.
  split; [..|split]; intros; rewrite ?Ef, ?Ei, ?El, ?Em; eauto.
Qed.

Lemma setF_id : forall p k, params_eq (setF p k (pf p k)) p.
Proof.
  intros p k [f|i|b|l| |s]; simpl; try reflexivity.
  destruct (ffield_beq k f) eqn:E; [|reflexivity]. apply internal_ffield_dec_bl in E. subst. reflexivity.
Qed.
Lemma setI_id : forall p k, params_eq (setI p k (pi p k)) p.
Proof.
  intros p k [f|i|b|l| |s]; simpl; try reflexivity.
  destruct (ifield_beq k i) eqn:E; [|reflexivity]. apply internal_ifield_dec_bl in E. subst. reflexivity.
Qed.
Lemma setB_id : forall p k, params_eq (setB p k (pb p k)) p.
Proof.
  intros p k [f|i|b|l| |s]; simpl; try reflexivity.
  destruct (bfield_beq k b) eqn:E; [|reflexivity]. apply internal_bfield_dec_bl in E. subst. reflexivity.
Qed.
Lemma setL_id : forall p k, params_eq (setL p k (pl p k)) p.
Proof.
  intros p k [f|i|b|l| |s]; simpl; try reflexivity.
  destruct (lfield_beq k l) eqn:E; [|reflexivity]. apply internal_lfield_dec_bl in E. subst. reflexivity.
Qed.
Lemma params_eq_refl : forall p, params_eq p p.
Proof. intros p x. reflexivity. Qed.
Lemma params_eq_trans : forall p q r, params_eq p q -> params_eq q r -> params_eq p r.
Proof. intros p q r H1 H2 x. rewrite (H1 x). apply H2. Qed.

Lemma check_num_ok : forall lo hi x, fleb lo x = true -> fleb x hi = true ->
  check_num (VFloat x) lo hi = inl x.
Proof.
  intros lo hi x H1 H2. unfold check_num. simpl as_num. cbv beta iota.
  rewrite (fleb_not_fltb _ _ H1), (fleb_not_fltb _ _ H2). reflexivity.
Qed.

Lemma settled_num : forall p a f lo hi, settled p -> float_attr a = Some f ->
  documented_range f = Some (lo, hi) ->
  check_num (VFloat (pf p f)) lo hi = inl (pf p f) /\ check_flt (VFloat (pf p f)) lo hi = inl (pf p f).
Proof.
  intros p a f lo hi S A R. pose proof (se_float p S a f lo hi A R) as N.
  destruct (ro_double p (se_ranges p S) f lo hi R) as [C|[C1 C2]]; [congruence|].
  split; [apply check_num_ok; assumption|]. unfold check_flt.
  rewrite (fleb_not_fltb _ _ C1), (fleb_not_fltb _ _ C2). reflexivity.
Qed.

(** The outcome of one self-assignment.  Specification or proof only; nothing in the code. *)
Definition harmless (a : attr) (u : upd) (p : params) : Prop :=
  u = Keep \/ (exists p', u = Put p' /\ params_eq p' p) \/ u = Reject AttributeError.

Lemma close_self : forall p a k lo hi, settled p -> float_attr a = Some k ->
  documented_range k = Some (lo, hi) -> harmless a (upd_close k lo hi (VFloat (pf p k)) p) p.
Proof.
  intros p a k lo hi S A R. unfold upd_close.
  destruct (settled_num p a k lo hi S A R) as [-> _].
  destruct (allclose _ _); [left; reflexivity|right; left]. eexists; split; [reflexivity|apply setF_id].
Qed.

Lemma list_self : forall p a k ok, forallb ok (pl p k) = true ->
  harmless a (upd_list k ok (floats (pl p k)) p) p.
Proof.
  intros p a k ok H. unfold upd_list. rewrite check_list_floats, H. right. left.
  eexists; split; [reflexivity|apply setL_id].
Qed.

Lemma int_self : forall p a k lo hi, lo <= pi p k <= hi -> harmless a (upd_int k lo hi (VInt (pi p k)) p) p.
Proof.
  intros p a k lo hi H. unfold upd_int, check_int. simpl as_int. cbv beta iota.
  replace (pi p k <? lo) with false by lia. replace (hi <? pi p k) with false by lia.
  right. left. eexists; split; [reflexivity|apply setI_id].
Qed.

Lemma cint_self : forall p a k, -2147483648 <= pi p k <= 2147483647 ->
  harmless a (upd_cint k (VInt (pi p k)) p) p.
Proof.
  intros p a k H. unfold upd_cint, PySet.c_int, int32. simpl as_int. cbv beta iota.
  replace (-2147483648 <=? pi p k) with true by lia. replace (pi p k <=? 2147483647) with true by lia.
  right. left. eexists; split; [reflexivity|apply setI_id].
Qed.

Lemma bool_self : forall p a k, harmless a (upd_bool k (VBool (pb p k)) p) p.
Proof. intros. right. left. eexists; split; [reflexivity|apply setB_id]. Qed.

Lemma double_self : forall p a k, harmless a (upd_double k (VFloat (pf p k)) p) p.
Proof. intros. right. left. eexists; split; [reflexivity|apply setF_id]. Qed.

Lemma enum_self : forall p a k tbl,
  (exists n, lookup_code tbl (pi p k) = Some n /\ lookup_name tbl n = Some (pi p k)) ->
  harmless a (upd_enum k tbl (enum_name tbl (pi p k)) p) p.
Proof.
  intros p a k tbl (n & L1 & L2). unfold enum_name. rewrite L1. unfold upd_enum, check_discrete.
  rewrite L2. right. left. eexists; split; [reflexivity|apply setI_id].
Qed.

Lemma k_self : forall p a k kn lo hi, fleb lo (pf p k) = true -> fleb (pf p k) hi = true ->
  pf p kn = pf p k -> k <> kn -> harmless a (upd_k k kn lo hi (VFloat (pf p k)) p) p.
Proof.
  intros p a k kn lo hi H1 H2 N D. unfold upd_k. rewrite (check_num_ok _ _ _ H1 H2).
  right. left. eexists; split; [reflexivity|].
  apply (params_eq_trans _ (setF p k (pf p k))); [|apply setF_id].
  replace (pf p k) with (pf (setF p k (pf p k)) kn) at 2; [apply setF_id|].
  simpl. destruct (ffield_beq k kn) eqn:E; [|exact N]. apply internal_ffield_dec_bl in E. congruence.
Qed.

Lemma forallb_of : forall l ok xs, Forall (documented_element l) xs ->
  (forall x, documented_element l x -> ok x = true) -> forallb ok xs = true.
Proof.
  intros l ok xs F H. apply forallb_forall. intros x Hx. rewrite Forall_forall in F. auto.
Qed.

Lemma self_assign : forall a p, settled p -> harmless a (attr_update a (get_attr a p) p) p.
Proof.
  intros a p S. pose proof (se_ranges p S) as [R1 R2 R3 R4].
  pose proof (se_omega p S) as O.
  assert (AO : forall f, In f [Omega0_cdm; Omega0_m; Omega0_baryon; Omega0_gamma; F_h; F_m_ncdm] ->
     check_num (VFloat (pf p f)) m100 p100 = inl (pf p f) /\ allclose (pf p f) (pf p f) = true).
  { intros f Hf. destruct (O f Hf) as (F & L & H). split; [apply check_num_ok; assumption|].
    apply allclose_self. exact F. }
  destruct a; cbv beta iota delta [attr_update get_attr];
    try (apply bool_self); try (apply double_self);
    try match goal with |- harmless ?a (upd_close ?k ?lo ?hi _ _) _ =>
           exact (close_self p a k lo hi S eq_refl eq_refl) end;
    try (apply list_self; eapply forallb_of; [apply R3|]; intros x [E1 E2];
         unfold ok_sep, ok_mu, ok_redshift, ok_pixelsize, ok_fsky; apply andb_true_intro; split; assumption).
  - (* A_s *) destruct (settled_num p A_A_s F_A_s _ _ S eq_refl eq_refl) as [C _].
    change m100 with (of_Z (-100)). change p100 with (of_Z 100). rewrite C.
    right. left. eexists; split; [reflexivity|apply setF_id].
  - (* N_ncdm *) unfold upd_N_ncdm, check_int. simpl as_int. cbv beta iota.
    specialize (R2 I_N_ncdm _ _ eq_refl).
    replace (pi p I_N_ncdm <? -100) with false by lia. replace (100 <? pi p I_N_ncdm) with false by lia.
    destruct (allclose _ _); [left; reflexivity|right; left]. eexists; split; [reflexivity|apply setI_id].
  - apply int_self. exact (R2 I_background_bins _ _ eq_refl).
  - apply enum_self. specialize (R2 I_covariance_integration_method _ _ eq_refl).
    assert (E : pi p I_covariance_integration_method = 1 \/ pi p I_covariance_integration_method = 2) by lia.
    destruct E as [-> | ->]; eexists; split; reflexivity.
  - apply int_self. exact (R2 I_covariance_integration_bins _ _ eq_refl).
  - apply enum_self. specialize (R2 I_covariance_interpolation_method _ _ eq_refl).
    assert (E : pi p I_covariance_interpolation_method = 1 \/ pi p I_covariance_interpolation_method = 2) by lia.
    destruct E as [-> | ->]; eexists; split; reflexivity.
  - (* populations *)
    pose proof (R2 I_pop1 _ _ eq_refl) as P1. pose proof (R2 I_pop2 _ _ eq_refl) as P2.
    pose proof (R2 I_pop3 _ _ eq_refl) as P3. pose proof (R2 I_pop4 _ _ eq_refl) as P4.
    assert (C : check_populations (VList [VInt (pi p I_pop1); VInt (pi p I_pop2); VInt (pi p I_pop3); VInt (pi p I_pop4)])
        = inl [pi p I_pop1; pi p I_pop2; pi p I_pop3; pi p I_pop4]).
    { unfold check_populations, elements. cbn [map_res py_int List.length Nat.eqb negb forallb].
      unfold in_1234, PySet.c_int, int32. cbn [as_int].
      repeat match goal with |- context [?a <=? ?b] => replace (a <=? b) with true by lia end.
      reflexivity. }
    unfold upd_populations. rewrite C. right. left. eexists; split; [reflexivity|].
    intros [f|i|b|l| |s]; simpl; try reflexivity. destruct i; reflexivity.
  - (* h *) unfold upd_h. destruct (settled_num p A_h F_h _ _ S eq_refl eq_refl) as [C _].
    change f0 with (of_Z 0). change p100 with (of_Z 100). rewrite C.
    destruct (AO F_h) as [_ ->]; [simpl; tauto|]. left; reflexivity.
  - (* fftlog *) unfold upd_integrals_fftlog_sampling. right. right.
    unfold check_int. simpl as_int. cbv beta iota.
    specialize (R2 I_bessel_bins _ _ eq_refl).
    replace (pi p I_bessel_bins <? 0) with false by lia.
    replace (1000000 <? pi p I_bessel_bins) with false by lia. reflexivity.
  - (* integration_1d_prec *)
    destruct (settled_num p A_integration_1d_prec F_integration_1d_prec _ _ S eq_refl eq_refl) as [_ C].
    change f0 with (of_Z 0). change f1 with (of_Z 1). rewrite C.
    right. left. eexists; split; [reflexivity|apply setF_id].
  - apply enum_self. specialize (R2 I_integration_1d_type _ _ eq_refl).
    assert (E : pi p I_integration_1d_type = 1 \/ pi p I_integration_1d_type = 2) by lia.
    destruct E as [-> | ->]; eexists; split; reflexivity.
  - apply int_self. exact (R2 I_integration_bins _ _ eq_refl).
  - destruct (se_k p S) as (K1 & K2 & K3 & K4). destruct (se_norm p S) as [N1 N2].
    apply k_self; auto. discriminate.
  - destruct (se_k p S) as (K1 & K2 & K3 & K4). destruct (se_norm p S) as [N1 N2].
    apply k_self; auto. discriminate.
  - (* l *) unfold check_multipoles, elements. rewrite map_res_ints.
    replace (forallb _ (pm p)) with true.
    + right. left. eexists; split; [reflexivity|]. intros []; reflexivity.
    + symmetry. apply forallb_forall. intros x Hx. rewrite Forall_forall in R4. specialize (R4 x Hx).
      apply andb_true_intro. split; lia.
  - apply cint_self. exact (R2 I_l_max_g _ _ eq_refl).
  - apply cint_self. exact (R2 I_l_max_ur _ _ eq_refl).
  - unfold upd_m_ncdm. destruct (AO F_m_ncdm) as [-> ->]; [simpl; tauto|]. left; reflexivity.
  - unfold upd_omega_baryon. destruct (AO Omega0_baryon) as [-> ->]; [simpl; tauto|]. left; reflexivity.
  - unfold upd_omega_cdm. destruct (AO Omega0_cdm) as [-> ->]; [simpl; tauto|]. left; reflexivity.
  - unfold upd_omega_gamma. destruct (AO Omega0_gamma) as [-> ->]; [simpl; tauto|]. left; reflexivity.
  - unfold upd_omega_m. destruct (AO Omega0_m) as [-> ->]; [simpl; tauto|]. left; reflexivity.
  - apply enum_self. specialize (R2 I_pk_type _ _ eq_refl).
    assert (E : pi p I_pk_type = 0 \/ pi p I_pk_type = 1 \/ pi p I_pk_type = 2 \/ pi p I_pk_type = 3) by lia.
    destruct E as [->|[->|[-> | ->]]]; eexists; split; reflexivity.
  - right. right. reflexivity.
Qed.

(** No cache except the CLASS structure.  Specification or proof only; nothing in the code. *)
Definition no_cache (s : state) : Prop :=
  c_bg s = None /\ c_pk s = None /\ c_int s = None /\
  (forall k, c_sig s k = None) /\ (forall k, c_cov s k = None).

Lemma set_attr_no_cache : forall a v s, no_cache s -> no_cache (fst (set_attr a v s)).
Proof.
  intros a v s (H1 & H2 & H3 & H4 & H5). unfold set_attr, no_cache.
  destruct (attr_update a v (sp s)); simpl; repeat split; auto; try intros k;
    rewrite ?H1, ?H2, ?H3, ?H4, ?H5; destruct (dropped _ _); reflexivity.
Qed.

Lemma self_step : forall a s, settled (sp s) -> exists s1,
  (set_attr a (get_attr a (sp s)) s = (s1, Ok ONone) \/
   set_attr a (get_attr a (sp s)) s = (s1, Raise AttributeError)) /\
  params_eq (sp s1) (sp s) /\ c_cls s1 = c_cls s /\
  (a = A_background_sampling -> no_cache s1) /\ (no_cache s -> no_cache s1).
Proof.
  intros a s S. pose proof (set_attr_no_cache a (get_attr a (sp s)) s) as NC.
  destruct (self_assign a (sp s) S) as [E|[(p' & E & Q)|E]]; unfold set_attr in *; rewrite E in *.
  - exists s. split; [left; reflexivity|]. split; [apply params_eq_refl|].
    split; [reflexivity|]. split; [|auto]. intros ->. cbv beta iota delta [attr_update get_attr] in E.
    unfold upd_int in E. destruct (check_int _ _ _); discriminate.
  - eexists. split; [left; reflexivity|]. split; [exact Q|]. split; [reflexivity|].
    split; [|exact NC]. intros ->. repeat split; intros k; destruct k; reflexivity.
  - exists s. split; [right; reflexivity|]. split; [apply params_eq_refl|].
    split; [reflexivity|]. split; [|auto]. intros ->. cbv beta iota delta [attr_update get_attr] in E.
    unfold upd_int in E. destruct (check_int _ _ _) as [|e] eqn:C; [discriminate|].
    unfold check_int in C. simpl as_int in C. cbv beta iota in C.
    destruct (_ <? _) in C; [congruence|]. destruct (_ <? _) in C; congruence.
Qed.

Lemma reassign_settled : forall l s, settled (sp s) -> exists s',
  reassign_all l s = (s', Ok (OParams (sp s'))) /\ params_eq (sp s') (sp s) /\ c_cls s' = c_cls s /\
  (In A_background_sampling l \/ no_cache s -> no_cache s').
Proof.
  induction l as [|a r IH]; intros s S.
  - exists s. split; [reflexivity|]. split; [apply params_eq_refl|]. split; [reflexivity|]. intros [[]|H]; exact H.
  - destruct (self_step a s S) as (s1 & D & Q & C & N1 & N2).
    destruct (IH s1 (settled_eq _ _ Q S)) as (s' & D' & Q' & C' & N').
    exists s'. split.
    + simpl. destruct D as [-> | ->]; exact D'.
    + split; [exact (params_eq_trans _ _ _ Q' Q)|]. split; [congruence|].
      intros [[E|H]|H]; apply N'; auto.
Qed.

(** Reading [parameters] returns the values and leaves them unchanged, but
    drops every cache, including a user-supplied spectrum. *)
Theorem read_parameters_settled : forall s, settled (sp s) -> exists s',
  read_parameters s = (s', Ok (OParams (sp s'))) /\ params_eq (sp s') (sp s) /\
  c_cls s' = c_cls s /\ no_cache s'.
Proof.
  intros s S. destruct (reassign_settled all_attrs s S) as (s' & D & Q & C & N).
  exists s'. repeat split; auto; apply N; left; apply all_attrs_complete.
Qed.

Lemma settled_default : settled default_params.
Proof.
  split.
  - intros a f lo hi A R. destruct f; try discriminate R; vm_compute; reflexivity.
  - intros f H. simpl in H. repeat destruct H as [<-|H]; try destruct H; vm_compute; auto.
  - repeat split; vm_compute; reflexivity.
  - split; reflexivity.
  - exact default_ranges.
Qed.
