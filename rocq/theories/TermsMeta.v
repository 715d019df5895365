(** * Reasoning about straight code

    Code made of assignments, [result += e] and conditionals either runs to its
    end, when every integral it looks up is present, or uses a null pointer. *)
From Coq Require Import Reals ZArith Bool List Lia Lra FunctionalExtensionality.
Import ListNotations.
From Verif Require Import Integrals CExpr Terms Signal.
Open Scope R_scope.

(** Specification or proof only; nothing in the code. *)
Fixpoint straight1 (c : stmt) : bool :=
  match c with
  | Set_ _ _ | AddTo _ => true
  | If _ p q => forallb straight1 p && forallb straight1 q
  | Return _ | Exit => false
  end.
Definition straight (l : list stmt) : bool := forallb straight1 l.

Section Den.
Variable E : env.
(** The final store when nothing is missing, and the integrals looked up.
    Specification or proof only; nothing in the code. *)
Fixpoint den1 (s : store) (c : stmt) : store :=
  match c with
  | Set_ v e => upd s v (eval E s e)
  | AddTo e => upd s res (s res + eval E s e)
  | If c p q =>
      (fix go (s : store) (l : list stmt) : store :=
         match l with [] => s | c :: l => go (den1 s c) l end)
        s (if holds E s c then p else q)
  | Return _ | Exit => s
  end.
Fixpoint dens (s : store) (l : list stmt) : store :=
  match l with [] => s | c :: l => dens (den1 s c) l end.

Fixpoint keys1 (s : store) (c : stmt) : list key :=
  match c with
  | Set_ _ e | AddTo e | Return e => keys_e e
  | If c p q =>
      (fix go (s : store) (l : list stmt) : list key :=
         match l with [] => [] | c :: l => keys1 s c ++ go (den1 s c) l end)
        s (if holds E s c then p else q)
  | Exit => []
  end.
Fixpoint keys (s : store) (l : list stmt) : list key :=
  match l with [] => [] | c :: l => keys1 s c ++ keys (den1 s c) l end.

Lemma den1_If : forall s c p q,
  den1 s (If c p q) = dens s (if holds E s c then p else q).
Proof.
  intros. simpl. generalize (if holds E s c then p else q). intros l. revert s.
  induction l; intros s; simpl; auto.
Qed.

Lemma keys1_If : forall s c p q,
  keys1 s (If c p q) = keys s (if holds E s c then p else q).
Proof.
  intros. simpl. generalize (if holds E s c then p else q). intros l. revert s.
  induction l as [|c0 l IH]; intros s; simpl; auto.
Qed.

Lemma exec_straight : forall l s, straight l = true ->
  exec E s l = if forallb (present E) (keys s l) then Go (dens s l) else Null.
Proof.
  apply (stmts_ind2
    (fun c => forall s, straight1 c = true ->
       exec1 E s c = if forallb (present E) (keys1 s c) then Go (den1 s c) else Null)
    (fun l => forall s, straight l = true ->
       exec E s l = if forallb (present E) (keys s l) then Go (dens s l) else Null)).
  - reflexivity.
  - reflexivity.
  - intros c p q IHp IHq s H. rewrite exec1_If, keys1_If, den1_If.
    change (straight1 (If c p q)) with (straight p && straight q) in H.
    apply andb_true_iff in H. destruct (holds E s c); [apply IHp|apply IHq]; tauto.
  - discriminate.
  - discriminate.
  - reflexivity.
  - intros c l IHc IHl s H. simpl in H. apply andb_true_iff in H. destruct H as [Hc Hl].
    simpl. rewrite IHc by exact Hc. rewrite forallb_app.
    destruct (forallb (present E) (keys1 s c)); simpl; [apply IHl; exact Hl|reflexivity].
Qed.

Lemma keys_app : forall l1 l2 s, keys s (l1 ++ l2) = keys s l1 ++ keys (dens s l1) l2.
Proof.
  induction l1 as [|c l1 IH]; intros; simpl; [reflexivity|].
  rewrite IH, app_assoc. reflexivity.
Qed.

Lemma dens_app : forall l1 l2 s, dens s (l1 ++ l2) = dens (dens s l1) l2.
Proof. induction l1 as [|c l1 IH]; intros; simpl; auto. Qed.
End Den.

(** ** Code that only adds to the result *)
Section Mentions.
Variable bad : var -> bool.
Variable badf : spline -> bool.
(** Specification or proof only; nothing in the code. *)
Fixpoint clean_e (e : expr) : bool :=
  match e with
  | V v => negb (bad v)
  | Num _ | Dec _ _ | Par_h | Omega0_cdm | Omega0_baryon | H0 | Pi => true
  | Plus a b | Minus a b | Times a b | Over a b => clean_e a && clean_e b
  | Neg a | Pow a _ | Sqrt a | Fabs a | Leg _ a => clean_e a
  | Spl f a => negb (badf f) && clean_e a
  | Tab1 _ _ a => clean_e a
  | Tab2 _ _ a b => clean_e a && clean_e b
  end.
Fixpoint clean_c (c : cond) : bool :=
  match c with
  | Con _ | Flag _ | Finite => true
  | Not c => clean_c c
  | And c d | Or c d => clean_c c && clean_c d
  | Lt a b | Eq a b => clean_e a && clean_e b
  end.
(** Only [result += e] and conditionals, mentioning nothing bad.
    Specification or proof only; nothing in the code. *)
Fixpoint adds1 (c : stmt) : bool :=
  match c with
  | AddTo e => clean_e e
  | If c p q => clean_c c && forallb adds1 p && forallb adds1 q
  | _ => false
  end.
End Mentions.
Definition adds (bad : var -> bool) (badf : spline -> bool) (l : list stmt) : bool :=
  forallb (adds1 bad badf) l.

Section Incr.
Variable E : env.
Fixpoint incr1 (s : store) (c : stmt) : R :=
  match c with
  | AddTo e => eval E s e
  | If c p q =>
      (fix go (l : list stmt) : R :=
         match l with [] => 0 | c :: l => incr1 s c + go l end)
        (if holds E s c then p else q)
  | _ => 0
  end.
Fixpoint incr (s : store) (l : list stmt) : R :=
  match l with [] => 0 | c :: l => incr1 s c + incr s l end.

Lemma incr1_If : forall s c p q,
  incr1 s (If c p q) = incr s (if holds E s c then p else q).
Proof.
  intros. simpl. generalize (if holds E s c then p else q). intros l.
  induction l; simpl; auto. f_equal. assumption.
Qed.

Lemma incr_app : forall s l1 l2, incr s (l1 ++ l2) = incr s l1 + incr s l2.
Proof. induction l1 as [|c l1 IH]; intros; simpl; [ring|]. rewrite IH. ring. Qed.

Lemma incr_concat : forall s ls, incr s (concat ls) = fold_right Rplus 0 (map (incr s) ls).
Proof. induction ls; simpl; auto. rewrite incr_app, IHls. reflexivity. Qed.
End Incr.

(** Two runs that agree on everything not bad.  Specification or proof only; nothing in the code. *)
Record agree (bad : var -> bool) (badf : spline -> bool) (E E' : env) (s s' : store) : Prop := {
  ag_s : forall v, bad v = false -> s v = s' v;
  ag_f : forall f, badf f = false -> forall z, spl E f z = spl E' f z;
  ag_con : forall c, con E c = con E' c;
  ag_sw : forall f, sw E f = sw E' f;
  ag_t1 : forall k t z, tab1 E k t z = tab1 E' k t z;
  ag_t2 : forall k t y z, tab2 E k t y z = tab2 E' k t y z;
  ag_h : par_h E = par_h E';
  ag_cdm : omega_cdm E = omega_cdm E';
  ag_b : omega_baryon E = omega_baryon E' }.

Lemma eval_agree : forall bad badf E E' s s', agree bad badf E E' s s' ->
  forall e, clean_e bad badf e = true -> eval E s e = eval E' s' e.
Proof.
  intros bad badf E E' s s' A.
  induction e; simpl; intros C; try reflexivity;
    repeat match goal with H : _ && _ = true |- _ => apply andb_true_iff in H; destruct H end.
  - apply A. apply negb_true_iff. exact C.
  - apply A.
  - apply A.
  - apply A.
  - rewrite IHe1, IHe2 by assumption. reflexivity.
  - rewrite IHe1, IHe2 by assumption. reflexivity.
  - rewrite IHe1, IHe2 by assumption. reflexivity.
  - rewrite IHe1, IHe2 by assumption. reflexivity.
  - rewrite IHe by assumption. reflexivity.
  - rewrite IHe by assumption. reflexivity.
  - rewrite IHe by assumption. reflexivity.
  - rewrite IHe by assumption. reflexivity.
  - rewrite IHe by assumption. reflexivity.
  - rewrite IHe by assumption. apply A. apply negb_true_iff. assumption.
  - rewrite IHe by assumption. apply A.
  - rewrite IHe1, IHe2 by assumption. apply A.
Qed.

Lemma holds_agree : forall bad badf E E' s s', agree bad badf E E' s s' ->
  forall c, clean_c bad badf c = true -> holds E s c = holds E' s' c.
Proof.
  intros bad badf E E' s s' A.
  induction c; simpl; intros C;
    repeat match goal with H : _ && _ = true |- _ => apply andb_true_iff in H; destruct H end;
    try (rewrite IHc1, IHc2 by assumption); try (rewrite IHc by assumption); try reflexivity.
  - apply A.
  - apply A.
  - rewrite !(eval_agree _ _ _ _ _ _ A) by assumption. reflexivity.
  - rewrite !(eval_agree _ _ _ _ _ _ A) by assumption. reflexivity.
Qed.

Lemma incr_agree : forall bad badf E E' s s', agree bad badf E E' s s' ->
  forall l, adds bad badf l = true ->
  incr E s l = incr E' s' l.
Proof.
  intros bad badf E E' s s' A.
  apply (stmts_ind2
    (fun c => adds1 bad badf c = true -> incr1 E s c = incr1 E' s' c)
    (fun l => adds bad badf l = true -> incr E s l = incr E' s' l)).
  - discriminate.
  - intros e H. apply (eval_agree _ _ _ _ _ _ A). exact H.
  - intros c p q IHp IHq H. rewrite !incr1_If.
    change (adds1 bad badf (If c p q)) with
      (clean_c bad badf c && adds bad badf p && adds bad badf q) in H.
    rewrite !andb_true_iff in H. destruct H as [[Hc Hp] Hq].
    rewrite (holds_agree _ _ _ _ _ _ A _ Hc). destruct (holds E' s' c); auto.
  - discriminate.
  - discriminate.
  - reflexivity.
  - intros c l IHc IHl H. simpl in H. apply andb_true_iff in H. destruct H.
    simpl. rewrite IHc, IHl by assumption. reflexivity.
Qed.

Definition is_res (v : var) : bool := match v with res => true | _ => false end.
Definition no_spline (f : spline) : bool := false.

Lemma upd_same : forall s v r, upd s v r v = r.
Proof. intros. unfold upd. rewrite internal_var_dec_lb by reflexivity. reflexivity. Qed.

Lemma upd_other : forall s v w r, w <> v -> upd s v r w = s w.
Proof.
  intros. unfold upd. destruct (var_beq w v) eqn:E; [|reflexivity].
  apply internal_var_dec_bl in E. contradiction.
Qed.

Lemma upd_upd : forall s v r r', upd (upd s v r) v r' = upd s v r'.
Proof.
  intros. apply functional_extensionality. intros w. unfold upd.
  destruct (var_beq w v); reflexivity.
Qed.

Lemma upd_id : forall s v, upd s v (s v) = s.
Proof.
  intros. apply functional_extensionality. intros w. unfold upd.
  destruct (var_beq w v) eqn:E; [|reflexivity].
  apply internal_var_dec_bl in E. subst. reflexivity.
Qed.

Lemma agree_res : forall E s r, agree is_res no_spline E E s (upd s res r).
Proof.
  intros. constructor; try reflexivity. intros v H. symmetry. apply upd_other.
  intros ->. discriminate.
Qed.

(** Code that only adds: the store changes at [res] only, by [incr]. *)
Lemma dens_adds : forall E l s, adds is_res no_spline l = true ->
  dens E s l = upd s res (s res + incr E s l).
Proof.
  intros E.
  apply (stmts_ind2
    (fun c => forall s, adds1 is_res no_spline c = true ->
       den1 E s c = upd s res (s res + incr1 E s c))
    (fun l => forall s, adds is_res no_spline l = true ->
       dens E s l = upd s res (s res + incr E s l))).
  - discriminate.
  - reflexivity.
  - intros c p q IHp IHq s H. rewrite den1_If, incr1_If.
    change (adds1 is_res no_spline (If c p q)) with
      (clean_c is_res no_spline c && adds is_res no_spline p && adds is_res no_spline q) in H.
    rewrite !andb_true_iff in H. destruct H as [[Hc Hp] Hq].
    destruct (holds E s c); auto.
  - discriminate.
  - discriminate.
  - intros s _. simpl. rewrite Rplus_0_r. symmetry. apply upd_id.
  - intros c l IHc IHl s H. simpl in H. apply andb_true_iff in H. destruct H as [Hc Hl].
    simpl. rewrite IHc by exact Hc. rewrite IHl by exact Hl.
    rewrite <- (incr_agree _ _ _ _ _ _ (agree_res E s (s res + incr1 E s c))) by exact Hl.
    rewrite upd_upd, upd_same. f_equal. ring.
Qed.

Lemma adds_straight : forall l, adds is_res no_spline l = true -> straight l = true.
Proof.
  apply (stmts_ind2
    (fun c => adds1 is_res no_spline c = true -> straight1 c = true)
    (fun l => adds is_res no_spline l = true -> straight l = true)).
  - reflexivity.
  - reflexivity.
  - intros c p q IHp IHq H.
    change (adds1 is_res no_spline (If c p q)) with
      (clean_c is_res no_spline c && adds is_res no_spline p && adds is_res no_spline q) in H.
    rewrite !andb_true_iff in H. destruct H as [[Hc Hp] Hq].
    change (straight1 (If c p q)) with (straight p && straight q).
    rewrite IHp, IHq by assumption. reflexivity.
  - discriminate.
  - discriminate.
  - reflexivity.
  - intros c l IHc IHl H. simpl in H. apply andb_true_iff in H. destruct H.
    simpl. rewrite IHc by assumption. apply IHl. assumption.
Qed.

(** Keys looked up by code that only adds depend on the store outside [res]. *)
Lemma keys_agree : forall E s s', agree is_res no_spline E E s s' ->
  forall l, adds is_res no_spline l = true -> keys E s l = keys E s' l.
Proof.
  intros E s s' A l. revert s s' A.
  apply (stmts_ind2
    (fun c => forall s s', agree is_res no_spline E E s s' ->
       adds1 is_res no_spline c = true -> keys1 E s c = keys1 E s' c)
    (fun l => forall s s', agree is_res no_spline E E s s' ->
       adds is_res no_spline l = true -> keys E s l = keys E s' l)).
  - reflexivity.
  - reflexivity.
  - intros c p q IHp IHq s s' A H. rewrite !keys1_If.
    change (adds1 is_res no_spline (If c p q)) with
      (clean_c is_res no_spline c && adds is_res no_spline p && adds is_res no_spline q) in H.
    rewrite !andb_true_iff in H. destruct H as [[Hc Hp] Hq].
    rewrite (holds_agree _ _ _ _ _ _ A _ Hc). destruct (holds E s' c); auto.
  - discriminate.
  - discriminate.
  - reflexivity.
  - intros c l0 IHc IHl s s' A H. simpl in H. apply andb_true_iff in H. destruct H as [Hc Hl].
    simpl. rewrite (IHc _ _ A Hc). f_equal. apply IHl; [|exact Hl].
    assert (D : forall s, den1 E s c = upd s res (s res + incr1 E s c)).
    { intros s0. pose proof (dens_adds E [c] s0) as D. simpl in D.
      rewrite D by (rewrite Hc; reflexivity). f_equal. ring. }
    rewrite !D. constructor; try reflexivity. intros v Hv.
    rewrite !upd_other by (intros ->; discriminate). apply A. exact Hv.
Qed.

(** ** The three functions *)
(** Specification or proof only; nothing in the code. *)
Definition good (l : list (contrib * contrib * list stmt)) : bool :=
  forallb (fun b => adds is_res no_spline (snd b)) l.

Lemma adds_concat : forall bs, good bs = true ->
  adds is_res no_spline (concat (map snd bs)) = true.
Proof.
  induction bs as [|b bs IH]; simpl; intros H; [reflexivity|].
  apply andb_true_iff in H. destruct H as [H1 H2].
  unfold adds. rewrite forallb_app. apply andb_true_iff. split; [exact H1|apply IH, H2].
Qed.

Definition total (E : env) (s : store) (bs : list (contrib * contrib * list stmt)) : R :=
  fold_right Rplus 0 (map (fun b => incr E s (snd b)) bs).

(** A function with prelude [p], pair blocks [bs] and final part [f]: it uses a
    null pointer exactly when an integral it looks up is missing; otherwise its
    final part runs with the sum of the increments in [res]. *)
Lemma exec_function : forall E s p bs f,
  straight p = true -> good bs = true -> dens E s p res = 0 ->
  let s0 := dens E s p in
  exec E s (p ++ concat (map snd bs) ++ f) =
  if forallb (present E) (keys E s p ++ concat (map (fun b => keys E s0 (snd b)) bs))
  then exec E (upd s0 res (total E s0 bs)) f
  else Null.
Proof.
  intros E s p bs f Hp Hb H0 s0.
  rewrite exec_app, (exec_straight E p s Hp). fold s0.
  rewrite forallb_app. destruct (forallb (present E) (keys E s p)); simpl; [|reflexivity].
  rewrite exec_app.
  pose proof (adds_concat bs Hb) as Ha.
  rewrite (exec_straight E _ s0 (adds_straight _ Ha)).
  rewrite (dens_adds E _ s0 Ha). fold s0 in H0. rewrite H0.
  replace (0 + incr E s0 (concat (map snd bs))) with (total E s0 bs).
  2:{ rewrite incr_concat, map_map. unfold total. ring. }
  assert (HK : forall s1, agree is_res no_spline E E s0 s1 ->
      keys E s1 (concat (map snd bs)) = concat (map (fun b => keys E s0 (snd b)) bs)).
  { clear Ha. revert Hb. induction bs as [|b bs IH]; simpl; intros Hb s1 A; [reflexivity|].
    apply andb_true_iff in Hb. destruct Hb as [Hb1 Hb2].
    rewrite keys_app. rewrite <- (keys_agree E s0 s1 A) by exact Hb1. f_equal.
    apply IH; [exact Hb2|]. rewrite (dens_adds E _ s1 Hb1).
    constructor; try reflexivity. intros v Hv.
    rewrite upd_other by (intros ->; discriminate). apply A. exact Hv. }
  rewrite HK by (constructor; reflexivity).
  destruct (forallb _ _); reflexivity.
Qed.
