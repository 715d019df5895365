(** * What the three functions of src/functions.c return

    Each call either uses a null pointer or returns the sum of the increments of
    its pair blocks times a common factor; each block is guarded by its pair of
    contributions and by nothing else that mentions contributions. *)
From Coq Require Import Reals ZArith Bool List Lia Lra FunctionalExtensionality.
Import ListNotations.
From Verif Require Import Integrals CExpr Terms Signal TermsMeta.
Open Scope R_scope.
#[local] Arguments upd : simpl never.

Scheme Equality for contrib.

(** ** Preludes *)
(** Specification or proof only; nothing in the code. *)
Fixpoint keeps1 (v : var) (c : stmt) : bool :=
  match c with
  | Set_ w _ => negb (var_beq v w)
  | AddTo _ => negb (var_beq v res)
  | If _ p q => forallb (keeps1 v) p && forallb (keeps1 v) q
  | Return _ | Exit => true
  end.
Definition keepsv (v : var) (l : list stmt) : bool := forallb (keeps1 v) l.

Lemma dens_keeps : forall v E l s, keepsv v l = true -> dens E s l v = s v.
Proof.
  intros v E.
  apply (stmts_ind2
    (fun c => forall s, keeps1 v c = true -> den1 E s c v = s v)
    (fun l => forall s, keepsv v l = true -> dens E s l v = s v)).
  - intros w e s H. simpl in *. apply upd_other. intros ->.
    rewrite internal_var_dec_lb in H by reflexivity. discriminate.
  - intros e s H. simpl in *. apply upd_other. intros ->. discriminate.
  - intros c p q IHp IHq s H. rewrite den1_If.
    change (keeps1 v (If c p q)) with (keepsv v p && keepsv v q) in H.
    apply andb_true_iff in H. destruct (holds E s c); [apply IHp|apply IHq]; tauto.
  - reflexivity.
  - reflexivity.
  - reflexivity.
  - intros c l IHc IHl s H. simpl in H. apply andb_true_iff in H. destruct H.
    simpl. rewrite IHl by assumption. apply IHc. assumption.
Qed.

Lemma ni_res0 : forall E s, dens E s ni_prelude res = 0.
Proof.
  intros. change ni_prelude with (firstn 5 ni_prelude ++ skipn 5 ni_prelude).
  rewrite dens_app, dens_keeps by reflexivity. reflexivity.
Qed.
Lemma si_res0 : forall E s, dens E s si_prelude res = 0.
Proof.
  intros. change si_prelude with (firstn 1 si_prelude ++ skipn 1 si_prelude).
  rewrite dens_app, dens_keeps by reflexivity. reflexivity.
Qed.
Lemma di_res0 : forall E s, dens E s di_prelude res = 0.
Proof.
  intros. change di_prelude with (firstn 1 di_prelude ++ skipn 1 di_prelude).
  rewrite dens_app, dens_keeps by reflexivity. reflexivity.
Qed.

(** ** Final parts *)

(** The growth factor of functions.c:1429-1471. *)
Definition ni_factor (E : env) (s : store) : R :=
  if sw E pk_nonlinear && sw E midpoint then 1
  else if sw E b_derivative || sw E f_derivative then spl E bg_D1 (s z_mean) ^ 2
  else if sw E b_tilde_derivative || sw E f_tilde_derivative then spl E bg_D1 (s z_mean) ^ 1
  else if sw E flatsky_local then spl E bg_D1 (s z_mean) ^ 2
  else spl E bg_D1 (s z1) * spl E bg_D1 (s z2).

Lemma ni_final_spec : forall E s r, exec E (upd s res r) ni_final = Ret (r * ni_factor E s).
Proof.
  intros. unfold ni_final, ni_factor. cbn [exec]. rewrite exec1_If. cbn [holds].
  cbn [exec]. rewrite exec1_If. cbn [holds].
  destruct (sw E pk_nonlinear && sw E midpoint).
  { cbn. rewrite upd_same, Rmult_1_r. reflexivity. }
  cbn [exec]. rewrite exec1_If. cbn [holds].
  destruct (sw E b_derivative || sw E f_derivative).
  { cbn. rewrite upd_same, upd_other by discriminate. f_equal. }
  cbn [exec]. rewrite exec1_If. cbn [holds].
  destruct (sw E b_tilde_derivative || sw E f_tilde_derivative).
  { cbn. rewrite upd_same, upd_other by discriminate. reflexivity. }
  cbn [exec]. rewrite exec1_If. cbn [holds].
  destruct (sw E flatsky_local); cbn; rewrite upd_same, !upd_other by discriminate.
  - reflexivity.
  - rewrite Rmult_assoc. reflexivity.
Qed.

Lemma si_final_spec : forall E s r, exec E (upd s res r) si_final = Ret r.
Proof. intros. cbn. rewrite upd_same. reflexivity. Qed.

Lemma di_final_spec : forall E s r,
  exec E (upd s res r) di_final = Ret (r * (coffe_H0 * par_h E) ^ 4).
Proof. intros. cbn. rewrite upd_same. reflexivity. Qed.

(** ** The functions *)
(** Specification or proof only; nothing in the code. *)
Definition all_keys (E : env) (s : store) (p : list stmt)
    (bs : list (contrib * contrib * list stmt)) : list key :=
  keys E s p ++ concat (map (fun b => keys E (dens E s p) (snd b)) bs).

Lemma nonintegrated_spec : forall E zm m s,
  let s0 := dens E (args zm m s) ni_prelude in
  nonintegrated E zm m s =
  if forallb (present E) (all_keys E (args zm m s) ni_prelude ni_blocks)
  then Ret (total E s0 ni_blocks * ni_factor E s0) else Null.
Proof.
  intros. unfold nonintegrated, ni_code, all_keys.
  rewrite exec_function by (reflexivity || apply ni_res0).
  fold s0. destruct (forallb _ _); [apply ni_final_spec|reflexivity].
Qed.

Lemma single_integrated_spec : forall E zm m s x,
  let a := upd (args zm m s) x_ x in
  let s0 := dens E a si_prelude in
  single_integrated E zm m s x =
  if forallb (present E) (all_keys E a si_prelude si_blocks)
  then Ret (total E s0 si_blocks) else Null.
Proof.
  intros. unfold single_integrated, si_code, all_keys. fold a.
  rewrite exec_function by (reflexivity || apply si_res0).
  fold s0. destruct (forallb _ _); [apply si_final_spec|reflexivity].
Qed.

Lemma double_integrated_spec : forall E zm m s x1 x2,
  let a := upd (upd (args zm m s) x_1 x1) x_2 x2 in
  let s0 := dens E a di_prelude in
  double_integrated E zm m s x1 x2 =
  if forallb (present E) (all_keys E a di_prelude di_blocks)
  then Ret (total E s0 di_blocks * (coffe_H0 * par_h E) ^ 4) else Null.
Proof.
  intros. unfold double_integrated, di_code, all_keys. fold a.
  rewrite exec_function by (reflexivity || apply di_res0).
  fold s0. destruct (forallb _ _); [apply di_final_spec|reflexivity].
Qed.

(** ** Guards *)

(** A condition that reads no contribution and not [only_cross].
    Specification or proof only; nothing in the code. *)
Fixpoint free_c (c : cond) : bool :=
  match c with
  | Con _ => false
  | Flag only_cross => false
  | Flag _ | Finite | Lt _ _ | Eq _ _ => true
  | Not c => free_c c
  | And c d | Or c d => free_c c && free_c d
  end.
Fixpoint free1 (c : stmt) : bool :=
  match c with
  | If c p q => free_c c && forallb free1 p && forallb free1 q
  | _ => true
  end.
Definition free (l : list stmt) : bool := forallb free1 l.

(** The block of a pair is one conditional on that pair.  Specification or proof only; nothing in the code. *)
Definition guarded (b : contrib * contrib * list stmt) : bool :=
  match b with
  | (a, b, [If (And (Con a') (Con b')) body []]) =>
      contrib_beq a a' && contrib_beq b b' && negb (contrib_beq a b) && free body
  | (a, b, [If (And (Con a') (Not (Flag only_cross))) body []]) =>
      contrib_beq a a' && contrib_beq a b && free body
  | _ => false
  end.

Definition body (l : list stmt) : list stmt :=
  match l with [If _ b _] => b | _ => [] end.

(** The guard of pair (a, b) for a set of contributions.  Specification or proof only; nothing in the code. *)
Definition guard (S : contrib -> bool) (cross : bool) (a b : contrib) : bool :=
  if contrib_beq a b then S a && negb cross else S a && S b.

Lemma ni_guarded : forallb guarded ni_blocks = true.
Proof. reflexivity. Qed.
Lemma si_guarded : forallb guarded si_blocks = true.
Proof. reflexivity. Qed.
Lemma di_guarded : forallb guarded di_blocks = true.
Proof. reflexivity. Qed.

Lemma incr_guarded : forall E s a b l, guarded (a, b, l) = true ->
  incr E s l = if guard (con E) (sw E only_cross) a b then incr E s (body l) else 0.
Proof.
  intros E s a b l H. unfold guarded in H.
  repeat match type of H with
  | match ?x with _ => _ end = true => destruct x; try discriminate
  end; cbn [incr body]; rewrite incr1_If; cbn [holds];
  repeat rewrite andb_true_iff in H.
  - destruct H as [[[H1 H2] H3] _]. apply negb_true_iff in H3.
    apply internal_contrib_dec_bl in H1, H2. subst. unfold guard. rewrite H3.
    match goal with |- context [con E ?p && con E ?q] => destruct (con E p && con E q) end; simpl; ring.
  - destruct H as [[H1 H2] _].
    apply internal_contrib_dec_bl in H1, H2. subst. unfold guard.
    rewrite internal_contrib_dec_lb by reflexivity.
    match goal with |- context [con E ?p && negb ?q] => destruct (con E p && negb q) end; simpl; ring.
Qed.

(** Environments that differ only in contributions and [only_cross].
    Specification or proof only; nothing in the code. *)
Definition with_set (E : env) (S : contrib -> bool) (cross : bool) : env :=
  mkEnv S (fun f => match f with only_cross => cross | _ => sw E f end)
        (spl E) (tab1 E) (tab2 E) (present E) (par_h E) (omega_cdm E) (omega_baryon E).

Lemma eval_with_set : forall E S c s e, eval (with_set E S c) s e = eval E s e.
Proof.
  induction e; simpl; try reflexivity;
    try (rewrite IHe1, IHe2; reflexivity); rewrite IHe; reflexivity.
Qed.

Lemma holds_with_set : forall E S x s c, free_c c = true ->
  holds (with_set E S x) s c = holds E s c.
Proof.
  induction c; simpl; intros H; try discriminate; try reflexivity;
    try (apply andb_true_iff in H; destruct H; rewrite IHc1, IHc2 by assumption; reflexivity).
  - destruct f; try reflexivity. discriminate.
  - rewrite IHc by assumption. reflexivity.
  - rewrite !eval_with_set. reflexivity.
  - rewrite !eval_with_set. reflexivity.
Qed.

Lemma dens_with_set : forall E S x l s, free l = true ->
  dens (with_set E S x) s l = dens E s l.
Proof.
  intros E S x.
  apply (stmts_ind2
    (fun c => forall s, free1 c = true -> den1 (with_set E S x) s c = den1 E s c)
    (fun l => forall s, free l = true -> dens (with_set E S x) s l = dens E s l)).
  - intros v e s _. simpl. rewrite eval_with_set. reflexivity.
  - intros e s _. simpl. rewrite eval_with_set. reflexivity.
  - intros c p q IHp IHq s H. rewrite !den1_If.
    change (free1 (If c p q)) with (free_c c && free p && free q) in H.
    rewrite !andb_true_iff in H. destruct H as [[Hc Hp] Hq].
    rewrite holds_with_set by exact Hc. destruct (holds E s c); auto.
  - reflexivity.
  - reflexivity.
  - reflexivity.
  - intros c l IHc IHl s H. simpl in H. apply andb_true_iff in H. destruct H.
    simpl. rewrite IHc by assumption. apply IHl. assumption.
Qed.

Lemma incr_with_set : forall E S x s l, free l = true ->
  incr (with_set E S x) s l = incr E s l.
Proof.
  intros E S x s.
  apply (stmts_ind2
    (fun c => free1 c = true -> incr1 (with_set E S x) s c = incr1 E s c)
    (fun l => free l = true -> incr (with_set E S x) s l = incr E s l)).
  - reflexivity.
  - intros e _. simpl. apply eval_with_set.
  - intros c p q IHp IHq H. rewrite !incr1_If.
    change (free1 (If c p q)) with (free_c c && free p && free q) in H.
    rewrite !andb_true_iff in H. destruct H as [[Hc Hp] Hq].
    rewrite holds_with_set by exact Hc. destruct (holds E s c); auto.
  - reflexivity.
  - reflexivity.
  - reflexivity.
  - intros c l IHc IHl H. simpl in H. apply andb_true_iff in H. destruct H.
    simpl. rewrite IHc, IHl by assumption. reflexivity.
Qed.

Lemma free_body : forall a b l, guarded (a, b, l) = true -> free (body l) = true.
Proof.
  intros a b l H. unfold guarded in H.
  repeat match type of H with
  | match ?x with _ => _ end = true => destruct x; try discriminate
  end; cbn [body]; rewrite !andb_true_iff in H; tauto.
Qed.

(** The increment of all blocks for a set of contributions. *)
Lemma total_with_set : forall E S x s bs, forallb guarded bs = true ->
  total (with_set E S x) s bs =
  fold_right Rplus 0
    (map (fun b => let '(p, q, l) := b in
            if guard S x p q then incr E s (body l) else 0) bs).
Proof.
  intros E S x s bs. unfold total.
  induction bs as [|[[p q] l] bs IH]; intros H; [reflexivity|].
  cbn [forallb] in H. apply andb_true_iff in H. destruct H as [H1 H2].
  cbn [map fold_right snd]. rewrite IH by exact H2. f_equal.
  rewrite (incr_guarded _ _ _ _ _ H1).
  cbn [with_set con sw]. destruct (guard S x p q); [|reflexivity].
  apply incr_with_set. exact (free_body _ _ _ H1).
Qed.

Lemma ni_free : free ni_prelude = true. Proof. reflexivity. Qed.
Lemma si_free : free si_prelude = true. Proof. reflexivity. Qed.
Lemma di_free : free di_prelude = true. Proof. reflexivity. Qed.
