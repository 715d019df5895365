(** * C arrays and counting loops.

    An array of [n] elements is a list of length [n]; an element is [None] until
    it has been written.  Reading or writing outside the array, and reading an
    element never written, is undefined behaviour: the operation yields [None]. *)
From Coq Require Import ZArith Arith Bool List Lia Permutation.
Import ListNotations.

Section Arrays.
Context {A : Type}.

(** malloc of [n] elements: no element has a value.
    C semantics: malloc in coffe_malloc, common.c:69-80 (here it never fails). *)
Definition fresh (n : nat) : list (option A) := repeat None n.

(** [a[i]] as a value.  C semantics, for arrays such as those of common.c:1181-1203. *)
Definition rd (a : list (option A)) (i : nat) : option A :=
  match nth_error a i with Some (Some x) => Some x | _ => None end.

(** [a[i] = x].  C semantics, for arrays such as those of common.c:1181-1203. *)
Fixpoint wr {B : Type} (a : list B) (i : nat) (x : B) : option (list B) :=
  match a, i with
  | [], _ => None
  | _ :: r, O => Some (x :: r)
  | y :: r, S j => match wr r j x with Some r' => Some (y :: r') | None => None end
  end.
End Arrays.

(** [for (i = 0; i < n; ++i) st = body(i, st);]  C semantics, for arrays such as those of common.c:1181-1203. *)
Fixpoint for_from {S : Type} (i n : nat) (body : nat -> S -> option S) (st : S) : option S :=
  match n with
  | O => Some st
  | S m => match body i st with Some st' => for_from (Datatypes.S i) m body st' | None => None end
  end.
Definition for_ {S : Type} (n : nat) (body : nat -> S -> option S) (st : S) : option S :=
  for_from 0 n body st.

Section Facts.
Context {A : Type}.

Lemma wr_length : forall (a : list A) i x a', wr a i x = Some a' -> length a' = length a.
Proof.
  induction a as [|y r IH]; intros [|i] x a' H; simpl in H; try discriminate.
  - injection H as <-. reflexivity.
  - destruct (wr r i x) as [r'|] eqn:E; [|discriminate]. injection H as <-. simpl. f_equal. eauto.
Qed.
Lemma wr_some : forall (a : list A) i x, i < length a -> exists a', wr a i x = Some a'.
Proof.
  induction a as [|y r IH]; intros [|i] x H; simpl in *; try lia; eauto.
  destruct (IH i x ltac:(lia)) as [r' E]. rewrite E. eauto.
Qed.
Lemma wr_none : forall (a : list A) i x, length a <= i -> wr a i x = None.
Proof.
  induction a as [|y r IH]; intros [|i] x H; simpl in *; try lia; auto. rewrite IH by lia. reflexivity.
Qed.
Lemma wr_same : forall (a : list A) i x a', wr a i x = Some a' -> nth_error a' i = Some x.
Proof.
  induction a as [|y r IH]; intros [|i] x a' H; simpl in H; try discriminate.
  - injection H as <-. reflexivity.
  - destruct (wr r i x) as [r'|] eqn:E; [|discriminate]. injection H as <-. simpl. eauto.
Qed.
Lemma wr_other : forall (a : list A) i x a' j, wr a i x = Some a' -> j <> i ->
  nth_error a' j = nth_error a j.
Proof.
  induction a as [|y r IH]; intros [|i] x a' [|j] H N; simpl in H; try discriminate; try congruence.
  - injection H as <-. reflexivity.
  - destruct (wr r i x) as [r'|] eqn:E; [|discriminate]. injection H as <-. reflexivity.
  - destruct (wr r i x) as [r'|] eqn:E; [|discriminate]. injection H as <-. simpl. eauto.
Qed.
Lemma nth_error_ext : forall (a b : list A), length a = length b ->
  (forall i, i < length a -> nth_error a i = nth_error b i) -> a = b.
Proof.
  induction a as [|x r IH]; intros [|y t] L H; simpl in L; try discriminate; [reflexivity|].
  f_equal.
  - pose proof (H 0 ltac:(simpl; lia)) as E. simpl in E. congruence.
  - apply IH; [lia|]. intros i Hi. exact (H (S i) ltac:(simpl; lia)).
Qed.
Lemma rd_length : forall (a : list (option A)) i x, rd a i = Some x -> i < length a.
Proof.
  intros a i x H. unfold rd in H. destruct (nth_error a i) eqn:E; [|discriminate].
  apply nth_error_Some. congruence.
Qed.
End Facts.

Lemma nth_error_seq : forall k j i, j < k -> nth_error (seq i k) j = Some (i + j).
Proof.
  induction k as [|k IH]; intros [|j] i H; simpl; try lia.
  - f_equal. lia.
  - rewrite IH by lia. f_equal. lia.
Qed.

Lemma for_from_app : forall S n m i (body : nat -> S -> option S) st,
  for_from i (n + m) body st =
  match for_from i n body st with Some st' => for_from (i + n) m body st' | None => None end.
Proof.
  induction n as [|n IH]; intros m i body st; simpl.
  - rewrite Nat.add_0_r. reflexivity.
  - destruct (body i st) as [st'|]; [|reflexivity]. rewrite IH. rewrite Nat.add_succ_r. reflexivity.
Qed.

(** Loop invariant rule. *)
Lemma for_from_inv : forall S (P : nat -> S -> Prop) n i (body : nat -> S -> option S) st,
  P i st ->
  (forall j s, i <= j < i + n -> P j s -> exists s', body j s = Some s' /\ P (Datatypes.S j) s') ->
  exists st', for_from i n body st = Some st' /\ P (i + n) st'.
Proof.
  induction n as [|n IH]; intros i body st H0 HS; simpl.
  - exists st. rewrite Nat.add_0_r. auto.
  - destruct (HS i st ltac:(lia) H0) as (s' & E & H1). rewrite E.
    destruct (IH (Datatypes.S i) body s' H1) as (st' & E' & H2).
    + intros j s Hj. apply HS. lia.
    + exists st'. split; [exact E'|]. rewrite Nat.add_succ_r. exact H2.
Qed.
Lemma for_inv : forall S (P : nat -> S -> Prop) n (body : nat -> S -> option S) st,
  P 0 st ->
  (forall j s, j < n -> P j s -> exists s', body j s = Some s' /\ P (Datatypes.S j) s') ->
  exists st', for_ n body st = Some st' /\ P n st'.
Proof.
  intros S P n body st H0 HS.
  destruct (for_from_inv S P n 0 body st H0) as (st' & E & H).
  - intros j s Hj. apply HS. lia.
  - exists st'. split; assumption.
Qed.
