(** * Threads sharing memory, and OpenMP parallel loops.

    A thread is a deterministic program over shared memory and its own local
    state; one step is one access to shared memory.  A schedule is any list of
    thread numbers; at each position the named thread takes one step (a thread
    that has finished, or does not exist, does nothing). *)
From Coq Require Import ZArith Arith Bool List Lia Permutation.
From Verif Require Import Arrays.
Import ListNotations.

Section Threads.
Context {Mem Loc : Type}.

(** OpenMP threads of corrfunc.c:93-131 and the like. *)
Inductive tres := Done | Fault | Next (l : Loc) (m : Mem).
Variable tstep : Loc -> Mem -> tres.

Definition config := (list Loc * Mem)%type.

(** Thread [t] takes one step; [None] is undefined behaviour.  OpenMP threads of corrfunc.c:93-131 and the like. *)
Definition cstep (t : nat) (c : config) : option config :=
  match nth_error (fst c) t with
  | None => Some c
  | Some l => match tstep l (snd c) with
              | Done => Some c
              | Fault => None
              | Next l' m' => match wr (fst c) t l' with Some ls => Some (ls, m') | None => None end
              end
  end.

Fixpoint exec (sched : list nat) (c : config) : option config :=
  match sched with
  | [] => Some c
  | t :: r => match cstep t c with Some c' => exec r c' | None => None end
  end.

Definition finished (c : config) : Prop := Forall (fun l => tstep l (snd c) = Done) (fst c).

Lemma exec_app : forall s1 s2 c,
  exec (s1 ++ s2) c = match exec s1 c with Some c' => exec s2 c' | None => None end.
Proof.
  induction s1 as [|t r IH]; intros s2 c; simpl; [reflexivity|].
  destruct (cstep t c); [apply IH|reflexivity].
Qed.

Lemma exec_inv : forall (P : config -> Prop),
  (forall t c, P c -> exists c', cstep t c = Some c' /\ P c') ->
  forall s c, P c -> exists c', exec s c = Some c' /\ P c'.
Proof.
  intros P HP. induction s as [|t r IH]; intros c H; simpl; [eauto|].
  destruct (HP t c H) as (c' & -> & H'). eauto.
Qed.
End Threads.
Arguments tres : clear implicits.
Arguments Done {Mem Loc}.
Arguments Fault {Mem Loc}.
Arguments Next {Mem Loc}.

(** ** [#pragma omp parallel for] over an array of result records *)
Section ParFor.
Context {C V : Type}.
(** What one iteration computes from the coordinates of its record. *)
Variable F : C -> V.
Variable add : V -> V -> V.

(** The records: their coordinates and their values.
    corrfunc.c:93-131, multipoles.c:88-126, average_multipoles.c:108-146. *)
Record cells := mkCells { coords : list (option C); vals : list (option V) }.

(** [a[i].value = F(a[i].coords)] or [a[i].value += F(a[i].coords)].
    corrfunc.c:93-131, multipoles.c:88-126, average_multipoles.c:108-146. *)
Inductive mode := Assign | AddTo.
Variable md : mode.

(** Local state: the iterations still to do, the first of them in progress.
    corrfunc.c:93-131, multipoles.c:88-126, average_multipoles.c:108-146. *)
Inductive reg := Idle | Got (c : C) | GotOld (c : C) (v : V).
Definition loc := (list nat * reg)%type.

Definition istep (l : loc) (m : cells) : tres cells loc :=
  match l with
  | ([], _) => Done
  | (i :: r, Idle) => match rd (coords m) i with Some c => Next (i :: r, Got c) m | None => Fault end
  | (i :: r, Got c) =>
      match md with
      | Assign => match wr (vals m) i (Some (F c)) with
                  | Some vs => Next (r, Idle) (mkCells (coords m) vs) | None => Fault end
      | AddTo => match rd (vals m) i with Some v => Next (i :: r, GotOld c v) m | None => Fault end
      end
  | (i :: r, GotOld c v) => match wr (vals m) i (Some (add v (F c))) with
                  | Some vs => Next (r, Idle) (mkCells (coords m) vs) | None => Fault end
  end.

(** [work] is the distribution of the iterations 0..n-1 over the threads: any
    number of threads, any distribution, any order within a thread.
    corrfunc.c:93-131, multipoles.c:88-126, average_multipoles.c:108-146. *)
Definition distribution (n : nat) (work : list (list nat)) : Prop :=
  Permutation (concat work) (seq 0 n).
Definition start (work : list (list nat)) (m : cells) : list loc * cells :=
  (map (fun w => (w, Idle)) work, m).

(** ** All interleavings give the sequential result *)

Section Correct.
Variable n : nat.
Variable cs : list C.                      (* the coordinates *)
Variable old : list (option V).            (* the values before the loop *)
Hypothesis len_cs : length cs = n.
Hypothesis len_old : length old = n.
Hypothesis old_set : md = AddTo -> forall i, i < n -> rd old i <> None.

(** Specification or proof only; nothing in the code. *)
Definition target (i : nat) : option V :=
  match nth_error cs i with
  | Some c => match md with
              | Assign => Some (F c)
              | AddTo => match rd old i with Some v => Some (add v (F c)) | None => None end
              end
  | None => None
  end.

Definition reg_ok (l : loc) : Prop :=
  match l with
  | (i :: _, Got c) => nth_error cs i = Some c
  | (i :: _, GotOld c v) => nth_error cs i = Some c /\ md = AddTo /\ rd old i = Some v
  | ([], Idle) => True
  | ([], _) => False
  | (_, Idle) => True
  end.

Definition pending (ls : list loc) : list nat := concat (map fst ls).

Record PInv (c : list loc * cells) : Prop := {
  pi_coords : coords (snd c) = map Some cs;
  pi_len : length (vals (snd c)) = n;
  pi_nodup : NoDup (pending (fst c));
  pi_range : forall i, In i (pending (fst c)) -> i < n;
  pi_reg : Forall reg_ok (fst c);
  pi_old : forall i, In i (pending (fst c)) -> nth_error (vals (snd c)) i = nth_error old i;
  pi_new : forall i, i < n -> ~ In i (pending (fst c)) -> nth_error (vals (snd c)) i = Some (target i)
}.

Lemma pending_wr : forall ls t l l' ls', nth_error ls t = Some l -> wr ls t l' = Some ls' ->
  exists a b, pending ls = a ++ fst l ++ b /\ pending ls' = a ++ fst l' ++ b /\
   ls = firstn t ls ++ l :: skipn (S t) ls /\ ls' = firstn t ls ++ l' :: skipn (S t) ls.
Proof.
  unfold pending. induction ls as [|x r IH]; intros [|t] l l' ls' H W; simpl in *; try discriminate.
  - injection H as ->. injection W as <-. exists [], (concat (map fst r)). auto.
  - destruct (wr r t l') as [r'|] eqn:E; [|discriminate]. injection W as <-.
    destruct (IH t l l' r' H E) as (a & b & P1 & P2 & P3 & P4).
    exists (fst x ++ a), b. simpl. rewrite P1, P2, !app_assoc. repeat split; f_equal; auto.
Qed.

Lemma Forall_wr : forall (P : loc -> Prop) ls t l' ls', Forall P ls -> wr ls t l' = Some ls' -> P l' -> Forall P ls'.
Proof.
  induction ls as [|x r IH]; intros [|t] l' ls' H W Q; simpl in *; try discriminate; inversion H; subst.
  - injection W as <-. constructor; auto.
  - destruct (wr r t l') as [r'|] eqn:E; [|discriminate]. injection W as <-. constructor; eauto.
Qed.

Lemma rd_map_Some : forall A (l : list A) i, rd (map Some l) i = nth_error l i.
Proof.
  intros A l i. unfold rd. rewrite nth_error_map. destruct (nth_error l i); reflexivity.
Qed.

Lemma cs_some : forall i, i < n -> exists c, nth_error cs i = Some c.
Proof.
  intros i H. destruct (nth_error cs i) eqn:E; [eauto|]. apply nth_error_None in E. lia.
Qed.

(** Finishing iteration [i] of thread [t]. *)
Lemma finish_iter : forall ls m t i r rg ls' vs,
  PInv (ls, m) -> nth_error ls t = Some (i :: r, rg) ->
  wr ls t (r, Idle) = Some ls' -> wr (vals m) i (target i) = Some vs ->
  PInv (ls', mkCells (coords m) vs).
Proof.
  intros ls m t i r rg ls' vs [I1 I2 I3 I4 I5 I6 I7] Hl Hw Hv. simpl in *.
  destruct (pending_wr ls t _ (r, Idle) ls' Hl Hw) as (a & b & P1 & P2 & _ & _). simpl in P1, P2.
  assert (ND : ~ In i (a ++ r ++ b) /\ NoDup (a ++ r ++ b)).
  { rewrite P1 in I3. apply NoDup_remove in I3. tauto. }
  split; simpl; auto.
  - rewrite (wr_length _ _ _ _ Hv). exact I2.
  - rewrite P2. tauto.
  - intros j Hj. apply I4. rewrite P1. rewrite P2 in Hj.
    apply in_app_iff in Hj as [Hj|Hj]; apply in_app_iff; [left; auto|right; right; auto].
  - apply (Forall_wr _ _ _ _ _ I5 Hw). destruct r; simpl; auto.
  - intros j Hj. rewrite P2 in Hj.
    rewrite (wr_other _ _ _ _ j Hv) by (intros ->; tauto).
    apply I6. rewrite P1. apply in_app_iff in Hj as [Hj|Hj]; apply in_app_iff; [left; auto|right; right; auto].
  - intros j Hj Nj. rewrite P2 in Nj. destruct (Nat.eq_dec j i) as [->|Ne].
    + apply (wr_same _ _ _ _ Hv).
    + rewrite (wr_other _ _ _ _ j Hv Ne). apply I7; auto. rewrite P1.
      intros X. apply Nj. apply in_app_iff in X as [X|[X|X]]; try congruence; apply in_app_iff; auto.
Qed.

Lemma PInv_step : forall t c, PInv c -> exists c', cstep istep t c = Some c' /\ PInv c'.
Proof.
  intros t [ls m] HI. unfold cstep. cbn [fst snd].
  destruct (nth_error ls t) as [l|] eqn:El; [|eauto].
  assert (Rg : reg_ok l) by (destruct HI as [_ _ _ _ I5 _ _]; exact (proj1 (Forall_forall _ _) I5 l (nth_error_In _ _ El))).
  assert (Lt : t < length ls) by (apply nth_error_Some; congruence).
  destruct l as [[|i r] rg]; [simpl; eauto|].
  assert (Pi : In i (pending ls)).
  { unfold pending. apply in_concat. exists (i :: r). split; [|left; reflexivity].
    apply in_map_iff. exists (i :: r, rg). split; [reflexivity|]. exact (nth_error_In _ _ El). }
  assert (Ri : i < n) by exact (pi_range _ HI i Pi).
  destruct (cs_some i Ri) as [c Hc].
  assert (KEEP : forall rg', reg_ok (i :: r, rg') -> forall ls', wr ls t (i :: r, rg') = Some ls' -> PInv (ls', m)).
  { intros rg' Rg' ls' Hw. destruct HI as [I1 I2 I3 I4 I5 I6 I7]. simpl in *.
    destruct (pending_wr ls t _ _ ls' El Hw) as (a & b & P1 & P2 & _ & _). simpl in P1, P2.
    assert (pending ls' = pending ls) as EP by congruence.
    split; simpl; rewrite ?EP; auto. exact (Forall_wr _ _ _ _ _ I5 Hw Rg'). }
  assert (Vi : nth_error (vals m) i = nth_error old i) by exact (pi_old _ HI i Pi).
  destruct rg as [|c'|c' v]; simpl istep.
  - pose proof (pi_coords _ HI) as EC. simpl in EC. rewrite EC, rd_map_Some, Hc.
    destruct (wr_some ls t (i :: r, Got c) Lt) as [ls' Hw]. rewrite Hw. eexists; split; [reflexivity|].
    apply (KEEP (Got c)); auto.
  - simpl in Rg. assert (c' = c) as -> by congruence.
    assert (Em : md = Assign \/ md = AddTo) by (clear; destruct md; auto).
    destruct Em as [Em|Em]; rewrite Em.
    + assert (T : target i = Some (F c)) by (unfold target; rewrite Hc, Em; reflexivity).
      destruct (wr_some (vals m) i (Some (F c))) as [vs Hv]; [pose proof (pi_len _ HI) as LV; simpl in LV; lia|].
      rewrite Hv. destruct (wr_some ls t (r, Idle) Lt) as [ls' Hw]. rewrite Hw.
      eexists; split; [reflexivity|]. apply (finish_iter ls m t i r _ ls' vs HI El Hw).
      rewrite T. exact Hv.
    + assert (rd (vals m) i = rd old i) as -> by (unfold rd; rewrite Vi; reflexivity).
      destruct (rd old i) as [v|] eqn:Eo; [|exfalso; exact (old_set Em i Ri Eo)].
      destruct (wr_some ls t (i :: r, GotOld c v) Lt) as [ls' Hw]. rewrite Hw. eexists; split; [reflexivity|].
      apply (KEEP (GotOld c v)); auto. simpl. auto.
  - simpl in Rg. destruct Rg as (Rc & Rm & Rv). assert (c' = c) as -> by congruence.
    assert (T : target i = Some (add v (F c))) by (unfold target; rewrite Hc, Rm, Rv; reflexivity).
    destruct (wr_some (vals m) i (Some (add v (F c)))) as [vs Hv]; [pose proof (pi_len _ HI) as LV; simpl in LV; lia|].
    rewrite Hv. destruct (wr_some ls t (r, Idle) Lt) as [ls' Hw]. rewrite Hw.
    eexists; split; [reflexivity|]. apply (finish_iter ls m t i r _ ls' vs HI El Hw).
    rewrite T. exact Hv.
Qed.

Lemma pending_start : forall work m, pending (fst (start work m)) = concat work.
Proof.
  intros work m. unfold start, pending. simpl. rewrite map_map. simpl.
  induction work as [|w r IH]; simpl; [reflexivity|]. rewrite IH. reflexivity.
Qed.

Lemma PInv_start : forall work, distribution n work -> PInv (start work (mkCells (map Some cs) old)).
Proof.
  intros work D. unfold distribution in D. split; rewrite ?pending_start; simpl; auto.
  - apply (Permutation_NoDup (Permutation_sym D)). apply seq_NoDup.
  - intros i Hi. apply (Permutation_in _ D) in Hi. apply in_seq in Hi. lia.
  - apply Forall_forall. intros l Hl. apply in_map_iff in Hl as (w & <- & _). destruct w; simpl; auto.
  - intros i Hi N. exfalso. apply N. apply (Permutation_in _ (Permutation_sym D)). apply in_seq. lia.
Qed.

Lemma PInv_finished : forall c, PInv c -> finished istep c -> pending (fst c) = [].
Proof.
  intros [ls m] HI Fn. unfold finished in Fn. simpl in *. unfold pending.
  assert (Forall (fun l : loc => fst l = []) ls).
  { apply Forall_forall. intros l Hl. apply (proj1 (Forall_forall _ _) Fn) in Hl as E.
    destruct l as [[|i r] rg]; [reflexivity|]. simpl in E. destruct rg.
    - destruct (rd _ _); discriminate.
    - destruct md; [destruct (wr _ _ _); discriminate|destruct (rd _ _); discriminate].
    - destruct (wr _ _ _); discriminate. }
  clear - H. induction H as [|l r E _ IH]; simpl; [reflexivity|]. rewrite E, IH. reflexivity.
Qed.

(** No interleaving runs into undefined behaviour, and whenever all threads have
    finished the values are those of the sequential loop. *)
Theorem par_for_safe : forall work sched, distribution n work ->
  exists c, exec istep sched (start work (mkCells (map Some cs) old)) = Some c /\
    coords (snd c) = map Some cs /\
    (finished istep c -> vals (snd c) = map target (seq 0 n)).
Proof.
  intros work sched D.
  destruct (exec_inv istep PInv PInv_step sched _ (PInv_start work D)) as (c & E & HI).
  exists c. split; [exact E|]. split; [exact (pi_coords _ HI)|]. intros Fn.
  pose proof (PInv_finished c HI Fn) as P.
  apply nth_error_ext.
  - rewrite (pi_len _ HI), map_length, seq_length. reflexivity.
  - intros i Hi. rewrite (pi_len _ HI) in Hi. rewrite (pi_new _ HI i Hi) by (rewrite P; intros []).
    rewrite nth_error_map, nth_error_seq by exact Hi. reflexivity.
Qed.

(** There is a schedule after which all threads have finished, from every
    reachable state: no interleaving gets stuck.  Specification or proof only; nothing in the code. *)
Definition phase (r : reg) : nat := match r with Idle => 2 | Got _ => 1 | GotOld _ _ => 0 end.
Definition cost (l : loc) : nat := match l with ([], _) => 0 | (_ :: r, rg) => 1 + phase rg + 3 * length r end.
Definition costs (ls : list loc) : nat := list_sum (map cost ls).

Lemma costs_wr : forall ls t l l' ls', nth_error ls t = Some l -> wr ls t l' = Some ls' ->
  costs ls' + cost l = costs ls + cost l'.
Proof.
  unfold costs. induction ls as [|x r IH]; intros [|t] l l' ls' H W; simpl in *; try discriminate.
  - injection H as ->. injection W as <-. simpl. lia.
  - destruct (wr r t l') as [r'|] eqn:E; [|discriminate]. injection W as <-. simpl.
    specialize (IH t l l' r' H E). lia.
Qed.

Lemma costs_zero : forall ls m, costs ls = 0 -> finished istep (ls, m).
Proof.
  unfold finished, costs. simpl. induction ls as [|l r IH]; intros m H; constructor; simpl in H.
  - destruct l as [[|i w] rg]; [reflexivity|simpl in H; lia].
  - apply IH. lia.
Qed.

Lemma costs_pos : forall ls, 0 < costs ls -> exists t i r rg, nth_error ls t = Some (i :: r, rg).
Proof.
  unfold costs. induction ls as [|l r IH]; simpl; intros H; [lia|].
  destruct l as [[|i w] rg].
  - destruct (IH H) as (t & i & w & rg' & E). exists (S t), i, w, rg'. exact E.
  - exists 0, i, w, rg. reflexivity.
Qed.

Lemma cost_step : forall i r rg m l' m', istep (i :: r, rg) m = Next l' m' -> cost l' < cost (i :: r, rg).
Proof.
  intros i r rg m l' m' H. destruct rg; simpl in H.
  - destruct (rd _ _); [|discriminate]. injection H as <- _. simpl. lia.
  - destruct md; [destruct (wr _ _ _); [|discriminate]|destruct (rd _ _); [|discriminate]];
      injection H as <- _; [destruct r as [|j r]|]; simpl; lia.
  - destruct (wr _ _ _); [|discriminate]. injection H as <- _. destruct r as [|j r]; simpl; lia.
Qed.

Theorem par_for_finishes : forall c, PInv c -> exists sched c', exec istep sched c = Some c' /\ finished istep c'.
Proof.
  intros c. remember (costs (fst c)) as k eqn:Ek. revert c Ek.
  induction k as [k IH] using lt_wf_ind. intros [ls m] Ek HI. simpl in Ek.
  destruct k as [|k].
  - exists [], (ls, m). split; [reflexivity|]. apply costs_zero. auto.
  - destruct (costs_pos ls) as (t & i & r & rg & El); [lia|].
    destruct (PInv_step t (ls, m) HI) as ([ls' m'] & E & HI').
    assert (Lt : costs ls' < costs ls).
    { unfold cstep in E. cbn [fst snd] in E. rewrite El in E.
      destruct (istep (i :: r, rg) m) as [| |l1 m1] eqn:Es.
      - simpl in Es. destruct rg; simpl in Es; [destruct (rd _ _)| destruct md; [destruct (wr _ _ _)|destruct (rd _ _)]|destruct (wr _ _ _)]; discriminate.
      - discriminate.
      - destruct (wr ls t l1) as [ls1|] eqn:Ew; [|discriminate]. injection E as <- <-.
        pose proof (costs_wr _ _ _ _ _ El Ew). pose proof (cost_step _ _ _ _ _ _ Es). lia. }
    destruct (IH (costs ls') ltac:(lia) (ls', m') eq_refl HI') as (s & c' & E' & Fn).
    exists (t :: s), c'. split; [|exact Fn]. simpl. rewrite E. exact E'.
Qed.

(** No data race: in every reachable state two different threads work on
    different records. *)
Theorem par_for_race_free : forall c t u i r rg j q rg', PInv c -> t <> u ->
  nth_error (fst c) t = Some (i :: r, rg) -> nth_error (fst c) u = Some (j :: q, rg') -> i <> j.
Proof.
  intros [ls m] t u i r rg j q rg' HI Ne Ht Hu. simpl in *.
  pose proof (pi_nodup _ HI) as ND. simpl in ND. clear HI m.
  assert (X : forall ls t u i r rg j q rg', t < u -> NoDup (pending ls) ->
     nth_error ls t = Some (i :: r, rg) -> nth_error ls u = Some (j :: q, rg') -> i <> j).
  { clear. unfold pending. induction ls as [|x l IH]; intros [|t] [|u] i r rg j q rg' L ND Ht Hu; simpl in *; try lia; try discriminate.
    - injection Ht as ->. simpl in ND. intros ->.
      inversion ND as [|? ? N1 N2]; subst. apply N1. apply in_app_iff. right.
      apply in_concat. exists (j :: q). split; [|left; reflexivity]. apply in_map_iff.
      exists (j :: q, rg'). split; [reflexivity|]. exact (nth_error_In _ _ Hu).
    - assert (ND' : NoDup (concat (map fst l))) by (clear - ND; induction (fst x) as [|y w IHw]; simpl in ND; [exact ND|inversion ND; auto]).
      eapply (IH t u); eauto. lia. }
  destruct (Nat.lt_total t u) as [L|[->|L]]; [|congruence|].
  - exact (X ls t u i r rg j q rg' L ND Ht Hu).
  - apply not_eq_sym. exact (X ls u t j q rg' i r rg L ND Hu Ht).
Qed.
End Correct.
End ParFor.
