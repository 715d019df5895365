(** * Spline look-ups through a shared position cache.

    coffe_interp_spline (common.c:704-710) calls [gsl_spline_eval] with the
    accelerator stored next to the spline (common.h:229-232, common.c:572-573).
    The accelerator is GSL's documented [gsl_interp_accel]: it remembers the
    interval of the last look-up.  All threads of a parallel loop share it.

    Only the order of the abscissae matters here, so they are integers (the
    order of finite doubles embeds into the integers). *)
From Coq Require Import ZArith Arith Bool List Lia Permutation.
From Verif Require Import Arrays Sched.
Import ListNotations.

Section Table.
Variable xa : list Z.
Definition len := length xa.
Definition x_at (i : nat) : Z := nth i xa 0%Z.

(** GSL [gsl_interp_bsearch]: bisection between [ilo] and [ihi]; [fuel] bounds
    the number of rounds (the distance halves, so [ihi - ilo] rounds suffice).
    GSL interpolation/bsearch.h; reached through coffe_interp_spline, common.c:704-710. *)
Fixpoint bsearch (fuel : nat) (x : Z) (ilo ihi : nat) : nat :=
  match fuel with
  | O => ilo
  | S f => if Nat.ltb (ilo + 1) ihi then
             let i := (ihi + ilo) / 2 in
             if (x <? x_at i)%Z then bsearch f x ilo i else bsearch f x i ihi
           else ilo
  end.

(** GSL [gsl_interp_accel_find], run without interference: new cache, result.
    coffe_interp_spline, common.c:704-710, through the accelerator of struct coffe_interpolation, common.h:228-244. *)
Definition lookup (cache : nat) (x : Z) : nat :=
  if (x <? x_at cache)%Z then bsearch cache x 0 cache
  else if (x_at (cache + 1) <=? x)%Z then bsearch len x cache (len - 1)
  else cache.

(** Look-ups one after the other, from a new accelerator (cache 0).
    coffe_interp_spline, common.c:704-710, through the accelerator of struct coffe_interpolation, common.h:228-244. *)
Fixpoint lookups (cache : nat) (xs : list Z) : list nat :=
  match xs with [] => [] | x :: r => let i := lookup cache x in i :: lookups i r end.

(** ** Specification: the interval that contains [x] *)

(** The last interval is closed on the right.  Specification or proof only; nothing in the code. *)
Definition interval_of (x : Z) (i : nat) : Prop :=
  i + 1 < len /\ (x_at i <= x)%Z /\ ((x < x_at (i + 1))%Z \/ (i + 2 = len /\ x = x_at (i + 1))).

Hypothesis enough : 2 <= len.
Hypothesis sorted : forall i j, i < j < len -> (x_at i < x_at j)%Z.

Definition in_range (x : Z) : Prop := (x_at 0 <= x <= x_at (len - 1))%Z.

Lemma interval_unique : forall x i j, interval_of x i -> interval_of x j -> i = j.
Proof.
  intros x i j (Li & Ai & Bi) (Lj & Aj & Bj).
  assert (M : forall a b, a <= b -> b < len -> (x_at a <= x_at b)%Z).
  { intros a b H H'. destruct (Nat.eq_dec a b) as [->|]; [lia|]. pose proof (sorted a b ltac:(lia)). lia. }
  destruct (Nat.lt_total i j) as [H|[H|H]]; auto; exfalso.
  - pose proof (M (i + 1) j ltac:(lia) ltac:(lia)).
    destruct Bi as [Bi|[Bi Ei]]; [lia|]. lia.
  - pose proof (M (j + 1) i ltac:(lia) ltac:(lia)).
    destruct Bj as [Bj|[Bj Ej]]; [lia|]. lia.
Qed.

(** Bisection keeps [x] between its ends. *)
Lemma bsearch_spec : forall fuel x ilo ihi, ilo < ihi -> ihi < len -> ihi - ilo <= fuel ->
  (x_at ilo <= x)%Z ->
  let r := bsearch fuel x ilo ihi in
  ilo <= r < ihi /\ (x_at r <= x)%Z /\ ((x < x_at ihi)%Z -> (x < x_at (r + 1))%Z) /\
  ((x_at ihi <= x)%Z -> r + 1 = ihi).
Proof.
  induction fuel as [|f IH]; intros x ilo ihi H1 H2 H3 H4 r.
  - lia.
  - unfold r. simpl. destruct (Nat.ltb (ilo + 1) ihi) eqn:E.
    + apply Nat.ltb_lt in E.
      assert (Hd : ilo < (ihi + ilo) / 2 < ihi).
      { pose proof (Nat.div_mod (ihi + ilo) 2 ltac:(lia)). pose proof (Nat.mod_upper_bound (ihi + ilo) 2 ltac:(lia)). lia. }
      set (i := (ihi + ilo) / 2) in *. change (fst (Nat.divmod (ihi + ilo) 1 0 1)) with i.
      destruct (x <? x_at i)%Z eqn:C.
      * apply Z.ltb_lt in C. destruct (IH x ilo i ltac:(lia) ltac:(lia) ltac:(lia) H4) as (A & B & D & G).
        repeat split; try lia; auto. intros Hx. exfalso.
        pose proof (sorted i ihi ltac:(lia)). lia.
      * apply Z.ltb_ge in C. destruct (IH x i ihi ltac:(lia) ltac:(lia) ltac:(lia) C) as (A & B & D & G).
        repeat split; try lia; auto.
    + apply Nat.ltb_ge in E. assert (ihi = ilo + 1) as -> by lia. repeat split; try lia; auto.
Qed.

Lemma lookup_ok : forall cache x, cache + 1 < len -> in_range x -> interval_of x (lookup cache x).
Proof.
  intros cache x Hc [R1 R2]. unfold lookup.
  destruct (x <? x_at cache)%Z eqn:E1.
  - apply Z.ltb_lt in E1.
    assert (cache <> 0) by (intros ->; lia).
    destruct (bsearch_spec cache x 0 cache ltac:(lia) ltac:(lia) ltac:(lia) R1) as (A & B & D & _).
    split; [lia|]. split; [exact B|]. left. apply D. exact E1.
  - apply Z.ltb_ge in E1. destruct (x_at (cache + 1) <=? x)%Z eqn:E2.
    + destruct (bsearch_spec len x cache (len - 1) ltac:(lia) ltac:(lia) ltac:(lia) E1) as (A & B & D & G).
      split; [lia|]. split; [exact B|].
      destruct (Z.eq_dec x (x_at (len - 1))) as [Ex|Ex].
      * right. pose proof (G ltac:(lia)) as E. rewrite E. split; [lia|exact Ex].
      * left. apply D. lia.
    + apply Z.leb_gt in E2. split; [exact Hc|]. split; [exact E1|]. left. exact E2.
Qed.

(** Whatever was looked up before, each look-up returns the right interval. *)
Lemma lookups_ok : forall xs cache, cache + 1 < len -> Forall in_range xs ->
  Forall2 interval_of xs (lookups cache xs).
Proof.
  induction xs as [|x r IH]; intros cache Hc H; simpl; constructor; inversion H; subst.
  - apply lookup_ok; auto.
  - apply IH; auto. destruct (lookup_ok cache x Hc H2) as [A _]. exact A.
Qed.

(** ** Look-ups by several threads *)

(** One look-up as the sequence of its accesses to [a->cache]:
    [size_t x_index = a->cache; ... a->cache = bsearch(...); ... return a->cache;]
    One thread of the loops corrfunc.c:93-131 inside coffe_interp_spline, common.c:704-710. *)
Inductive lreg := LIdle | LRead (i : nat) | LWritten.
(** Local state: abscissae still to look up, progress of the first, results.
    One thread of the loops corrfunc.c:93-131 inside coffe_interp_spline, common.c:704-710. *)
Record lloc := mkL { todo : list Z; lpc : lreg; results : list nat }.

Definition lstep (l : lloc) (cache : nat) : tres nat lloc :=
  match todo l with
  | [] => Done
  | x :: r =>
      match lpc l with
      | LIdle => Next (mkL (x :: r) (LRead cache) (results l)) cache
      | LRead i =>
          if (x <? x_at i)%Z then Next (mkL (x :: r) LWritten (results l)) (bsearch i x 0 i)
          else if (x_at (i + 1) <=? x)%Z then Next (mkL (x :: r) LWritten (results l)) (bsearch len x i (len - 1))
          else Next (mkL (x :: r) LWritten (results l)) cache
      | LWritten => Next (mkL r LIdle (results l ++ [cache])) cache
      end
  end.

Definition lstart (work : list (list Z)) : list lloc * nat := (map (fun w => mkL w LIdle []) work, 0).

(** Memory safety survives the race: an index returned to any thread is always
    an interval of the table.  Specification or proof only; nothing in the code. *)
Definition LInv (c : list lloc * nat) : Prop :=
  snd c + 1 < len /\
  Forall (fun l => Forall (fun i => i + 1 < len) (results l) /\ Forall in_range (todo l) /\
                   match lpc l with LRead i => i + 1 < len | _ => True end) (fst c).

Lemma LInv_step : forall t c, LInv c -> exists c', cstep lstep t c = Some c' /\ LInv c'.
Proof.
  intros t [ls cache] [HC HF]. unfold cstep. cbn [fst snd] in *.
  destruct (nth_error ls t) as [l|] eqn:El; [|exists (ls, cache); split; [reflexivity|split; assumption]].
  pose proof (proj1 (Forall_forall _ _) HF l (nth_error_In _ _ El)) as (R1 & R2 & R3).
  assert (Lt : t < length ls) by (apply nth_error_Some; congruence).
  assert (K : forall l' cache', cache' + 1 < len ->
     (Forall (fun i => i + 1 < len) (results l') /\ Forall in_range (todo l') /\
        match lpc l' with LRead i => i + 1 < len | _ => True end) ->
     exists c', match wr ls t l' with Some ls' => Some (ls', cache') | None => None end = Some c' /\ LInv c').
  { intros l' cache' Hc' Hl'. destruct (wr_some ls t l' Lt) as [ls' Hw]. rewrite Hw. eexists. split; [reflexivity|].
    split; [exact Hc'|]. simpl.
    revert Hw. clear - HF Hl'. revert t ls'. induction ls as [|y q IH]; intros [|t] ls' W; simpl in W; try discriminate; inversion HF; subst.
    - injection W as <-. constructor; auto.
    - destruct (wr q t l') as [q'|] eqn:E; [|discriminate]. injection W as <-. constructor; eauto. }
  unfold lstep. destruct (todo l) as [|x r] eqn:Et.
  - exists (ls, cache). split; [reflexivity|]. split; assumption.
  - assert (Rx : in_range x) by (inversion R2; auto).
    destruct (lpc l) as [|i|] eqn:Ep.
    + apply K; simpl; auto.
    + destruct (x <? x_at i)%Z eqn:E1.
      * apply K; [|simpl; auto].
        apply Z.ltb_lt in E1. destruct Rx as [Ra Rb].
        assert (i <> 0) by (intros ->; lia).
        destruct (bsearch_spec i x 0 i ltac:(lia) ltac:(lia) ltac:(lia) Ra) as (A & _). lia.
      * apply Z.ltb_ge in E1. destruct (x_at (i + 1) <=? x)%Z eqn:E2; (apply K; [|simpl; auto]); [|exact HC].
        destruct (bsearch_spec len x i (len - 1) ltac:(lia) ltac:(lia) ltac:(lia) E1) as (A & _). lia.
    + apply K; auto. simpl. split; [|split; [inversion R2; auto|exact I]].
      apply Forall_app. split; auto.
Qed.

Lemma lookups_in_bounds : forall work sched, Forall (Forall in_range) work ->
  exists c, exec lstep sched (lstart work) = Some c /\
    Forall (fun l => Forall (fun i => i + 1 < len) (results l)) (fst c).
Proof.
  intros work sched H.
  destruct (exec_inv lstep LInv LInv_step sched (lstart work)) as (c & E & I1 & I2).
  - split; [simpl; lia|]. simpl. apply Forall_forall. intros l Hl. apply in_map_iff in Hl as (w & <- & Hw). simpl.
    split; [constructor|]. split; [|exact I]. exact (proj1 (Forall_forall _ _) H w Hw).
  - exists c. split; [exact E|]. apply Forall_forall. intros l Hl.
    exact (proj1 (proj1 (Forall_forall _ _) I2 l Hl)).
Qed.

(** A thread that runs alone: each of its look-ups is right.  Specification or proof only; nothing in the code. *)
Definition alone (n : nat) : list nat := repeat 0 (3 * n).
Lemma alone_ok : forall xs cache done, cache + 1 < len -> Forall in_range xs ->
  exists cache', exec lstep (alone (length xs)) ([mkL xs LIdle done], cache) =
    Some ([mkL [] LIdle (done ++ lookups cache xs)], cache').
Proof.
  induction xs as [|x r IH]; intros cache done Hc H; inversion H; subst.
  - exists cache. simpl. rewrite app_nil_r. reflexivity.
  - pose proof (lookup_ok cache x Hc H2) as [A _].
    assert (E : exec lstep [0; 0; 0] ([mkL (x :: r) LIdle done], cache) =
       Some ([mkL r LIdle (done ++ [lookup cache x])], lookup cache x)).
    { simpl. unfold cstep. simpl. unfold lstep at 1. simpl. unfold lookup.
      destruct (x <? x_at cache)%Z; [reflexivity|]. destruct (x_at (cache + 1) <=? x)%Z; reflexivity. }
    destruct (IH (lookup cache x) (done ++ [lookup cache x]) A H3) as [cache' E'].
    exists cache'. unfold alone. simpl length. replace (3 * S (length r)) with (3 + 3 * length r) by lia.
    rewrite repeat_app. change (repeat 0 3) with [0; 0; 0]. rewrite exec_app, E. fold (alone (length r)).
    rewrite E', <- app_assoc. reflexivity.
Qed.
End Table.
