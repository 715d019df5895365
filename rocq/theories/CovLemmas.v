(** * Facts about the covariance model: what a run computes *)
From Coq Require Import ZArith Reals List Lia Lra Bool Arith.
From Verif Require Import Arrays Numeric Coupling Covariance.
Import ListNotations.
Open Scope nat_scope.

(** ** Loops that write memory *)
Section Loop.
Context {W St A V : Type} (view : St -> A -> V) (body : W -> St -> option St)
        (writes : W -> A -> option V) (Inv : St -> Prop).
(** Specification or proof only; nothing in the code. *)
Fixpoint writes_all (l : list W) (a : A) : option V :=
  match l with
  | [] => None
  | w :: r => match writes_all r a with Some v => Some v | None => writes w a end
  end.
Lemma loop_writes : forall l,
  (forall w st, In w l -> Inv st -> exists st', body w st = Some st' /\ Inv st'
     /\ forall a, view st' a = match writes w a with Some v => v | None => view st a end) ->
  forall st, Inv st -> exists st', for_list l body st = Some st' /\ Inv st'
     /\ forall a, view st' a = match writes_all l a with Some v => v | None => view st a end.
Proof.
  induction l as [|w r IH]; intros H st I0.
  - exists st. split; [reflexivity|]. split; [exact I0|]. reflexivity.
  - destruct (H w st (or_introl eq_refl) I0) as (s1 & E1 & I1 & V1). cbn [for_list]. rewrite E1.
    destruct (IH (fun w' st' Hw => H w' st' (or_intror Hw)) s1 I1) as (s2 & E2 & I2 & V2).
    exists s2. split; [exact E2|]. split; [exact I2|]. intros a. rewrite V2. cbn [writes_all].
    destruct (writes_all r a); [reflexivity|apply V1].
Qed.
Lemma writes_all_none : forall l a, (forall w, In w l -> writes w a = None) -> writes_all l a = None.
Proof.
  induction l as [|w r IH]; intros a H; [reflexivity|]. cbn [writes_all].
  rewrite IH by (intros w' Hw; apply H; right; exact Hw). apply H. left. reflexivity.
Qed.
Lemma writes_all_some : forall l a v, (exists w, In w l /\ writes w a = Some v) ->
  (forall w v', In w l -> writes w a = Some v' -> v' = v) -> writes_all l a = Some v.
Proof.
  induction l as [|w r IH]; intros a v [w0 [Hw E]] U; [destruct Hw|]. cbn [writes_all].
  destruct (writes_all r a) as [v'|] eqn:R.
  - f_equal. assert (C : exists w', In w' r /\ writes w' a = Some v').
    { clear -R. induction r as [|x r IH]; [discriminate|]. cbn [writes_all] in R.
      destruct (writes_all r a) as [v''|] eqn:R'.
      - destruct (IH R) as [w' [H1 H2]]. exists w'. split; [right; exact H1|exact H2].
      - exists x. split; [left; reflexivity|exact R]. }
    destruct C as [w' [H1 H2]]. apply (U w'); [right; exact H1|exact H2].
  - destruct Hw as [<-|Hw]; [exact E|]. exfalso.
    assert (C : writes_all r a = Some v).
    { apply IH; [exists w0; split; assumption|]. intros w' v' H1 H2. apply (U w' v'); [right; exact H1|exact H2]. }
    congruence.
Qed.
End Loop.

(** Addresses: which table, redshift, pair of multipoles, pair of separations.
    Specification or proof only; nothing in the code. *)
Definition addr := (bool * nat * nat * nat)%type.
Definition addr_eqb (a b : addr) : bool :=
  let '(t, z, ij, nm) := a in let '(t', z', ij', nm') := b in
  eqb t t' && (z =? z') && (ij =? ij') && (nm =? nm').
Lemma addr_eqb_spec : forall a b, addr_eqb a b = true <-> a = b.
Proof.
  intros [[[t z] ij] nm] [[[t' z'] ij'] nm']. unfold addr_eqb.
  rewrite !andb_true_iff, eqb_true_iff, !Nat.eqb_eq. split; [intros [[[-> ->] ->] ->]; reflexivity|].
  intros E. injection E as -> -> -> ->. repeat split.
Qed.
Definition view (st : mem3 * mem3) (a : addr) : option R :=
  let '(t, z, ij, nm) := a in (if t : bool then fst st else snd st) z ij nm.
Definition one {V} (a0 : addr) (v : V) (a : addr) : option V := if addr_eqb a a0 then Some v else None.
Lemma one_some : forall V a0 (v v' : V) a, one a0 v a = Some v' <-> a = a0 /\ v = v'.
Proof.
  intros. unfold one. destruct (addr_eqb a a0) eqn:E.
  - apply addr_eqb_spec in E. split; [intros H; injection H as ->; tauto|intros [_ ->]; reflexivity].
  - split; [discriminate|]. intros [-> _]. rewrite (proj2 (addr_eqb_spec a0 a0) eq_refl) in E. discriminate.
Qed.
Lemma one_none : forall V a0 (v : V) a, a <> a0 -> one a0 v a = None.
Proof.
  intros V a0 v a N. unfold one. destruct (addr_eqb a a0) eqn:E; [|reflexivity].
  apply addr_eqb_spec in E. congruence.
Qed.

Lemma set3_view : forall d (t : bool) st z ij nm v, inside d z ij nm = true ->
  exists a, set3 d (if t then fst st else snd st) z ij nm v = Some a
    /\ forall x, view (if t then (a, snd st) else (fst st, a)) x
                 = match one (t, z, ij, nm) v x with Some w => w | None => view st x end.
Proof.
  intros d t st z ij nm v H. unfold set3. rewrite H. eexists. split; [reflexivity|].
  intros [[[t' z'] ij'] nm']. unfold one, addr_eqb, view.
  destruct t, t'; cbn [eqb fst snd andb]; try reflexivity;
    destruct ((z' =? z) && (ij' =? ij) && (nm' =? nm)); reflexivity.
Qed.

Lemma in_upto : forall n i, In i (upto n) <-> i < n.
Proof. intros n i. unfold upto. rewrite in_seq. lia. Qed.
Lemma in_square : forall n a b, In (a, b) (square n) <-> a < n /\ b < n.
Proof. intros n a b. unfold square. rewrite in_prod_iff, !in_upto. tauto. Qed.
Lemma in_upper : forall n i j, In (i, j) (upper n) <-> i <= j < n.
Proof.
  intros n i j. unfold upper. rewrite in_flat_map. split.
  - intros (x & H1 & H2). apply in_map_iff in H2. destruct H2 as (y & E & H2). injection E as -> ->.
    rewrite in_upto in H1. apply in_seq in H2. lia.
  - intros H. exists i. split; [apply in_upto; lia|]. apply in_map_iff. exists j. split; [reflexivity|]. apply in_seq. lia.
Qed.
Lemma in_lower : forall n i j, In (i, j) (lower n) <-> j < i < n.
Proof.
  intros n i j. unfold lower. rewrite in_flat_map. split.
  - intros (x & H1 & H2). apply in_map_iff in H2. destruct H2 as (y & E & H2). injection E as -> ->.
    rewrite in_upto in H1, H2. lia.
  - intros H. exists i. split; [apply in_upto; lia|]. apply in_map_iff. exists j. split; [reflexivity|]. apply in_upto. lia.
Qed.
Lemma pair_inj : forall k a b a' b', b < k -> b' < k -> a * k + b = a' * k + b' -> a = a' /\ b = b'.
Proof.
  intros k a b a' b' H H' E.
  assert (a = a').
  { apply (f_equal (fun x => x / k)) in E. rewrite !Nat.div_add_l in E by lia. rewrite !Nat.div_small in E by lia. lia. }
  subst. lia.
Qed.
Lemma pair_inj' : forall k a b a' b', b < k -> b' < k -> k * a + b = k * a' + b' -> a = a' /\ b = b'.
Proof. intros k a b a' b' H H' E. apply (pair_inj k); [exact H|exact H'|lia]. Qed.
Lemma inside_ok : forall d z i j m n, z < d_z d -> i < d_l d -> j < d_l d -> m < d_s d -> n < d_s d ->
  inside d z (i * d_l d + j) (d_s d * n + m) = true.
Proof.
  intros d z i j m n Hz Hi Hj Hm Hn. unfold inside. rewrite !andb_true_iff, !Nat.ltb_lt. repeat split; nia.
Qed.

(** Value of element [m, n] of the pair (i, j), i <= j.  Specification or proof only; nothing in the code. *)
Definition elem (d : dims) (t : bool) (z i j m n : nat) : addr := (t, z, i * d_l d + j, d_s d * n + m).
Lemma elem_inj : forall d t z i j m n t' z' i' j' m' n',
  j < d_l d -> j' < d_l d -> m < d_s d -> m' < d_s d ->
  elem d t z i j m n = elem d t' z' i' j' m' n' -> t = t' /\ z = z' /\ i = i' /\ j = j' /\ m = m' /\ n = n'.
Proof.
  intros d t z i j m n t' z' i' j' m' n' H1 H2 H3 H4 E. unfold elem in E. injection E as -> -> E1 E2.
  apply pair_inj in E1; [|assumption|assumption]. apply pair_inj' in E2; [|assumption|assumption]. tauto.
Qed.

(** A loop over (m, n) writing one element each into one of the tables.
    Specification or proof only; nothing in the code. *)
Definition block (d : dims) (t : bool) (z i j : nat) (val : nat -> nat -> option R) (a : addr) : option (option R) :=
  writes_all (fun mn => one (elem d t z i j (fst mn) (snd mn)) (val (fst mn) (snd mn))) (square (d_s d)) a.
Lemma block_in : forall d t z i j val m n, j < d_l d -> m < d_s d -> n < d_s d ->
  block d t z i j val (elem d t z i j m n) = Some (val m n).
Proof.
  intros d t z i j val m n Hj Hm Hn. unfold block. apply writes_all_some.
  - exists (m, n). split; [apply in_square; tauto|]. apply one_some. tauto.
  - intros [m' n'] v' H E. apply in_square in H. apply one_some in E. destruct E as [E <-]. cbn [fst snd] in *.
    apply elem_inj in E; try tauto. destruct E as (_ & _ & _ & _ & -> & ->). reflexivity.
Qed.
Lemma block_out : forall d t z i j val a, (forall m n, m < d_s d -> n < d_s d -> a <> elem d t z i j m n) ->
  block d t z i j val a = None.
Proof.
  intros d t z i j val a H. unfold block. apply writes_all_none. intros [m n] Hw. apply in_square in Hw.
  apply one_none. apply H; tauto.
Qed.
Lemma block_elem_out : forall d t z i j val t' z' i' j' m n, j < d_l d -> j' < d_l d -> m < d_s d ->
  (t, z, i, j) <> (t', z', i', j') -> block d t z i j val (elem d t' z' i' j' m n) = None.
Proof.
  intros d t z i j val t' z' i' j' m n Hj Hj' Hm N. apply block_out. intros m' n' Hm' Hn' E.
  apply elem_inj in E; try assumption. destruct E as (-> & -> & -> & -> & _). congruence.
Qed.

Lemma nth_error_lt : forall T (l : list T) i, i < List.length l -> exists x, nth_error l i = Some x.
Proof.
  intros T l i H. destruct (nth_error l i) as [x|] eqn:E; [exists x; reflexivity|].
  apply nth_error_None in E. lia.
Qed.

Lemma for_list_ext : forall T S0 (l : list T) (f g : T -> S0 -> option S0), (forall x s, In x l -> f x s = g x s) ->
  forall s, for_list l f s = for_list l g s.
Proof.
  induction l as [|x r IH]; intros f g H s; [reflexivity|]. cbn [for_list]. rewrite H by (left; reflexivity).
  destruct (g x s); [|reflexivity]. apply IH. intros y s' Hy. apply H. right. exact Hy.
Qed.

Section Run.
Variables (X : cov_ext) (I : cov_in).
Let d := cov_dims I.
Let nl := d_l d. Let ns := d_s d.

(** What the loops write for i <= j: for P, and for P^2.  Specification or proof only; nothing in the code. *)
Definition up (t : bool) (z i j m n : nat) : option R :=
  let* l1 := nth_error (ci_ells I) i in let* l2 := nth_error (ci_ells I) j in
  let* r1 := nth_error (ci_sep I) m in let* r2 := nth_error (ci_sep I) n in
  let* sp := spectrum_of X I z in let '(p, p2, kmin, kmax) := sp in
  if ci_fftlog I then
    Some (if t then e_fft X 1 l1 l2 r1 r2 * (prefactor l1 l2 * 2 / PI / PI)
          else e_fft X 2 l1 l2 r1 r2 * (prefactor l1 l2 / PI / PI))%R
  else
    let* delta := integral_delta I z in
    if (if t then ci_mixed I else ci_cosmic I) then
      Some (if t then prefactor l1 l2 * cov_integral X p r1 r2 delta l1 l2 kmin kmax / PI
            else prefactor l1 l2 * cov_integral X p2 r1 r2 delta l1 l2 kmin kmax / 2 / PI)%R
    else None.

Definition readable : Prop :=
  (forall z, z < d_z d -> spectrum_of X I z <> None /\ (ci_fftlog I = false -> integral_delta I z <> None)).

(** One (i, j): the elements of both tables.  Specification or proof only; nothing in the code. *)
Definition pair_writes (z : nat) (ij : nat * nat) (a : addr) : option (option R) :=
  let on t := if ci_fftlog I then true else if t : bool then ci_mixed I else ci_cosmic I in
  match (if on false then block d false z (fst ij) (snd ij) (up false z (fst ij) (snd ij)) a else None) with
  | Some v => Some v
  | None => if on true then block d true z (fst ij) (snd ij) (up true z (fst ij) (snd ij)) a else None
  end.

Lemma write_loop : forall (t on : bool) z i j (f : nat -> nat -> option (option R)) (val : nat -> nat -> option R),
  z < d_z d -> i < d_l d -> j < d_l d ->
  (on = true -> forall m n, m < d_s d -> n < d_s d -> f m n = Some (val m n)) ->
  forall st, exists st',
  for_list (square (d_s d)) (fun mn st =>
    let (m, n) := mn in
    if on then
      let* v := f m n in
      let* a := set3 d (if t then fst st else snd st) z (i * d_l d + j) (d_s d * n + m) v in
      Some (if t then (a, snd st) else (fst st, a))
    else Some st) st = Some st'
  /\ forall a, view st' a = match (if on then block d t z i j val a else None) with Some v => v | None => view st a end.
Proof.
  intros t on z i j f val Hz Hi Hj Hf st. destruct on.
  - edestruct (loop_writes view (fun (mn : nat * nat) st =>
       let (m, n) := mn in
       let* v := f m n in
       let* a := set3 d (if t then fst st else snd st) z (i * d_l d + j) (d_s d * n + m) v in
       Some (if t then (a, snd st) else (fst st, a)))
       (fun mn => one (elem d t z i j (fst mn) (snd mn)) (val (fst mn) (snd mn))) (fun _ => True) (square (d_s d)))
      as (st' & E & _ & V); [|exact Logic.I|exists st'; split; [exact E|exact V]].
    intros [m n] s Hw _. apply in_square in Hw. destruct Hw as [Hm Hn]. rewrite Hf by (reflexivity || assumption).
    destruct (set3_view d t s z (i * d_l d + j) (d_s d * n + m) (val m n) (inside_ok d z i j m n Hz Hi Hj Hm Hn)) as (a & E & V).
    rewrite E. eexists. split; [reflexivity|]. split; [exact Logic.I|]. exact V.
  - exists st. split; [|reflexivity].
    assert (G : forall l : list (nat * nat), for_list l (fun mn st => let (m, n) := mn in Some st) st = Some st).
    { induction l as [|[m n] r IH]; [reflexivity|]. exact IH. }
    apply G.
Qed.

Lemma pair_step : readable -> forall z i j st, z < d_z d -> i <= j < d_l d ->
  exists st', (if ci_fftlog I then fft_pair else standard_pair) X I d z (i, j) st = Some st'
    /\ forall a, view st' a = match pair_writes z (i, j) a with Some v => v | None => view st a end.
Proof.
  intros Rd z i j st Hz Hij.
  destruct (nth_error_lt _ (ci_ells I) i) as [l1 E1]; [change (i < d_l d); lia|].
  destruct (nth_error_lt _ (ci_ells I) j) as [l2 E2]; [change (j < d_l d); lia|].
  destruct (Rd z Hz) as [R1 R2]. destruct (spectrum_of X I z) as [[[[p p2] kmin] kmax]|] eqn:SP; [|congruence].
  unfold pair_writes. cbn [fst snd].
  destruct (ci_fftlog I) eqn:F.
  - unfold fft_pair. rewrite E1, E2.
    set (f1 := fun m n : nat => let* r1 := nth_error (ci_sep I) m in let* r2 := nth_error (ci_sep I) n in
                Some (Some (e_fft X 1 l1 l2 r1 r2 * (prefactor l1 l2 * 2 / PI / PI))%R)).
    set (f2 := fun m n : nat => let* r1 := nth_error (ci_sep I) m in let* r2 := nth_error (ci_sep I) n in
                Some (Some (e_fft X 2 l1 l2 r1 r2 * (prefactor l1 l2 / PI / PI))%R)).
    destruct (write_loop true true z i j f1 (up true z i j) Hz ltac:(lia) ltac:(lia)) with (st := st) as (s1 & L1 & V1).
    { intros _ m n Hm Hn. unfold f1, up. rewrite E1, E2, SP, F.
      destruct (nth_error_lt _ (ci_sep I) m Hm) as [r1 ->]. destruct (nth_error_lt _ (ci_sep I) n Hn) as [r2 ->]. reflexivity. }
    destruct (write_loop false true z i j f2 (up false z i j) Hz ltac:(lia) ltac:(lia)) with (st := s1) as (s2 & L2 & V2).
    { intros _ m n Hm Hn. unfold f2, up. rewrite E1, E2, SP, F.
      destruct (nth_error_lt _ (ci_sep I) m Hm) as [r1 ->]. destruct (nth_error_lt _ (ci_sep I) n Hn) as [r2 ->]. reflexivity. }
    exists s2. split.
    + etransitivity; [|exact L2].
      rewrite (for_list_ext (nat * nat) (mem3 * mem3) (square (d_s d)) _ (fun (mn : nat * nat) (st : mem3 * mem3) => let (m, n) := mn in
         let* v := f1 m n in let* a := set3 d (fst st) z (i * d_l d + j) (d_s d * n + m) v in Some (a, snd st))).
      2:{ intros [m n] s _. unfold f1. destruct (nth_error (ci_sep I) m); [|reflexivity].
          destruct (nth_error (ci_sep I) n); reflexivity. }
      rewrite L1. apply for_list_ext. intros [m n] s _. unfold f2. destruct (nth_error (ci_sep I) m); [|reflexivity].
      destruct (nth_error (ci_sep I) n); reflexivity.
    + intros a. rewrite V2, V1. destruct (block d false z i j (up false z i j) a); reflexivity.
  - unfold standard_pair. rewrite E1, E2, SP.
    destruct (integral_delta I z) as [delta|] eqn:DL; [|specialize (R2 eq_refl); congruence].
    try rewrite DL.
    set (f1 := fun m n : nat => let* r1 := nth_error (ci_sep I) m in let* r2 := nth_error (ci_sep I) n in
                Some (Some (prefactor l1 l2 * cov_integral X p r1 r2 delta l1 l2 kmin kmax / PI)%R)).
    set (f2 := fun m n : nat => let* r1 := nth_error (ci_sep I) m in let* r2 := nth_error (ci_sep I) n in
                Some (Some (prefactor l1 l2 * cov_integral X p2 r1 r2 delta l1 l2 kmin kmax / 2 / PI)%R)).
    destruct (write_loop true (ci_mixed I) z i j f1 (up true z i j) Hz ltac:(lia) ltac:(lia)) with (st := st) as (s1 & L1 & V1).
    { intros On m n Hm Hn. unfold f1, up. rewrite E1, E2, SP, F, DL, On.
      destruct (nth_error_lt _ (ci_sep I) m Hm) as [r1 ->]. destruct (nth_error_lt _ (ci_sep I) n Hn) as [r2 ->]. reflexivity. }
    destruct (write_loop false (ci_cosmic I) z i j f2 (up false z i j) Hz ltac:(lia) ltac:(lia)) with (st := s1) as (s2 & L2 & V2).
    { intros On m n Hm Hn. unfold f2, up. rewrite E1, E2, SP, F, DL, On.
      destruct (nth_error_lt _ (ci_sep I) m Hm) as [r1 ->]. destruct (nth_error_lt _ (ci_sep I) n Hn) as [r2 ->]. reflexivity. }
    exists s2. split.
    + etransitivity; [|exact L2].
      rewrite (for_list_ext (nat * nat) (mem3 * mem3) (square (d_s d)) _ (fun (mn : nat * nat) (st : mem3 * mem3) => let (m, n) := mn in if ci_mixed I then
         let* v := f1 m n in let* a := set3 d (fst st) z (i * d_l d + j) (d_s d * n + m) v in Some (a, snd st)
         else Some st)).
      2:{ intros [m n] s _. unfold f1. destruct (nth_error (ci_sep I) m); [|reflexivity].
          destruct (nth_error (ci_sep I) n); reflexivity. }
      rewrite L1. apply for_list_ext. intros [m n] s _. unfold f2. destruct (nth_error (ci_sep I) m); [|reflexivity].
      destruct (nth_error (ci_sep I) n); reflexivity.
    + intros a. rewrite V2, V1. destruct (ci_cosmic I); [destruct (block d false z i j (up false z i j) a)|]; reflexivity.
Qed.

Definition on (t : bool) : bool := if ci_fftlog I then true else if t then ci_mixed I else ci_cosmic I.
Lemma pair_writes_in : forall t z i j m n, j < d_l d -> m < d_s d -> n < d_s d ->
  pair_writes z (i, j) (elem d t z i j m n) = if on t then Some (up t z i j m n) else None.
Proof.
  intros t z i j m n Hj Hm Hn. unfold pair_writes. fold (on false). fold (on true). cbn [fst snd].
  destruct t.
  - rewrite (block_elem_out d false z i j) by (assumption || congruence).
    rewrite block_in by assumption. destruct (on false), (on true); reflexivity.
  - rewrite block_in by assumption. rewrite (block_elem_out d true z i j) by (assumption || congruence).
    destruct (on false), (on true); reflexivity.
Qed.
Lemma pair_writes_out : forall z i j t z' i' j' m n, j < d_l d -> j' < d_l d -> m < d_s d ->
  (z, i, j) <> (z', i', j') -> pair_writes z (i, j) (elem d t z' i' j' m n) = None.
Proof.
  intros z i j t z' i' j' m n Hj Hj' Hm N. unfold pair_writes. fold (on false). fold (on true). cbn [fst snd].
  rewrite !block_elem_out by (assumption || congruence). destruct (on false), (on true); reflexivity.
Qed.

(** After the loops over redshifts and pairs with i <= j.  Specification or proof only; nothing in the code. *)
Definition fill_writes (a : addr) : option (option R) :=
  writes_all (fun z => writes_all (pair_writes z) (upper nl)) (upto (d_z d)) a.
Lemma fill_in : forall t z i j m n, z < d_z d -> i <= j < nl -> m < ns -> n < ns ->
  fill_writes (elem d t z i j m n) = if on t then Some (up t z i j m n) else None.
Proof.
  intros t z i j m n Hz Hij Hm Hn. unfold fill_writes.
  assert (In1 : writes_all (pair_writes z) (upper nl) (elem d t z i j m n) = if on t then Some (up t z i j m n) else None).
  { destruct (on t) eqn:O.
    - apply writes_all_some.
      + exists (i, j). split; [apply in_upper; exact Hij|]. rewrite pair_writes_in by (lia || assumption). rewrite O. reflexivity.
      + intros [i' j'] v' H E. apply in_upper in H.
        destruct (Nat.eq_dec i' i) as [->|Ni]; [destruct (Nat.eq_dec j' j) as [->|Nj]|].
        * rewrite pair_writes_in in E by (lia || assumption). rewrite O in E. congruence.
        * rewrite pair_writes_out in E by (lia || assumption || congruence). discriminate.
        * rewrite pair_writes_out in E by (lia || assumption || congruence). discriminate.
    - apply writes_all_none. intros [i' j'] H. apply in_upper in H.
      destruct (Nat.eq_dec i' i) as [->|Ni]; [destruct (Nat.eq_dec j' j) as [->|Nj]|].
      + rewrite pair_writes_in by (lia || assumption). rewrite O. reflexivity.
      + rewrite pair_writes_out by (lia || assumption || congruence). reflexivity.
      + rewrite pair_writes_out by (lia || assumption || congruence). reflexivity. }
  destruct (on t) eqn:O.
  - apply writes_all_some.
    + exists z. split; [apply in_upto; exact Hz|exact In1].
    + intros z' v' H E. destruct (Nat.eq_dec z' z) as [->|N]; [congruence|]. exfalso.
      rewrite writes_all_none in E; [discriminate|]. intros [i' j'] H'. apply in_upper in H'.
      apply pair_writes_out; try lia; try assumption; try congruence.
  - apply writes_all_none. intros z' H. destruct (Nat.eq_dec z' z) as [->|N]; [exact In1|].
    apply writes_all_none. intros [i' j'] H'. apply in_upper in H'.
    apply pair_writes_out; try lia; try assumption; try congruence.
Qed.

Lemma fill_step : readable -> exists st,
  for_list (upto (d_z d)) (fun z st =>
      let* sp := spectrum_of X I z in
      for_list (upper (d_l d)) ((if ci_fftlog I then fft_pair else standard_pair) X I d z) st) (empty3, empty3) = Some st
  /\ forall t z i j m n, z < d_z d -> i <= j < nl -> m < ns -> n < ns ->
       view st (elem d t z i j m n) = if on t then up t z i j m n else None.
Proof.
  intros Rd.
  destruct (loop_writes view (fun z st => let* sp := spectrum_of X I z in
      for_list (upper (d_l d)) ((if ci_fftlog I then fft_pair else standard_pair) X I d z) st)
      (fun z => writes_all (pair_writes z) (upper nl)) (fun _ => True) (upto (d_z d))) with (st := (empty3, empty3))
    as (st & E & _ & V); [|exact Logic.I|].
  - intros z s Hz _. apply in_upto in Hz. destruct (Rd z Hz) as [R1 _].
    destruct (spectrum_of X I z) as [sp|]; [|congruence].
    destruct (loop_writes view ((if ci_fftlog I then fft_pair else standard_pair) X I d z) (pair_writes z) (fun _ => True) (upper nl))
      with (st := s) as (s' & E & _ & V); [|exact Logic.I|exists s'; auto].
    intros [i j] s0 Hw _. apply in_upper in Hw. destruct (pair_step Rd z i j s0 Hz Hw) as (s' & E & V).
    exists s'. auto.
  - exists st. split; [exact E|]. intros t z i j m n Hz Hij Hm Hn. rewrite V.
    fold (fill_writes (elem d t z i j m n)). rewrite fill_in by assumption. destruct (on t); [reflexivity|].
    unfold elem, view. destruct t; reflexivity.
Qed.

(** The transpose.  Specification or proof only; nothing in the code. *)
Definition copied (st0 : mem3 * mem3) (z : nat) (ij : nat * nat) (a : addr) : option (option R) :=
  match block d false z (fst ij) (snd ij) (fun m n => view st0 (elem d false z (snd ij) (fst ij) n m)) a with
  | Some v => Some v
  | None => block d true z (fst ij) (snd ij) (fun m n => view st0 (elem d true z (snd ij) (fst ij) n m)) a
  end.
Definition upper_same (st0 st : mem3 * mem3) : Prop :=
  forall t z i j m n, z < d_z d -> i <= j < nl -> m < ns -> n < ns ->
    view st (elem d t z i j m n) = view st0 (elem d t z i j m n).
Lemma copied_in : forall st0 t z i j m n, j < nl -> m < ns -> n < ns ->
  copied st0 z (i, j) (elem d t z i j m n) = Some (view st0 (elem d t z j i n m)).
Proof.
  intros st0 t z i j m n Hj Hm Hn. unfold copied. cbn [fst snd]. destruct t.
  - rewrite (block_elem_out d false z i j) by (assumption || congruence). rewrite block_in by assumption. reflexivity.
  - rewrite block_in by assumption. reflexivity.
Qed.
Lemma copied_out : forall st0 z i j t z' i' j' m n, j < nl -> j' < nl -> m < ns ->
  (z, i, j) <> (z', i', j') -> copied st0 z (i, j) (elem d t z' i' j' m n) = None.
Proof.
  intros st0 z i j t z' i' j' m n Hj Hj' Hm N. unfold copied. cbn [fst snd].
  rewrite !block_elem_out by (assumption || congruence). reflexivity.
Qed.
Lemma copy_step : forall st0 z i j st, z < d_z d -> j < i < nl -> upper_same st0 st ->
  exists st', transpose_pair d z (i, j) st = Some st' /\ upper_same st0 st'
    /\ forall a, view st' a = match copied st0 z (i, j) a with Some v => v | None => view st a end.
Proof.
  intros st0 z i j st Hz Hij U. unfold transpose_pair.
  set (wr2 := fun (mn : nat * nat) (a : addr) =>
    match one (elem d false z i j (fst mn) (snd mn)) (view st0 (elem d false z j i (snd mn) (fst mn))) a with
    | Some v => Some v
    | None => one (elem d true z i j (fst mn) (snd mn)) (view st0 (elem d true z j i (snd mn) (fst mn))) a end).
  match goal with |- exists st', for_list _ ?b st = _ /\ _ =>
    destruct (loop_writes view b wr2 (upper_same st0) (square (d_s d))) with (st := st) as (st' & E & U' & V) end.
  - intros [m n] s Hw Us. apply in_square in Hw. destruct Hw as [Hm Hn]. unfold copy3, get3.
    assert (In1 : inside d z (j * d_l d + i) (d_s d * m + n) = true) by (apply inside_ok; (assumption || (unfold nl in *; lia))).
    rewrite In1.
    assert (In2 : inside d z (i * d_l d + j) (d_s d * n + m) = true) by (apply inside_ok; (assumption || (unfold nl in *; lia))).
    destruct (set3_view d true s z (i * d_l d + j) (d_s d * n + m) (fst s z (j * d_l d + i) (d_s d * m + n)) In2) as (a & Ea & Va).
    cbn iota in Ea. rewrite Ea.
    assert (In1' := In1). 
    destruct (set3_view d false (a, snd s) z (i * d_l d + j) (d_s d * n + m) (snd s z (j * d_l d + i) (d_s d * m + n)) In2) as (b & Eb & Vb).
    cbn [snd] in Eb. rewrite Eb. eexists. split; [reflexivity|].
    cbn [fst] in Vb.
    assert (Src1 : fst s z (j * d_l d + i) (d_s d * m + n) = view st0 (elem d true z j i n m)).
    { rewrite <- Us; [reflexivity|assumption|lia|assumption|assumption]. }
    assert (Src2 : snd s z (j * d_l d + i) (d_s d * m + n) = view st0 (elem d false z j i n m)).
    { rewrite <- Us; [reflexivity|assumption|lia|assumption|assumption]. }
    assert (VV : forall x, view (a, b) x = match wr2 (m, n) x with Some v => v | None => view s x end).
    { intros x. rewrite Vb. rewrite Src2. unfold wr2. cbn [fst snd]. fold (elem d false z i j m n).
      destruct (one (elem d false z i j m n) _ x); [reflexivity|].
      rewrite Va, Src1. reflexivity. }
    split; [|exact VV].
    intros t z' i' j' m' n' Hz' Hij' Hm' Hn'. rewrite VV. unfold wr2. cbn [fst snd].
    rewrite !one_none; [apply Us; assumption| |]; intros E; apply elem_inj in E; unfold nl, ns in *; try lia.
  - exact U.
  - exists st'. split; [exact E|]. split; [exact U'|]. intros a. rewrite V. unfold copied. cbn [fst snd].
    assert (W : forall l, (forall mn, In mn l -> In mn (square (d_s d))) ->
      match writes_all wr2 l a with Some v => Some v | None => None end =
      match writes_all (fun mn => one (elem d false z i j (fst mn) (snd mn)) (view st0 (elem d false z j i (snd mn) (fst mn)))) l a with
      | Some v => Some v
      | None => writes_all (fun mn => one (elem d true z i j (fst mn) (snd mn)) (view st0 (elem d true z j i (snd mn) (fst mn)))) l a end).
    { induction l as [|[m n] r IH]; intros Sub; [reflexivity|]. cbn [writes_all].
      specialize (IH (fun mn H => Sub mn (or_intror H))).
      destruct (writes_all wr2 r a) as [v|] eqn:W1.
      - destruct (writes_all (fun mn => one (elem d false z i j _ _) _) r a) as [v1|] eqn:W2; [exact IH|].
        rewrite <- IH. unfold one at 1. cbn [fst snd].
        destruct (addr_eqb a (elem d false z i j m n)) eqn:AE; [|reflexivity].
        apply addr_eqb_spec in AE. exfalso. subst a.
        assert (N : writes_all (fun mn => one (elem d true z i j (fst mn) (snd mn)) (view st0 (elem d true z j i (snd mn) (fst mn)))) r
                     (elem d false z i j m n) = None).
        { apply writes_all_none. intros [m1 n1] _. apply one_none. unfold elem. congruence. }
        rewrite N in IH. discriminate.
      - destruct (writes_all (fun mn => one (elem d false z i j _ _) _) r a) as [v1|]; [discriminate|].
        rewrite <- IH. unfold wr2. cbn [fst snd].
        destruct (one (elem d false z i j m n) _ a); [reflexivity|].
        destruct (one (elem d true z i j m n) _ a); reflexivity. }
    specialize (W (square (d_s d)) (fun mn H => H)). unfold block.
    destruct (writes_all wr2 (square (d_s d)) a) as [v|]; rewrite <- W; reflexivity.
Qed.

(** Both tables after the transpose.  Specification or proof only; nothing in the code. *)
Definition full (t : bool) (z i j m n : nat) : option R :=
  if on t then if i <=? j then up t z i j m n else up t z j i n m else None.

Lemma integrals_ok : readable -> exists st, all_integrals X I = Some st
  /\ forall t z i j m n, z < d_z d -> i < nl -> j < nl -> m < ns -> n < ns ->
       view st (elem d t z i j m n) = full t z i j m n.
Proof.
  intros Rd. destruct (fill_step Rd) as (s0 & E0 & V0). unfold all_integrals. cbv zeta. fold d. rewrite E0.
  destruct (loop_writes view (fun z st => for_list (lower (d_l d)) (transpose_pair d z) st)
      (fun z => writes_all (copied s0 z) (lower nl)) (upper_same s0) (upto (d_z d))) with (st := s0)
    as (st & E & U & V); [|intros ? **; reflexivity|].
  - intros z s Hz Us. apply in_upto in Hz.
    destruct (loop_writes view (transpose_pair d z) (copied s0 z) (upper_same s0) (lower nl)) with (st := s)
      as (s' & E & U' & V); [|exact Us|exists s'; auto].
    intros [i j] s1 Hw U1. apply in_lower in Hw. exact (copy_step s0 z i j s1 Hz Hw U1).
  - exists st. split; [exact E|]. intros t z i j m n Hz Hi Hj Hm Hn. unfold full.
    destruct (Nat.leb_spec i j) as [L|L].
    + rewrite U by (assumption || lia). apply V0; (assumption || lia).
    + rewrite V.
      assert (C : writes_all (fun z => writes_all (copied s0 z) (lower nl)) (upto (d_z d)) (elem d t z i j m n)
                  = Some (view s0 (elem d t z j i n m))).
      { apply writes_all_some.
        - exists z. split; [apply in_upto; exact Hz|]. apply writes_all_some.
          + exists (i, j). split; [apply in_lower; lia|]. apply copied_in; assumption.
          + intros [i' j'] v' H E1. apply in_lower in H.
            destruct (Nat.eq_dec i' i) as [->|Ni]; [destruct (Nat.eq_dec j' j) as [->|Nj]|].
            * rewrite copied_in in E1 by assumption. congruence.
            * rewrite copied_out in E1 by (lia || assumption || congruence). discriminate.
            * rewrite copied_out in E1 by (lia || assumption || congruence). discriminate.
        - intros z' v' H E1. destruct (Nat.eq_dec z' z) as [->|Nz].
          + assert (C2 : writes_all (copied s0 z) (lower nl) (elem d t z i j m n) = Some (view s0 (elem d t z j i n m))).
            { apply writes_all_some.
              - exists (i, j). split; [apply in_lower; lia|]. apply copied_in; assumption.
              - intros [i' j'] v'' H' E2. apply in_lower in H'.
                destruct (Nat.eq_dec i' i) as [->|Ni]; [destruct (Nat.eq_dec j' j) as [->|Nj]|].
                + rewrite copied_in in E2 by assumption. congruence.
                + rewrite copied_out in E2 by (lia || assumption || congruence). discriminate.
                + rewrite copied_out in E2 by (lia || assumption || congruence). discriminate. }
            congruence.
          + rewrite writes_all_none in E1; [discriminate|]. intros [i' j'] H'. apply in_lower in H'.
            apply copied_out; try lia; try assumption; try congruence. }
      rewrite C. rewrite V0 by (assumption || lia). reflexivity.
Qed.
End Run.

(** ** The passes that fill the output array *)
Lemma append_loop : forall W T (g : W -> option T) N l (vs : list T),
  (forall w, In w l -> g w <> None) -> List.length vs + List.length l <= N ->
  exists vs', for_list l (fun w vs => let* v := g w in if List.length vs <? N then Some (vs ++ [v]) else None) vs
              = Some (vs ++ vs') /\ map Some vs' = map g l.
Proof.
  intros W T g N. induction l as [|w r IH]; intros vs Hg Hn.
  - exists []. rewrite app_nil_r. split; reflexivity.
  - cbn [for_list List.length] in *. destruct (g w) as [v|] eqn:E; [|exfalso; apply (Hg w); [left; reflexivity|exact E]].
    destruct (Nat.ltb_spec (List.length vs) N) as [L|L]; [|lia].
    destruct (IH (vs ++ [v])) as (vs' & E1 & E2).
    + intros w' H. apply Hg. right. exact H.
    + rewrite app_length. cbn [List.length]. lia.
    + exists (v :: vs'). rewrite E1, <- app_assoc. split; [reflexivity|]. cbn [map]. rewrite E, E2. reflexivity.
Qed.
Lemma append_loops : forall W T (g : nat -> W -> option T) (pre : nat -> bool) N l (ks : list nat) (vs : list T),
  (forall k w, In k ks -> In w l -> g k w <> None) -> (forall k, In k ks -> pre k = true) ->
  List.length vs + List.length ks * List.length l <= N ->
  exists vs', for_list ks (fun k vs => if pre k then
      for_list l (fun w vs => let* v := g k w in if List.length vs <? N then Some (vs ++ [v]) else None) vs
      else None) vs
    = Some (vs ++ vs') /\ map Some vs' = map (fun kw => g (fst kw) (snd kw)) (list_prod ks l).
Proof.
  intros W T g pre N l. induction ks as [|k r IH]; intros vs Hg Hp Hn.
  - exists []. rewrite app_nil_r. split; reflexivity.
  - cbn [for_list List.length] in *. rewrite Hp by (left; reflexivity).
    destruct (append_loop W T (g k) N l vs) as (v1 & E1 & M1).
    + intros w Hw. apply Hg; [left; reflexivity|exact Hw].
    + lia.
    + rewrite E1. destruct (IH (vs ++ v1)) as (v2 & E2 & M2).
      * intros k' w H Hw. apply Hg; [right; exact H|exact Hw].
      * intros k' H. apply Hp. right. exact H.
      * rewrite app_length. apply (f_equal (@List.length _)) in M1. rewrite !map_length in M1. lia.
      * exists (v1 ++ v2). rewrite E2, <- app_assoc. split; [reflexivity|].
        rewrite map_app, M1, M2. cbn [list_prod]. rewrite map_app, map_map. reflexivity.
Qed.

Notation point := (nat * ((nat * nat) * (nat * nat)))%type.
(** Specification or proof only; nothing in the code. *)
Definition points (I : cov_in) : list point :=
  list_prod (upto (redshifts I)) (data_points (List.length (ci_ells I)) (List.length (ci_sep I))).
Lemma points_length : forall I, List.length (points I) = cov_size I.
Proof.
  intros I. unfold points, data_points, cov_size, upto. rewrite !prod_length, !seq_length. lia.
Qed.
Lemma in_points : forall I k i m j n, In (k, ((i, m), (j, n))) (points I) <->
  k < redshifts I /\ i < List.length (ci_ells I) /\ m < List.length (ci_sep I)
  /\ j < List.length (ci_ells I) /\ n < List.length (ci_sep I).
Proof.
  intros. unfold points, data_points. rewrite !in_prod_iff, !in_upto. tauto.
Qed.

(** The lists of the input have the lengths the Python layer insists on.
    Specification or proof only; nothing in the code. *)
Record shape_ok (I : cov_in) : Prop := {
  sh_n1 : List.length (ci_n1 I) = redshifts I;
  sh_n2 : List.length (ci_n2 I) = redshifts I;
  sh_fsky : List.length (ci_fsky I) = redshifts I;
  sh_pix : List.length (ci_pix I) = redshifts I;
  sh_zmax : ci_avg I = true -> List.length (ci_zmax I) = redshifts I;
  sh_deltaz : ci_avg I = false -> List.length (ci_deltaz I) = redshifts I;
  (* integrals are made for every z_mean *)
  sh_avg : ci_avg I = true -> ci_nonlinear I = true -> List.length (ci_zmean I) = redshifts I;
  sh_some : redshifts I <> 0;
  sh_bins : ci_fftlog I = true -> Nat.even (ci_bins I) = true
}.

(** Specification or proof only; nothing in the code. *)
Definition mixed_of (I : cov_in) (b : bin) (l1 l2 : Z) (v : R) : R :=
  (sgn (Z.quot (l2 - l1) 2) * sgn (l1 + l2)
   * (if ci_nonlinear I then 1 else ci_D1 I (b_z b) * ci_D1 I (b_z b))
   * v * mixed_sum I b l1 l2 / b_volume b)%R.
Definition cosmic_of (I : cov_in) (b : bin) (l1 l2 : Z) (v : R) : R :=
  (sgn (Z.quot (l2 - l1) 2)
   * (if ci_nonlinear I then 1
      else ci_D1 I (b_z b) * ci_D1 I (b_z b) * ci_D1 I (b_z b) * ci_D1 I (b_z b))
   * v * cosmic_sum I (b_z b) l1 l2 / b_volume b)%R.
(** The redshift number of the integrals for redshift number [k].
    Specification or proof only; nothing in the code. *)
Definition zi (I : cov_in) (k : nat) : nat := if ci_nonlinear I then k else 0.
Definition mixed_entry (X : cov_ext) (I : cov_in) (b : bin) (k i m j n : nat) (l1 l2 : Z) : option R :=
  if ci_mixed I then let* v := full X I true (zi I k) i j m n in Some (mixed_of I b l1 l2 v) else Some 0%R.
Definition cosmic_entry (X : cov_ext) (I : cov_in) (b : bin) (k i m j n : nat) (l1 l2 : Z) : option R :=
  if ci_cosmic I then let* v := full X I false (zi I k) i j m n in Some (cosmic_of I b l1 l2 v) else Some 0%R.
(** What the element (k, i, m, j, n) of the output holds.  Specification or proof only; nothing in the code. *)
Definition entry_at (X : cov_ext) (I : cov_in) (k i m j n : nat) : option R :=
  let* b := bin_of X I k in
  let* l1 := nth_error (ci_ells I) i in let* l2 := nth_error (ci_ells I) j in
  let* p := poisson_part I b k m n l1 l2 in
  let* x := mixed_entry X I b k i m j n l1 l2 in
  let* c := cosmic_entry X I b k i m j n l1 l2 in
  Some (p + x + c)%R.

Lemma zmean_len : forall I, shape_ok I -> ci_nonlinear I = true -> List.length (ci_zmean I) = redshifts I.
Proof.
  intros I S H. destruct (ci_avg I) eqn:A; [apply (sh_avg I S A H)|]. unfold redshifts. rewrite A. reflexivity.
Qed.
Lemma shape_dz : forall I, shape_ok I -> d_z (cov_dims I) = if ci_nonlinear I then redshifts I else 1.
Proof.
  intros I S. unfold cov_dims. cbn [d_z]. destruct (ci_nonlinear I) eqn:N; [apply zmean_len; assumption|reflexivity].
Qed.
Lemma shape_readable : forall X I, shape_ok I -> readable X I.
Proof.
  intros X I S z Hz. rewrite (shape_dz I S) in Hz. pose proof (sh_some I S). split.
  - unfold spectrum_of. destruct (ci_class I && ci_nonlinear I) eqn:C; [|discriminate].
    apply andb_true_iff in C. destruct C as [_ C]. rewrite C in Hz.
    destruct (nth_error_lt _ (ci_zmean I) z) as [r ->]; [rewrite zmean_len; assumption|discriminate].
  - intros _. unfold integral_delta. destruct (ci_window I); [|discriminate].
    destruct (nth_error_lt _ (ci_pix I) z) as [r ->]; [|discriminate].
    rewrite (sh_pix I S). destruct (ci_nonlinear I); lia.
Qed.
Lemma zi_lt : forall I k, shape_ok I -> k < redshifts I -> zi I k < d_z (cov_dims I).
Proof. intros I k S H. rewrite shape_dz by exact S. unfold zi. destruct (ci_nonlinear I); lia. Qed.
Lemma zi_redshift : forall I k, shape_ok I -> k < redshifts I -> zi I k < redshifts I.
Proof. intros I k S H. unfold zi. destruct (ci_nonlinear I); lia. Qed.

Lemma bin_some : forall X I k, shape_ok I -> k < redshifts I -> exists b, bin_of X I k = Some b.
Proof.
  intros X I k S H. unfold bin_of.
  destruct (nth_error_lt _ (ci_n1 I) k) as [n1 ->]; [rewrite sh_n1 by assumption; exact H|].
  destruct (nth_error_lt _ (ci_n2 I) k) as [n2 ->]; [rewrite sh_n2 by assumption; exact H|].
  destruct (nth_error_lt _ (ci_fsky I) k) as [f ->]; [rewrite sh_fsky by assumption; exact H|].
  destruct (ci_avg I) eqn:A.
  - destruct (nth_error_lt _ (ci_zmin I) k) as [z1 ->]; [unfold redshifts in H; rewrite A in H; exact H|].
    destruct (nth_error_lt _ (ci_zmax I) k) as [z2 ->]; [rewrite (sh_zmax I S A); exact H|]. eexists. reflexivity.
  - destruct (nth_error_lt _ (ci_zmean I) k) as [z1 ->]; [unfold redshifts in H; rewrite A in H; exact H|].
    destruct (nth_error_lt _ (ci_deltaz I) k) as [z2 ->]; [rewrite (sh_deltaz I S A); exact H|]. eexists. reflexivity.
Qed.
Lemma up_some : forall X I t z i j m n, readable X I -> on I t = true -> z < d_z (cov_dims I) ->
  i < List.length (ci_ells I) -> j < List.length (ci_ells I) -> m < List.length (ci_sep I) -> n < List.length (ci_sep I) ->
  exists v, up X I t z i j m n = Some v.
Proof.
  intros X I t z i j m n Rd O Hz Hi Hj Hm Hn. unfold up.
  destruct (nth_error_lt _ _ _ Hi) as [l1 ->]. destruct (nth_error_lt _ _ _ Hj) as [l2 ->].
  destruct (nth_error_lt _ _ _ Hm) as [r1 ->]. destruct (nth_error_lt _ _ _ Hn) as [r2 ->].
  destruct (Rd z Hz) as [R1 R2]. destruct (spectrum_of X I z) as [[[[p p2] kmin] kmax]|]; [|congruence].
  unfold on in O. destruct (ci_fftlog I); [eexists; reflexivity|].
  destruct (integral_delta I z); [|specialize (R2 eq_refl); congruence]. rewrite O. eexists. reflexivity.
Qed.
Lemma full_some : forall X I t z i j m n, readable X I -> on I t = true -> z < d_z (cov_dims I) ->
  i < List.length (ci_ells I) -> j < List.length (ci_ells I) -> m < List.length (ci_sep I) -> n < List.length (ci_sep I) ->
  exists v, full X I t z i j m n = Some v.
Proof.
  intros X I t z i j m n Rd O Hz Hi Hj Hm Hn. unfold full. rewrite O.
  destruct (i <=? j); apply up_some; assumption.
Qed.
Lemma on_mixed : forall I, ci_mixed I = true -> on I true = true.
Proof. intros I H. unfold on. destruct (ci_fftlog I); [reflexivity|exact H]. Qed.
Lemma on_cosmic : forall I, ci_cosmic I = true -> on I false = true.
Proof. intros I H. unfold on. destruct (ci_fftlog I); [reflexivity|exact H]. Qed.
Lemma poisson_some : forall I b k m n l1 l2, shape_ok I -> k < redshifts I -> m < List.length (ci_sep I) ->
  n < List.length (ci_sep I) -> exists v, poisson_part I b k m n l1 l2 = Some v.
Proof.
  intros I b k m n l1 l2 S Hk Hm Hn. unfold poisson_part. destruct (ci_poisson I); [|eexists; reflexivity].
  destruct (nth_error_lt _ (ci_pix I) k) as [p ->]; [rewrite sh_pix by assumption; exact Hk|].
  destruct (nth_error_lt _ _ _ Hm) as [r1 ->]. destruct (nth_error_lt _ _ _ Hn) as [r2 ->]. eexists. reflexivity.
Qed.
Lemma mixed_some : forall X I b k i m j n l1 l2, shape_ok I -> In (k, ((i, m), (j, n))) (points I) ->
  exists v, mixed_entry X I b k i m j n l1 l2 = Some v.
Proof.
  intros X I b k i m j n l1 l2 S H. apply in_points in H. destruct H as (Hk & Hi & Hm & Hj & Hn). unfold mixed_entry.
  destruct (ci_mixed I) eqn:M; [|eexists; reflexivity].
  destruct (full_some X I true (zi I k) i j m n (shape_readable X I S) (on_mixed I M) (zi_lt I k S Hk) Hi Hj Hm Hn) as [v ->].
  eexists. reflexivity.
Qed.
Lemma cosmic_some : forall X I b k i m j n l1 l2, shape_ok I -> In (k, ((i, m), (j, n))) (points I) ->
  exists v, cosmic_entry X I b k i m j n l1 l2 = Some v.
Proof.
  intros X I b k i m j n l1 l2 S H. apply in_points in H. destruct H as (Hk & Hi & Hm & Hj & Hn). unfold cosmic_entry.
  destruct (ci_cosmic I) eqn:M; [|eexists; reflexivity].
  destruct (full_some X I false (zi I k) i j m n (shape_readable X I S) (on_cosmic I M) (zi_lt I k S Hk) Hi Hj Hm Hn) as [v ->].
  eexists. reflexivity.
Qed.
Lemma entry_some : forall X I k i m j n, shape_ok I -> In (k, ((i, m), (j, n))) (points I) ->
  exists v, entry_at X I k i m j n = Some v.
Proof.
  intros X I k i m j n S H. pose proof H as H0. apply in_points in H0. destruct H0 as (Hk & Hi & Hm & Hj & Hn).
  unfold entry_at. destruct (bin_some X I k S Hk) as [b ->].
  destruct (nth_error_lt _ _ _ Hi) as [l1 ->]. destruct (nth_error_lt _ _ _ Hj) as [l2 ->].
  destruct (poisson_some I b k m n l1 l2 S Hk Hm Hn) as [p ->].
  destruct (mixed_some X I b k i m j n l1 l2 S H) as [x ->].
  destruct (cosmic_some X I b k i m j n l1 l2 S H) as [c ->]. eexists. reflexivity.
Qed.
Lemma coord_some : forall I k i m j n, shape_ok I -> In (k, ((i, m), (j, n))) (points I) ->
  exists c, coord_of I k i m j n = Some c.
Proof.
  intros I k i m j n S H. apply in_points in H. destruct H as (Hk & Hi & Hm & Hj & Hn). unfold coord_of.
  pose proof Hk as Hk'. unfold redshifts in Hk'.
  assert (Hz2 : k < List.length (if ci_avg I then ci_zmax I else ci_zmean I)).
  { destruct (ci_avg I) eqn:A; [rewrite (sh_zmax I S A); exact Hk|exact Hk']. }
  destruct (nth_error_lt _ _ _ Hk') as [z1 ->]. destruct (nth_error_lt _ _ _ Hz2) as [z2 ->].
  destruct (nth_error_lt _ _ _ Hi) as [l1 ->]. destruct (nth_error_lt _ _ _ Hj) as [l2 ->].
  destruct (nth_error_lt _ _ _ Hm) as [r1 ->]. destruct (nth_error_lt _ _ _ Hn) as [r2 ->]. eexists. reflexivity.
Qed.

Lemma map_some_nth : forall T (l : list T) (l' : list (option T)) i, map Some l = l' ->
  nth_error l i = match nth_error l' i with Some o => o | None => None end.
Proof.
  intros T l l' i <-. rewrite nth_error_map. destruct (nth_error l i); reflexivity.
Qed.
Lemma assemble_ok : forall W (ps : list W) (gc : W -> option ccoord) (gv : W -> option R) size cs vs,
  List.length ps = size -> map Some cs = map gc ps -> map Some vs = map gv ps ->
  assemble size cs vs = map (fun w => (gc w, gv w)) ps.
Proof.
  intros W ps gc gv size cs vs <- Hc Hv. unfold assemble, upto.
  assert (G : forall p, map (fun i => (nth_error cs i, nth_error vs i)) (seq p (List.length ps - p))
              = map (fun w => (gc w, gv w)) (skipn p ps)).
  { intros p. remember (List.length ps - p) as k eqn:K. revert p K. induction k as [|k IH]; intros p K.
    - cbn. rewrite skipn_all2 by lia. reflexivity.
    - assert (L : p < List.length ps) by lia. destruct (nth_error_lt _ ps p L) as [w Ew].
      cbn [seq map]. rewrite IH by lia.
      rewrite (map_some_nth _ _ _ p Hc), (map_some_nth _ _ _ p Hv), !nth_error_map, Ew. cbn [option_map].
      assert (Sk : skipn p ps = w :: skipn (S p) ps).
      { clear -Ew. revert ps Ew. induction p as [|p IH]; intros [|x ps] E; try discriminate.
        - cbn in *. congruence.
        - cbn [nth_error] in E. cbn [skipn]. apply IH. exact E. }
      rewrite Sk. reflexivity. }
  specialize (G 0). rewrite Nat.sub_0_r in G. cbn [skipn] in G. exact G.
Qed.

Definition cell_at (X : cov_ext) (I : cov_in) (p : point) : cell :=
  let '(k, ((i, m), (j, n))) := p in (coord_of I k i m j n, entry_at X I k i m j n).

(** A run on well-shaped input: one element per point, in the order of the loops. *)
Theorem run_ok : forall X I, shape_ok I ->
  covariance_init X I = Done (map (cell_at X I) (points I)).
Proof.
  intros X I S. unfold covariance_init. cbv zeta.
  assert (Ev : ci_fftlog I && Nat.odd (ci_bins I) = false).
  { destruct (ci_fftlog I) eqn:F; [|reflexivity]. cbn [andb]. rewrite <- Nat.negb_even, (sh_bins I S F). reflexivity. }
  rewrite Ev. cbn [andb].
  destruct (integrals_ok X I (shape_readable X I S)) as (st & -> & V).
  assert (VP : forall k i m j n, In (k, ((i, m), (j, n))) (points I) ->
                cov_value X I (cov_dims I) st k i m j n = entry_at X I k i m j n).
  { intros k i m j n H. pose proof H as H0. apply in_points in H0. destruct H0 as (Hk & Hi & Hm & Hj & Hn).
    unfold cov_value, entry_at. destruct (bin_of X I k) as [b|]; [|reflexivity].
    destruct (nth_error (ci_ells I) i) as [l1|]; [|reflexivity]. destruct (nth_error (ci_ells I) j) as [l2|]; [|reflexivity].
    destruct (poisson_part I b k m n l1 l2); [|reflexivity].
    assert (Rd : forall t : bool, rd3 (cov_dims I) (if t then fst st else snd st) (zi I k)
        (i * d_l (cov_dims I) + j) (d_s (cov_dims I) * n + m) = full X I t (zi I k) i j m n).
    { intros t. rewrite <- V; try assumption; [|apply zi_lt; assumption].
      unfold rd3, get3. rewrite inside_ok; [reflexivity|apply zi_lt; assumption|exact Hi|exact Hj|exact Hm|exact Hn]. }
    unfold mixed_part, cosmic_part, mixed_entry, cosmic_entry. fold (zi I k).
    rewrite (Rd true), (Rd false). reflexivity. }
  assert (A : exists vs, value_pass X I st = Some vs /\ map Some vs
     = map (fun p : point => let '(k, ((i, m), (j, n))) := p in entry_at X I k i m j n) (points I)).
  { unfold value_pass. cbv zeta. rewrite (sh_n1 I S).
    destruct (append_loops _ R (fun k (w : (nat * nat) * (nat * nat)) => let '((i, m), (j, n)) := w in cov_value X I (cov_dims I) st k i m j n)
        (fun k => match bin_of X I k with Some _ => true | None => false end) (cov_size I)
        (data_points (d_l (cov_dims I)) (d_s (cov_dims I))) (upto (redshifts I)) []) as (vs & E & M).
    - intros k [[i m] [j n]] Hk Hw.
      assert (P : In (k, ((i, m), (j, n))) (points I)) by (apply in_prod; assumption).
      rewrite VP by exact P. destruct (entry_some X I k i m j n S P) as [v ->]. discriminate.
    - intros k Hk. apply in_upto in Hk. destruct (bin_some X I k S Hk) as [b ->]. reflexivity.
    - rewrite <- points_length. unfold points. rewrite prod_length. cbn [List.length]. apply le_n.
    - exists vs. split.
      + rewrite app_nil_l in E. rewrite <- E. apply for_list_ext. intros k s _.
        destruct (bin_of X I k); [|reflexivity]. apply for_list_ext. intros [[i m] [j n]] s' _. reflexivity.
      + rewrite M. apply map_ext_in. intros [k [[i m] [j n]]] H. cbn [fst snd]. apply VP. exact H. }
  assert (B : exists cs, coord_pass I = Some cs /\ map Some cs
     = map (fun p : point => let '(k, ((i, m), (j, n))) := p in coord_of I k i m j n) (points I)).
  { unfold coord_pass.
    destruct (append_loops _ ccoord (fun k (w : (nat * nat) * (nat * nat)) => let '((i, m), (j, n)) := w in coord_of I k i m j n)
        (fun k => true) (cov_size I)
        (data_points (List.length (ci_ells I)) (List.length (ci_sep I))) (upto (redshifts I)) []) as (vs & E & M).
    - intros k [[i m] [j n]] Hk Hw.
      assert (P : In (k, ((i, m), (j, n))) (points I)) by (apply in_prod; assumption).
      destruct (coord_some I k i m j n S P) as [v ->]. discriminate.
    - reflexivity.
    - rewrite <- points_length. unfold points. rewrite prod_length. cbn [List.length]. apply le_n.
    - exists vs. split.
      + rewrite app_nil_l in E. rewrite <- E. apply for_list_ext. intros k s _.
        apply for_list_ext. intros [[i m] [j n]] s' _. reflexivity.
      + rewrite M. apply map_ext. intros [k [[i m] [j n]]]. reflexivity. }
  destruct A as (vs & -> & Mv). destruct B as (cs & -> & Mc).
  f_equal. rewrite (assemble_ok _ (points I) _ _ (cov_size I) cs vs (points_length I) Mc Mv).
  apply map_ext. intros [k [[i m] [j n]]]. reflexivity.
Qed.

(** Where the element (k, i, m, j, n) is.  Specification or proof only; nothing in the code. *)
Definition position (nl ns k i m j n : nat) : nat := (((k * nl + i) * ns + m) * nl + j) * ns + n.
Lemma nth_prod : forall A B (l : list A) (l' : list B) a b x y,
  nth_error l a = Some x -> nth_error l' b = Some y -> nth_error (list_prod l l') (a * List.length l' + b) = Some (x, y).
Proof.
  induction l as [|z l IH]; intros l' a b x y Ha Hb; [destruct a; discriminate|].
  assert (Lb : b < List.length l') by (apply nth_error_Some; congruence).
  cbn [list_prod]. destruct a as [|a].
  - cbn in Ha. injection Ha as ->. cbn [Nat.mul Nat.add].
    rewrite nth_error_app1 by (rewrite map_length; exact Lb). rewrite nth_error_map, Hb. reflexivity.
  - cbn [nth_error] in Ha. rewrite nth_error_app2 by (rewrite map_length; nia).
    rewrite map_length. replace (S a * List.length l' + b - List.length l') with (a * List.length l' + b) by nia.
    apply IH; assumption.
Qed.
Lemma nth_upto : forall n i, i < n -> nth_error (upto n) i = Some i.
Proof.
  intros n i H. unfold upto. rewrite (nth_error_nth' _ 0) by (rewrite seq_length; exact H). rewrite seq_nth by exact H. reflexivity.
Qed.
Lemma nth_points : forall I k i m j n, In (k, ((i, m), (j, n))) (points I) ->
  nth_error (points I) (position (List.length (ci_ells I)) (List.length (ci_sep I)) k i m j n) = Some (k, ((i, m), (j, n))).
Proof.
  intros I k i m j n H. apply in_points in H. destruct H as (Hk & Hi & Hm & Hj & Hn).
  set (nl := List.length (ci_ells I)) in *. set (ns := List.length (ci_sep I)) in *.
  unfold points. fold nl ns.
  assert (E2 : nth_error (list_prod (upto nl) (upto ns)) (j * ns + n) = Some (j, n)).
  { pose proof (nth_prod _ _ (upto nl) (upto ns) j n j n (nth_upto _ _ Hj) (nth_upto _ _ Hn)) as E.
    unfold upto in E at 3. rewrite seq_length in E. exact E. }
  assert (E1 : nth_error (list_prod (upto nl) (upto ns)) (i * ns + m) = Some (i, m)).
  { pose proof (nth_prod _ _ (upto nl) (upto ns) i m i m (nth_upto _ _ Hi) (nth_upto _ _ Hm)) as E.
    unfold upto in E at 3. rewrite seq_length in E. exact E. }
  assert (L : List.length (list_prod (upto nl) (upto ns)) = nl * ns) by (unfold upto; rewrite prod_length, !seq_length; reflexivity).
  pose proof (nth_prod _ _ _ _ _ _ _ _ E1 E2) as E3. rewrite L in E3.
  pose proof (nth_prod _ _ _ _ _ _ _ _ (nth_upto _ _ Hk) E3) as E4.
  rewrite prod_length, L in E4. unfold data_points. rewrite <- E4. f_equal. unfold position. nia.
Qed.
