(** * The operations of the memory model keep the ownership invariant *)
From Coq Require Import Arith Bool List Lia.
From Verif Require Import Memory MemoryLemmas.
Import ListNotations.

(** ** Integrals *)
(** Specification or proof only; nothing in the code. *)
Definition of_ints (s : slot) : Prop := s = Ints \/ exists i p, s = Int i p.
Lemma int_drop i p m : Ready m -> i < cnt m NInts -> p < 10 ->
  free_null (Int i p) m = Some (drop (Int i p) m) /\ Ready (drop (Int i p) m) /\ (Tidy m -> Tidy (drop (Int i p) m)).
Proof.
  intros [G R] L L'. assert (O : ptr m (Int i p) <> None -> open m (Int i p)) by (intros N; split; [exact L'|split; [exact L|exact N]]).
  split; [apply free_null_drop; auto|]. split; [|intros T; now apply tidy_dropped].
  split; [apply good_dropped; eauto|now rewrite drop_cnt].
Qed.
Lemma int_drops i l : forall m, Ready m -> i < cnt m NInts -> (forall p, In p l -> p < 10) -> exists m',
  each l (fun p => free_null (Int i p)) m = Some m' /\ Ready m' /\ (Tidy m -> Tidy m') /\
  (forall c, cnt m' c = cnt m c) /\ (forall s, ptr m' s = ptr m s \/ ptr m' s = None) /\
  (forall s, ~ of_ints s -> ptr m' s = ptr m s) /\ ptr m' Ints = ptr m Ints /\
  (forall p, In p l -> ptr m' (Int i p) = None).
Proof.
  induction l as [|p l IH]; intros m R L H; cbn [each].
  { exists m; unfold skip; repeat split; auto; try apply R; intros p []. }
  destruct (int_drop i p m R L (H p (or_introl eq_refl))) as (E1 & R1 & T1); rewrite E1.
  destruct (IH (drop (Int i p) m) R1) as (m' & E & R' & T' & C & N & F & FI & Z).
  { now rewrite drop_cnt. }
  { intros q Q; apply H; now right. }
  exists m'; split; [exact E|]. split; [exact R'|]. split; [auto|]. split; [intros c; rewrite C; apply drop_cnt|].
  assert (D : forall s, ptr (drop (Int i p) m) s = ptr m s \/ ptr (drop (Int i p) m) s = None).
  { intros s; rewrite drop_ptr; destruct (slot_beq (Int i p) s); auto. }
  split; [intros s; destruct (N s) as [X|X]; [rewrite X; apply D|now right]|].
  split; [intros s Q; rewrite F by exact Q; rewrite drop_ptr, sbeq_no; [reflexivity|intros <-; apply Q; right; eauto]|].
  split; [rewrite FI, drop_ptr, sbeq_no; [reflexivity|discriminate]|].
  intros q [<-|Q]; [|auto]. destruct (N (Int i p)) as [X|X]; [rewrite X, drop_ptr, sbeq_refl; reflexivity|exact X].
Qed.
Lemma ints_loop l : forall m, Ready m -> (forall i, In i l -> i < cnt m NInts) -> exists m',
  each l (fun i => touch Ints ;; each (seq 0 10) (fun p => free_null (Int i p))) m = Some m' /\ Ready m' /\ (Tidy m -> Tidy m') /\
  (forall c, cnt m' c = cnt m c) /\ (forall s, ptr m' s = ptr m s \/ ptr m' s = None) /\
  (forall s, ~ of_ints s -> ptr m' s = ptr m s) /\
  (forall i p, In i l -> p < 10 -> ptr m' (Int i p) = None).
Proof.
  induction l as [|i l IH]; intros m R H; cbn [each].
  { exists m; unfold skip; repeat split; auto; try apply R; intros i p []. }
  assert (L : i < cnt m NInts) by (apply H; now left).
  rewrite touch_open; [|apply R|split; [exact I|lia]].
  destruct (int_drops i (seq 0 10) m R L) as (m1 & E1 & R1 & T1 & C1 & N1 & F1 & FI1 & Z1).
  { intros p P; apply in_seq in P; lia. }
  change (each (seq 0 10) (fun p => free_null (Int i p)) m) with
    (each (seq 0 10) (fun p => free_null (Int i p)) m) in E1. rewrite E1.
  destruct (IH m1 R1) as (m' & E & R' & T' & C & N & F & Z).
  { intros j J; rewrite C1; apply H; now right. }
  exists m'; split; [exact E|]. split; [exact R'|]. split; [auto|]. split; [intros c; rewrite C; apply C1|].
  split; [intros s; destruct (N s) as [X|X]; [rewrite X; apply N1|now right]|].
  split; [intros s Q; rewrite F, F1; auto|].
  intros j p [<-|J] P; [|auto]. destruct (N (Int i p)) as [X|X]; [rewrite X; apply Z1, in_seq; lia|exact X].
Qed.
Lemma does_integrals_free : does integrals_free always (fun m m' => keeps of_ints (eq NInts) m m' /\ cnt m' NInts = 0).
Proof.
  intros m R. unfold integrals_free, when, pure.
  assert (FIN : forall m1 O, GoodO O m1 -> (forall s, ~ of_ints s -> (O s <-> open m1 s)) ->
    let m2 := set_ptr Ints None (set_cnt NInts 0 m1) in
    cnt m1 NPar <> 0 -> Ready m2 /\ (TidyO O m1 -> (forall s, of_ints s -> ~ O s) -> Tidy m2)).
  { intros m1 O G1 H m2 NP.
    assert (X : forall s, of_ints s -> ~ open m2 s).
    { unfold m2; intros s [->|(i & p & ->)] [_ Y]; cbn -[counter_beq] in Y; rewrite cbeq_refl in Y; [congruence|lia]. }
    assert (Y : forall s, ~ of_ints s -> (open m2 s <-> open m1 s) /\ ptr m2 s = ptr m1 s).
    { intros s N. assert (E : ptr m2 s = ptr m1 s).
      { unfold m2; rewrite ptr_set, sbeq_no; [reflexivity|]. intros <-; apply N; now left. }
      split; [|exact E]. apply (open_set NInts m1 m2 s E); [intros d D; unfold m2; change (cnt (set_ptr Ints None (set_cnt NInts 0 m1)) d) with (cnt (set_cnt NInts 0 m1) d); now rewrite cnt_set_no by exact D|exact N]. }
    split; [split|].
    - apply (goodO_ext O _ m1 _ G1); auto. intros t T. assert (N : ~ of_ints t) by (intros Q; exact (X t Q T)).
      split; [apply H; [exact N|now apply Y]|apply Y, N].
    - exact NP.
    - intros T Z. apply (tidyO_ext O (open m2) m1 m2 T); auto. intros t U. assert (N : ~ of_ints t) by (intros Q; exact (Z t Q U)).
      split; [apply Y; [exact N|]; apply H; auto|apply Y, N]. }
  destruct (counted NInts m) eqn:Q.
  - apply counted_true in Q.
    destruct (ints_loop (seq 0 (cnt m NInts)) m R) as (m1 & E1 & R1 & T1 & C1 & N1 & F1 & Z1).
    { intros i J; apply in_seq in J; lia. }
    rewrite E1. destruct (goodO_release (open m1) m1 Ints (proj1 R1)) as (m2 & E2 & P2 & C2 & G2 & T2); [split; [exact I|rewrite C1; exact Q]|].
    rewrite E2. destruct (FIN m2 _ G2) as [A B].
    { intros s N. assert (s <> Ints) by (intros ->; apply N; now left). rewrite (open_ext m1 m2 s (P2 s) C2). tauto. }
    { rewrite C2, C1; apply R. }
    eexists; split; [reflexivity|]. split; [exact A|]. split.
    + intros _ T; apply B; [apply T2, T1, T|]. intros s [->|(i & p & ->)] [U V]; [congruence|].
      destruct U as (U1 & U2 & U3). apply U3, Z1; [apply in_seq; rewrite C1 in U2; lia|exact U1].
    + split; [split|].
      * intros s N; rewrite ptr_set, sbeq_no by (intros <-; apply N; now left). rewrite ptr_cnt, P2. apply F1, N.
      * intros c N; change (cnt (set_ptr Ints None (set_cnt NInts 0 m2)) c) with (cnt (set_cnt NInts 0 m2) c). rewrite cnt_set_no by auto. rewrite C2; apply C1.
      * apply cnt_set_yes.
  - apply counted_false in Q. destruct (FIN m (open m) (proj1 R)) as [A B]; [tauto|apply R|].
    eexists; split; [reflexivity|]. split; [exact A|]. split.
    + intros _ T; apply B; [exact T|]. intros s [->|(i & p & ->)] [U V]; lia.
    + split; [split|].
      * intros s N; rewrite ptr_set, sbeq_no by (intros <-; apply N; now left). reflexivity.
      * intros c N; change (cnt (set_ptr Ints None (set_cnt NInts 0 m)) c) with (cnt (set_cnt NInts 0 m) c). now rewrite cnt_set_no by auto.
      * apply cnt_set_yes.
Qed.

Lemma nulls n l : forall m, exists m', each l (fun p => pure (set_ptr (Int n p) None)) m = Some m' /\
  live m' = live m /\ next m' = next m /\ (forall c, cnt m' c = cnt m c) /\
  (forall s, (forall p, s <> Int n p) -> ptr m' s = ptr m s) /\ (forall p, In p l -> ptr m' (Int n p) = None) /\
  (forall s, ptr m' s = ptr m s \/ ptr m' s = None).
Proof.
  induction l as [|p l IH]; intros m; cbn [each].
  { exists m; unfold skip; repeat split; auto; intros p []. }
  unfold pure at 1. destruct (IH (set_ptr (Int n p) None m)) as (m' & E & L & X & C & F & Z & A).
  exists m'; split; [exact E|]. split; [rewrite L; reflexivity|]. split; [rewrite X; reflexivity|]. split; [intros c; rewrite C; reflexivity|].
  split; [intros s N; rewrite F by exact N; rewrite ptr_set, sbeq_no; [reflexivity|apply not_eq_sym, N]|].
  split.
  - intros q [<-|Q]; [|auto]. destruct (A (Int n p)) as [Y|Y]; [rewrite Y, ptr_set, sbeq_refl; reflexivity|exact Y].
  - intros s; destruct (A s) as [Y|Y]; [rewrite Y, ptr_set; destruct (slot_beq (Int n p) s); auto|now right].
Qed.
Lemma does_add_integral : does add_integral always (fun m m' =>
  keeps (fun s => s = Ints \/ exists p, s = Int (cnt m NInts) p) (eq NInts) m m' /\ cnt m' NInts = S (cnt m NInts) /\
  forall p, p < 10 -> ptr m' (Int (cnt m NInts) p) = None).
Proof.
  intros m R. unfold add_integral.
  assert (H : exists m1, (if Nat.eqb (cnt m NInts) 0 then Some (alloc Ints m)
            else match release Ints m with Some m' => Some (alloc Ints m') | None => None end) = Some m1 /\
    (forall c, cnt m1 c = cnt m c) /\ (forall s, s <> Ints -> ptr m1 s = ptr m s) /\
    GoodO (fun t => t = Ints \/ open m t) m1 /\ (Tidy m -> TidyO (fun t => t = Ints \/ open m t) m1)).
  { destruct (Nat.eqb_spec (cnt m NInts) 0) as [Z|Z].
    - exists (alloc Ints m). split; [reflexivity|]. split; [reflexivity|]. split; [intros s N; rewrite ptr_alloc, sbeq_no; auto|].
      split; [apply goodO_alloc, R|]. intros T; apply tidyO_alloc; [exact T|]. intros [_ X]; auto.
    - destruct (goodO_release (open m) m Ints (proj1 R)) as (m1 & E1 & P1 & C1 & G1 & T1); [split; [exact I|exact Z]|].
      rewrite E1. exists (alloc Ints m1). split; [reflexivity|]. split; [exact C1|].
      split; [intros s N; rewrite ptr_alloc, sbeq_no by auto; apply P1|]. split.
      + apply (goodO_ext (fun t => t = Ints \/ (open m t /\ t <> Ints)) _ (alloc Ints m1)); auto; [now apply goodO_alloc|].
        intros t [->|T]; [split; auto|]. destruct (slot_eq_dec t Ints); split; auto.
      + intros T. apply (tidyO_ext (fun t => t = Ints \/ (open m t /\ t <> Ints)) _ (alloc Ints m1) _); auto; [|intros t [->|[U V]]; auto].
        apply tidyO_alloc; [apply T1, T|tauto]. }
  destruct H as (m1 & E1 & C1 & P1 & G1 & T1). rewrite E1.
  destruct (nulls (cnt m1 NInts) (seq 0 10) m1) as (m2 & E2 & L2 & X2 & C2 & F2 & Z2 & A2). rewrite E2. unfold pure.
  rewrite C2. rewrite C1 in *. set (m3 := set_cnt NInts (S (cnt m NInts)) m2).
  assert (O : forall t, (open m3 t <-> t = Ints \/ open m t) /\ (open m3 t -> ptr m3 t = ptr m1 t)).
  { intros t. destruct (slot_eq_dec t Ints) as [->|NI].
    { split; [split; [auto|intros _; split; [exact I|unfold m3; rewrite cnt_set_yes; lia]]|intros _; unfold m3; rewrite ptr_cnt; apply F2; discriminate]. }
    assert (Y : (exists p, t = Int (cnt m NInts) p) \/ forall p, t <> Int (cnt m NInts) p).
    { destruct t; try (right; discriminate). destruct (Nat.eq_dec i (cnt m NInts)) as [->|D]; [left; eauto|right; congruence]. }
    destruct Y as [[p ->]|Y].
    - assert (W : ~ open m3 (Int (cnt m NInts) p)).
      { intros (U1 & U2 & U3). apply U3. unfold m3; rewrite ptr_cnt. apply Z2, in_seq. cbn in U1; lia. }
      split; [|tauto]. split; [tauto|]. intros [U|(_ & U & _)]; [discriminate|lia].
    - assert (E : ptr m3 t = ptr m t) by (unfold m3; rewrite ptr_cnt, F2, P1; auto).
      assert (EE : ptr m3 t = ptr m1 t) by (unfold m3; rewrite ptr_cnt; apply F2, Y). split; [|auto].
      assert (W : open m3 t <-> open m t).
      { destruct t; try (apply (open_set NInts m m3); [exact E|intros d D; unfold m3; rewrite cnt_set_no by exact D; rewrite C2; apply C1|intros [Q|(? & ? & Q)]; congruence]).
        unfold open; rewrite E. unfold m3; rewrite cnt_set_yes. assert (i <> cnt m NInts) by (intros ->; exact (Y part eq_refl)). split; intros (U1 & U2 & U3); repeat split; auto; lia. }
      rewrite W. tauto. }
  exists m3. split; [reflexivity|]. split; [split|split; [|split; [|split]]].
  - apply (goodO_ext _ _ m1 _ G1); [exact L2|exact X2|]. intros t T; split; [now apply O|now apply O].
  - unfold m3; rewrite cnt_set_no by discriminate. rewrite C2, C1; apply R.
  - intros _ T. apply (tidyO_ext _ (open m3) m1 m3 (T1 T)); [exact L2|]. intros t U. assert (V : open m3 t) by now apply O. split; [exact V|now apply O].
  - split.
    + intros s N. unfold m3; rewrite ptr_cnt, F2; [apply P1; intros ->; apply N; now left|]. intros p ->; apply N; right; eauto.
    + intros c N; unfold m3; rewrite cnt_set_no by auto. now rewrite C2.
  - unfold m3; apply cnt_set_yes.
  - intros p P; unfold m3; rewrite ptr_cnt. apply Z2, in_seq; lia.
Qed.
Lemma fill_from n l : forall m, Ready m -> cnt m NInts = S n -> exists m',
  each l (fun p => touch Ints ;; pure (alloc (Int n p))) m = Some m' /\ Ready m' /\
  (NoDup l -> (forall p, In p l -> p < 10 /\ ptr m (Int n p) = None) -> Tidy m -> Tidy m') /\
  keeps (fun s => exists p, In p l /\ s = Int n p) nocnt m m'.
Proof.
  induction l as [|p l IH]; intros m R N; cbn [each].
  { exists m; unfold skip; repeat split; auto; apply R. }
  rewrite touch_open; [|apply R|split; [exact I|lia]]. unfold pure.
  destruct (IH (alloc (Int n p) m)) as (m' & E & R' & T & K); [split; [apply good_alloc, R|apply R]|exact N|].
  exists m'; split; [exact E|]. split; [exact R'|]. split.
  - intros D H T0; inversion D as [|? ? D1 D2]; subst. apply T; [exact D2| |].
    + intros q Q; destruct (H q (or_intror Q)) as [A B]; split; [exact A|]. rewrite ptr_alloc, sbeq_no; [exact B|]. intros X; injection X as ->; contradiction.
    + destruct (H p (or_introl eq_refl)) as [A B]. apply tidy_alloc; [exact T0|intros (_ & _ & X); contradiction|].
      split; [exact A|]. split; [change (n < cnt m NInts); lia|rewrite ptr_alloc, sbeq_refl; discriminate].
  - destruct K as [K1 K2]; split; [|intros c X; rewrite K2; auto].
    intros s X; rewrite K1 by (intros (q & Q & ->); apply X; exists q; split; [now right|reflexivity]).
    rewrite ptr_alloc, sbeq_no; [reflexivity|]. intros <-; apply X; exists p; split; [now left|reflexivity].
Qed.
Lemma does_fill l n m : Ready m -> cnt m NInts = S n -> exists m',
  fill l m = Some m' /\ Ready m' /\
  (NoDup l -> (forall p, In p l -> p < 10 /\ ptr m (Int n p) = None) -> Tidy m -> Tidy m') /\
  keeps (fun s => exists p, In p l /\ s = Int n p) nocnt m m'.
Proof. intros R N; unfold fill; rewrite N, Nat.sub_succ, Nat.sub_0_r. now apply fill_from. Qed.
Lemma lost_each (l : list nat) : forall m, Ready m -> exists m',
  each l (fun i => pure (alloc (Tmp Lost 0))) m = Some m' /\ Ready m' /\ keeps (of_local Lost) nocnt m m'.
Proof.
  induction l as [|k l IH]; intros m R; cbn [each]; [exists m; repeat split; auto; apply R|].
  unfold pure at 1. destruct (IH (alloc (Tmp Lost 0) m)) as (m' & E & R' & K1 & K2); [split; [apply good_alloc, R|apply R]|].
  exists m'; split; [exact E|]. split; [exact R'|]. split; [|intros c N; rewrite K2; auto].
  intros s N; rewrite K1 by exact N. rewrite ptr_alloc, sbeq_no; [reflexivity|]. intros <-; apply N; eexists; reflexivity.
Qed.
Lemma safe_forgotten n m : Ready m -> exists m', forgotten n m = Some m' /\ Ready m' /\ keeps (of_local Lost) nocnt m m'.
Proof. apply lost_each. Qed.
(** An integral without the nonlinear tables leaves nothing behind.
    Specification or proof only; nothing in the code. *)
Definition of_integral (s : slot) : Prop := of_ints s \/ of_local InIntegrals s.
Definition c_integral (c : counter) : Prop := c = NInts \/ c = NTmp InIntegrals.
Lemma does_one_integral nl k : does (one_integral nl k) (fun m => nl = false /\ cnt m (NTmp InIntegrals) = 0)
  (fun m m' => keeps (fun s => of_integral s \/ of_local Lost s) c_integral m m' /\ cnt m' (NTmp InIntegrals) = 0).
Proof.
  intros m R. unfold one_integral.
  destruct (does_add_integral m R) as (m1 & E1 & R1 & T1 & K1 & N1 & Z1); rewrite E1.
  destruct (does_locals InIntegrals 4 m1 R1) as (m2 & E2 & R2 & T2 & K2); rewrite E2.
  destruct (does_touch (Tab SpectrumNorm false) (conj I I) m2 R2) as (m3 & E3 & R3 & T3 & K3); rewrite E3.
  assert (N3 : cnt m3 NInts = S (cnt m NInts)).
  { destruct K3 as [_ K3], K2 as [_ K2]. rewrite K3, K2, N1; auto; discriminate. }
  assert (Z3 : forall p, p < 10 -> ptr m3 (Int (cnt m NInts) p) = None).
  { intros p P; destruct K3 as [K3 _], K2 as [K2 _]. rewrite K3, K2; auto. intros [i X]; discriminate. }
  assert (MID : exists m4, (match k with
    | Plain => fill [0; 1] ;; (if nl then touch (Class_ 5) ;; forgotten 202 ;; fill [7; 8; 9] else skip)
    | Divergent => fill [0; 1; 2; 3; 4; 5; 6] end) m3 = Some m4 /\ Ready m4 /\ (nl = false -> Tidy m3 -> Tidy m4) /\
    keeps (fun s => of_ints s \/ of_local Lost s) nocnt m3 m4).
  { destruct k.
    - destruct (does_fill [0; 1] (cnt m NInts) m3 R3 N3) as (m4 & E4 & R4 & T4 & K4); rewrite E4.
      assert (KK : keeps (fun s => of_ints s \/ of_local Lost s) nocnt m3 m4).
      { eapply keeps_weak; [| |exact K4]; [|auto]. intros s (p & _ & ->); left; right; eauto. }
      destruct nl.
      + destruct (does_touch (Class_ 5) (bnc 5 ltac:(lia)) m4 R4) as (m5 & E5 & R5 & T5 & K5); rewrite E5.
        destruct (safe_forgotten 202 m5 R5) as (m6 & E6 & R6 & K6). rewrite E6.
        assert (N6 : cnt m6 NInts = S (cnt m NInts)).
        { destruct K6 as [_ K6], K5 as [_ K5], K4 as [_ K4]. rewrite K6, K5, K4; auto. }
        destruct (does_fill [7; 8; 9] (cnt m NInts) m6 R6 N6) as (m7 & E7 & R7 & T7 & K7).
        exists m7; split; [exact E7|]. split; [exact R7|]. split; [discriminate|].
        eapply keeps_trans; [exact KK|]. eapply keeps_trans; [eapply keeps_weak; [| |exact K5]; [intros s []|intros c []]|].
        eapply keeps_trans; [|eapply keeps_weak; [| |exact K7]; [intros s (p & _ & ->); left; right; eauto|intros c []]].
        eapply keeps_weak; [| |exact K6]; [intros s S; now right|auto].
      + exists m4; split; [reflexivity|]. split; [exact R4|]. split; [|exact KK]. intros _ T; apply T4; auto.
        * repeat constructor; cbn; intuition lia.
        * intros p P; split; [cbn in P; intuition lia|apply Z3; cbn in P; intuition lia].
    - destruct (does_fill [0; 1; 2; 3; 4; 5; 6] (cnt m NInts) m3 R3 N3) as (m4 & E4 & R4 & T4 & K4).
      exists m4; split; [exact E4|]. split; [exact R4|]. split.
      + intros _ T; apply T4; auto.
        * repeat constructor; cbn; intuition lia.
        * intros p P; split; [cbn in P; intuition lia|apply Z3; cbn in P; intuition lia].
      + eapply keeps_weak; [| |exact K4]; [|auto]. intros s (p & _ & ->); left; right; eauto. }
  destruct MID as (m4 & E4 & R4 & T4 & K4); rewrite E4.
  destruct (does_end InIntegrals m4 R4) as (m5 & E5 & R5 & T5 & K5 & Z5).
  exists m5; split; [exact E5|]. split; [exact R5|]. split.
  - intros [NL Z0] T. apply T5; [exact I|]. apply T4; [exact NL|]. apply T3; [exact I|]. apply T2; [|apply T1; [exact I|exact T]].
    destruct K1 as [_ K1]; rewrite K1; auto; discriminate.
  - split; [|exact Z5].
    eapply keeps_trans; [eapply keeps_weak; [| |exact K1]|].
    { intros s [->|[p ->]]; left; left; [now left|right; eauto]. }
    { intros c <-; now left. }
    eapply keeps_trans; [eapply keeps_weak; [| |exact K2]|].
    { intros s S; left; right; exact S. }
    { intros c <-; now right. }
    eapply keeps_trans; [eapply keeps_weak; [| |exact K3]; [intros s []|intros c []]|].
    eapply keeps_trans; [eapply keeps_weak; [| |exact K4]|].
    { intros s [S|S]; [left; now left|now right]. }
    { intros c []. }
    eapply keeps_weak; [| |exact K5]; [intros s []|intros c <-; now right].
Qed.
Lemma ones nl ks : forall m, Ready m -> exists m', each ks (one_integral nl) m = Some m' /\ Ready m' /\
  (nl = false -> cnt m (NTmp InIntegrals) = 0 -> Tidy m -> Tidy m') /\
  keeps (fun s => of_integral s \/ of_local Lost s) c_integral m m' /\ (cnt m (NTmp InIntegrals) = 0 -> cnt m' (NTmp InIntegrals) = 0).
Proof.
  induction ks as [|k ks IH]; intros m R; cbn [each]; [exists m; unfold skip; repeat split; auto; apply R|].
  destruct (does_one_integral nl k m R) as (m1 & E1 & R1 & T1 & K1 & Z1); rewrite E1.
  destruct (IH m1 R1) as (m2 & E2 & R2 & T2 & K2 & Z2). exists m2; split; [exact E2|]. split; [exact R2|].
  split; [intros N Z T; apply T2; auto|]. split; [eapply keeps_trans; eauto|auto].
Qed.
Lemma does_integrals_init nl ks : does (integrals_init nl ks) (fun m => nl = false /\ cnt m (NTmp InIntegrals) = 0)
  (fun m m' => keeps (fun s => of_integral s \/ of_local Lost s) c_integral m m' /\ (cnt m (NTmp InIntegrals) = 0 -> cnt m' (NTmp InIntegrals) = 0)).
Proof.
  intros m R; unfold integrals_init. destruct (does_integrals_free m R) as (m1 & E1 & R1 & T1 & K1 & Z1); rewrite E1.
  assert (Q : cnt m1 (NTmp InIntegrals) = cnt m (NTmp InIntegrals)) by (apply K1; discriminate).
  destruct (ones nl ks m1 R1) as (m2 & E2 & R2 & T2 & K2 & Z2). exists m2; split; [exact E2|]. split; [exact R2|].
  split; [intros [N Z] T; apply T2; [exact N|congruence|apply T1; [exact I|exact T]]|]. split.
  - eapply keeps_trans; [|exact K2]. eapply keeps_weak; [| |exact K1]; [intros s S; left; now left|intros c <-; now left].
  - intros Z; apply Z2; congruence.
Qed.

(** ** Safety of the other parts *)
Lemma safe_each_in {A} (l : list A) f : (forall x, In x l -> safe (f x)) -> safe (each l f).
Proof.
  induction l as [|x l IH]; intros F; [apply safe_skip|cbn [each]; apply safe_seq; [apply F; now left|apply IH; intros; apply F; now right]].
Qed.
Lemma safe_locals f n : safe (locals f n). Proof. eapply does_safe, does_locals. Qed.
Lemma safe_end f : safe (end_locals f). Proof. eapply does_safe, does_end. Qed.
Lemma safe_touch s : by_null s -> safe (touch s). Proof. intros B; eapply does_safe, does_touch, B. Qed.
Lemma safe_free_table t : used (Tab t false) -> safe (free_table t). Proof. intros U; eapply does_safe, does_free_table, U. Qed.
Lemma safe_free_table2 t : safe (free_table2 t). Proof. eapply does_safe, does_free_table2. Qed.
Lemma in_seq0 i n : In i (seq 0 n) -> i < n. Proof. intros H; apply in_seq in H; lia. Qed.
(** A step that opens nothing and moves no pointer in force. *)
Lemma safe_closing g : (forall m, live (g m) = live m) -> (forall m, next (g m) = next m) ->
  (forall m t, open (g m) t -> open m t /\ ptr (g m) t = ptr m t) -> (forall m, cnt (g m) NPar = cnt m NPar) -> safe (pure g).
Proof.
  intros L N H P m [G R]; exists (g m); split; [reflexivity|]. split; [|now rewrite P]. apply (goodO_ext _ _ m _ G); auto.
Qed.
Lemma safe_null s : by_null s \/ s = Names -> safe (pure (set_ptr s None)).
Proof.
  intros B; apply safe_closing; auto. intros m t T.
  assert (D : t <> s).
  { intros ->. destruct B as [B| ->].
    - apply open_by_null in T; [|exact B]. rewrite ptr_set, sbeq_refl in T; congruence.
    - destruct T as (_ & _ & T). rewrite ptr_set, sbeq_refl in T; congruence. }
  assert (E : ptr (set_ptr s None m) t = ptr m t) by (rewrite ptr_set, sbeq_no; auto).
  split; [|exact E]. now apply (open_ext m (set_ptr s None m) t E).
Qed.
Lemma safe_zero c : c <> NPar -> safe (pure (set_cnt c 0)).
Proof.
  intros NP; apply safe_closing; auto; [|intros m; now rewrite cnt_set_no by auto].
  intros m t T; split; [|reflexivity].
  assert (D : forall d, cnt (set_cnt c 0 m) d <> 0 -> cnt (set_cnt c 0 m) d = cnt m d).
  { intros d Q; rewrite cnt_set in *; destruct (counter_beq c d); [congruence|reflexivity]. }
  assert (D' : forall d i, i < cnt (set_cnt c 0 m) d -> i < cnt m d) by (intros d i Q; rewrite <- D; [exact Q|lia]).
  assert (D'' : forall d, cnt (set_cnt c 0 m) d <> 0 -> cnt m d <> 0) by (intros d Q; rewrite <- D; exact Q).
  destruct T as [U T]; split; [exact U|]. destruct t; try exact T; try (destruct T as [T1 T2]; split); eauto.
Qed.
Lemma safe_set_closed_coef b i : safe (pure (set_cnt (NCoef b i) 0) ;; pure (set_ptr (Coef b i) None)).
Proof.
  intros m R. destruct (safe_zero (NCoef b i) ltac:(discriminate) m R) as (m1 & E1 & R1). rewrite E1. injection E1 as <-.
  destruct (good_set_closed (Coef b i) None (set_cnt (NCoef b i) 0 m)) as [G _]; [apply R1| | |].
  - intros (_ & _ & T); rewrite cnt_set_yes in T; congruence.
  - intros (_ & _ & T). apply T, cnt_set_yes.
  - eexists; split; [reflexivity|]. split; [exact G|apply R1].
Qed.
(** Fits. *)
Lemma coef_loop b l : forall m, Ready m -> exists m', each l (fun i => pure (set_cnt (NCoef b i) 0) ;; pure (set_ptr (Coef b i) None)) m = Some m' /\
  Ready m' /\ (forall i, In i l -> cnt m' (NCoef b i) = 0) /\ (forall c, cnt m' c = cnt m c \/ cnt m' c = 0).
Proof.
  induction l as [|i l IH]; intros m R; cbn [each]; [exists m; repeat split; auto; try apply R; intros i []|].
  destruct (safe_set_closed_coef b i m R) as (m1 & E1 & R1). rewrite E1. injection E1 as <-.
  destruct (IH _ R1) as (m' & E & R' & Z & C). exists m'; split; [exact E|]. split; [exact R'|].
  assert (S : cnt (set_ptr (Coef b i) None (set_cnt (NCoef b i) 0 m)) (NCoef b i) = 0) by apply cnt_set_yes.
  split.
  - intros j [<-|J]; [|auto]. destruct (C (NCoef b i)) as [X|X]; [now rewrite X|exact X].
  - intros c; destruct (C c) as [X|X]; [|now right]. rewrite X. cbn -[counter_beq]. destruct (counter_beq (NCoef b i) c); auto.
Qed.
Lemma bn_bg i a : i < 10 -> by_null (Tab (Bg i) a). Proof. intros L; split; [exact L|exact I]. Qed.
Lemma bn_bias i a : i < 8 -> by_null (Tab (Bias i) a). Proof. intros L; split; [exact L|exact I]. Qed.
Lemma safe_get_fit b t n : t < 8 -> safe (get_fit b t n).
Proof.
  intros LT m R. unfold get_fit. destruct (coef_loop b (seq 0 n) m R) as (m1 & E1 & R1 & Z1 & C1); rewrite E1. unfold pure at 1.
  set (m2 := alloc (Fit b) (set_cnt (NFit b) n m1)).
  assert (R2 : Ready m2).
  { split; [|unfold m2; change (cnt (set_cnt (NFit b) n m1) NPar <> 0); rewrite cnt_set_no by discriminate; apply R1].
    change m2 with (set_cnt (NFit b) n (alloc (Fit b) m1)). apply good_count; [apply R1|].
    intros s N T. destruct s; try (apply (open_set (NFit b) m1) in T; [exact T|rewrite ptr_cnt, ptr_alloc, sbeq_no; auto|intros d D; now rewrite cnt_set_no by exact D|cbn; intros [X|[? X]]; congruence]).
    destruct T as (U & T & V). rewrite cnt_set_no in V by discriminate. change (cnt (alloc (Fit b) m1) (NCoef b0 i)) with (cnt m1 (NCoef b0 i)) in V.
    destruct (Nat.eq_dec b0 b) as [->|D].
    - rewrite cnt_set_yes in T. exfalso; apply V, Z1, in_seq; lia.
    - rewrite cnt_set_no in T by congruence. split; [exact U|split; [exact T|exact V]]. }
  clearbody m2; revert m2 R2; clear - LT. fold (safe (each (seq 0 n) (fun i =>
    touch (Tab (Bg 9) false) ;; touch (Tab (Bg 0) false) ;; touch (Tab (Bias t) false) ;; locals InFit 6 ;;
    pure (fun m => set_cnt (NCoef b i) 1 (alloc (Coef b i) m)) ;; end_locals InFit))).
  apply safe_each. intros i.
  apply safe_seq; [apply safe_touch, bn_bg; lia|]. apply safe_seq; [apply safe_touch, bn_bg; lia|].
  apply safe_seq; [apply safe_touch, bn_bias, LT|]. apply safe_seq; [apply safe_locals|]. apply safe_seq; [|apply safe_end].
  intros m [G R]; eexists; split; [reflexivity|]. split; [apply good_count_sole; [apply sole_coef|discriminate|exact G]|].
  rewrite cnt_set_no by discriminate; exact R.
Qed.
Lemma free_fit_loop b l : b < 6 -> forall m, Ready m -> (forall i, In i l -> i < cnt m (NFit b)) -> exists m',
  each l (fun i => touch (Fit b) ;; when (counted (NCoef b i)) (release (Coef b i)) ;; pure (set_cnt (NCoef b i) 0) ;;
     pure (set_ptr (Coef b i) None)) m = Some m' /\ Ready m'.
Proof.
  intros B. induction l as [|i l IH]; intros m R H; cbn [each]; [exists m; auto|].
  assert (L : i < cnt m (NFit b)) by (apply H; now left).
  rewrite touch_open; [|apply R|split; [exact B|lia]].
  destruct (does_release_zero (NCoef b i) (Coef b i) (sole_coef b i)) with (m := m) as (m1 & E1 & R1 & T1 & K1 & Z1).
  - unfold open; tauto.
  - discriminate.
  - exact R.
  - intros N; split; [exact B|]; auto.
  - destruct (good_set_closed (Coef b i) None m1) as [G2 _]; [apply R1|unfold open; tauto|unfold open; cbn -[counter_beq]; tauto|].
    destruct (IH (set_ptr (Coef b i) None m1)) as (m' & E & R').
    { split; [exact G2|apply R1]. }
    { intros j J; change (j < cnt m1 (NFit b)). destruct K1 as [_ K1]; rewrite K1 by discriminate. apply H; now right. }
    exists m'; split; [|exact R']. unfold when, pure in *.
    destruct (counted (NCoef b i) m); [destruct (release (Coef b i) m)|]; try discriminate; injection E1 as <-; exact E.
Qed.
Lemma safe_free_fit b : b < 6 -> safe (free_fit b).
Proof.
  intros B; unfold free_fit. apply safe_seq; [|apply safe_zero; discriminate].
  intros m R. apply free_fit_loop; auto. intros i J; now apply in_seq0.
Qed.
(** Without fits, [free_fit] does nothing. *)
Lemma no_fit b m : Ready m -> cnt m (NFit b) = 0 -> exists m', free_fit b m = Some m' /\ Ready m' /\ (Tidy m -> Tidy m') /\ keeps noslot nocnt m m'.
Proof.
  intros R Z; unfold free_fit; rewrite Z; cbn [seq each skip]. unfold skip, pure. eexists; split; [reflexivity|].
  assert (C : forall c, cnt (set_cnt (NFit b) 0 m) c = cnt m c).
  { intros c; rewrite cnt_set; destruct (counter_beq (NFit b) c) eqn:E; [apply cbeq in E; now subst|reflexivity]. }
  destruct (same_ready m (set_cnt (NFit b) 0 m)) as [X Y]; auto. split; [apply X, R|]. split; [exact Y|]. split; [reflexivity|intros c _; apply C].
Qed.
(** Names. *)
Lemma names_loop n : forall k m, Ready m -> k <= cnt m NNames -> exists m',
  each (seq k n) (fun i => pure (fun m => set_cnt NNames (S i) (alloc (Name i) m))) m = Some m' /\ Ready m'.
Proof.
  induction n as [|n IH]; intros k m R K; cbn [seq each]; [exists m; auto|]. unfold pure at 1.
  apply IH; [|rewrite cnt_set_yes; lia]. destruct R as [G R]; split; [|rewrite cnt_set_no by discriminate; exact R].
  apply good_count; [exact G|]. intros t N T.
  destruct t; try (apply (open_set NNames m) in T; [exact T|rewrite ptr_cnt, ptr_alloc, sbeq_no; auto|intros d D; now rewrite cnt_set_no by exact D|intros [? X]; discriminate]).
  destruct T as (U & T & V). rewrite cnt_set_yes in V. split; [exact U|]. split; [exact R|]. assert (i <> k) by congruence. lia.
Qed.
Lemma safe_parse_names n : safe (parse_names n).
Proof.
  intros m R; unfold parse_names. destruct (safe_zero NNames ltac:(discriminate) m R) as (m1 & E1 & R1). injection E1 as <-.
  unfold pure at 1. apply names_loop; [split; [apply good_alloc, R1|apply R1]|lia].
Qed.

(** ** Safety of every operation *)
Lemma safe_background_free : safe background_free.
Proof.
  apply safe_seq; [|apply safe_zero; discriminate]. apply safe_when, safe_each_in. intros i J; apply safe_free_table. now apply in_seq0.
Qed.
Lemma safe_one : safe (pure (set_cnt NBg 1)).
Proof.
  apply safe_closing; auto.
Qed.
Lemma safe_background_init f : safe (background_init f).
Proof.
  unfold background_init.
  apply safe_seq; [apply safe_background_free|]. apply safe_seq; [apply safe_locals|].
  apply safe_seq; [apply safe_each; intros i; apply init_table_safe|]. apply safe_seq; [apply safe_end|].
  apply safe_seq; [|apply safe_one].
  intros m R; unfold when. destruct f; cbn [andb]; [|exists m; auto].
  destruct (counted (NList ZMean) m) eqn:Q; [|exists m; auto].
  apply counted_true in Q. rewrite touch_open; [|apply R|split; [exact I|split; [apply R|exact Q]]].
  revert m R Q. intros m R _. revert R. generalize (cnt m (NList ZMean)) as n; intros n. revert m. fold (safe (each [(0, 0); (1, 1); (2, 4); (3, 5); (4, 6); (5, 7)] (fun bt => get_fit (fst bt) (snd bt) n))).
  apply safe_each_in. intros [b t] J. apply safe_get_fit. cbn [snd]. cbn in J. repeat (destruct J as [J|J]; [injection J as <- <-; lia|]). destruct J.
Qed.
Lemma safe_class_spectrum nl : safe (class_spectrum nl).
Proof.
  unfold class_spectrum. do 2 (apply safe_seq; [now apply safe_free_table|]). apply safe_seq; [apply safe_locals|].
  do 2 (apply safe_seq; [apply init_table_safe|]). apply safe_seq; [apply safe_each; intros i; apply alloc_safe|].
  apply safe_seq; [apply safe_end|]. destruct nl; [|apply safe_skip].
  do 2 (apply safe_seq; [apply safe_free_table2|]). apply safe_seq; [apply safe_locals|].
  apply safe_seq; [apply safe_touch, bnc; lia|]. do 2 (apply safe_seq; [apply init_table2_safe|]). apply safe_end.
Qed.
Lemma does_reads ls : does (reads ls) always (keeps noslot nocnt).
Proof.
  unfold reads.
  assert (T : forall (l : list nat) mk, (forall i, In i l -> forall a, by_null (Tab (mk i) a)) ->
    does (each l (fun i => touch (Tab (mk i) false) ;; touch (Tab (mk i) true))) always (keeps noslot nocnt)).
  { intros l mk H. apply does_each; [|unfold always; auto]. intros i J. apply does_seq with (Q := always); [apply does_touch, H, J|apply does_touch, H, J|unfold always; auto]. }
  apply does_seq with (Q := always); [apply T; intros i J a; apply bn_bg; now apply in_seq0| |unfold always; auto].
  apply does_seq with (Q := always); [apply T; intros i J a; apply bn_bias; now apply in_seq0| |unfold always; auto].
  apply does_each; [|unfold always; auto]. intros a _; apply does_touch_list.
Qed.
Lemma does_read_integrals : does read_integrals always (keeps noslot nocnt).
Proof.
  intros m R; exists m. split; [|repeat split; auto; apply R]. unfold read_integrals.
  assert (H : forall l, (forall i, In i l -> i < cnt m NInts) ->
    each l (fun i => touch Ints ;; each (seq 0 10) (fun p => touch (Int i p))) m = Some m).
  { induction l as [|i l IH]; intros H; cbn [each]; [reflexivity|].
    assert (L : i < cnt m NInts) by (apply H; now left). rewrite touch_open; [|apply R|split; [exact I|lia]].
    assert (J : forall k, (forall p, In p k -> p < 10) -> each k (fun p => touch (Int i p)) m = Some m).
    { induction k as [|p k IK]; intros HK; cbn [each]; [reflexivity|].
      assert (X : touch (Int i p) m = Some m).
      { destruct (ptr m (Int i p)) eqn:P; [|now apply touch_null]. apply touch_open; [apply R|]. split; [apply HK; now left|split; [exact L|congruence]]. }
      rewrite X; apply IK; intros; apply HK; now right. }
    rewrite (J (seq 0 10)) by (intros p P; now apply in_seq0). apply IH; intros; apply H; now right. }
  apply H; intros i J; now apply in_seq0.
Qed.
Lemma safe_out_init k n t : safe (out_init k n t).
Proof.
  unfold out_init. apply safe_seq.
  { destruct (is_cov k); [apply safe_seq|]; eapply does_safe, does_out_free. }
  apply safe_seq; [eapply does_safe, does_out_alloc|]. apply safe_seq; [eapply does_safe, does_reads|].
  apply safe_seq; [|eapply does_safe, does_touch_out].
  destruct (is_cov k); [|eapply does_safe, does_read_integrals].
  apply safe_seq; [apply safe_locals|]. do 2 (apply safe_seq; [apply safe_touch; split; exact I|]).
  apply safe_seq; [apply safe_touch, bnc; lia|apply safe_end].
Qed.
Lemma safe_free_cache c : safe (free_cache c).
Proof.
  destruct c; cbn [free_cache].
  - apply safe_background_free.
  - do 2 (apply safe_seq; [now apply safe_free_table|]). apply safe_seq; apply safe_free_table2.
  - eapply does_safe, does_integrals_free.
  - eapply does_safe, does_out_free.
Qed.
Lemma safe_step o : safe (step o).
Proof.
  destruct o; cbn [step].
  - apply safe_each, safe_free_cache.
  - apply safe_seq; [eapply does_safe, does_set_list|apply safe_each, safe_free_cache].
  - apply safe_seq; [apply safe_locals|]. apply safe_seq; [apply init_table_safe|]. apply safe_seq; [apply safe_end|apply safe_each, safe_free_cache].
  - apply safe_seq; [apply safe_free_cache|]. apply safe_seq; [apply safe_locals|]. do 2 (apply safe_seq; [apply init_table_safe|]).
    apply safe_seq; [apply safe_end|eapply does_safe, does_integrals_free].
  - apply safe_background_init.
  - apply safe_class_spectrum.
  - eapply does_safe, does_integrals_init.
  - apply safe_out_init.
  - eapply does_safe, does_reads.
  - eapply does_safe, does_parse_list.
  - eapply does_safe, does_free_list.
  - apply safe_parse_names.
  - apply safe_seq; [apply safe_locals|]. apply safe_seq; [apply init_table_safe|apply safe_end].
  - apply safe_seq; [apply safe_locals|]. apply safe_seq; [apply init_table_safe|]. apply safe_seq; [apply safe_end|].
    apply safe_seq; [apply safe_touch; split; exact I|]. apply safe_seq; [apply safe_locals|]. apply safe_seq; [apply init_table_safe|apply safe_end].
  - apply safe_free_cache.
Qed.
