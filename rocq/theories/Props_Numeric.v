(** * Properties of the numerical helpers: C29, C30, C31, C41, C43, C47, C48 *)
From Coq Require Import ZArith Reals List Lia Lra Bool Arith SpecFloat QArith Qreals.
From Coquelicot Require Import Coquelicot.
From Coq Require Import List.
From Verif Require Import F64 Arrays Numeric Coupling.
Import ListNotations.
Open Scope nat_scope.

(** ** Filling an interval of an array *)
Lemma fill : forall A (f : nat -> A) n i (a : list A), i + n <= List.length a ->
  exists a', for_from i n (fun j a => wr a j (f j)) a = Some a'
    /\ List.length a' = List.length a
    /\ (forall j, i <= j < i + n -> nth_error a' j = Some (f j))
    /\ (forall j, ~ (i <= j < i + n) -> nth_error a' j = nth_error a j).
Proof.
  intros A f n i a L.
  destruct (for_from_inv _ (fun k s => List.length s = List.length a
     /\ (forall j, i <= j < k -> nth_error s j = Some (f j))
     /\ (forall j, ~ (i <= j < k) -> nth_error s j = nth_error a j)) n i (fun j a => wr a j (f j)) a)
    as (a' & E & P).
  - split; [reflexivity|]. split; [intros; lia|reflexivity].
  - intros j s Hj (L1 & H1 & H2). destruct (wr_some s j (f j) ltac:(lia)) as [s' E]. exists s'. split; [exact E|].
    split; [rewrite (wr_length _ _ _ _ E); exact L1|]. split; intros k Hk.
    + destruct (Nat.eq_dec k j) as [->|N]; [apply (wr_same _ _ _ _ E)|].
      rewrite (wr_other _ _ _ _ _ E N). apply H1. lia.
    + rewrite (wr_other _ _ _ _ k E ltac:(lia)). apply H2. lia.
  - exists a'. split; [exact E|exact P].
Qed.
Lemma fill_fresh : forall A (f : nat -> A) n,
  for_ n (fun i a => wr a i (Some (f i))) (fresh n) = Some (map (fun i => Some (f i)) (seq 0 n)).
Proof.
  intros A f n. destruct (fill _ (fun i => Some (f i)) n 0 (fresh n)) as (a' & E & L & H1 & _).
  - unfold fresh. rewrite repeat_length. lia.
  - unfold for_. rewrite E. f_equal. apply nth_error_ext.
    + rewrite L, map_length, seq_length. unfold fresh. apply repeat_length.
    + intros i Hi. rewrite L in Hi. unfold fresh in Hi. rewrite repeat_length in Hi.
      rewrite H1 by lia. rewrite nth_error_map, nth_error_seq by lia. reflexivity.
Qed.

(** ** C29: generated ranges *)
Theorem C29_range : forall a b n,
  (a < b)%R ->
  exists values, generate_range a b n = Done (map Some values)
    /\ List.length values = n
    /\ (forall i, i < n -> nth i values 0%R = (a + (b - a) * (INR i / INR n))%R)
    /\ (forall i, i < n -> (a <= nth i values 0 < b)%R)
    /\ (0 < n -> nth 0 values 0%R = a)
    /\ (forall i j, i < j < n -> (nth i values 0 < nth j values 0)%R).
Proof.
  intros a b n Lab. exists (map (range_value a b n) (seq 0 n)).
  assert (V : forall i, i < n -> nth i (map (range_value a b n) (seq 0 n)) 0%R = (a + (b - a) * (INR i / INR n))%R).
  { intros i Hi. rewrite (nth_indep _ 0%R (range_value a b n 0)) by (rewrite map_length, seq_length; exact Hi).
    rewrite map_nth, seq_nth by exact Hi. unfold range_value. cbn [Nat.add]. unfold Rdiv. ring. }
  assert (P : forall i, i < n -> (0 <= INR i / INR n < 1)%R).
  { intros i Hi. assert (N : (0 < INR n)%R) by (apply lt_0_INR; lia). split.
    - apply Rdiv_le_0_compat; [apply pos_INR|exact N].
    - apply (Rmult_lt_reg_r (INR n)); [exact N|]. unfold Rdiv. rewrite Rmult_assoc, Rinv_l, Rmult_1_r, Rmult_1_l by lra.
      apply lt_INR. exact Hi. }
  split; [|split; [|split; [exact V|split; [|split]]]].
  - unfold generate_range. destruct (Rle_dec b a) as [C|_]; [lra|]. rewrite fill_fresh. cbn [of_opt]. rewrite map_map. reflexivity.
  - rewrite map_length, seq_length. reflexivity.
  - intros i Hi. rewrite V by exact Hi. pose proof (P i Hi) as Q. assert (0 < b - a)%R by lra. nra.
  - intros H. rewrite V by exact H. cbn [INR]. unfold Rdiv. ring.
  - intros i j [Hij Hj]. rewrite !V by lia. assert (N : (0 < INR n)%R) by (apply lt_0_INR; lia).
    apply Rplus_lt_compat_l, Rmult_lt_compat_l; [lra|]. unfold Rdiv. apply Rmult_lt_compat_r; [apply Rinv_0_lt_compat, N|].
    apply lt_INR. exact Hij.
Qed.
Print Assumptions C29_range.
Theorem C29_refuses : forall a b n, (a >= b)%R -> generate_range a b n = Exited.
Proof. intros a b n H. unfold generate_range. destruct (Rle_dec b a) as [_|C]; [reflexivity|lra]. Qed.
Print Assumptions C29_refuses.
Example C29_example : (0 < 1)%R /\ exists v, generate_range 0 1 4 = Done (map Some v) /\ (nth 3 v 0 = 3/4)%R.
Proof.
  split; [lra|]. destruct (C29_range 0 1 4 ltac:(lra)) as (v & E & _ & V & _). exists v. split; [exact E|].
  rewrite V by lia. cbn. field.
Qed.

(** With the arithmetic the program has, binary64, two neighbouring values can be
    equal and the last one can be the upper bound. *)
Definition one_up : f64 := S754_finite false 4503599627370497 (-52).
Theorem C29_binary64_refuted : exists a b n values,
  is_finite a = true /\ is_finite b = true /\ fltb a b = true
  /\ fgenerate_range a b n = Done (map Some values)
  /\ nth_error values 0 = nth_error values 1
  /\ nth_error values (n - 1) = Some b.
Proof.
  exists (of_Z 1), one_up, 4, [of_Z 1; of_Z 1; of_Z 1; one_up]. repeat split; vm_compute; reflexivity.
Qed.
Print Assumptions C29_binary64_refuted.

(** ** C30: approximate equality and look-up *)
Lemma approx_spec : forall a b rel eps, approx_equal a b rel eps = true <->
  ((a <> 0 /\ b <> 0 /\ Rabs (a - b) / Rabs a < rel)%R \/ ((a = 0 \/ b = 0) /\ Rabs (a - b) < eps)%R).
Proof.
  intros a b rel eps. unfold approx_equal.
  destruct (Req_EM_T a 0); [|destruct (Req_EM_T b 0)];
    destruct (Rlt_dec _ _); split; intros H; try tauto; try discriminate; intuition.
Qed.
(** Reflexive exactly when the tolerance in force is positive: in particular never
    at zero when the absolute tolerance is 0, as the look-up sets it. *)
Theorem C30_reflexive_partial : forall a rel eps, approx_equal a a rel eps = true <->
  ((a <> 0 /\ 0 < rel) \/ (a = 0 /\ 0 < eps))%R.
Proof.
  intros a rel eps. rewrite approx_spec. rewrite Rminus_eq_0, Rabs_R0. unfold Rdiv. rewrite Rmult_0_l. tauto.
Qed.
Print Assumptions C30_reflexive_partial.
Theorem C30_reflexive_refuted : exists a, approx_equal a a (/1000) 0 = false.
Proof.
  exists 0%R. apply not_true_is_false. rewrite C30_reflexive_partial. lra.
Qed.
Print Assumptions C30_reflexive_refuted.
Theorem C30_symmetric_refuted : exists a b, approx_equal a b (/1000) 0 = true /\ approx_equal b a (/1000) 0 = false.
Proof.
  exists 1001%R, 1000%R. split.
  - apply approx_spec. left. split; [lra|]. split; [lra|]. rewrite !Rabs_pos_eq by lra. lra.
  - apply not_true_is_false. rewrite approx_spec. rewrite Rabs_left by lra. rewrite Rabs_pos_eq by lra. lra.
Qed.
Print Assumptions C30_symmetric_refuted.
(** Symmetric up to a slightly larger tolerance. *)
Theorem C30_symmetric_partial : forall a b rel eps, (0 < rel < 1)%R ->
  approx_equal a b rel eps = true -> approx_equal b a (rel / (1 - rel)) eps = true.
Proof.
  intros a b rel eps [R0 R1] H. apply approx_spec in H. apply approx_spec.
  rewrite (Rabs_minus_sym b a). destruct H as [(Na & Nb & H)|(Z & H)]; [left|right; tauto].
  split; [exact Nb|]. split; [exact Na|].
  assert (Pa : (0 < Rabs a)%R) by (apply Rabs_pos_lt, Na). assert (Pb : (0 < Rabs b)%R) by (apply Rabs_pos_lt, Nb).
  assert (D : (Rabs (a - b) < rel * Rabs a)%R).
  { apply (Rmult_lt_compat_r (Rabs a)) in H; [|exact Pa]. unfold Rdiv in H. rewrite Rmult_assoc, Rinv_l, Rmult_1_r in H by lra. exact H. }
  assert (T : (Rabs a <= Rabs b + Rabs (a - b))%R).
  { replace a with (b + (a - b))%R at 1 by ring. apply Rabs_triang. }
  apply (Rmult_lt_reg_r (Rabs b * (1 - rel))%R); [apply Rmult_lt_0_compat; lra|].
  replace (Rabs (a - b) / Rabs b * (Rabs b * (1 - rel)))%R with (Rabs (a - b) * (1 - rel))%R by (field; lra).
  replace (rel / (1 - rel) * (Rabs b * (1 - rel)))%R with (rel * Rabs b)%R by (field; lra).
  nra.
Qed.
Print Assumptions C30_symmetric_partial.
Example C30_symmetric_example : (0 < /1000 < 1)%R /\ approx_equal 1001 1000 (/1000) 0 = true.
Proof.
  split; [lra|]. apply approx_spec. left. split; [lra|]. split; [lra|]. rewrite !Rabs_pos_eq by lra. lra.
Qed.

(** Coordinates agree: the multipoles are equal and each number is within a
    thousandth of the stored one (neither being zero). *)
Definition close (stored wanted : R) : Prop :=
  (stored <> 0 /\ wanted <> 0 /\ Rabs (stored - wanted) / Rabs stored < /1000)%R.
Definition agrees (c : coords) (z : R) (l1 l2 : Z) (s1 s2 : R) : Prop :=
  co_l1 c = l1 /\ co_l2 c = l2 /\ close (co_s1 c) s1 /\ close (co_s2 c) s2 /\ close (co_z c) z.
Lemma approx_close : forall a b, approx_equal a b (/1000) 0 = true <-> close a b.
Proof.
  intros a b. rewrite approx_spec. unfold close. pose proof (Rabs_pos (a - b)). split; [|tauto].
  intros [H1|[_ H1]]; [exact H1|lra].
Qed.
Lemma co_match_spec : forall c z l1 l2 s1 s2, co_match c z l1 l2 s1 s2 = true <-> agrees c z l1 l2 s1 s2.
Proof.
  intros. unfold co_match, agrees. rewrite !andb_true_iff, !Z.eqb_eq, !approx_close. tauto.
Qed.
Theorem C30_find : forall cov z l1 l2 s1 s2,
  match covariance_find cov z l1 l2 s1 s2 with
  | Done e => exists before after, cov = before ++ e :: after /\ agrees (en_co e) z l1 l2 s1 s2
                /\ Forall (fun e' => ~ agrees (en_co e') z l1 l2 s1 s2) before
  | Exited => Forall (fun e => ~ agrees (en_co e) z l1 l2 s1 s2) cov
  | Undefined => False
  end.
Proof.
  induction cov as [|e r IH]; intros z l1 l2 s1 s2; cbn [covariance_find]; [constructor|].
  destruct (co_match (en_co e) z l1 l2 s1 s2) eqn:M.
  - exists [], r. split; [reflexivity|]. split; [apply co_match_spec, M|constructor].
  - assert (N : ~ agrees (en_co e) z l1 l2 s1 s2) by (rewrite <- co_match_spec; congruence).
    specialize (IH z l1 l2 s1 s2). destruct (covariance_find r z l1 l2 s1 s2) as [x| |].
    + destruct IH as (b & a & -> & A & F). exists (e :: b), a. split; [reflexivity|]. split; [exact A|]. constructor; assumption.
    + constructor; assumption.
    + exact IH.
Qed.
Print Assumptions C30_find.
Example C30_find_example :
  let c s := {| co_z := 1; co_l1 := 0; co_l2 := 2; co_s1 := s; co_s2 := 20 |} in
  covariance_find [{| en_co := c 10%R; en_val := 5 |}; {| en_co := c 30%R; en_val := 6 |}] 1 0 2 30 20
  = Done {| en_co := c 30%R; en_val := 6 |}.
Proof.
  cbv zeta. cbn [covariance_find en_co].
  assert (M1 : co_match {| co_z := 1; co_l1 := 0; co_l2 := 2; co_s1 := 10; co_s2 := 20 |} 1 0 2 30 20 = false).
  { apply not_true_is_false. rewrite co_match_spec. unfold agrees, close. cbn. intros (_ & _ & (_ & _ & H) & _).
    rewrite Rabs_left in H by lra. rewrite Rabs_pos_eq in H by lra. lra. }
  assert (M2 : co_match {| co_z := 1; co_l1 := 0; co_l2 := 2; co_s1 := 30; co_s2 := 20 |} 1 0 2 30 20 = true).
  { apply co_match_spec. unfold agrees, close. cbn. rewrite !Rminus_eq_0, Rabs_R0.
    repeat split; try lra; rewrite Rabs_pos_eq by lra; lra. }
  rewrite M1, M2. reflexivity.
Qed.
(** An entry stored with a zero coordinate (redshift 0) can never be found, and of
    two separations closer than a thousandth the second is hidden by the first. *)
Theorem C30_zero_refuted : exists e, let c := en_co e in
  covariance_find [e] (co_z c) (co_l1 c) (co_l2 c) (co_s1 c) (co_s2 c) = Exited.
Proof.
  exists {| en_co := {| co_z := 0; co_l1 := 0; co_l2 := 0; co_s1 := 1; co_s2 := 1 |}; en_val := 7 |}.
  cbn [en_co co_z co_l1 co_l2 co_s1 co_s2 covariance_find].
  destruct (co_match _ _ _ _ _ _) eqn:M; [|reflexivity]. exfalso.
  apply co_match_spec in M. unfold agrees, close in M. cbn in M. lra.
Qed.
Print Assumptions C30_zero_refuted.
Theorem C30_hidden_refuted : exists e1 e2, let c := en_co e2 in
  en_co e1 <> c /\ en_val e1 <> en_val e2
  /\ covariance_find [e1; e2] (co_z c) (co_l1 c) (co_l2 c) (co_s1 c) (co_s2 c) = Done e1.
Proof.
  exists {| en_co := {| co_z := 1; co_l1 := 0; co_l2 := 0; co_s1 := 10000; co_s2 := 1 |}; en_val := 7 |},
         {| en_co := {| co_z := 1; co_l1 := 0; co_l2 := 0; co_s1 := 10001; co_s2 := 1 |}; en_val := 8 |}.
  cbn [en_co en_val co_z co_l1 co_l2 co_s1 co_s2 covariance_find].
  split; [intros H; injection H; lra|]. split; [lra|].
  assert (M : co_match {| co_z := 1; co_l1 := 0; co_l2 := 0; co_s1 := 10000; co_s2 := 1 |} 1 0 0 10001 1 = true).
  { apply co_match_spec. unfold agrees, close. cbn. rewrite !Rminus_eq_0, Rabs_R0.
    rewrite (Rabs_left (10000 - 10001)) by lra. repeat split; try lra; rewrite Rabs_pos_eq by lra; lra. }
  rewrite M. reflexivity.
Qed.
Print Assumptions C30_hidden_refuted.

(** ** C31: angular coupling *)
Theorem C31_symmetries : forall n m a b,
  (legendre_integral n m a b == legendre_integral m n a b)%Q
  /\ (legendre_integral n m a b == legendre_integral n m b a)%Q
  /\ (legendre_integral n m a b == legendre_integral a b n m)%Q
  /\ (Z.Odd (n + m + a + b) -> (legendre_integral n m a b == 0)%Q)
  /\ (0 <= legendre_integral n m a b)%Q.
Proof.
  intros n m a b. split; [apply legendre_swap_nm|]. split; [apply legendre_swap_ab|].
  split; [apply legendre_swap_pairs|]. split; [|apply legendre_nonneg].
  intros O. rewrite (legendre_odd _ _ _ _ O). reflexivity.
Qed.
Print Assumptions C31_symmetries.
(** For every multipole the interface accepts (0..10) and the orders of the redshift
    space expansion (up to 4) it is the integral of the four Legendre polynomials,
    these being given by Bonnet's recurrence. *)
Theorem C31_value : forall P : nat -> R -> R,
  (forall x, P 0%nat x = 1%R) -> (forall x, P 1%nat x = x) ->
  (forall k x, INR (k + 2) * P (k + 2)%nat x = INR (2 * k + 3) * x * P (k + 1)%nat x - INR (k + 1) * P k x)%R ->
  forall n m a b, n <= 10 -> m <= 10 -> a <= 4 -> b <= 4 ->
  is_RInt (fun x => P n x * P m x * P a x * P b x)%R (-1) 1
          (Q2R (legendre_integral (Z.of_nat n) (Z.of_nat m) (Z.of_nat a) (Z.of_nat b))).
Proof.
  intros P P0 P1 PR n m a b Hn Hm Ha Hb.
  assert (E : forall k x, P k x = peval (legendre k) x).
  { assert (E2 : forall k x, P k x = peval (legendre k) x /\ P (S k) x = peval (legendre (S k)) x).
    { induction k as [|k IH]; intros x; destruct (legendre_rec 0 x) as (Z0 & Z1 & _).
      - rewrite P0, P1, Z0, Z1. split; reflexivity.
      - destruct (IH x) as [I1 I2]. split; [exact I2|].
        destruct (legendre_rec k x) as (_ & _ & Z). specialize (PR k x).
        rewrite !Nat.add_1_r in PR. replace (k + 2) with (S (S k)) in PR by lia. rewrite I1, I2 in PR.
        apply (Rmult_eq_reg_l (INR (S (S k)))); [|apply not_0_INR; lia]. rewrite PR.
        rewrite !INR_IZR_INZ. replace (Z.of_nat (S (S k))) with (Z.of_nat k + 2)%Z by lia. rewrite Z.
        replace (Z.of_nat (2 * k + 3)) with (2 * Z.of_nat k + 3)%Z by lia.
        replace (Z.of_nat (S k)) with (Z.of_nat k + 1)%Z by lia. reflexivity. }
    intros k x. apply E2. }
  apply (is_RInt_ext (fun x => peval (legendre n) x * peval (legendre m) x * peval (legendre a) x * peval (legendre b) x)%R).
  - intros x _. rewrite !E. reflexivity.
  - apply legendre_integral_value; assumption.
Qed.
Print Assumptions C31_value.
Example C31_value_example :
  let P k := peval (legendre k) in
  (forall x, P 0%nat x = 1%R) /\ (forall x, P 1%nat x = x)
  /\ (forall k x, INR (k + 2) * P (k + 2)%nat x = INR (2 * k + 3) * x * P (k + 1)%nat x - INR (k + 1) * P k x)%R.
Proof.
  cbv zeta. split; [intros x; apply (legendre_rec 0 x)|]. split; [intros x; apply (legendre_rec 0 x)|].
  intros k x. destruct (legendre_rec k x) as (_ & _ & Z). rewrite !Nat.add_1_r. replace (k + 2) with (S (S k)) by lia.
  rewrite !INR_IZR_INZ. replace (Z.of_nat (S (S k))) with (Z.of_nat k + 2)%Z by lia. rewrite Z.
  replace (Z.of_nat (2 * k + 3)) with (2 * Z.of_nat k + 3)%Z by lia.
  replace (Z.of_nat (S k)) with (Z.of_nat k + 1)%Z by lia. reflexivity.
Qed.
Example C31_numbers : (legendre_integral 2 2 0 0 == 2 # 5)%Q /\ (legendre_integral 2 0 2 2 == 4 # 35)%Q
  /\ (legendre_integral 1 2 0 0 == 0)%Q.
Proof. repeat split; vm_compute; reflexivity. Qed.
Theorem C31_sign : forall m, csign m = (if Z.even m then 1 else -1)%Z /\ csign (- m) = csign m
  /\ (csign (m + 1) = - csign m)%Z.
Proof.
  assert (S : forall m, csign m = (if Z.even m then 1 else -1)%Z).
  { intros m. unfold csign. rewrite Zmod_even. destruct (Z.abs_spec m) as [[_ ->]|[_ ->]]; [|rewrite Z.even_opp];
      destruct (Z.even m); reflexivity. }
  intros m. rewrite !S, Z.even_opp. split; [reflexivity|]. split; [reflexivity|].
  rewrite Z.even_add. change (Z.even 1) with false. destruct (Z.even m); reflexivity.
Qed.
Print Assumptions C31_sign.
Theorem C31_kronecker : forall i j, kronecker i j = 1%Z /\ i = j \/ kronecker i j = 0%Z /\ i <> j.
Proof. intros i j. unfold kronecker. destruct (Z.eqb_spec i j); tauto. Qed.
Print Assumptions C31_kronecker.

(** ** C47: matrix copies *)
(** A matrix of [rows] rows of [columns] elements, all written. *)
Definition matrix_of {A} (f : nat -> nat -> A) (rows columns : nat) : list (list (option A)) :=
  map (fun i => map (fun j => Some (f i j)) (seq 0 columns)) (seq 0 rows).
Lemma rd2_matrix : forall A (f : nat -> nat -> A) rows columns i j, i < rows -> j < columns ->
  rd2 (matrix_of f rows columns) i j = Some (f i j).
Proof.
  intros A f rows columns i j Hi Hj. unfold rd2, matrix_of. rewrite nth_error_map, nth_error_seq by exact Hi.
  cbn [option_map Nat.add]. unfold rd. rewrite nth_error_map, nth_error_seq by exact Hj. reflexivity.
Qed.
Lemma copy_loop : forall A (g : nat -> option A) (f : nat -> A) n, (forall i, i < n -> g i = Some (f i)) ->
  for_ n (fun i d => match g i with Some x => wr d i (Some x) | None => None end) (fresh n)
  = Some (map (fun i => Some (f i)) (seq 0 n)).
Proof.
  intros A g f n H. rewrite <- fill_fresh. unfold for_.
  assert (G : forall k i st, i + k <= n ->
    for_from i k (fun i d => match g i with Some x => wr d i (Some x) | None => None end) st
    = for_from i k (fun i a => wr a i (Some (f i))) st).
  { induction k as [|k IH]; intros i st L; [reflexivity|]. cbn [for_from]. rewrite H by lia.
    destruct (wr st i (Some (f i))); [apply IH; lia|reflexivity]. }
  apply G. lia.
Qed.
Theorem C47_copy : forall A (f : nat -> nat -> A) rows columns index,
  copy_matrix (matrix_of f rows columns) rows columns index CopyRow
    = (if index <? rows then Done (Some (map (fun j => Some (f index j)) (seq 0 columns))) else Exited)
  /\ copy_matrix (matrix_of f rows columns) rows columns index CopyColumn
    = (if index <? columns then Done (Some (map (fun i => Some (f i index)) (seq 0 rows))) else Exited).
Proof.
  intros A f rows columns index. split; unfold copy_matrix; rewrite Nat.leb_antisym;
    [destruct (Nat.ltb_spec index rows) as [L|_]|destruct (Nat.ltb_spec index columns) as [L|_]]; cbn [negb]; try reflexivity.
  - rewrite (copy_loop _ _ (fun j => f index j)); [reflexivity|]. intros i Hi. apply rd2_matrix; assumption.
  - rewrite (copy_loop _ _ (fun i => f i index)); [reflexivity|]. intros i Hi. apply rd2_matrix; assumption.
Qed.
Print Assumptions C47_copy.
Example C47_example :
  copy_matrix (matrix_of (fun i j => 10 * i + j) 3 2) 3 2 1 CopyColumn = Done (Some [Some 1; Some 11; Some 21])
  /\ copy_matrix (matrix_of (fun i j => 10 * i + j) 3 2) 3 2 2 CopyColumn = Exited.
Proof. split; reflexivity. Qed.
(** Any other word than "row" and "column" is not refused: nothing is copied. *)
Theorem C47_unknown_type_refuted : forall A (f : nat -> nat -> A) rows columns index,
  copy_matrix (matrix_of f rows columns) rows columns index CopyOther = Done None.
Proof. reflexivity. Qed.
Print Assumptions C47_unknown_type_refuted.

(** ** C48: elementwise helpers *)
Section Elementwise_props.
Context {A : Type} (mul pow : A -> A -> A).
(** The first [size] elements of block [o] become [g i]; nothing else changes. *)
Definition elementwise (m m' : @memory A) (o size : nat) (g : nat -> A) : Prop :=
  List.length (m' o) = List.length (m o)
  /\ (forall i, i < size -> rd (m' o) i = Some (g i))
  /\ (forall i, size <= i -> nth_error (m' o) i = nth_error (m o) i)
  /\ (forall q, q <> o -> m' q = m q).

Lemma elementwise_loop : forall (m : @memory A) o p q size (x y : nat -> A) (h : A -> A -> A),
  size <= List.length (m o) ->
  (forall i, i < size -> rd (m p) i = Some (x i)) -> (forall i, i < size -> rd (m q) i = Some (y i)) ->
  exists m', for_ size (fun i m => match rd (m p) i, rd (m q) i with
                                   | Some u, Some v => put m o i (h u v) | _, _ => None end) m = Some m'
    /\ elementwise m m' o size (fun i => h (x i) (y i)).
Proof.
  intros m o p q size x y h L Hp Hq.
  destruct (for_inv _ (fun k s => List.length (s o) = List.length (m o)
     /\ (forall i, i < k -> rd (s o) i = Some (h (x i) (y i)))
     /\ (forall i, k <= i -> nth_error (s o) i = nth_error (m o) i)
     /\ (forall q, q <> o -> s q = m q)) size
     (fun i m => match rd (m p) i, rd (m q) i with Some u, Some v => put m o i (h u v) | _, _ => None end) m)
    as (m' & E & P).
  - split; [reflexivity|]. split; [intros; lia|]. split; reflexivity.
  - intros j s Hj (L1 & H1 & H2 & H3).
    assert (RD : forall b, rd (s b) j = rd (m b) j).
    { intros b. destruct (Nat.eq_dec b o) as [->|N]; [|rewrite H3 by exact N; reflexivity].
      unfold rd. rewrite H2 by lia. reflexivity. }
    rewrite !RD, Hp, Hq by exact Hj. unfold put.
    destruct (wr_some (s o) j (Some (h (x j) (y j))) ltac:(lia)) as [a E]. rewrite E. exists (upd s o a).
    split; [reflexivity|]. unfold upd. rewrite Nat.eqb_refl. split; [rewrite (wr_length _ _ _ _ E); exact L1|].
    split; [|split].
    + intros i Hi. unfold rd. destruct (Nat.eq_dec i j) as [->|N]; [rewrite (wr_same _ _ _ _ E); reflexivity|].
      rewrite (wr_other _ _ _ _ i E N). apply H1. lia.
    + intros i Hi. rewrite (wr_other _ _ _ _ i E ltac:(lia)). apply H2. lia.
    + intros b N. destruct (Nat.eqb_spec b o); [congruence|]. apply H3, N.
  - exists m'. split; [exact E|exact P].
Qed.

(** The arrays may be the same one. *)
Theorem C48_elementwise : forall (m : @memory A) o p q size (x y : nat -> A) (c : A),
  size <= List.length (m o) ->
  (forall i, i < size -> rd (m p) i = Some (x i)) -> (forall i, i < size -> rd (m q) i = Some (y i)) ->
  (exists m', multiply_array mul m (Some o) (Some p) (Some q) size = Done m'
     /\ elementwise m m' o size (fun i => mul (x i) (y i)))
  /\ (exists m', multiply_power_array mul pow m (Some o) (Some p) (Some q) size c = Done m'
     /\ elementwise m m' o size (fun i => mul (x i) (pow (y i) c)))
  /\ (exists m', rescale_array mul m (Some p) size c = Done m'
     /\ elementwise m m' p size (fun i => mul (x i) c)).
Proof.
  intros m o p q size x y c L Hp Hq. split; [|split].
  - destruct (elementwise_loop m o p q size x y mul L Hp Hq) as (m' & E & P).
    exists m'. split; [|exact P]. unfold multiply_array. rewrite E. reflexivity.
  - destruct (elementwise_loop m o p q size x y (fun u v => mul u (pow v c)) L Hp Hq) as (m' & E & P).
    exists m'. split; [|exact P]. unfold multiply_power_array. rewrite E. reflexivity.
  - assert (Lp : size <= List.length (m p)).
    { destruct size as [|k]; [lia|]. pose proof (Hp k ltac:(lia)) as H. apply rd_length in H. lia. }
    destruct (elementwise_loop m p p p size x x (fun u v => mul u c) Lp Hp Hp) as (m' & E & P).
    exists m'. split; [|exact P]. unfold rescale_array, for_ in *.
    assert (EX : forall k i st, for_from i k (fun i m => match rd (m p) i with
                   | Some x => put m p i (mul x c) | None => None end) st
                 = for_from i k (fun i m => match rd (m p) i, rd (m p) i with
                   | Some u, Some v => put m p i (mul u c) | _, _ => None end) st).
    { induction k as [|k IH]; intros i st; [reflexivity|]. cbn [for_from].
      destruct (rd (st p) i); [|reflexivity]. destruct (put st p i (mul a c)); [apply IH|reflexivity]. }
    rewrite EX, E. reflexivity.
Qed.
Theorem C48_null : forall (m : @memory A) o p q size c,
  o = None \/ p = None \/ q = None ->
  multiply_array mul m o p q size = Exited /\ multiply_power_array mul pow m o p q size c = Exited
  /\ rescale_array mul m None size c = Exited.
Proof.
  intros m [o|] [p|] [q|] size c [H|[H|H]]; try discriminate H; repeat split; reflexivity.
Qed.
End Elementwise_props.
Print Assumptions C48_elementwise.
Print Assumptions C48_null.
Example C48_elementwise_example :
  let m : @memory Z := fun b => if Nat.eqb b 0 then [Some 2; Some 3; Some 5]%Z else [Some 7; Some 11]%Z in
  2 <= List.length (m 0) /\ (forall i, i < 2 -> rd (m 0) i = Some (nth i [2; 3]%Z 0%Z))
  /\ match multiply_array Z.mul m (Some 0) (Some 0) (Some 1) 2 with
     | Done m' => m' 0 = [Some 14; Some 33; Some 5]%Z | _ => False end.
Proof.
  cbv zeta. split; [cbn; lia|]. split; [|reflexivity]. intros [|[|i]] H; try reflexivity. lia.
Qed.

(** The maximum on binary64 numbers, NaNs and infinities included. *)
Lemma fltb_trans : forall x y z, fltb x y = true -> fltb y z = true -> fltb x z = true.
Proof.
  intros x y z. unfold fltb, SFltb.
  destruct x as [[|]|[|]| |[|] m1 e1], y as [[|]|[|]| |[|] m2 e2], z as [[|]|[|]| |[|] m3 e3]; cbn;
    try discriminate; try (intros; reflexivity);
    destruct (Z.compare_spec e1 e2); destruct (Z.compare_spec e2 e3); destruct (Z.compare_spec e1 e3);
    try discriminate; try (intros; reflexivity); try lia;
    try (subst; fold (Pos.compare m1 m2); fold (Pos.compare m2 m3); fold (Pos.compare m1 m3));
    change (Pos.compare_cont Eq) with Pos.compare in *;
    try (destruct (Pos.compare_spec m1 m2); destruct (Pos.compare_spec m2 m3); destruct (Pos.compare_spec m1 m3);
         cbn; try discriminate; try (intros; reflexivity); try lia).
Qed.
Theorem C48_max : forall (x : nat -> f64) size rest, 0 < size ->
  exists v, max_array (map (fun i => Some (x i)) (seq 0 size) ++ rest) size = Some v
    /\ (exists i, i < size /\ x i = v)
    /\ (forall i, i < size -> fltb v (x i) = false).
Proof.
  intros x size rest P. destruct size as [|n]; [lia|].
  set (a := map (fun i => Some (x i)) (seq 0 (S n)) ++ rest).
  assert (R : forall i, i < S n -> rd a i = Some (x i)).
  { intros i Hi. unfold a, rd. rewrite nth_error_app1 by (rewrite map_length, seq_length; exact Hi).
    rewrite nth_error_map, nth_error_seq by exact Hi. reflexivity. }
  unfold max_array. rewrite R by lia.
  destruct (for_from_inv _ (fun k cur => (exists i, i < k /\ x i = cur) /\ (forall i, i < k -> fltb cur (x i) = false)) n 1
    (fun i cur => match rd a i with Some y => Some (if fltb cur y then y else cur) | None => None end) (x 0))
    as (v & E & H1 & H2).
  - split; [exists 0; split; [lia|reflexivity]|]. intros i Hi. replace i with 0 by lia.
    unfold fltb, SFltb. destruct (is_nan (x 0)) eqn:N.
    + destruct (x 0); try discriminate. reflexivity.
    + rewrite SFcompare_refl by exact N. reflexivity.
  - intros j s Hj [[i [Hi Ei]] H]. rewrite R by lia. eexists. split; [reflexivity|].
    destruct (fltb s (x j)) eqn:T.
    + split; [exists j; split; [lia|reflexivity]|]. intros k Hk. destruct (fltb (x j) (x k)) eqn:Q; [|reflexivity].
      pose proof (fltb_trans _ _ _ T Q) as C. destruct (Nat.eq_dec k j) as [->|Nk].
      * unfold fltb, SFltb in Q. destruct (is_nan (x j)) eqn:N; [destruct (x j); discriminate|].
        rewrite SFcompare_refl in Q by exact N. discriminate.
      * rewrite H in C by lia. discriminate.
    + split; [exists i; split; [lia|exact Ei]|]. intros k Hk. destruct (Nat.eq_dec k j) as [->|Nk]; [exact T|apply H; lia].
  - exists v. split; [exact E|]. split; [exact H1|exact H2].
Qed.
Print Assumptions C48_max.
Theorem C48_max_empty : forall a, max_array a 0 = Some S754_nan.
Proof. reflexivity. Qed.
Example C48_max_example : max_array (map (fun i => Some (of_Z (nth i [3; 8; -2]%Z 0%Z))) (seq 0 3) ++ []) 3 = Some (of_Z 8).
Proof. reflexivity. Qed.
(** With a NaN in front the result bounds nothing. *)
Theorem C48_max_nan_refuted : exists a, max_array a 2 = Some S754_nan /\ rd a 1 = Some (of_Z 5).
Proof. exists [Some S754_nan; Some (of_Z 5)]. split; reflexivity. Qed.
Print Assumptions C48_max_nan_refuted.

(** ** C43: log-linear extrapolation *)
Lemma rdz_nat : forall a i, rdz a (Z.of_nat i) = nth_error a i.
Proof.
  intros a i. unfold rdz. destruct (Z.ltb_spec (Z.of_nat i) 0); [lia|]. rewrite Nat2Z.id. reflexivity.
Qed.
Lemma exp_powerRZ : forall x z, (0 < x)%R -> exp (IZR z * ln x) = powerRZ x z.
Proof.
  intros x z H. rewrite powerRZ_Rpower by exact H. reflexivity.
Qed.
Lemma extrap_value : forall f0 f1 k, (0 < f0)%R -> (0 < f1)%R ->
  xexp (xadd (xln (Some f0)) (xscale k (xln (xdiv (Some f1) (Some f0))))) = Some (f0 * powerRZ (f1 / f0) k)%R.
Proof.
  intros f0 f1 k H0 H1. unfold xdiv. destruct (Req_EM_T f0 0) as [C|_]; [lra|].
  assert (Q : (0 < f1 / f0)%R) by (apply Rdiv_lt_0_compat; assumption).
  unfold xln. destruct (Rlt_dec 0 f0) as [_|C]; [|lra]. destruct (Rlt_dec 0 (f1 / f0)) as [_|C]; [|lra].
  cbn [xscale option_map xadd xexp]. rewrite exp_plus, exp_ln by exact H0. rewrite exp_powerRZ by exact Q. reflexivity.
Qed.

(** The value the extended table has at position [i]: the sample in the middle, the
    geometric continuation of the first two and the last two samples on the sides. *)
Definition extended (f : nat -> R) (n e i : nat) : R :=
  if i <? e then (f 0%nat * powerRZ (f 1%nat / f 0%nat) (Z.of_nat i - Z.of_nat e))%R
  else if i <? e + n then f (i - e)
  else (f (n - 1)%nat * powerRZ (f (n - 1)%nat / f (n - 2)%nat) (Z.of_nat i - Z.of_nat e - Z.of_nat n + 1))%R.
Definition table (f : nat -> R) (n : nat) : list R := map f (seq 0 n).
Lemma table_nth : forall f n i, i < n -> nth_error (table f n) i = Some (f i).
Proof. intros f n i H. unfold table. rewrite nth_error_map, nth_error_seq by exact H. reflexivity. Qed.

Lemma extrap_run : forall (f : nat -> R) n e large, 2 <= n -> n + 2 * e <= List.length large ->
  exists out, extrap_log_linear (table f n) n e large = Some out /\ List.length out = List.length large
    /\ (forall i, i < e -> nth_error out i = Some (Some
          (if nonpos (f 0) then Some 0%R
           else xexp (xadd (xln (Some (f 0))) (xscale (Z.of_nat i - Z.of_nat e) (xln (xdiv (Some (f 1)) (Some (f 0)))))))))
    /\ (forall i, i < n -> nth_error out (e + i) = Some (Some (Some (f i))))
    /\ (forall i, e + n <= i < 2 * e + n -> nth_error out i = Some (Some
          (if nonpos (f (n - 1)) then Some 0%R
           else xexp (xadd (xln (Some (f (n - 1)))) (xscale (Z.of_nat i - Z.of_nat e - Z.of_nat n + 1)
                  (xln (xdiv (Some (f (n - 1))) (Some (f (n - 2))))))))))
    /\ (forall i, 2 * e + n <= i -> nth_error out i = nth_error large i).
Proof.
  intros f n e large Hn Hl. unfold extrap_log_linear, xreal in *. cbv zeta.
  change 1%Z with (Z.of_nat 1) at 1. change 0%Z with (Z.of_nat 0) at 1.
  replace (Z.of_nat n - 1)%Z with (Z.of_nat (n - 1)) by lia. replace (Z.of_nat n - 2)%Z with (Z.of_nat (n - 2)) by lia.
  rewrite !rdz_nat, !table_nth by lia. unfold for_.
  assert (Q1 : 0 + e <= List.length large) by lia.
  match goal with |- context [for_from 0 e (fun i a => wr a i (@?g i)) large] =>
    destruct (fill _ g e 0 large Q1) as (a1 & E1 & L1 & I1 & O1) end.
  cbn beta in E1. rewrite E1.
  assert (M : for_from e n (fun i a => match rdz (table f n) (Z.of_nat i - Z.of_nat e) with
              | Some x => wr a i (Some (Some x)) | None => None end) a1
            = for_from e n (fun i a => wr a i (Some (Some (f (i - e))))) a1).
  { assert (G : forall k i st, e <= i -> i + k <= e + n ->
      for_from i k (fun i a => match rdz (table f n) (Z.of_nat i - Z.of_nat e) with
              | Some x => wr a i (Some (Some x)) | None => None end) st
      = for_from i k (fun i a => wr a i (Some (Some (f (i - e))))) st).
    { induction k as [|k IH]; intros i st L U; [reflexivity|]. cbn [for_from].
      replace (Z.of_nat i - Z.of_nat e)%Z with (Z.of_nat (i - e)) by lia. rewrite rdz_nat, table_nth by lia.
      destruct (wr st i _); [apply IH; lia|reflexivity]. }
    apply G; lia. }
  rewrite M.
  assert (Q2 : e + n <= List.length a1) by lia.
  destruct (fill _ (fun i => Some (Some (f (i - e)))) n e a1 Q2) as (a2 & E2 & L2 & I2 & O2). rewrite E2.
  assert (Q3 : e + n + e <= List.length a2) by lia.
  match goal with |- context [for_from (e + n) e (fun i a => wr a i (@?g i)) a2] =>
    destruct (fill _ g e (e + n) a2 Q3) as (a3 & E3 & L3 & I3 & O3) end.
  cbn beta in E3. exists a3. rewrite E3. split; [reflexivity|]. split; [lia|]. split; [|split; [|split]].
  - intros i Hi. rewrite O3, O2 by lia. apply I1. lia.
  - intros i Hi. rewrite O3 by lia. rewrite I2 by lia. replace (e + i - e) with i by lia. reflexivity.
  - intros i Hi. apply I3. lia.
  - intros i Hi. rewrite O3, O2, O1 by lia. reflexivity.
Qed.

(** Positive samples at the ends: the table is continued with constant ratio. *)
Theorem C43_extrapolation_partial : forall (f : nat -> R) n e large,
  2 <= n -> n + 2 * e <= List.length large ->
  (0 < f 0%nat)%R -> (0 < f 1%nat)%R -> (0 < f (n - 2)%nat)%R -> (0 < f (n - 1)%nat)%R ->
  exists out, extrap_log_linear (table f n) n e large = Some out
    /\ (forall i, i < n + 2 * e -> nth_error out i = Some (Some (Some (extended f n e i))))
    /\ (forall i, n + 2 * e <= i -> nth_error out i = nth_error large i).
Proof.
  intros f n e large Hn Hl F0 F1 FP FL. destruct (extrap_run f n e large Hn Hl) as (out & E & L & HA & HB & HC & HD).
  exists out. split; [exact E|]. split.
  - intros i Hi. unfold extended. destruct (Nat.ltb_spec i e) as [I|I].
    + rewrite HA by exact I. unfold nonpos. destruct (Rle_dec (f 0) 0) as [C|_]; [lra|].
      rewrite extrap_value by assumption. reflexivity.
    + destruct (Nat.ltb_spec i (e + n)) as [J|J].
      * replace i with (e + (i - e)) at 1 by lia. apply HB. lia.
      * rewrite HC by lia. unfold nonpos. destruct (Rle_dec (f (n - 1)) 0) as [C|_]; [lra|].
        unfold xdiv. destruct (Req_EM_T (f (n - 2)) 0) as [C|_]; [lra|].
        assert (Q : (0 < f (n - 1)%nat / f (n - 2)%nat)%R) by (apply Rdiv_lt_0_compat; assumption).
        unfold xln. destruct (Rlt_dec 0 (f (n - 1))) as [_|C]; [|lra].
        destruct (Rlt_dec 0 (f (n - 1) / f (n - 2))) as [_|C]; [|lra].
        cbn [xscale option_map xadd xexp]. rewrite exp_plus, exp_ln by exact FL. rewrite exp_powerRZ by exact Q. reflexivity.
  - intros i Hi. apply HD. lia.
Qed.
Print Assumptions C43_extrapolation_partial.
(** In every case the samples themselves are kept, in the centre. *)
Theorem C43_samples_kept : forall (f : nat -> R) n e large, 2 <= n -> n + 2 * e <= List.length large ->
  exists out, extrap_log_linear (table f n) n e large = Some out
    /\ forall i, i < n -> nth_error out (e + i) = Some (Some (Some (f i))).
Proof.
  intros f n e large Hn Hl. destruct (extrap_run f n e large Hn Hl) as (out & E & L & HA & HB & HC & HD).
  exists out. split; [exact E|exact HB].
Qed.
Print Assumptions C43_samples_kept.
Example C43_example : let f i := (2 ^ i)%R in
  2 <= 3 /\ 3 + 2 * 2 <= List.length (fresh (A := xreal) 7) /\ (0 < f 0%nat)%R /\ (0 < f 1%nat)%R /\ (0 < f (3 - 2)%nat)%R
  /\ (0 < f (3 - 1)%nat)%R /\ extended f 3 2 0 = (/ 4)%R /\ extended f 3 2 6 = 16%R.
Proof.
  cbv zeta. split; [lia|]. split; [cbn; lia|]. cbn [Nat.sub pow]. repeat split; try lra; unfold extended;
    cbn [Nat.ltb Nat.leb Nat.sub Nat.add].
  - change (Z.of_nat 0 - Z.of_nat 2)%Z with (-2)%Z. unfold powerRZ. change (Pos.to_nat 2) with 2. cbn [pow]. field.
  - change (Z.of_nat 6 - Z.of_nat 2 - Z.of_nat 3 + 1)%Z with 2%Z. unfold powerRZ. change (Pos.to_nat 2) with 2. cbn [pow]. field.
Qed.
(** A table whose second sample is zero: the continuation is not finite. *)
Theorem C43_zero_sample_refuted : exists (f : nat -> R) n e large out,
  2 <= n /\ n + 2 * e <= List.length large /\ (0 < f 0%nat)%R
  /\ extrap_log_linear (table f n) n e large = Some out /\ nth_error out 0 = Some (Some None).
Proof.
  exists (fun i => if Nat.eqb i 1 then 0 else 1)%R, 3, 1, (fresh 5).
  destruct (extrap_run (fun i => if Nat.eqb i 1 then 0 else 1)%R 3 1 (fresh 5) ltac:(lia) ltac:(cbn; lia))
    as (out & E & L & HA & _).
  exists out. split; [lia|]. split; [cbn; lia|]. split; [cbn; lra|]. split; [exact E|].
  rewrite HA by lia. cbn [Nat.eqb]. unfold nonpos. destruct (Rle_dec 1 0) as [C|_]; [lra|].
  unfold xdiv. destruct (Req_EM_T 1 0) as [C|_]; [lra|].
  assert (N : xln (Some (0 / 1)%R) = None) by (unfold xln; destruct (Rlt_dec 0 (0 / 1)) as [C|_]; [lra|reflexivity]).
  rewrite N. cbn [xscale option_map]. unfold xadd. destruct (xln (Some 1%R)); reflexivity.
Qed.
Print Assumptions C43_zero_sample_refuted.
(** A table with fewer than two samples is read outside its bounds. *)
Theorem C43_short_table_refuted : forall fk n e large, List.length fk < 2 ->
  extrap_log_linear fk n e large = None.
Proof.
  intros fk n e large H. unfold extrap_log_linear. cbv zeta.
  assert (N : rdz fk 1 = None) by (change (rdz fk (Z.of_nat 1) = None); rewrite rdz_nat; apply nth_error_None; lia).
  rewrite N. reflexivity.
Qed.
Print Assumptions C43_short_table_refuted.

(** ** C41: the window *)
Open Scope R_scope.
Definition ramp (r : R) : R := r - sin (2 * PI * r) / 2 / PI.
Lemma sin_le_self : forall x, 0 <= x -> sin x <= x.
Proof.
  intros x H. destruct (Rle_lt_or_eq_dec 0 x H) as [L|<-]; [|rewrite sin_0; lra].
  left. apply sin_lt_x. exact L.
Qed.
Lemma ramp_mono : forall r s, r <= s -> ramp r <= ramp s.
Proof.
  intros r s H. unfold ramp. assert (P : 0 < PI) by apply PI_RGT_0.
  assert (D : sin (2 * PI * s) - sin (2 * PI * r) <= 2 * PI * (s - r)).
  { rewrite form4.
    replace ((2 * PI * s - 2 * PI * r) / 2) with (PI * (s - r)) by field.
    assert (S0 : Rabs (sin (PI * (s - r))) <= PI * (s - r)).
    { assert (0 <= PI * (s - r)) by (apply Rmult_le_pos; lra).
      unfold Rabs. destruct (Rcase_abs _); [|apply sin_le_self; assumption].
      rewrite <- sin_neg. destruct (Rle_dec (PI * (s - r)) PI) as [L|L].
      - assert (0 <= sin (PI * (s - r))) by (apply sin_ge_0; assumption). lra.
      - pose proof (SIN_bound (- (PI * (s - r)))). pose proof PI2_1. lra. }
    pose proof (COS_bound ((2 * PI * s + 2 * PI * r) / 2)) as C.
    set (c := cos _) in *. set (u := sin _) in *.
    assert (K : u * c <= Rabs u * 1).
    { apply Rle_trans with (Rabs (u * c)); [apply Rle_abs|]. rewrite Rabs_mult. apply Rmult_le_compat_l; [apply Rabs_pos|].
      apply Rabs_le. lra. }
    nra. }
  replace (sin (2 * PI * r) / 2 / PI) with (sin (2 * PI * r) * / (2 * PI)) by (field; lra).
  replace (sin (2 * PI * s) / 2 / PI) with (sin (2 * PI * s) * / (2 * PI)) by (field; lra).
  assert (I : 0 < / (2 * PI)) by (apply Rinv_0_lt_compat; lra).
  assert (X : (sin (2 * PI * s) - sin (2 * PI * r)) * / (2 * PI) <= 2 * PI * (s - r) * / (2 * PI))
    by (apply Rmult_le_compat_r; lra).
  replace (2 * PI * (s - r) * / (2 * PI)) with (s - r) in X by (field; lra). lra.
Qed.
Lemma ramp_0 : ramp 0 = 0.
Proof. unfold ramp. rewrite Rmult_0_r, sin_0. field. apply PI_neq0. Qed.
Lemma ramp_1 : ramp 1 = 1.
Proof. unfold ramp. rewrite Rmult_1_r, sin_2PI. field. apply PI_neq0. Qed.
Lemma ramp_bounds : forall r, 0 <= r <= 1 -> 0 <= ramp r <= 1.
Proof. intros r [H1 H2]. pose proof (ramp_mono 0 r H1). pose proof (ramp_mono r 1 H2). rewrite ramp_0 in *. rewrite ramp_1 in *. lra. Qed.

Lemma rlt_true : forall a b, a < b -> rlt a b = true.
Proof. intros a b H. unfold rlt. destruct (Rlt_dec a b); [reflexivity|contradiction]. Qed.
Lemma rlt_false : forall a b, b <= a -> rlt a b = false.
Proof. intros a b H. unfold rlt. destruct (Rlt_dec a b); [lra|reflexivity]. Qed.
Lemma rle_true : forall a b, a <= b -> rle a b = true.
Proof. intros a b H. unfold rle. destruct (Rle_dec a b); [reflexivity|contradiction]. Qed.
Lemma rle_false : forall a b, b < a -> rle a b = false.
Proof. intros a b H. unfold rle. destruct (Rle_dec a b); [lra|reflexivity]. Qed.
Ltac decb := repeat match goal with
  | |- context [rlt ?a ?b] => first [rewrite (rlt_true a b) by lra | rewrite (rlt_false a b) by lra | destruct (rlt a b) eqn:?]
  | |- context [rle ?a ?b] => first [rewrite (rle_true a b) by lra | rewrite (rle_false a b) by lra | destruct (rle a b) eqn:?]
  end; cbn [andb orb]; try reflexivity.

(** With limits in order: 1 strictly inside, 0 outside, a monotone ramp between 0 and 1
    on the two edges. *)
Theorem C41_window_partial : forall xmin xmax xleft xright, xmin <= xleft -> xleft <= xright -> xright <= xmax ->
  (forall v, xleft < v < xright -> twofast_window v xmin xmax xleft xright = Done 1)
  /\ (forall v, v <= xmin \/ xmax <= v -> twofast_window v xmin xmax xleft xright = Done 0)
  /\ (forall v, v <> xleft -> v <> xright -> exists w, twofast_window v xmin xmax xleft xright = Done w /\ 0 <= w <= 1)
  /\ (forall u v wu wv, xmin <= u -> u <= v -> v < xleft ->
        twofast_window u xmin xmax xleft xright = Done wu -> twofast_window v xmin xmax xleft xright = Done wv -> wu <= wv)
  /\ (forall u v wu wv, xright < u -> u <= v -> v <= xmax ->
        twofast_window u xmin xmax xleft xright = Done wu -> twofast_window v xmin xmax xleft xright = Done wv -> wv <= wu).
Proof.
  intros xmin xmax xleft xright H1 H2 H3.
  assert (In1 : forall v, xleft < v < xright -> twofast_window v xmin xmax xleft xright = Done 1)
    by (intros v Hv; unfold twofast_window; decb).
  assert (Out : forall v, v <= xmin \/ xmax <= v -> twofast_window v xmin xmax xleft xright = Done 0).
  { intros v [Hv|Hv]; unfold twofast_window; decb. }
  assert (Le : forall v, xmin < v < xleft -> twofast_window v xmin xmax xleft xright = Done (ramp ((v - xmin) / (xleft - xmin)))).
  { intros v Hv. unfold twofast_window, ramp. decb. }
  assert (Ri : forall v, xright < v < xmax -> twofast_window v xmin xmax xleft xright = Done (ramp ((xmax - v) / (xmax - xright)))).
  { intros v Hv. unfold twofast_window, ramp. decb. }
  assert (Fr : forall a b, 0 <= a -> a <= b -> 0 < b -> 0 <= a / b <= 1).
  { intros a b A B C. split; [apply Rdiv_le_0_compat; assumption|]. apply (Rmult_le_reg_r b); [exact C|].
    unfold Rdiv. rewrite Rmult_assoc, Rinv_l by lra. lra. }
  assert (All : forall v, v <> xleft -> v <> xright -> exists w, twofast_window v xmin xmax xleft xright = Done w /\ 0 <= w <= 1).
  { intros v N1 N2.
    destruct (Rle_dec v xmin); [exists 0; split; [apply Out; lra|lra]|].
    destruct (Rle_dec xmax v); [exists 0; split; [apply Out; lra|lra]|].
    destruct (Rlt_dec v xleft).
    - eexists. split; [apply Le; lra|]. apply ramp_bounds, Fr; lra.
    - destruct (Rlt_dec v xright).
      + exists 1. split; [apply In1; lra|lra].
      + eexists. split; [apply Ri; lra|]. apply ramp_bounds, Fr; lra. }
  split; [exact In1|]. split; [exact Out|]. split; [exact All|]. split.
  - intros u v wu wv Lu Luv Lv Eu Ev.
    destruct (Req_dec u xmin) as [->|Nu].
    + rewrite Out in Eu by lra. injection Eu as <-.
      destruct (Req_dec v xmin) as [->|Nv]; [rewrite Out in Ev by lra; injection Ev as <-; lra|].
      rewrite Le in Ev by lra. injection Ev as <-. apply ramp_bounds, Fr; lra.
    + rewrite Le in Eu by lra. rewrite Le in Ev by lra. injection Eu as <-. injection Ev as <-. apply ramp_mono.
      unfold Rdiv. apply Rmult_le_compat_r; [left; apply Rinv_0_lt_compat; lra|lra].
  - intros u v wu wv Lu Luv Lv Eu Ev.
    destruct (Req_dec v xmax) as [->|Nv].
    + rewrite Out in Ev by lra. injection Ev as <-.
      destruct (Req_dec u xmax) as [->|Nu]; [rewrite Out in Eu by lra; injection Eu as <-; lra|].
      rewrite Ri in Eu by lra. injection Eu as <-. apply ramp_bounds, Fr; lra.
    + rewrite Ri in Eu by lra. rewrite Ri in Ev by lra. injection Eu as <-. injection Ev as <-. apply ramp_mono.
      unfold Rdiv. apply Rmult_le_compat_r; [left; apply Rinv_0_lt_compat; lra|lra].
Qed.
Print Assumptions C41_window_partial.
Example C41_example : 1 <= 2 /\ 2 <= 3 /\ 3 <= 4 /\ twofast_window (3/2) 1 4 2 3 = Done (1/2).
Proof.
  repeat split; try lra. unfold twofast_window. decb.
  f_equal. replace ((3 / 2 - 1) / (2 - 1)) with (1/2) by field. replace (2 * PI * (1/2)) with PI by field. rewrite sin_PI. field.
  apply PI_neq0.
Qed.
(** At the inner edges themselves the result is a variable never assigned. *)
Theorem C41_edge_refuted : forall xmin xmax xleft xright, xmin < xleft -> xleft <= xright -> xright < xmax ->
  twofast_window xleft xmin xmax xleft xright = Undefined
  /\ twofast_window xright xmin xmax xleft xright = Undefined.
Proof.
  intros xmin xmax xleft xright H1 H2 H3. split; unfold twofast_window; decb.
Qed.
Print Assumptions C41_edge_refuted.
(** The caller (twofast.c:252-360) takes xleft = e^0.46 kmin and xright = e^-0.46 times the last
    wavenumber: if the range spans less than a factor e^0.92 the call ends the process. *)
Theorem C41_narrow_range_refuted : forall kmin klast v, 0 < kmin -> klast < exp (46/50) * kmin ->
  twofast_window v kmin klast (exp (46/100) * kmin) (exp (- (46/100)) * klast) = Exited.
Proof.
  intros kmin klast v P H. unfold twofast_window.
  assert (L : exp (- (46/100)) * klast < exp (46/100) * kmin).
  { apply (Rmult_lt_reg_l (exp (46/100))); [apply exp_pos|]. rewrite <- !Rmult_assoc, <- !exp_plus.
    replace (46/100 + - (46/100)) with 0 by field. rewrite exp_0. replace (46/100 + 46/100) with (46/50) by field. lra. }
  rewrite (rle_false (exp (46/100) * kmin) _ L). rewrite andb_false_r. reflexivity.
Qed.
Print Assumptions C41_narrow_range_refuted.
Example C41_narrow_example : 0 < 1 /\ 3/2 < exp (46/50) * 1.
Proof. split; [lra|]. pose proof (exp_ineq1 (46/50) ltac:(lra)). lra. Qed.
