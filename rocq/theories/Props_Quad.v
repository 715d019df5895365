(** * C44: the double-exponential rule

    Theorems about [tanhsinh_quad] and about the wrapper the library calls,
    for every integrand, interval and tolerance. *)
From Coquelicot Require Import Coquelicot.
From Coq Require Import QArith Qreals Reals List Lra Lia Psatz Bool.
From Verif Require Import Tanhsinh TanhsinhLemmas F64.
Import ListNotations.
Open Scope R_scope.

(** ** The integrand is evaluated inside the interval only

    There is a list of points, strictly between the two limits, as long as
    the reported number of evaluations (at most 385), such that every other
    integrand with the same values there gives the same three results. *)
Lemma point_inside : forall a b i x, a <> b -> (i <= 193)%nat ->
  In x (points (1 / 2 * (b - a)) (1 / 2 * (b + a)) i) -> Rmin a b < x < Rmax a b.
Proof.
  intros a b i x N I H.
  assert (G : forall s k, (k < 193)%nat -> s = 1 \/ s = -1 ->
            Rmin a b < s * (1 / 2 * (b - a)) * node k + 1 / 2 * (b + a) < Rmax a b).
  { intros s k K S. destruct (node_range k K) as [A B].
    destruct (Rtotal_order a b) as [L|[L|L]]; [|contradiction|];
      [rewrite Rmin_left, Rmax_right by lra|rewrite Rmin_right, Rmax_left by lra];
      destruct S; subst s; nra. }
  destruct H as [H|H].
  - specialize (G 1 0%nat ltac:(lia) (or_introl eq_refl)). subst x.
    rewrite Rmult_1_l in G. exact G.
  - apply in_flat_map in H. destruct H as [k [K H]]. apply in_seq in K.
    assert (K' : (k < 193)%nat) by lia.
    destruct H as [H|[H|[]]]; subst x.
    + specialize (G 1 k K' (or_introl eq_refl)). rewrite Rmult_1_l in G. exact G.
    + specialize (G (-1) k K' (or_intror eq_refl)).
      replace (- (1 / 2 * (b - a)) * node k) with (-1 * (1 / 2 * (b - a)) * node k) by ring.
      exact G.
Qed.

Theorem C44_inside : forall f a b abs_err, a <> b ->
  exists pts,
    length pts = num_eval (tanhsinh_quad f a b abs_err) /\
    (length pts <= 385)%nat /\
    Forall (fun x => Rmin a b < x < Rmax a b) pts /\
    forall g, (forall x, In x pts -> g x = f x) ->
      tanhsinh_quad g a b abs_err = tanhsinh_quad f a b abs_err.
Proof.
  intros f a b e N. unfold tanhsinh_quad.
  destruct (integrate_local f (1 / 2 * (b - a)) (1 / 2 * (b + a)) e) as [i [I [E L]]].
  exists (points (1 / 2 * (b - a)) (1 / 2 * (b + a)) i).
  rewrite points_length by lia.
  split; [symmetry; exact E|]. split; [lia|]. split; [|exact L].
  apply Forall_forall. intros x H. apply (point_inside a b i); [exact N|lia|exact H].
Qed.

(** ** Scaling the integrand *)

(** As the library calls it (no tolerance), the rule is homogeneous. *)
Theorem C44_homogeneous : forall f a b precision k,
  double_exponential (fun x => k * f x) a b precision = k * double_exponential f a b precision.
Proof.
  intros f a b p k. unfold double_exponential, tanhsinh_quad.
  set (c := 1 / 2 * (b - a)). set (d := 1 / 2 * (b + a)).
  destruct (Req_dec c 0) as [Z|Z].
  - rewrite Z. destruct (integrate_stops (fun x => k * f x) 0 d 0) as [L [_ [E _]]].
    destruct (integrate_stops f 0 d 0) as [L' [_ [E' _]]]. rewrite E, E'. ring.
  - destruct (Req_dec k 0) as [K|K].
    + destruct (integrate_stops (fun x => k * f x) c d 0) as [L [_ [E _]]]. rewrite E, K.
      unfold partial_sum. rewrite total_zero; [ring|]. intros i _. unfold pair. ring.
    + apply (Rmult_eq_reg_r c); [|exact Z].
      apply integrate_scaled; [exact K|reflexivity|].
      intros i. unfold pair. ring.
Qed.

(** ** Integrands antisymmetric about the midpoint *)
Theorem C44_antisymmetric : forall f a b abs_err,
  (forall x, f (a + b - x) = - f x) -> value (tanhsinh_quad f a b abs_err) = 0.
Proof.
  intros f a b e H. unfold tanhsinh_quad.
  destruct (integrate_stops f (1 / 2 * (b - a)) (1 / 2 * (b + a)) e) as [L [_ [E _]]].
  rewrite E. unfold partial_sum. rewrite total_zero.
  - rewrite node_0, Rmult_0_r, Rplus_0_l.
    specialize (H (1 / 2 * (b + a))).
    replace (a + b - 1 / 2 * (b + a)) with (1 / 2 * (b + a)) in H by field.
    replace (f (1 / 2 * (b + a))) with 0 by lra. ring.
  - intros i _. unfold pair.
    specialize (H (1 / 2 * (b - a) * node i + 1 / 2 * (b + a))).
    replace (a + b - (1 / 2 * (b - a) * node i + 1 / 2 * (b + a)))
      with (- (1 / 2 * (b - a)) * node i + 1 / 2 * (b + a)) in H by field.
    rewrite H. ring.
Qed.

(** ** Changing the limits *)

Theorem C44_reversed : forall f a b precision,
  double_exponential f b a precision = - double_exponential f a b precision.
Proof.
  intros f a b p. unfold double_exponential, tanhsinh_quad.
  replace (1 / 2 * (a - b)) with (- (1 / 2 * (b - a))) by ring.
  replace (1 / 2 * (a + b)) with (1 / 2 * (b + a)) by ring.
  set (c := 1 / 2 * (b - a)). set (d := 1 / 2 * (b + a)).
  destruct (Req_dec c 0) as [Z|Z].
  - rewrite Z. destruct (integrate_stops f (- 0) d 0) as [L [_ [E _]]].
    destruct (integrate_stops f 0 d 0) as [L' [_ [E' _]]]. rewrite E, E'. ring.
  - apply (Rmult_eq_reg_r c); [|exact Z].
    rewrite (integrate_scaled f f c d (- c) d 1); [ring|lra| |].
    + rewrite node_0. rewrite Rmult_1_l. f_equal. ring.
    + intros i. unfold pair. rewrite Ropp_involutive. ring.
Qed.

(** Mapping the interval to [0, 1] by hand gives the same number. *)
Theorem C44_unit_interval : forall f a b precision,
  double_exponential f a b precision
  = (b - a) * double_exponential (fun t => f (a + (b - a) * t)) 0 1 precision.
Proof.
  intros f a b p. unfold double_exponential, tanhsinh_quad.
  set (c := 1 / 2 * (b - a)). set (d := 1 / 2 * (b + a)).
  set (g := fun t => f (a + (b - a) * t)).
  assert (S : forall i, pair f c d i = 1 * pair g (1 / 2 * (1 - 0)) (1 / 2 * (1 + 0)) i).
  { intros i. unfold pair, g. rewrite Rmult_1_l. unfold c, d.
    f_equal. f_equal; f_equal; field. }
  pose proof (integrate_scaled g f (1 / 2 * (1 - 0)) (1 / 2 * (1 + 0)) c d 1 R1_neq_R0) as K.
  rewrite Rmult_1_l in K.
  assert (F : f (c * node 0 + d) = g (1 / 2 * (1 - 0) * node 0 + 1 / 2 * (1 + 0))).
  { unfold g, c, d. f_equal. field. }
  specialize (K F S).
  apply (Rmult_eq_reg_r (1 / 2 * (1 - 0))); [|lra].
  rewrite K. unfold c. ring.
Qed.

(** ** Sign and size *)

Theorem C44_nonnegative : forall f a b abs_err, a < b ->
  (forall x, a < x < b -> 0 <= f x) -> 0 <= value (tanhsinh_quad f a b abs_err).
Proof.
  intros f a b e L H. unfold tanhsinh_quad.
  destruct (integrate_stops f (1 / 2 * (b - a)) (1 / 2 * (b + a)) e) as [l [I [E _]]].
  rewrite E.
  assert (OB : (offset (S l) <= 193)%nat) by (rewrite <- offset_7; apply offset_le; lia).
  apply Rmult_le_pos; [lra|]. apply Rmult_le_pos.
  - apply Rlt_le, Rinv_0_lt_compat, pow_lt. lra.
  - unfold partial_sum. apply Rplus_le_le_0_compat.
    + apply Rmult_le_pos; [|apply Rlt_le, weight_pos; lia].
      apply H. rewrite node_0. lra.
    + apply total_nonneg. intros i Hi. apply in_seq in Hi.
      assert (Hi' : (i < 193)%nat) by lia.
      destruct (node_range i Hi') as [A B]. unfold pair.
      apply Rmult_le_pos; [apply Rlt_le, weight_pos; exact Hi'|].
      apply Rplus_le_le_0_compat; apply H; nra.
Qed.

Theorem C44_bounded : forall f a b abs_err M, a < b ->
  (forall x, a < x < b -> Rabs (f x) <= M) ->
  Rabs (value (tanhsinh_quad f a b abs_err)) <= (1 + / 10000000000000) * ((b - a) * M).
Proof.
  intros f a b e M L H. unfold tanhsinh_quad.
  destruct (integrate_stops f (1 / 2 * (b - a)) (1 / 2 * (b + a)) e) as [l [I [E _]]].
  rewrite E.
  assert (OB : (offset (S l) <= 193)%nat) by (rewrite <- offset_7; apply offset_le; lia).
  assert (M0 : 0 <= M).
  { eapply Rle_trans; [apply Rabs_pos|]. apply (H ((a + b) / 2)). lra. }
  assert (P2 : 0 < / 2 ^ l) by (apply Rinv_0_lt_compat, pow_lt; lra).
  assert (B : Rabs (partial_sum f (1 / 2 * (b - a)) (1 / 2 * (b + a)) (offset (S l)))
              <= M * (weight 0 + 2 * total weight (seq 1 (offset (S l) - 1)))).
  { unfold partial_sum. eapply Rle_trans; [apply Rabs_triang|].
    rewrite (Rmult_plus_distr_l M). apply Rplus_le_compat.
    - rewrite Rabs_mult. rewrite (Rabs_pos_eq (weight 0)) by (apply Rlt_le, weight_pos; lia).
      apply Rmult_le_compat_r; [apply Rlt_le, weight_pos; lia|].
      apply H. rewrite node_0. lra.
    - rewrite <- Rmult_assoc, <- total_scale. apply total_abs. intros i Hi. apply in_seq in Hi.
      assert (Hi' : (i < 193)%nat) by lia.
      destruct (node_range i Hi') as [A C]. unfold pair.
      rewrite Rabs_mult, (Rabs_pos_eq (weight i)) by (apply Rlt_le, weight_pos; exact Hi').
      rewrite (Rmult_comm (M * 2)).
      apply Rmult_le_compat_l; [apply Rlt_le, weight_pos; exact Hi'|].
      eapply Rle_trans; [apply Rabs_triang|].
      assert (Rabs (f (1 / 2 * (b - a) * node i + 1 / 2 * (b + a))) <= M) by (apply H; nra).
      assert (Rabs (f (- (1 / 2 * (b - a)) * node i + 1 / 2 * (b + a))) <= M) by (apply H; nra).
      lra. }
  pose proof (mass_near l I) as N. rewrite mass_R in N. apply Rabs_le_between in N.
  rewrite (Rabs_mult (1 / 2 * (b - a))), (Rabs_mult (/ 2 ^ l)).
  rewrite (Rabs_pos_eq (1 / 2 * (b - a))), (Rabs_pos_eq (/ 2 ^ l)) by lra.
  set (W := weight 0 + 2 * total weight (seq 1 (offset (S l) - 1))) in *.
  apply Rle_trans with (1 / 2 * (b - a) * (/ 2 ^ l * (M * W))).
  - apply Rmult_le_compat_l; [lra|]. apply Rmult_le_compat_l; [lra|exact B].
  - replace (1 / 2 * (b - a) * (/ 2 ^ l * (M * W)))
      with ((/ 2 ^ l * W) * (1 / 2 * ((b - a) * M))) by ring.
    apply Rle_trans with ((2 + / 10000000000000) * (1 / 2 * ((b - a) * M))).
    + apply Rmult_le_compat_r; [|lra].
      apply Rmult_le_pos; [lra|]. apply Rmult_le_pos; lra.
    + assert (0 <= (b - a) * M) by (apply Rmult_le_pos; lra). lra.
Qed.

(** ** Accuracy on polynomials of degree at most three

    The polynomial is written around the midpoint [(a + b) / 2] of the
    interval; every cubic can be.  The reference value is the Riemann
    integral. *)
Definition cubic (p0 p1 p2 p3 m x : R) : R :=
  p0 + p1 * (x - m) + p2 * (x - m) ^ 2 + p3 * (x - m) ^ 3.

Lemma cubic_integral : forall p0 p1 p2 p3 a b,
  is_RInt (cubic p0 p1 p2 p3 ((a + b) / 2)) a b ((b - a) * p0 + p2 * (b - a) ^ 3 / 12).
Proof.
  intros p0 p1 p2 p3 a b.
  set (m := (a + b) / 2).
  set (F := fun x => p0 * (x - m) + p1 * (x - m) ^ 2 / 2 + p2 * (x - m) ^ 3 / 3 + p3 * (x - m) ^ 4 / 4).
  replace ((b - a) * p0 + p2 * (b - a) ^ 3 / 12) with (minus (F b) (F a)).
  - apply (is_RInt_derive F (cubic p0 p1 p2 p3 m)).
    + intros x _. unfold F, cubic. auto_derive; [exact I|]. field.
    + intros x _. unfold cubic. apply (ex_derive_continuous (V := R_NormedModule)).
      auto_derive. exact I.
  - unfold minus, plus, opp. simpl. unfold F, m. field.
Qed.

Theorem C44_cubic : forall p0 p1 p2 p3 a b abs_err I,
  is_RInt (cubic p0 p1 p2 p3 ((a + b) / 2)) a b I ->
  Rabs (value (tanhsinh_quad (cubic p0 p1 p2 p3 ((a + b) / 2)) a b abs_err) - I)
  <= / 10000000000000 * (Rabs (b - a) * Rabs p0)
     + / 10000000000 * (Rabs (b - a) * Rabs p2 * (b - a) ^ 2).
Proof.
  intros p0 p1 p2 p3 a b e J HJ.
  assert (EJ : J = (b - a) * p0 + p2 * (b - a) ^ 3 / 12).
  { transitivity (RInt (cubic p0 p1 p2 p3 ((a + b) / 2)) a b).
    - symmetry. apply is_RInt_unique. exact HJ.
    - apply is_RInt_unique. apply cubic_integral. }
  subst J. clear HJ. unfold tanhsinh_quad.
  set (f := cubic p0 p1 p2 p3 ((a + b) / 2)).
  set (c := 1 / 2 * (b - a)).
  destruct (integrate_stops f c (1 / 2 * (b + a)) e) as [l [I [E _]]].
  rewrite E.
  assert (PS : / 2 ^ l * partial_sum f c (1 / 2 * (b + a)) (offset (S l))
               = p0 * Q2R (mass l) + p2 * c ^ 2 * Q2R (second l)).
  { unfold partial_sum.
    rewrite (total_ext _ (fun i => 2 * p0 * weight i + 2 * p2 * c ^ 2 * (weight i * node i ^ 2))).
    - rewrite total_plus, !total_scale, mass_R, second_R.
      rewrite node_0. unfold f, cubic. field. apply pow_nonzero. lra.
    - intros i _. unfold pair, f, cubic, c. field. }
  rewrite PS.
  pose proof (mass_near l I) as A. pose proof (second_near l I) as B.
  replace (c * (p0 * Q2R (mass l) + p2 * c ^ 2 * Q2R (second l))
           - ((b - a) * p0 + p2 * (b - a) ^ 3 / 12))
    with ((b - a) * p0 * (1 / 2) * (Q2R (mass l) - 2)
          + (b - a) * p2 * (b - a) ^ 2 * (1 / 8) * (Q2R (second l) - 2 / 3)) by (unfold c; field).
  eapply Rle_trans; [apply Rabs_triang|].
  rewrite !Rabs_mult.
  rewrite (Rabs_pos_eq ((b - a) ^ 2)) by (apply pow2_ge_0).
  rewrite (Rabs_pos_eq (1 / 2)), (Rabs_pos_eq (1 / 8)) by lra.
  assert (X : 0 <= Rabs (b - a) * Rabs p0) by (apply Rmult_le_pos; apply Rabs_pos).
  assert (Y : 0 <= Rabs (b - a) * Rabs p2 * (b - a) ^ 2).
  { apply Rmult_le_pos; [|apply pow2_ge_0]. apply Rmult_le_pos; apply Rabs_pos. }
  apply Rplus_le_compat.
  - rewrite (Rmult_comm (/ 10000000000000)). rewrite Rmult_assoc.
    apply Rmult_le_compat_l; [exact X|]. lra.
  - rewrite (Rmult_comm (/ 10000000000)). rewrite Rmult_assoc.
    apply Rmult_le_compat_l; [exact Y|]. lra.
Qed.

(** ** With a tolerance the rule is not homogeneous

    The stopping test compares the estimated error with the absolute
    tolerance, so multiplying the integrand by a constant can change the
    number of levels.  Witness: the constant 1 on [-1, 1]. *)
Lemma mass_1_2 : close (mass 1 - mass 2) (675e-8) (5e-8) = true.
Proof. vm_compute. reflexivity. Qed.

Lemma mass_gap : forallb (fun L => Qle_bool (mass L + 1e-14) (mass 2)) [3; 4; 5; 6]%nat = true.
Proof. vm_compute. reflexivity. Qed.

Lemma const_sum : forall k L,
  / 2 ^ L * partial_sum (fun _ => k) 1 0 (offset (S L)) = k * Q2R (mass L).
Proof.
  intros k L. rewrite mass_R. unfold partial_sum.
  rewrite (total_ext _ (fun i => 2 * k * weight i)) by (intros; unfold pair; ring).
  rewrite total_scale. ring.
Qed.

Lemma const_level : forall k L, (L <= 5)%nat ->
  / 2 ^ (S L) * total (pair (fun _ => k) 1 0) (seq (offset (S L)) (offset (S (S L)) - offset (S L)))
  = k * Q2R (mass (S L)) - 1 / 2 * (k * Q2R (mass L)).
Proof.
  intros k L H. rewrite <- !const_sum.
  rewrite (partial_sum_split _ 1 0 (offset (S L)) (offset (S (S L)))).
  - simpl pow. field. apply pow_nonzero. lra.
  - split; [change 1%nat with (offset 0); apply offset_le; lia|apply offset_le; lia].
Qed.

Definition delta2 (k : R) : R := Rabs (k * (Q2R (mass 1) - Q2R (mass 2))).

(** The loop after its first two levels, for a constant integrand. *)
Lemma const_two_levels : forall k tol, exists prev,
  let I2 := k * Q2R (mass 2) in
  let est := if in_window (delta2 k) prev then delta2 k * delta2 k else delta2 k in
  sweep (fun _ => k) 1 0 tol (num_levels - 1) 1 1 dbl_max dbl_max
    (add_pairs (fun _ => k) 1 0 (offset 0) (offset 1) (k * weight 0))
  = if Req_EM_T (delta2 k) 0 then (I2, dbl_max, offset 3)
    else if Rlt_dec est (1 / 10 * tol) then (I2, est, offset 3)
    else sweep (fun _ => k) 1 0 tol 4 3 (/ 2 ^ 2) (delta2 k) est I2.
Proof.
  intros k tol.
  pose proof (first_sum (fun _ => k) 1 0) as F. cbv beta in F. rewrite F, const_sum.
  exists (Rabs (1 / 2 * (k * Q2R (mass 0)) - (k * Q2R (mass 1) - 1 / 2 * (k * Q2R (mass 0))))).
  change (num_levels - 1)%nat with (S (S 4)).
  cbn [sweep Nat.eqb].
  rewrite !add_pairs_total.
  pose proof (const_level k 0 ltac:(lia)) as A. pose proof (const_level k 1 ltac:(lia)) as B.
  set (T1 := total _ (seq (offset 1) _)) in *.
  set (T2 := total _ (seq (offset 2) _)) in *.
  replace ((0 + T1) * (1 * (1 / 2))) with (/ 2 ^ 1 * T1) by (simpl; field).
  replace ((0 + T2) * (1 * (1 / 2) * (1 / 2))) with (/ 2 ^ 2 * T2) by (simpl; field).
  rewrite A, B.
  replace (1 * (1 / 2) * (1 / 2)) with (/ 2 ^ 2) by (simpl; field).
  replace (1 / 2 * (k * Q2R (mass 0)) + (k * Q2R (mass 1) - 1 / 2 * (k * Q2R (mass 0))))
    with (k * Q2R (mass 1)) by ring.
  replace (1 / 2 * (k * Q2R (mass 1)) + (k * Q2R (mass 2) - 1 / 2 * (k * Q2R (mass 1))))
    with (k * Q2R (mass 2)) by ring.
  replace (1 / 2 * (k * Q2R (mass 1)) - (k * Q2R (mass 2) - 1 / 2 * (k * Q2R (mass 1))))
    with (k * (Q2R (mass 1) - Q2R (mass 2))) by field.
  reflexivity.
Qed.

Lemma mass_1_2_R : 67 / 10000000 <= Q2R (mass 1) - Q2R (mass 2) <= 68 / 10000000.
Proof.
  pose proof (close_abs _ _ _ mass_1_2) as H. rewrite Q2R_minus in H.
  apply Rabs_le_between in H.
  replace (Q2R 675e-8) with (675 / 100000000) in H by (unfold Q2R; simpl; lra).
  replace (Q2R 5e-8) with (5 / 100000000) in H by (unfold Q2R; simpl; lra). lra.
Qed.

Theorem C44_homogeneous_refuted : exists f k a b abs_err,
  a < b /\ 0 < abs_err /\
  value (tanhsinh_quad (fun x => k * f x) a b abs_err) <> k * value (tanhsinh_quad f a b abs_err).
Proof.
  exists (fun _ => 1), (1 / 1000000), (-1), 1, (1 / 10000000000).
  split; [lra|]. split; [lra|].
  unfold tanhsinh_quad.
  replace (1 / 2 * (1 - -1)) with 1 by lra. replace (1 / 2 * (1 + -1)) with 0 by lra.
  unfold integrate. replace (1 / 10000000000 / 1) with (1 / 10000000000) by field.
  rewrite Rmult_1_r.
  pose proof mass_1_2_R as M.
  destruct (const_two_levels 1 (1 / 10000000000)) as [p1 E1].
  destruct (const_two_levels (1 / 1000000) (1 / 10000000000)) as [p2 E2].
  cbv zeta in E1, E2.
  (* the scaled integrand stops after level 2 *)
  assert (D2 : delta2 (1 / 1000000) = 1 / 1000000 * (Q2R (mass 1) - Q2R (mass 2))).
  { unfold delta2. apply Rabs_pos_eq. lra. }
  assert (D1 : delta2 1 = Q2R (mass 1) - Q2R (mass 2)).
  { unfold delta2. rewrite Rmult_1_l. apply Rabs_pos_eq. lra. }
  rewrite E2. clear E2.
  destruct (Req_EM_T (delta2 (1 / 1000000)) 0) as [Z|_]; [exfalso; lra|].
  match goal with |- context [Rlt_dec ?x ?y] => destruct (Rlt_dec x y) as [_|N] end.
  2:{ exfalso. apply N.
      assert (Y : (Q2R (mass 1) - Q2R (mass 2)) * (Q2R (mass 1) - Q2R (mass 2)) <= 1) by nra.
      match goal with |- context [in_window ?x ?y] => destruct (in_window x y) end;
        rewrite D2; [|lra].
      replace (1 / 1000000 * (Q2R (mass 1) - Q2R (mass 2)) * (1 / 1000000 * (Q2R (mass 1) - Q2R (mass 2))))
        with (1 / 1000000000000 * ((Q2R (mass 1) - Q2R (mass 2)) * (Q2R (mass 1) - Q2R (mass 2)))) by field.
      lra. }
  cbn [value].
  (* the constant 1 does not *)
  rewrite E1. clear E1.
  destruct (Req_EM_T (delta2 1) 0) as [Z|_]; [exfalso; lra|].
  match goal with |- context [Rlt_dec ?x ?y] => destruct (Rlt_dec x y) as [N|_] end.
  { exfalso. revert N.
    assert (Y : 67 / 10000000 * (67 / 10000000)
                <= (Q2R (mass 1) - Q2R (mass 2)) * (Q2R (mass 1) - Q2R (mass 2))).
    { apply Rmult_le_compat; lra. }
    match goal with |- context [in_window ?x ?y] => destruct (in_window x y) end;
      rewrite D1; lra. }
  match goal with |- context [sweep ?f 1 0 ?t 4 3 ?x ?y ?z ?w] =>
    destruct (sweep_stops f 1 0 t 4 3 x y z w) as [L [A [_ [B [C _]]]]]; [reflexivity|lia|reflexivity| |
      destruct (sweep f 1 0 t 4 3 x y z w) as [[v s] i]]
  end.
  { change (3 - 1)%nat with 2%nat. rewrite const_sum. reflexivity. }
  simpl in C. cbn [value]. rewrite C. rewrite const_sum.
  assert (G : Qle_bool (mass L + 1e-14) (mass 2) = true).
  { apply (proj1 (forallb_forall _ _) mass_gap). simpl. lia. }
  apply Qle_bool_iff in G. apply Qle_Rle in G. rewrite Q2R_plus in G.
  assert (0 < Q2R 1e-14) by (unfold Q2R; simpl; lra).
  intros H0. lra.
Qed.

(** ** An integrand the rule does not see

    The loop stops as soon as two successive estimates agree.  A continuous
    integrand that is positive except at finitely many points can therefore
    integrate to exactly 0. *)
Definition dip (pts : list R) (x : R) : R := fold_right (fun p s => (x - p) ^ 2 * s) 1 pts.

Lemma dip_nonneg : forall pts x, 0 <= dip pts x.
Proof.
  induction pts as [|p pts IH]; intros x; simpl dip; [simpl; lra|].
  change (0 <= (x - p) ^ 2 * dip pts x). apply Rmult_le_pos; [apply pow2_ge_0|apply IH].
Qed.

Lemma dip_pos : forall pts x, ~ In x pts -> 0 < dip pts x.
Proof.
  induction pts as [|p pts IH]; intros x H; [simpl; lra|].
  change (0 < (x - p) ^ 2 * dip pts x). apply Rmult_lt_0_compat.
  - apply pow2_gt_0. intros Z. apply H. left. lra.
  - apply IH. intros J. apply H. right. exact J.
Qed.

Lemma dip_zero : forall pts x, In x pts -> dip pts x = 0.
Proof.
  induction pts as [|p pts IH]; intros x H; [destruct H|].
  change ((x - p) ^ 2 * dip pts x = 0).
  destruct H as [->|H]; [ring|rewrite (IH x H); ring].
Qed.

Lemma dip_continuous : forall pts x, continuous (dip pts) x.
Proof.
  induction pts as [|p pts IH]; intros x.
  - apply continuous_const.
  - apply (continuous_mult (fun y => (y - p) ^ 2) (dip pts)); [|apply IH].
    apply (ex_derive_continuous (V := R_NormedModule)). auto_derive. exact I.
Qed.

Lemma zero_evaluations : forall c d, num_eval (integrate (fun _ => 0) c d 0) = 25%nat.
Proof.
  intros c d. unfold integrate.
  assert (Z : forall lo hi acc, add_pairs (fun _ => 0) c d lo hi acc = acc).
  { intros. rewrite add_pairs_total, total_zero; [ring|]. intros. unfold pair. ring. }
  change (num_levels - 1)%nat with (S (S 4)). cbn [sweep Nat.eqb].
  rewrite !Z.
  destruct (Req_EM_T _ 0) as [E|E]; [reflexivity|].
  exfalso. apply E.
  match goal with |- Rabs ?x = 0 => replace x with 0 by ring end. apply Rabs_R0.
Qed.

Theorem C44_early_stop_refuted : forall precision, exists f,
  (forall x, continuous f x) /\ (forall x, 0 <= f x) /\
  (exists pts, length pts = 25%nat /\ forall x, ~ In x pts -> 0 < f x) /\
  double_exponential f 0 1 precision = 0.
Proof.
  intros p.
  destruct (integrate_local (fun _ => 0) (1 / 2 * (1 - 0)) (1 / 2 * (1 + 0)) 0) as [i [I [N L]]].
  rewrite zero_evaluations in N. assert (i = 13)%nat by lia. subst i.
  exists (dip (points (1 / 2 * (1 - 0)) (1 / 2 * (1 + 0)) 13)).
  split; [apply dip_continuous|]. split; [apply dip_nonneg|]. split.
  - exists (points (1 / 2 * (1 - 0)) (1 / 2 * (1 + 0)) 13).
    split; [apply points_length; lia|]. intros x H. apply dip_pos. exact H.
  - unfold double_exponential, tanhsinh_quad. rewrite L.
    + destruct (integrate_stops (fun _ => 0) (1 / 2 * (1 - 0)) (1 / 2 * (1 + 0)) 0)
        as [l [_ [E _]]].
      rewrite E. unfold partial_sum. rewrite total_zero; [ring|].
      intros. unfold pair. ring.
    + intros x H. apply dip_zero. exact H.
Qed.

(** ** In double arithmetic an end point can be evaluated

    The position [c * node + d] of tanhsinh.c:473 in doubles, on the interval
    from 0.999 to 1 and with the outermost node of the first level, is the
    upper limit itself. *)
Definition position64 (a b n : f64) : f64 :=
  fadd (fmul (fmul (lit 1 2) (fsub b a)) n) (fmul (lit 1 2) (fadd b a)).

Definition node3_64 : f64 := SpecFloat.S754_finite false 9007199254740605 (-53).

(** It is the double nearest to the entry of the table. *)
Lemma node3_nearest :
  close (nth 3 nodes 0%Q) (9007199254740605 # 2 ^ 53) (1 # 2 ^ 54) = true.
Proof. vm_compute. reflexivity. Qed.

Theorem C44_inside_doubles_refuted : exists a b,
  fltb a b = true /\ fltb (position64 a b node3_64) b = false.
Proof.
  exists (lit 999 1000), (lit 1 1). split; vm_compute; reflexivity.
Qed.

(** ** The hypotheses are met *)
Example C44_nonvacuous :
  0 <> 1 /\ (forall x, (fun y => (y - 1) ^ 3) (0 + 2 - x) = - (fun y => (y - 1) ^ 3) x) /\
  (forall x, 0 < x < 1 -> Rabs (x ^ 2) <= 1) /\
  double_exponential (fun _ => 3) 1 1 0 = 0.
Proof.
  split; [lra|]. split; [intros x; ring|]. split.
  - intros x H. rewrite Rabs_pos_eq by apply pow2_ge_0. nra.
  - unfold double_exponential, tanhsinh_quad.
    destruct (integrate_stops (fun _ => 3) (1 / 2 * (1 - 1)) (1 / 2 * (1 + 1)) 0) as [L [_ [E _]]].
    rewrite E. ring.
Qed.

Print Assumptions C44_inside.
Print Assumptions C44_homogeneous.
Print Assumptions C44_antisymmetric.
Print Assumptions C44_reversed.
Print Assumptions C44_unit_interval.
Print Assumptions C44_nonnegative.
Print Assumptions C44_bounded.
Print Assumptions C44_cubic.
Print Assumptions C44_homogeneous_refuted.
Print Assumptions C44_early_stop_refuted.
Print Assumptions C44_inside_doubles_refuted.
