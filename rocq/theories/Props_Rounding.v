(** * What the program's own arithmetic, binary64, gives (C08, C09, C29, C39)

    [value x r] (Rounding.v) says that the double [x] is finite and is the real number [r]. *)
From Coq Require Import ZArith Reals Lia Lra Psatz Bool.
From Flocq Require Import Core Relative.
From Flocq.Prop Require Import Plus_error.
From Coq Require Import Floats.SpecFloat.
From Coq Require Import String List.
From Verif Require Import F64 Rounding.
From Verif Require Numeric Props_Numeric Parser Props_Parser.
From Verif Require Import Config Nodes.
From Verif Require Import PyParams PySet PyState PyValid PyUnless Props_Cache.
Import ListNotations.
Open Scope string_scope.
Open Scope R_scope.

Notation u := (bpow radix2 (-53)).
Notation eta := (bpow radix2 (-1075)).

(** The error of one rounding. *)
Lemma rnd_near : forall x, Rabs (rnd x - x) <= u * Rabs x + eta.
Proof.
  intros x. unfold rnd. change (SpecFloat.fexp 53 1024) with (FLT_exp (-1074) 53).
  destruct (error_N_FLT radix2 (-1074) 53 eq_refl (fun x => negb (Z.even x)) x) as (e & h & E & H & _ & ->).
  replace (x * (1 + e) + h - x) with (x * e + h) by ring.
  eapply Rle_trans; [apply Rabs_triang|]. rewrite Rabs_mult.
  replace (bpow radix2 (-53)) with (/ 2 * bpow radix2 (- (53) + 1)).
  - replace (bpow radix2 (-1075)) with (/ 2 * bpow radix2 (-1074)).
    + rewrite (Rmult_comm _ (Rabs x)). pose proof (Rabs_pos x). apply Rplus_le_compat; [apply Rmult_le_compat_l; assumption|assumption].
    + change (-1074)%Z with (1 + -1075)%Z. rewrite bpow_plus. change (bpow radix2 1) with 2. lra.
  - change (- (53) + 1)%Z with (1 + -53)%Z. rewrite bpow_plus. change (bpow radix2 1) with 2. lra.
Qed.
(** A double given by sign, mantissa and exponent. *)
Lemma finite_value : forall x, valid_binary 53 1024 x = true -> BinarySingleNaN.is_finite_SF x = true -> value x (BinarySingleNaN.SF2R radix2 x).
Proof.
  intros x H F. exists (BinarySingleNaN.SF2B x H). rewrite BinarySingleNaN.B2SF_SF2B, BinarySingleNaN.is_finite_SF2B, BinarySingleNaN.B2R_SF2B. auto.
Qed.
Lemma u_small : 0 < u <= / 8192.
Proof. split; [apply bpow_gt_0|]. change (/ 8192) with (bpow radix2 (-13)). apply bpow_le. lia. Qed.
Lemma eta_small : 0 < eta <= u / 8192.
Proof.
  split; [apply bpow_gt_0|]. unfold Rdiv. change (/ 8192) with (bpow radix2 (-13)). rewrite <- bpow_plus. apply bpow_le. lia.
Qed.
Lemma rnd_0 : rnd 0 = 0.
Proof. apply (rnd_value (S754_zero false)), zero_value. Qed.
Lemma bpow_rnd : forall e, (-1074 <= e)%Z -> rnd (bpow radix2 e) = bpow radix2 e.
Proof.
  intros e H. apply round_generic; [apply valid_rnd_N|]. change (SpecFloat.fexp 53 1024) with (FLT_exp (-1074) 53).
  apply generic_format_FLT. exists (Float radix2 1 e); cbn; [unfold F2R; cbn; lra|lia|exact H].
Qed.
Lemma rnd_opp : forall x, rnd (- x) = - rnd x.
Proof. intros x. apply round_NE_opp. Qed.
Lemma rnd_bound : forall x e, (-1074 <= e)%Z -> Rabs x <= bpow radix2 e -> Rabs (rnd x) <= bpow radix2 e.
Proof.
  intros x e He H. apply Rabs_le_inv in H. apply Rabs_le. pose proof (bpow_rnd e He) as E.
  pose proof (rnd_mono _ _ (proj1 H)) as L. pose proof (rnd_mono _ _ (proj2 H)) as U. rewrite rnd_opp, E in L. rewrite E in U. lra.
Qed.
(** A difference of doubles below the normal range is a double. *)
Lemma tiny_difference : forall x y a b, value x a -> value y b -> Rabs (a - b) <= bpow radix2 (-1021) -> rnd (a - b) = a - b.
Proof.
  intros x y a b (p & _ & _ & <-) (q & _ & _ & <-) H. apply round_generic; [apply valid_rnd_N|].
  change (SpecFloat.fexp 53 1024) with (FLT_exp (-1074) 53) in *. unfold Rminus in *. apply FLT_format_plus_small.
  - reflexivity.
  - apply BinarySingleNaN.generic_format_B2R.
  - apply generic_format_opp, BinarySingleNaN.generic_format_B2R.
  - exact H.
Qed.

Lemma accuracy_core : forall u h D d t r q M N a v : R,
  0 < u <= / 8192 -> 0 < h <= u / 8192 -> 1 <= N -> 0 <= t <= 1 -> 0 <= d -> 0 < D <= 2 * M -> 0 <= r ->
  - (u * D + h) <= d - D <= u * D + h ->
  - (u * (d * t * N) + h) <= r * N - d * t * N <= u * (d * t * N) + h ->
  - (u * r + h) <= q - r <= u * r + h ->
  - (u * M + h) <= v - (a + q) <= u * M + h ->
  - (8 * u * M + 8 * h) <= v - (a + D * t) <= 8 * u * M + 8 * h.
Proof.
  intros u h D d t r q M N a v U Et HN T D0 DM R0 R1 R2 R3 E4.
  assert (EN : h <= h * N) by nra.
  assert (R2' : - (u * (d * t) + h) <= r - d * t <= u * (d * t) + h) by (split; apply Rmult_le_reg_r with N; lra).
  clear R2 EN. assert (dt : 0 <= d * t <= d) by (split; [apply Rmult_le_pos; lra|rewrite <- (Rmult_1_r d) at 2; apply Rmult_le_compat_l; lra]).
  assert (U2 : u * (d * t) <= u * d) by (apply Rmult_le_compat_l; lra).
  assert (d1 : d <= D * (1 + / 8192) + h) by (assert (u * D <= / 8192 * D) by (apply Rmult_le_compat_r; lra); lra).
  assert (U3 : u * d <= u * (D * (1 + / 8192) + h)) by (apply Rmult_le_compat_l; lra).
  assert (U5 : u * h <= h / 8192) by (assert (u * h <= / 8192 * h) by (apply Rmult_le_compat_r; lra); lra).
  assert (V1 : u * D <= / 8192 * D) by (apply Rmult_le_compat_r; lra).
  assert (r1 : r <= D * (1 + / 1024) + 3 * h) by lra.
  assert (U4 : u * r <= u * (D * (1 + / 1024) + 3 * h)) by (apply Rmult_le_compat_l; lra).
  assert (U6 : - (u * D + h) <= d * t - D * t <= u * D + h).
  { assert (W : 0 <= u * D + h) by (assert (0 <= u * D) by (apply Rmult_le_pos; lra); lra). replace (d * t - D * t) with ((d - D) * t) by ring.
    split; [apply Rle_trans with (- (u * D + h) * t)|apply Rle_trans with ((u * D + h) * t)]; try (apply Rmult_le_compat_r; lra).
    - assert ((u * D + h) * t <= (u * D + h) * 1) by (apply Rmult_le_compat_l; lra). lra.
    - rewrite <- (Rmult_1_r (u * D + h)) at 2. apply Rmult_le_compat_l; lra. }
  assert (U7 : u * D <= u * (2 * M)) by (apply Rmult_le_compat_l; lra).
  assert (U8 : 0 <= u * M) by (apply Rmult_le_pos; lra). split; lra.
Qed.

(** ** C29: the range in doubles *)
Section Range.
Variables (x y : f64) (a b : R) (n : nat).
Hypothesis Hx : value x a.
Hypothesis Hy : value y b.
Hypothesis Hab : a < b.
Hypothesis Ha : Rabs a <= bpow radix2 970.
Hypothesis Hb : Rabs b <= bpow radix2 970.
Hypothesis Hn : (1 <= n)%nat.
Hypothesis Hn' : (Z.of_nat n <= 2 ^ 50)%Z.
Let N := IZR (Z.of_nat n).
Let I i := IZR (Z.of_nat i).
Let d := rnd (b - a).
Let p i := rnd (d * I i).
Let q i := rnd (p i / N).
Let v i := rnd (a + q i).

Lemma N_range : 1 <= N <= bpow radix2 50.
Proof. split; [apply IZR_le; lia|]. change (bpow radix2 50) with (IZR (2 ^ 50)). apply IZR_le. lia. Qed.
Lemma I_range : forall i, (i < n)%nat -> 0 <= I i <= N - 1.
Proof. intros i H. split; [apply IZR_le; lia|]. unfold N, I. rewrite <- minus_IZR. apply IZR_le. lia. Qed.
Lemma d_range : 0 <= d <= bpow radix2 971.
Proof.
  apply Rabs_le_inv in Ha. apply Rabs_le_inv in Hb. unfold d. split.
  - rewrite <- rnd_0. apply rnd_mono. lra.
  - rewrite <- (bpow_rnd 971) by lia. apply rnd_mono. change 971%Z with (1 + 970)%Z. rewrite bpow_plus. change (bpow radix2 1) with 2. lra.
Qed.
Lemma p_range : forall i, (i < n)%nat -> 0 <= p i <= bpow radix2 1021.
Proof.
  intros i H. pose proof d_range as D. pose proof (I_range i H) as J. pose proof N_range as M. unfold p. split.
  - rewrite <- rnd_0. apply rnd_mono. apply Rmult_le_pos; lra.
  - rewrite <- (bpow_rnd 1021) by lia. apply rnd_mono. change 1021%Z with (971 + 50)%Z. rewrite bpow_plus. apply Rmult_le_compat; lra.
Qed.
Lemma q_range : forall i, (i < n)%nat -> 0 <= q i <= bpow radix2 1021.
Proof.
  intros i H. pose proof (p_range i H) as D. pose proof N_range as M. assert (0 < / N <= 1).
  { split; [apply Rinv_0_lt_compat; lra|rewrite <- Rinv_1; apply Rinv_le; lra]. }
  unfold q. split.
  - rewrite <- rnd_0. apply rnd_mono. unfold Rdiv. apply Rmult_le_pos; lra.
  - rewrite <- (bpow_rnd 1021) by lia. apply rnd_mono. unfold Rdiv. nra.
Qed.
Lemma big : forall e, (e < 1024)%Z -> bpow radix2 e < bpow radix2 1024.
Proof. intros e H. apply bpow_lt. exact H. Qed.
Lemma v_value : forall i, (i < n)%nat -> value (Numeric.frange_value x y n i) (v i).
Proof.
  intros i H. pose proof d_range as D. pose proof (p_range i H) as P. pose proof (q_range i H) as Q. pose proof N_range as M.
  pose proof (big 971 ltac:(lia)). pose proof (big 1021 ltac:(lia)). pose proof (big 1022 ltac:(lia)).
  unfold Numeric.frange_value. apply add_value; [exact Hx| |].
  - apply div_value.
    + apply mul_value.
      * apply sub_value; [exact Hy|exact Hx|]. fold d. rewrite Rabs_right; lra.
      * apply Z_value. lia.
      * fold d. change (IZR (Z.of_nat i)) with (I i). fold (p i). rewrite Rabs_right; lra.
    + apply Z_value. lia.
    + fold N. lra.
    + fold d. change (IZR (Z.of_nat i)) with (I i). fold (p i) N (q i). rewrite Rabs_right; lra.
  - apply Rle_lt_trans with (bpow radix2 1022); [|lra]. apply rnd_bound; [lia|].
    eapply Rle_trans; [apply Rabs_triang|]. rewrite (Rabs_right (q i)) by lra. change 1022%Z with (1 + 1021)%Z. rewrite bpow_plus.
    change (bpow radix2 1) with 2. assert (bpow radix2 970 <= bpow radix2 1021) by (apply bpow_le; lia). lra.
Qed.
Lemma v_first : v 0 = a.
Proof.
  unfold v, q, p, I. cbn [Z.of_nat]. rewrite Rmult_0_r, rnd_0. unfold Rdiv. rewrite Rmult_0_l, rnd_0, Rplus_0_r. exact (rnd_value x a Hx).
Qed.
Lemma v_mono : forall i j, (i <= j < n)%nat -> v i <= v j.
Proof.
  intros i j H. pose proof d_range. pose proof N_range. unfold v, q, p. apply rnd_mono, Rplus_le_compat_l, rnd_mono.
  apply Rmult_le_compat_r; [left; apply Rinv_0_lt_compat; lra|]. apply rnd_mono, Rmult_le_compat_l; [lra|]. apply IZR_le. lia.
Qed.
(** The increment never exceeds the length of the interval. *)
Lemma q_below : forall i, (i < n)%nat -> q i <= b - a.
Proof.
  intros i H. pose proof N_range as M. pose proof (I_range i H) as J. pose proof d_range as D.
  assert (PN : 0 < / N) by (apply Rinv_0_lt_compat; lra). assert (MN : N * / N = 1) by (apply Rinv_r; lra).
  assert (LN : bpow radix2 (-50) <= / N).
  { change (-50)%Z with (- (50))%Z. rewrite bpow_opp. apply Rinv_le; lra. }
  assert (UN : 8 * u = bpow radix2 (-50)).
  { change 8 with (bpow radix2 3). rewrite <- bpow_plus. reflexivity. }
  destruct (Nat.eq_dec i 0) as [->|Ni].
  { unfold q, p, I. cbn [Z.of_nat]. rewrite Rmult_0_r, rnd_0. unfold Rdiv. rewrite Rmult_0_l, rnd_0. lra. }
  assert (J1 : 1 <= I i) by (apply IZR_le; lia).
  pose proof u_small as U. destruct (Rle_dec (b - a) (bpow radix2 (-1021))) as [T|T].
  - assert (E : d = b - a) by (apply (tiny_difference y x); [exact Hy|exact Hx|rewrite Rabs_right; lra]).
    assert (G : 2 * eta <= d).
    { replace (2 * eta) with (bpow radix2 (-1074)).
      - apply (generic_format_ge_bpow radix2 (FLT_exp (-1074) 53)); [intros e; unfold FLT_exp; lia|lra|].
        apply generic_format_round; [exact (BinarySingleNaN.fexp_correct 53 1024 prec_ok)|apply valid_rnd_N].
      - change (-1074)%Z with (1 + -1075)%Z. rewrite bpow_plus. reflexivity. }
    assert (P : p i <= d * N).
    { pose proof (rnd_near (d * I i)) as R. fold (p i) in R. apply Rabs_le_inv in R.
      assert (Q : 0 <= d * I i) by (apply Rmult_le_pos; lra). rewrite (Rabs_right (d * I i)) in R by lra.
      assert (X : u * N <= / 8). { apply Rle_trans with (u * bpow radix2 50); [apply Rmult_le_compat_l; lra|]. rewrite <- bpow_plus. right. reflexivity. }
      assert (Y : d * I i <= d * (N - 1)) by (apply Rmult_le_compat_l; lra).
      assert (Z : u * (d * I i) <= d / 8) by nra. lra. }
    rewrite <- E. unfold q. replace d with (rnd d) by (rewrite E; apply (tiny_difference y x); [exact Hy|exact Hx|rewrite Rabs_right; lra]).
    apply rnd_mono. apply Rle_trans with (d * N / N); [apply Rmult_le_compat_r; lra|]. right. field. lra.
  - assert (T' : bpow radix2 (-1021) < b - a) by lra. clear T.
    pose proof (bpow_gt_0 radix2 (-1022)) as B0. assert (T1 : bpow radix2 (-1022) <= bpow radix2 (-1021)) by (apply bpow_le; lia).
    pose proof (rnd_error (b - a)) as R. rewrite (Rabs_right (b - a)) in R by lra. specialize (R ltac:(lra)).
    fold d in R. apply Rabs_le_inv in R.
    assert (D1 : bpow radix2 (-1021) <= d) by (rewrite <- (bpow_rnd (-1021)) by lia; apply rnd_mono; lra).
    assert (DI : bpow radix2 (-1022) <= d * I i) by nra.
    pose proof (rnd_error (d * I i)) as R2. rewrite (Rabs_right (d * I i)) in R2 by lra. specialize (R2 ltac:(lra)).
    fold (p i) in R2. apply Rabs_le_inv in R2.
    destruct (Rle_dec (bpow radix2 (-1022)) (p i / N)) as [W|W].
    + pose proof (rnd_error (p i / N)) as R3. rewrite (Rabs_right (p i / N)) in R3 by lra. specialize (R3 W).
      fold (q i) in R3. apply Rabs_le_inv in R3.
      assert (S1 : p i <= (b - a) * (1 + u) * (1 + u) * (N - 1)).
      { apply Rle_trans with (d * I i * (1 + u)); [lra|]. apply Rle_trans with (d * (N - 1) * (1 + u)).
        - apply Rmult_le_compat_r; [lra|]. apply Rmult_le_compat_l; lra.
        - replace ((b - a) * (1 + u) * (1 + u) * (N - 1)) with ((b - a) * (1 + u) * (N - 1) * (1 + u)) by ring.
          apply Rmult_le_compat_r; [lra|]. apply Rmult_le_compat_r; lra. }
      assert (S2 : p i / N <= (b - a) * (1 + u) * (1 + u) * (1 - / N)).
      { apply Rle_trans with ((b - a) * (1 + u) * (1 + u) * (N - 1) / N); [apply Rmult_le_compat_r; lra|]. right. field. lra. }
      assert (S3 : q i <= (b - a) * ((1 + u) * (1 + u) * (1 + u) * (1 - / N))) by nra.
      apply Rle_trans with (1 := S3). rewrite <- (Rmult_1_r (b - a)) at 2. apply Rmult_le_compat_l; [lra|].
      apply Rle_trans with ((1 + u) * (1 + u) * (1 + u) * (1 - 8 * u)); [apply Rmult_le_compat_l; [nra|lra]|]. nra.
    + apply Rle_trans with (bpow radix2 (-1022)); [|lra]. rewrite <- (bpow_rnd (-1022)) by lia. apply rnd_mono. lra.
Qed.
Let Mx := Rmax (Rabs a) (Rabs b).
Lemma v_accuracy : forall i, (i < n)%nat -> Rabs (v i - (a + (b - a) * (I i / N))) <= 8 * u * Mx + 8 * eta.
Proof.
  intros i H. pose proof N_range as M. pose proof (I_range i H) as J. pose proof d_range as D. pose proof (p_range i H) as P.
  pose proof (q_range i H) as Q. pose proof (q_below i H) as QB. pose proof u_small as U. pose proof eta_small as Et.
  assert (PN : 0 < / N <= 1) by (split; [apply Rinv_0_lt_compat; lra|rewrite <- Rinv_1; apply Rinv_le; lra]).
  assert (MN : N * / N = 1) by (apply Rinv_r; lra).
  assert (T : 0 <= I i / N <= 1).
  { unfold Rdiv. split; [apply Rmult_le_pos; lra|]. rewrite <- MN. apply Rmult_le_compat_r; lra. }
  assert (Ma : Rabs a <= Mx) by apply Rmax_l. assert (Mb : Rabs b <= Mx) by apply Rmax_r.
  apply Rabs_le_inv in Ma. apply Rabs_le_inv in Mb.
  pose proof (rnd_near (b - a)) as R1. fold d in R1. rewrite (Rabs_right (b - a)) in R1 by lra. apply Rabs_le_inv in R1.
  assert (DI : 0 <= d * I i) by (apply Rmult_le_pos; lra).
  pose proof (rnd_near (d * I i)) as R2. fold (p i) in R2. rewrite (Rabs_right (d * I i)) in R2 by lra. apply Rabs_le_inv in R2.
  assert (PI : 0 <= p i / N) by (unfold Rdiv; apply Rmult_le_pos; lra).
  pose proof (rnd_near (p i / N)) as R3. fold (q i) in R3. rewrite (Rabs_right (p i / N)) in R3 by lra. apply Rabs_le_inv in R3.
  pose proof (rnd_near (a + q i)) as R4. fold (v i) in R4.
  assert (A4 : Rabs (a + q i) <= Mx) by (apply Rabs_le; lra).
  assert (E4 : Rabs (v i - (a + q i)) <= u * Mx + eta) by (apply Rle_trans with (1 := R4), Rplus_le_compat_r, Rmult_le_compat_l; lra).
  clear R4. apply Rabs_le_inv in E4.
  assert (DT : d * I i = d * (I i / N) * N) by (field; lra). assert (PT : p i = p i / N * N) by (field; lra).
  rewrite DT in R2. rewrite PT in R2 at 1 2.
  apply Rabs_le.
  apply (accuracy_core u eta (b - a) d (I i / N) (p i / N) (q i) Mx N a (v i)); lra.
Qed.
Lemma v_strict : forall i j, (i < j < n)%nat -> (b - a) / N > 16 * u * Mx + 16 * eta -> v i < v j.
Proof.
  intros i j H S. pose proof (v_accuracy i ltac:(lia)) as A. pose proof (v_accuracy j ltac:(lia)) as B. apply Rabs_le_inv in A. apply Rabs_le_inv in B.
  assert (G : (b - a) * (I i / N) + (b - a) / N <= (b - a) * (I j / N)).
  { pose proof N_range. unfold Rdiv. replace ((b - a) * (I i * / N) + (b - a) * / N) with ((b - a) * ((I i + 1) * / N)) by ring.
    apply Rmult_le_compat_l; [lra|]. apply Rmult_le_compat_r; [left; apply Rinv_0_lt_compat; lra|].
    unfold I. rewrite <- plus_IZR. apply IZR_le. lia. }
  lra.
Qed.
End Range.

(** Number [i] of the [n] values differs from min + (max - min) i/n by at most 2^-50 of the
    larger bound. The values start at min, never decrease and never exceed max. They are all
    different if neighbours are further apart than 2^-49 of the larger bound. *)
Definition exact_value (a b : R) (n i : nat) : R := a + (b - a) * (INR i / INR n).
Definition good_range (a b : R) (n : nat) (values : list f64) : Prop :=
  exists reals, Forall2 value values reals /\ length values = n
    /\ nth 0 reals 0 = a
    /\ (forall i, (i < n)%nat -> a <= nth i reals 0 <= b)
    /\ (forall i, (i < n)%nat -> Rabs (nth i reals 0 - exact_value a b n i) <= / 2 ^ 50 * Rmax (Rabs a) (Rabs b) + / 2 ^ 1072)
    /\ (forall i j, (i <= j < n)%nat -> nth i reals 0 <= nth j reals 0)
    /\ ((b - a) / INR n > / 2 ^ 49 * Rmax (Rabs a) (Rabs b) + / 2 ^ 1071 ->
        forall i j, (i < j < n)%nat -> nth i reals 0 < nth j reals 0).
Lemma range_good : forall x y a b n, value x a -> value y b -> a < b ->
  Rabs a <= 2 ^ 970 -> Rabs b <= 2 ^ 970 -> (1 <= n)%nat -> (Z.of_nat n <= 2 ^ 50)%Z ->
  good_range a b n (map (Numeric.frange_value x y n) (seq 0 n)).
Proof.
  intros x y a b n Hx Hy Hab Ha Hb Hn Hn'. unfold good_range.
  assert (BP : forall k, 2 ^ k = bpow radix2 (Z.of_nat k)).
  { intros k. rewrite bpow_powerRZ, <- pow_powerRZ. reflexivity. }
  assert (BN : forall k, / 2 ^ k = bpow radix2 (- Z.of_nat k)) by (intros k; rewrite bpow_opp, BP; reflexivity).
  rewrite BP in Ha, Hb. change (Z.of_nat 970) with 970%Z in *.
  set (v := fun i => rnd (a + rnd (rnd (rnd (b - a) * IZR (Z.of_nat i)) / IZR (Z.of_nat n)))).
  exists (map v (seq 0 n)).
  assert (V : forall i, (i < n)%nat -> nth i (map v (seq 0 n)) 0 = v i).
  { intros i H. rewrite (nth_indep _ 0 (v 0%nat)) by (rewrite map_length, seq_length; exact H). rewrite map_nth, seq_nth by exact H. reflexivity. }
  assert (E16 : 16 * u = / 2 ^ 49 /\ 16 * eta = / 2 ^ 1071 /\ 8 * u = / 2 ^ 50 /\ 8 * eta = / 2 ^ 1072).
  { rewrite !BN. change 16 with (bpow radix2 4). change 8 with (bpow radix2 3). rewrite <- !bpow_plus. repeat split; reflexivity. }
  destruct E16 as (E1 & E2 & E3 & E4). rewrite <- E1, <- E2, <- E3, <- E4. clear E1 E2 E3 E4 BN BP.
  repeat split.
  - assert (G : forall i, In i (seq 0 n) -> value (Numeric.frange_value x y n i) (v i)).
    { intros i H. apply in_seq in H. apply v_value; try assumption; lia. }
    clear V. revert G. generalize (seq 0 n). intros l. induction l as [|k l IH]; intros G; cbn; constructor; [apply G; left; reflexivity|]. apply IH. intros i H. apply G. right. exact H.
  - rewrite map_length, seq_length. reflexivity.
  - rewrite V by lia. exact (v_first x a b n Hx : v 0%nat = a).
  - rewrite V by assumption. rewrite <- (v_first x a b n Hx : v 0%nat = a). apply v_mono; try assumption; lia.
  - rewrite V by assumption. apply Rle_trans with (rnd b); [apply rnd_mono|right; exact (rnd_value y b Hy)].
    pose proof (q_below x y a b n Hx Hy Hab Ha Hb Hn Hn' i ltac:(assumption)). lra.
  - intros i H. rewrite V by exact H. unfold exact_value. rewrite !INR_IZR_INZ. apply (v_accuracy x y); assumption.
  - intros i j H. rewrite !V by lia. apply v_mono; assumption.
  - intros S i j H. rewrite !V by lia. rewrite INR_IZR_INZ in S. apply (v_strict x y); assumption.
Qed.
Theorem C29_binary64 : forall x y a b n, value x a -> value y b -> a < b ->
  Rabs a <= 2 ^ 970 -> Rabs b <= 2 ^ 970 -> (1 <= n)%nat -> (Z.of_nat n <= 2 ^ 50)%Z ->
  exists values, Numeric.fgenerate_range x y n = Numeric.Done (map Some values) /\ good_range a b n values.
Proof.
  intros x y a b n Hx Hy Hab Ha Hb Hn Hn'. exists (map (Numeric.frange_value x y n) (seq 0 n)). split; [|apply range_good; assumption].
  unfold Numeric.fgenerate_range. unfold fleb, SFleb. rewrite (compare_value y x b a Hy Hx). rewrite Rcompare_Gt by exact Hab.
  rewrite Props_Numeric.fill_fresh. cbn [Numeric.of_opt]. rewrite map_map. reflexivity.
Qed.
Print Assumptions C29_binary64.

(** 300 separations from 5 to 305 meet all the hypotheses, also the one for strict increase. *)
Example C29_binary64_met : value (of_Z 5) 5 /\ value (of_Z 305) 305 /\ (305 - 5) / INR 300 > / 2 ^ 49 * Rmax (Rabs 5) (Rabs 305) + / 2 ^ 1071.
Proof.
  repeat split; try (apply Z_value; lia). rewrite INR_IZR_INZ. cbn [Z.of_nat Pos.of_succ_nat Pos.succ]. rewrite !Rabs_right by lra. rewrite Rmax_right by lra.
  assert (A : / 2 ^ 1071 <= / 2 ^ 49) by (apply Rinv_le; [apply pow_lt; lra|apply Rle_pow; [lra|lia]]).
  assert (B : / 2 ^ 49 <= / 1024) by (apply Rinv_le; [lra|replace 1024 with (2 ^ 10) by ring; apply Rle_pow; [lra|lia]]). lra.
Qed.

(** ** C08: the budget as real numbers *)

(** After every history, if the two stored densities lie in [0, 1], the three densities add up
    to 1 up to 2^-51. *)
Lemma two_subtractions : forall x y m g, value x m -> value y g -> 0 <= m <= 1 -> 0 <= g <= 1 ->
  exists d, value (fsub (fsub (of_Z 1) x) y) d /\ Rabs (m + g + d - 1) <= / 2 ^ 51.
Proof.
  intros x y m g Hx Hy Hm Hg. pose proof (big 1 ltac:(lia)) as B1. pose proof (big 0 ltac:(lia)) as B0.
  change (bpow radix2 1) with 2 in B1. change (bpow radix2 0) with 1 in B0.
  assert (A1 : Rabs (rnd (1 - m)) <= 1) by (apply (rnd_bound _ 0); [lia|]; apply Rabs_le; change (bpow radix2 0) with 1; lra).
  assert (A2 : Rabs (rnd (rnd (1 - m) - g)) <= 2).
  { apply (rnd_bound _ 1); [lia|]. apply Rabs_le_inv in A1. apply Rabs_le. change (bpow radix2 1) with 2. lra. }
  exists (rnd (rnd (1 - m) - g)). split.
  - apply sub_value; [|exact Hy|lra]. apply sub_value; [apply (Z_value 1); lia|exact Hx|lra].
  - pose proof (rnd_near (1 - m)) as R1. pose proof (rnd_near (rnd (1 - m) - g)) as R2.
    assert (C1 : Rabs (1 - m) <= 1) by (apply Rabs_le; lra).
    assert (N1 : 0 <= rnd (1 - m)) by (rewrite <- rnd_0; apply rnd_mono; lra). apply Rabs_le_inv in A1.
    assert (C2 : Rabs (rnd (1 - m) - g) <= 1) by (apply Rabs_le; lra).
    pose proof u_small as U. pose proof eta_small as Et. replace (/ 2 ^ 51) with (4 * u).
    + assert (D1 : u * Rabs (1 - m) <= u) by (rewrite <- (Rmult_1_r u) at 2; apply Rmult_le_compat_l; lra).
      assert (D2 : u * Rabs (rnd (1 - m) - g) <= u) by (rewrite <- (Rmult_1_r u) at 2; apply Rmult_le_compat_l; lra).
      apply Rabs_le_inv in R1. apply Rabs_le_inv in R2. apply Rabs_le. lra.
    + change 4 with (bpow radix2 2). rewrite <- bpow_plus. change (2 + -53)%Z with (- (51))%Z. rewrite bpow_opp. f_equal.
      change (bpow radix2 51) with (IZR (2 ^ 51)). rewrite (pow_IZR 2 51). reflexivity.
Qed.
Lemma sum_subtraction : forall x y m g, value x m -> value y g -> 0 <= m <= 1 -> 0 <= g <= 1 ->
  exists d, value (fsub (of_Z 1) (fadd x y)) d /\ Rabs (m + g + d - 1) <= / 2 ^ 51.
Proof.
  intros x y m g Hx Hy Hm Hg. pose proof (big 1 ltac:(lia)) as B1. pose proof (big 0 ltac:(lia)) as B0.
  change (bpow radix2 1) with 2 in B1. change (bpow radix2 0) with 1 in B0.
  assert (A1 : Rabs (rnd (m + g)) <= 2) by (apply (rnd_bound _ 1); [lia|]; apply Rabs_le; change (bpow radix2 1) with 2; lra).
  assert (N1 : 0 <= rnd (m + g)) by (rewrite <- rnd_0; apply rnd_mono; lra).
  assert (C2 : Rabs (1 - rnd (m + g)) <= 1) by (apply Rabs_le_inv in A1; apply Rabs_le; lra).
  assert (A2 : Rabs (rnd (1 - rnd (m + g))) <= 1) by (apply (rnd_bound _ 0); [lia|]; change (bpow radix2 0) with 1; lra).
  exists (rnd (1 - rnd (m + g))). split.
  - apply sub_value; [apply (Z_value 1); lia| |lra]. apply add_value; [exact Hx|exact Hy|lra].
  - pose proof (rnd_near (m + g)) as R1. pose proof (rnd_near (1 - rnd (m + g))) as R2.
    assert (C1 : Rabs (m + g) <= 2) by (apply Rabs_le; lra).
    pose proof u_small as U. pose proof eta_small as Et. replace (/ 2 ^ 51) with (4 * u).
    + assert (D1 : u * Rabs (m + g) <= u * 2) by (apply Rmult_le_compat_l; lra).
      assert (D2 : u * Rabs (1 - rnd (m + g)) <= u) by (rewrite <- (Rmult_1_r u) at 2; apply Rmult_le_compat_l; lra).
      apply Rabs_le_inv in R1. apply Rabs_le_inv in R2. apply Rabs_le. lra.
    + change 4 with (bpow radix2 2). rewrite <- bpow_plus. change (2 + -53)%Z with (- (51))%Z. rewrite bpow_opp. f_equal.
      change (bpow radix2 51) with (IZR (2 ^ 51)). rewrite (pow_IZR 2 51). reflexivity.
Qed.
Theorem C08_sum : forall cl l s m g, run cl l coffe0 = Some s ->
  value (pf (sp s) Omega0_m) m -> value (pf (sp s) Omega0_gamma) g -> 0 <= m <= 1 -> 0 <= g <= 1 ->
  exists d, value (pf (sp s) Omega0_de) d /\ Rabs (m + g + d - 1) <= / 2 ^ 51.
Proof.
  intros cl l s m g R Vm Vg Hm Hg. destruct (run_de_budget cl l s R) as [->|(Em & Eg & Ed)]; [exact (two_subtractions _ _ m g Vm Vg Hm Hg)|].
  rewrite Em in Vm. rewrite Eg in Vg. rewrite Ed.
  exact (sum_subtraction _ _ m g Vm Vg Hm Hg).
Qed.
Print Assumptions C08_sum.
(** omega_m = 0.4, omega_gamma = 2^-14. *)
Definition two_densities : list op := [OpSet A_omega_m (VFloat (lit 4 10)); OpSet A_omega_gamma (VFloat (lit 1 16384))].
Example C08_sum_met : exists s m g, run cl0 two_densities coffe0 = Some s
  /\ value (pf (sp s) Omega0_m) m /\ value (pf (sp s) Omega0_gamma) g /\ 0 < m < 1 /\ 0 < g < 1.
Proof.
  assert (M : option_map (fun s => pf (sp s) Omega0_m) (run cl0 two_densities coffe0) = Some (S754_finite false 7205759403792794 (-54))) by (vm_compute; reflexivity).
  assert (G : option_map (fun s => pf (sp s) Omega0_gamma) (run cl0 two_densities coffe0) = Some (S754_finite false 4503599627370496 (-66))) by (vm_compute; reflexivity).
  destruct (run cl0 two_densities coffe0) as [s|]; [|discriminate]. cbn [option_map] in M, G. injection M as M. injection G as G.
  eexists s, _, _. split; [reflexivity|]. rewrite M, G. split; [apply finite_value; reflexivity|]. split; [apply finite_value; reflexivity|].
  unfold BinarySingleNaN.SF2R, F2R. cbn [cond_Zopp Fnum Fexp].
  change (bpow radix2 (-54)) with (/ 18014398509481984). change (bpow radix2 (-66)) with (/ 73786976294838206464). lra.
Qed.

(** ** C09: the matter budget as real numbers *)

(** After every history, if the stored densities lie in [0, 1], the matter density is the sum of
    the three others up to 2^-51, or it is short of that by the neutrino density.  So without
    massive neutrinos it is the sum. *)
Lemma four_u : 4 * u = / 2 ^ 51.
Proof.
  change 4 with (bpow radix2 2). rewrite <- bpow_plus. change (2 + -53)%Z with (- (51))%Z. rewrite bpow_opp. f_equal.
  change (bpow radix2 51) with (IZR (2 ^ 51)). rewrite (pow_IZR 2 51). reflexivity.
Qed.
Lemma value_unique : forall x a b, value x a -> value x b -> a = b.
Proof.
  intros x a b (p & Ep & _ & <-) (q & Eq & _ & <-). rewrite <- !BinarySingleNaN.SF2R_B2SF. rewrite Ep, Eq. reflexivity.
Qed.
Theorem C09_sum_partial : forall cl l s c b n m, run cl l coffe0 = Some s ->
  value (pf (sp s) Omega0_cdm) c -> value (pf (sp s) Omega0_baryon) b ->
  value (pf (sp s) Omega0_nu) n -> value (pf (sp s) Omega0_m) m ->
  0 <= c <= 1 -> 0 <= b <= 1 -> 0 <= n <= 1 -> 0 <= m <= 1 ->
  (Rabs (c + b + n - m) <= / 2 ^ 51 \/ Rabs (c + b + n - m - n) <= / 2 ^ 51)
  /\ (n = 0 -> Rabs (c + b + n - m) <= / 2 ^ 51).
Proof.
  intros cl l s c b n m R Vc Vb Vn Vm Hc Hb Hn Hm.
  assert (O : Rabs (c + b + n - m) <= / 2 ^ 51 \/ Rabs (c + b + n - m - n) <= / 2 ^ 51).
  2:{ split; [exact O|]. intros ->. destruct O as [O|O]; [exact O|]. rewrite Rminus_0_r in O. exact O. }
  pose proof (big 1 ltac:(lia)) as B1. pose proof (big 0 ltac:(lia)) as B0.
  change (bpow radix2 1) with 2 in B1. change (bpow radix2 0) with 1 in B0.
  pose proof u_small as U. pose proof eta_small as Et. rewrite <- four_u.
  destruct (run_m_budget cl l s R) as [E|E].
  - left.
    assert (C1 : Rabs (m - b) <= 1) by (apply Rabs_le; lra).
    assert (A1 : Rabs (rnd (m - b)) <= 1) by (apply (rnd_bound _ 0); [lia|]; change (bpow radix2 0) with 1; exact C1).
    assert (C2 : Rabs (rnd (m - b) - n) <= 2) by (apply Rabs_le_inv in A1; apply Rabs_le; lra).
    assert (A2 : Rabs (rnd (rnd (m - b) - n)) <= 2) by (apply (rnd_bound _ 1); [lia|]; change (bpow radix2 1) with 2; exact C2).
    assert (V : value (fsub (fsub (pf (sp s) Omega0_m) (pf (sp s) Omega0_baryon)) (pf (sp s) Omega0_nu)) (rnd (rnd (m - b) - n))).
    { apply sub_value; [|exact Vn|lra]. apply sub_value; [exact Vm|exact Vb|lra]. }
    rewrite <- E in V. rewrite (value_unique _ _ _ Vc V).
    pose proof (rnd_near (m - b)) as R1. pose proof (rnd_near (rnd (m - b) - n)) as R2.
    assert (D1 : u * Rabs (m - b) <= u) by (rewrite <- (Rmult_1_r u) at 2; apply Rmult_le_compat_l; lra).
    assert (D2 : u * Rabs (rnd (m - b) - n) <= u * 2) by (apply Rmult_le_compat_l; lra).
    apply Rabs_le_inv in R1. apply Rabs_le_inv in R2. apply Rabs_le. lra.
  - right.
    assert (C1 : Rabs (c + b) <= 2) by (apply Rabs_le; lra).
    assert (A1 : Rabs (rnd (c + b)) <= 2) by (apply (rnd_bound _ 1); [lia|]; change (bpow radix2 1) with 2; exact C1).
    assert (V : value (fadd (pf (sp s) Omega0_cdm) (pf (sp s) Omega0_baryon)) (rnd (c + b))) by (apply add_value; [exact Vc|exact Vb|lra]).
    rewrite <- E in V. rewrite (value_unique _ _ _ Vm V).
    pose proof (rnd_near (c + b)) as R1.
    assert (D1 : u * Rabs (c + b) <= u * 2) by (apply Rmult_le_compat_l; lra).
    apply Rabs_le_inv in R1. apply Rabs_le. lra.
Qed.
Print Assumptions C09_sum_partial.
(** Neutrinos of 1 eV: omega_nu is about 0.024. *)
Definition one_mass : list op := [OpSet A_m_ncdm (VFloat f1)].
Example C09_sum_met : exists s c b n m, run cl0 one_mass coffe0 = Some s
  /\ value (pf (sp s) Omega0_cdm) c /\ value (pf (sp s) Omega0_baryon) b
  /\ value (pf (sp s) Omega0_nu) n /\ value (pf (sp s) Omega0_m) m
  /\ 0 < c < 1 /\ 0 < b < 1 /\ 2 / 100 < n < 1 /\ 0 < m < 1.
Proof.
  assert (M : option_map (fun s => (pf (sp s) Omega0_cdm, pf (sp s) Omega0_baryon, pf (sp s) Omega0_nu, pf (sp s) Omega0_m)) (run cl0 one_mass coffe0)
    = Some (S754_finite false 8145483719646952 (-55), S754_finite false 7205759403792794 (-57),
            S754_finite false 6893724280752317 (-58), S754_finite false 5404319552844595 (-54))) by (vm_compute; reflexivity).
  destruct (run cl0 one_mass coffe0) as [s|]; [|discriminate]. cbn [option_map] in M. injection M as Mc Mb Mn Mm.
  eexists s, _, _, _, _. split; [reflexivity|]. rewrite Mc, Mb, Mn, Mm. do 4 (split; [apply finite_value; reflexivity|]).
  unfold BinarySingleNaN.SF2R, F2R. cbn [cond_Zopp Fnum Fexp].
  change (bpow radix2 (-54)) with (/ 18014398509481984). change (bpow radix2 (-55)) with (/ 36028797018963968).
  change (bpow radix2 (-57)) with (/ 144115188075855872). change (bpow radix2 (-58)) with (/ 288230376151711744). lra.
Qed.

(** The neutrinos are left out only through omega_cdm: as long as no operation assigns it, by name
    or through set_parameters, the dark matter is what baryons and neutrinos leave of the matter, to
    the last bit; reading the parameters, which assigns every value again, does not spoil it. *)
Theorem C09_unassigned_partial : forall cl l s, run cl l coffe0 = Some s ->
  (forall o v, In o l -> ~ assigns A_omega_cdm v o) ->
  pf (sp s) Omega0_cdm = fsub (fsub (pf (sp s) Omega0_m) (pf (sp s) Omega0_baryon)) (pf (sp s) Omega0_nu).
Proof.
  intros cl l s R G. apply (run_unless cl A_omega_cdm cdm_rest (rest_kept cl) l coffe0 s); [|reflexivity|exact R].
  apply Forall_forall. intros o I v. exact (G o v I).
Qed.
Print Assumptions C09_unassigned_partial.
(** And in whatever state, an assignment that changes omega_m, omega_baryon or m_ncdm puts it right,
    until omega_cdm is assigned again. *)
Theorem C09_restored_partial : forall cl a v l s s1 s2, In a [A_omega_m; A_omega_baryon; A_m_ncdm] ->
  set_attr a v s = (s1, Ok ONone) -> sp s1 <> sp s ->
  (forall o w, In o l -> ~ assigns A_omega_cdm w o) -> run cl l s1 = Some s2 ->
  pf (sp s2) Omega0_cdm = fsub (fsub (pf (sp s2) Omega0_m) (pf (sp s2) Omega0_baryon)) (pf (sp s2) Omega0_nu).
Proof.
  intros cl a v l s s1 s2 I A N G R. apply (run_unless cl A_omega_cdm cdm_rest (rest_kept cl) l s1 s2); [| |exact R].
  - apply Forall_forall. intros o J w. exact (G o w J).
  - unfold set_attr in A. destruct (attr_update a v (sp s)) as [|p'|e|p' e] eqn:E; try discriminate A.
    + injection A as <-. exfalso. apply N. reflexivity.
    + injection A as <-. exact (rest_restored a v _ _ I E).
Qed.
Print Assumptions C09_restored_partial.
(** omega_cdm is assigned with massive neutrinos, then omega_m, then the parameters are read: 0.024 of
    neutrinos are part of omega_m again. *)
Example C09_restored_met : exists s s1 s2, run cl0 (one_mass ++ [OpSet A_omega_cdm (VFloat (lit 2 10))]) coffe0 = Some s
  /\ pf (sp s) Omega0_cdm <> fsub (fsub (pf (sp s) Omega0_m) (pf (sp s) Omega0_baryon)) (pf (sp s) Omega0_nu)
  /\ set_attr A_omega_m (VFloat (lit 4 10)) s = (s1, Ok ONone) /\ sp s1 <> sp s
  /\ run cl0 [OpParameters; OpSet A_h (VFloat (lit 7 10))] s1 = Some s2.
Proof.
  destruct (run cl0 (one_mass ++ [OpSet A_omega_cdm (VFloat (lit 2 10))]) coffe0) as [s|] eqn:E; [|vm_compute in E; discriminate].
  assert (C : option_map (fun s => negb (feqb (pf (sp s) Omega0_cdm) (fsub (fsub (pf (sp s) Omega0_m) (pf (sp s) Omega0_baryon)) (pf (sp s) Omega0_nu)))
      && feqb (pf (sp s) Omega0_cdm) (pf (sp s) Omega0_cdm) &&
      match set_attr A_omega_m (VFloat (lit 4 10)) s with
      | (s1, Ok ONone) => negb (feqb (pf (sp s1) Omega0_m) (pf (sp s) Omega0_m)) && feqb (pf (sp s) Omega0_m) (pf (sp s) Omega0_m)
          && match run cl0 [OpParameters; OpSet A_h (VFloat (lit 7 10))] s1 with Some _ => true | None => false end
      | _ => false
      end) (run cl0 (one_mass ++ [OpSet A_omega_cdm (VFloat (lit 2 10))]) coffe0) = Some true) by (vm_compute; reflexivity).
  rewrite E in C. cbn [option_map] in C. assert (S1 : forall a b : bool, Some a = Some b -> a = b) by congruence.
  apply S1 in C. apply andb_true_iff in C as [C C3]. apply andb_true_iff in C as [C1 C2].
  destruct (set_attr A_omega_m (VFloat (lit 4 10)) s) as [s1 [o|e|]] eqn:A; try discriminate C3; destruct o; try discriminate C3.
  apply andb_true_iff in C3 as [C3 C5]. apply andb_true_iff in C3 as [C3 C4].
  destruct (run cl0 [OpParameters; OpSet A_h (VFloat (lit 7 10))] s1) as [s2|] eqn:R; [|discriminate C5].
  exists s, s1, s2. split; [reflexivity|]. split; [intros X; rewrite <- X, C2 in C1; discriminate C1|]. split; [exact A|].
  split; [|exact R]. intros X. rewrite X, C4 in C3. discriminate C3.
Qed.

(** ** C89: the density of dark energy is not negative *)

(** The error message of the density setters says "Cannot satisfy the condition Omega_de >= 0".
    Proved for every history that never assigns m_ncdm: matter and radiation overfill the universe, and
    the dark energy is negative, by rounding errors at most. *)
Theorem C89_room_partial : forall cl l s m g, run cl l coffe0 = Some s ->
  (forall o v, In o l -> ~ assigns A_m_ncdm v o) ->
  value (pf (sp s) Omega0_m) m -> value (pf (sp s) Omega0_gamma) g -> 0 <= m <= 1 -> 0 <= g <= 1 ->
  m + g <= 1 + / 2 ^ 51 /\ exists d, value (pf (sp s) Omega0_de) d /\ - / 2 ^ 50 <= d.
Proof.
  intros cl l s m g R G Vm Vg Hm Hg.
  assert (L : light (sp s)).
  { apply (run_unless cl A_m_ncdm light (light_kept cl) l coffe0 s); [| |exact R].
    - apply Forall_forall. intros o I v. exact (G o v I).
    - split; [reflexivity|]. split; [vm_compute; reflexivity|]. left. vm_compute. reflexivity. }
  destruct L as (_ & _ & L).
  assert (B : m + g <= 1 + / 2 ^ 51).
  { pose proof (big 1 ltac:(lia)) as B1. change (bpow radix2 1) with 2 in B1.
    assert (A1 : Rabs (rnd (m + g)) <= 2) by (apply (rnd_bound _ 1); [lia|]; apply Rabs_le; change (bpow radix2 1) with 2; lra).
    assert (C : rnd (m + g) <= 1).
    { assert (V1 : value f1 1) by (apply (Z_value 1); lia).
      destruct L as [L|L].
      - rewrite (ltb_value _ _ _ _ V1 (add_value _ _ _ _ Vm Vg ltac:(lra))) in L. destruct (Rlt_bool_spec 1 (rnd (m + g))); [discriminate L|lra].
      - rewrite (Rplus_comm m g) in A1 |- *. rewrite (ltb_value _ _ _ _ V1 (add_value _ _ _ _ Vg Vm ltac:(lra))) in L. destruct (Rlt_bool_spec 1 (rnd (g + m))); [discriminate L|lra]. }
    pose proof (rnd_near (m + g)) as N. pose proof u_small as U. pose proof eta_small as Et.
    assert (D : u * Rabs (m + g) <= u * 2) by (apply Rmult_le_compat_l; [lra|apply Rabs_le; lra]).
    apply Rabs_le_inv in N. rewrite <- four_u. lra. }
  split; [exact B|]. destruct (C08_sum cl l s m g R Vm Vg Hm Hg) as (d & Vd & E). exists d. split; [exact Vd|].
  apply Rabs_le_inv in E. assert (X : / 2 ^ 50 = 2 * / 2 ^ 51) by (field). lra.
Qed.
Print Assumptions C89_room_partial.
Example C89_room_met : forall o v, In o two_densities -> ~ assigns A_m_ncdm v o.
Proof. intros o v [<-|[<-|[]]] X; vm_compute in X; try discriminate X; try (destruct X; discriminate); contradiction. Qed.

(** Refuted with neutrinos: m_ncdm = -50 is accepted, makes the neutrino density negative, and so lets
    omega_cdm = 1.5 through; the dark energy density is then below minus one half. *)
Theorem C89_negative_refuted : exists s,
  run cl0 [OpSet A_m_ncdm (VFloat (of_Z (-50))); OpSet A_omega_cdm (VFloat (lit 15 10))] coffe0 = Some s
  /\ fltb (pf (sp s) Omega0_de) (fsub f0 (lit 1 2)) = true.
Proof.
  assert (M : option_map (fun s => fltb (pf (sp s) Omega0_de) (fsub f0 (lit 1 2)))
    (run cl0 [OpSet A_m_ncdm (VFloat (of_Z (-50))); OpSet A_omega_cdm (VFloat (lit 15 10))] coffe0) = Some true) by (vm_compute; reflexivity).
  destruct (run cl0 [OpSet A_m_ncdm (VFloat (of_Z (-50))); OpSet A_omega_cdm (VFloat (lit 15 10))] coffe0) as [s|]; [|discriminate].
  cbn [option_map] in M. injection M as M. exists s. split; [reflexivity|exact M].
Qed.
Print Assumptions C89_negative_refuted.

(** Refuted without neutrinos, by rounding: omega_m one double above 1 - omega_gamma is accepted and
    leaves a negative dark energy density, so the bound of [C89_room_partial] cannot be zero. *)
Definition brim : list op := [OpSet A_omega_m (VFloat (S754_finite false 9006388606808066 (-53)))].
Theorem C89_rounding_refuted : exists s, run cl0 brim coffe0 = Some s
  /\ pf (sp s) Omega0_m = S754_finite false 9006388606808066 (-53) /\ fltb (pf (sp s) Omega0_de) f0 = true.
Proof.
  assert (M : option_map (fun s => pf (sp s) Omega0_m) (run cl0 brim coffe0) = Some (S754_finite false 9006388606808066 (-53))) by (vm_compute; reflexivity).
  assert (D : option_map (fun s => fltb (pf (sp s) Omega0_de) f0) (run cl0 brim coffe0) = Some true) by (vm_compute; reflexivity).
  destruct (run cl0 brim coffe0) as [s|]; [|discriminate]. cbn [option_map] in M, D. injection M as M. injection D as D.
  exists s. split; [reflexivity|]. split; [exact M|exact D].
Qed.
Print Assumptions C89_rounding_refuted.

(** ** C39: the separations of a settings file, as real numbers *)
Theorem C39_separations_partial : forall W s t n lo hi a b, Parser.parser_init W = Numeric.Done s ->
  Parser.c_int (Parser.w_conf W) "output_type" = Some t -> In t [1; 2; 3; 4]%Z ->
  Parser.c_int (Parser.w_conf W) "separations_sampling" = Some n ->
  Parser.c_float (Parser.w_conf W) "separations_min" = Some lo -> Parser.c_float (Parser.w_conf W) "separations_max" = Some hi ->
  value lo a -> value hi b -> Rabs a <= 2 ^ 970 -> Rabs b <= 2 ^ 970 -> (1 <= n <= 2 ^ 31)%Z ->
  exists l, s "sep" = Parser.VFs l /\ good_range a b (Z.to_nat n) l.
Proof.
  intros W s t n lo hi a b H T It Hn Hlo Hhi Va Vb Ha Hb N.
  destruct (Props_Parser.C39_sampling_partial W s t H T It) as (lo' & hi' & E1 & E2 & L & [(n' & E3 & _ & S)|(x & _ & E3 & _)]); [|congruence].
  assert (lo' = lo) by congruence. assert (hi' = hi) by congruence. assert (n' = n) by congruence. subst lo' hi' n'.
  eexists. split; [exact S|]. apply range_good; try assumption; try lia.
  unfold fleb, SFleb in L. rewrite (compare_value hi lo b a Vb Va) in L. destruct (Rcompare_spec b a); try discriminate. lra.
Qed.
Print Assumptions C39_separations_partial.
Example C39_separations_met : exists s,
  Parser.parser_init (Props_Parser.with_settings [("separations_sampling", Props_Parser.GInt 4)]) = Numeric.Done s
  /\ exists l, s "sep" = Parser.VFs l /\ good_range 10 50 4 l.
Proof.
  set (W := Props_Parser.with_settings _).
  destruct (Props_Parser.value_of_done (Parser.parser_init W) "output_type" (Parser.VI 2) ltac:(vm_compute; reflexivity)) as (s & E & _).
  exists s. split; [exact E|].
  apply (C39_separations_partial W s 2 4 (of_Z 10) (of_Z 50) 10 50 E); try reflexivity; try (apply Z_value; lia); try lia; [right; left; reflexivity| |];
    rewrite Rabs_right by lra; (apply Rle_trans with (2 ^ 6); [lra|apply Rle_pow; [lra|lia]]).
Qed.

(** ** C85: the redshifts of the background table *)
Lemma node_core : forall u h S st I w : R, 0 < u <= / 8192 -> 0 < h <= u / 8192 -> 0 <= I -> 0 < S -> I * S <= 15 ->
  - (u * S) <= st - S <= u * S -> 0 <= st -> - (u * (I * st) + h) <= w - I * st <= u * (I * st) + h -> Rabs (w - I * S) <= 32 * u.
Proof.
  intros u h S st I w U H I0 S0 IS D St W. assert (P : 0 <= I * S) by (apply Rmult_le_pos; lra).
  assert (A : - (u * (I * S)) <= I * st - I * S <= u * (I * S)).
  { replace (I * st - I * S) with (I * (st - S)) by ring. replace (u * (I * S)) with (I * (u * S)) by ring.
    replace (- (I * (u * S))) with (I * (- (u * S))) by ring. split; apply Rmult_le_compat_l; lra. }
  assert (B : u * (I * S) <= u * 15) by (apply Rmult_le_compat_l; lra).
  assert (C : u * (I * st) <= u * (15 + / 100)) by (apply Rmult_le_compat_l; lra). apply Rabs_le. lra.
Qed.
(** The n redshifts run from exactly 0 to exactly 15, each lies above the one before, and number
    i is 15 i / (n - 1) up to 2^-48. *)
Theorem C85_redshifts : forall n, (2 <= n)%nat -> (Z.of_nat n <= 2 ^ 31)%Z ->
  exists reals, Forall2 value (linspace f0 (of_Z 15) n) reals /\ length reals = n
    /\ nth 0 reals 0 = 0 /\ nth (n - 1) reals 0 = 15
    /\ (forall i, (i < n)%nat -> Rabs (nth i reals 0 - 15 * (INR i / INR (n - 1))) <= / 2 ^ 48)
    /\ (forall i j, (i < j < n)%nat -> nth i reals 0 < nth j reals 0).
Proof.
  intros n H1 H2. destruct n as [|[|k]]; [lia|lia|]. remember (S k) as m eqn:Em. replace (S m - 1)%nat with m by lia.
  assert (Hm : (1 <= m)%nat) by lia. assert (Hm' : (Z.of_nat m <= 2 ^ 31)%Z) by lia.
  assert (Hc : (1 <= 15 <= 2 ^ 20)%Z) by lia.
  pose proof (step_error 15 m Hc Hm Hm') as SE. apply Rabs_le_inv in SE.
  pose proof (step_range 15 m Hc Hm Hm') as SR. pose proof (quotient_range 15 m Hc Hm Hm') as QR. pose proof (M_range m Hm Hm') as MR.
  set (M := IZR (Z.of_nat m)) in *. set (st := rnd (15 / M)) in *.
  set (w := fun i => rnd (IZR (Z.of_nat i) * st)).
  assert (PM : 0 < / M) by (apply Rinv_0_lt_compat; lra). assert (MM : M * / M = 1) by (apply Rinv_r; lra).
  assert (P31 : 0 < / IZR (2 ^ 31)) by (apply Rinv_0_lt_compat; apply IZR_lt; lia).
  assert (Ib : forall i, (i < m)%nat -> 0 <= IZR (Z.of_nat i) <= M - 1).
  { intros i H. split; [apply IZR_le; lia|]. unfold M. rewrite <- minus_IZR. apply IZR_le. lia. }
  assert (W : forall i, (i < m)%nat -> Rabs (w i - IZR (Z.of_nat i) * (15 / M)) <= 32 * u).
  { intros i H. pose proof (Ib i H) as J. assert (IS : IZR (Z.of_nat i) * (15 / M) <= 15).
    { apply Rle_trans with (M * (15 / M)); [apply Rmult_le_compat_r; lra|]. right. field. lra. }
    apply (node_core u eta (15 / M) st (IZR (Z.of_nat i)) (w i)); try lra; [exact u_small|exact eta_small|].
    pose proof (rnd_near (IZR (Z.of_nat i) * st)) as R. fold (w i) in R.
    assert (0 <= IZR (Z.of_nat i) * st) by (apply Rmult_le_pos; lra). rewrite (Rabs_right (_ * _)) in R by lra. apply Rabs_le_inv in R. exact R. }
  assert (Gap : 128 * u < 15 / M).
  { apply Rlt_le_trans with (15 * / IZR (2 ^ 31)).
    - change (/ IZR (2 ^ 31)) with (bpow radix2 (-31)). assert (bpow radix2 (-31) = bpow radix2 22 * u) by (rewrite <- bpow_plus; reflexivity).
      pose proof u_small. change (bpow radix2 22) with 4194304 in *. lra.
    - apply Rmult_le_compat_l; [lra|]. apply Rinv_le; [lra|]. exact (proj2 MR). }
  set (reals := (map w (seq 0 m) ++ [15])%list). assert (V : forall i, (i < m)%nat -> nth i reals 0 = w i).
  { intros i H. unfold reals. rewrite app_nth1 by (rewrite map_length, seq_length; exact H).
    rewrite (nth_indep _ 0 (w 0%nat)) by (rewrite map_length, seq_length; exact H). rewrite map_nth, seq_nth by exact H. reflexivity. }
  assert (Vm : nth m reals 0 = 15).
  { unfold reals. rewrite app_nth2; rewrite map_length, seq_length; [|lia]. rewrite Nat.sub_diag. reflexivity. }
  assert (U48 : 32 * u = / 2 ^ 48).
  { change 32 with (bpow radix2 5). rewrite <- bpow_plus. change (5 + -53)%Z with (- (48))%Z. rewrite bpow_opp. f_equal.
    change (bpow radix2 48) with (IZR (2 ^ 48)). rewrite (pow_IZR 2 48). reflexivity. }
  pose proof u_small as U. exists reals. split; [|split; [|split; [|split; [|split]]]].
  - assert (D : fsub (of_Z 15) f0 = of_Z 15) by (vm_compute; reflexivity). rewrite Em at 1. unfold linspace. cbv zeta. rewrite <- Em. rewrite D.
    rewrite (step_not_zero 15 m) by lia. unfold reals. apply Forall2_app; [|constructor; [apply (Z_value 15); lia|constructor]].
    assert (G : forall i, In i (seq 0 m) -> value (fadd (fmul (of_Z (Z.of_nat i)) (fdiv (of_Z 15) (of_Z (Z.of_nat m)))) f0) (w i)).
    { intros i I. apply in_seq in I. exact (proj1 (node 15 m Hc Hm Hm' i ltac:(lia))). }
    revert G. generalize (seq 0 m). intros l. induction l as [|j l IH]; intros G; cbn; constructor; [apply G; left; reflexivity|].
    apply IH. intros i I. apply G. right. exact I.
  - unfold reals. rewrite app_length, map_length, seq_length. cbn. lia.
  - rewrite V by lia. unfold w. cbn [Z.of_nat]. rewrite Rmult_0_l. exact rnd_0.
  - exact Vm.
  - intros i H. rewrite <- U48. rewrite !INR_IZR_INZ. fold M. destruct (Nat.eq_dec i m) as [->|Ne].
    + rewrite Vm. fold M. replace (15 - 15 * (M / M)) with 0 by (field; lra). rewrite Rabs_R0. lra.
    + rewrite V by lia. replace (15 * (IZR (Z.of_nat i) / M)) with (IZR (Z.of_nat i) * (15 / M)) by (field; lra). apply W. lia.
  - intros i j H. rewrite (V i) by lia. pose proof (W i ltac:(lia)) as Wi. apply Rabs_le_inv in Wi. pose proof (Ib i ltac:(lia)) as J.
    destruct (Nat.eq_dec j m) as [->|Ne].
    + rewrite Vm. assert (IZR (Z.of_nat i) * (15 / M) <= (M - 1) * (15 / M)) by (apply Rmult_le_compat_r; lra).
      replace ((M - 1) * (15 / M)) with (15 - 15 / M) in * by (field; lra). lra.
    + rewrite (V j) by lia. pose proof (W j ltac:(lia)) as Wj. apply Rabs_le_inv in Wj.
      assert (IZR (Z.of_nat i) + 1 <= IZR (Z.of_nat j)) by (rewrite <- plus_IZR; apply IZR_le; lia).
      assert ((IZR (Z.of_nat i) + 1) * (15 / M) <= IZR (Z.of_nat j) * (15 / M)) by (apply Rmult_le_compat_r; lra). lra.
Qed.
Print Assumptions C85_redshifts.
