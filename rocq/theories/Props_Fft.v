(** * FFTlog transforms: C42, C65, C66 and the symmetry behind C23 *)
From Coq Require Import ZArith Reals List Lia Lra Bool Arith.
From Coquelicot Require Import Coquelicot.
From Coq Require Import List.
From Verif Require Import Arrays Numeric Props_Numeric Fft.
Import ListNotations.
Open Scope nat_scope.

(** ** Loops *)
Lemma rbind_done : forall A (r : res A), rbind r (fun x => Done x) = r.
Proof. intros A [x| |]; reflexivity. Qed.
Lemma store_ok : forall A (a : list (option A)) i x, i < List.length a ->
  exists a', store a (Z.of_nat i) x = Done a' /\ List.length a' = List.length a /\ nth_error a' i = Some (Some x)
    /\ forall j, j <> i -> nth_error a' j = nth_error a j.
Proof.
  intros A a i x H. unfold store. destruct (Z.ltb_spec (Z.of_nat i) 0); [lia|]. rewrite Nat2Z.id.
  destruct (wr_some a i (Some x) H) as [a' E]. exists a'. rewrite E. split; [reflexivity|].
  split; [exact (wr_length _ _ _ _ E)|]. split; [exact (wr_same _ _ _ _ E)|].
  intros j N. exact (wr_other _ _ _ _ j E N).
Qed.
Lemma load_ok : forall A (l : list A) i d, i < List.length l -> load (map Some l) (Z.of_nat i) = Done (nth i l d).
Proof.
  intros A l i d H. unfold load. destruct (Z.ltb_spec (Z.of_nat i) 0); [lia|]. rewrite Nat2Z.id.
  unfold rd. rewrite nth_error_map. rewrite (nth_error_nth' l d H). reflexivity.
Qed.
Lemma values_ok : forall A (l : list A), values (map Some l) = Done l.
Proof. induction l as [|x r IH]; [reflexivity|]. cbn. rewrite IH. reflexivity. Qed.

(** A loop that writes element i at iteration i, reading at most elements not yet written. *)
Lemma fill_from : forall A n k (body : nat -> list (option A) -> res (list (option A))) (v : nat -> A) a b,
  k + n <= List.length a -> List.length b = List.length a ->
  (forall j, k <= j -> nth_error b j = nth_error a j) ->
  (forall i b, k <= i < k + n -> List.length b = List.length a -> (forall j, i <= j -> nth_error b j = nth_error a j) ->
     body i b = store b (Z.of_nat i) (v i)) ->
  exists c, rfor k n body b = Done c /\ List.length c = List.length a
    /\ (forall i, k <= i < k + n -> nth_error c i = Some (Some (v i)))
    /\ (forall i, i < k -> nth_error c i = nth_error b i) /\ (forall i, k + n <= i -> nth_error c i = nth_error a i).
Proof.
  induction n as [|n IH]; intros k body v a b L Lb Hb H.
  - exists b. split; [reflexivity|]. split; [exact Lb|]. split; [intros; lia|]. split; [reflexivity|]. intros i Hi. apply Hb. lia.
  - cbn [rfor]. rewrite (H k b ltac:(lia) Lb Hb).
    destruct (store_ok _ b k (v k) ltac:(lia)) as (b' & E & L' & W & O). rewrite E. cbn [rbind].
    destruct (IH (S k) body v a b') as (c & Ec & Lc & Wc & Oc & Rc).
    + lia.
    + lia.
    + intros j Hj. rewrite O by lia. apply Hb. lia.
    + intros i b0 Hi Hl Hn. apply H; try assumption. lia.
    + exists c. split; [exact Ec|]. split; [exact Lc|]. split.
      * intros i Hi. destruct (Nat.eq_dec i k) as [->|N]; [rewrite Oc by lia; exact W|apply Wc; lia].
      * split; [|intros i Hi; apply Rc; lia]. intros i Hi. rewrite Oc by lia. apply O. lia.
Qed.
Lemma fill : forall A n (body : nat -> list (option A) -> res (list (option A))) (v : nat -> A) a,
  List.length a = n ->
  (forall i b, i < n -> List.length b = n -> (forall j, i <= j -> nth_error b j = nth_error a j) ->
     body i b = store b (Z.of_nat i) (v i)) ->
  rfor 0 n body a = Done (map Some (map v (seq 0 n))).
Proof.
  intros A n body v a L H. destruct (fill_from A n 0 body v a a) as (c & E & Lc & W & _ & _).
  - lia.
  - reflexivity.
  - reflexivity.
  - intros i b Hi Hl Hn. apply H; try assumption; lia.
  - rewrite E. f_equal. apply nth_error_ext.
    + rewrite !map_length, seq_length. lia.
    + intros i Hi. rewrite W by lia. rewrite !nth_error_map, nth_error_seq by lia. reflexivity.
Qed.
Lemma map_some_length : forall A (l : list A), List.length (map Some l) = List.length l.
Proof. intros. apply map_length. Qed.
Lemma fresh_length : forall A n, List.length (@fresh A n) = n.
Proof. intros. unfold fresh. apply repeat_length. Qed.
Lemma load_map : forall A (v : nat -> A) n i, i < n -> load (map Some (map v (seq 0 n))) (Z.of_nat i) = Done (v i).
Proof.
  intros A v n i H. rewrite (load_ok A (map v (seq 0 n)) i (v 0)) by (rewrite map_length, seq_length; exact H).
  rewrite map_nth, seq_nth by exact H. reflexivity.
Qed.

(** ** twofast_1bessel computes the sum the FFTlog method prescribes *)
(** The transformed input at sample k, [Q] being the total power of the bias. *)
Definition biased (f : R -> R) (w : nat -> R) (Q k0 ratio : R) (N i : nat) : R :=
  (Rpower ratio ((3 - Q) * INR i / INR N) * f (grid k0 ratio N i) * w i)%R.
Definition spectral (f : R -> R) (w : nat -> R) (Q k0 ratio : R) (N k : nat) : C :=
  Cdiv (Cmult (RtoC (w (N / 2 + 1 - 2 + k))) (Cconj (r2c (map (biased f w Q k0 ratio N) (seq 0 N)) k)))
       (RtoC (2 * PI * INR N / ln ratio)).
Definition bessel_sum (f : R -> R) (w : nat -> R) (m : nat -> C) (Q nu r0 k0 ratio : R) (N j : nat) : R :=
  (c2r N (map (fun k => Cmult (spectral f w Q k0 ratio N k) (m k)) (seq 0 (N / 2 + 1))) j
   * (k0 * k0 * k0 * Rpower ratio (- (Q * INR j / INR N)) / PI / Rpower (r0 * k0) nu / ln ratio))%R.

Lemma half_index : forall N i, 2 <= N -> i < N / 2 + 1 -> N / 2 + 1 - 2 + i < N.
Proof.
  intros N i H Hi. pose proof (Nat.div_mod_eq N 2). pose proof (Nat.mod_upper_bound N 2 ltac:(lia)). lia.
Qed.
Lemma fft_input_ok : forall X N Q k0 kmin kmax w, 2 <= N -> (Z.of_nat N < 2 ^ 64)%Z ->
  (forall i, i < N -> fft_window k0 kmin kmax N (grid k0 (kmax / kmin) N i) = Done (w i)) ->
  fft_input X N Q k0 kmin kmax
  = Done (map Some (map (spectral (x_spline X) w Q k0 (kmax / kmin) N) (seq 0 (N / 2 + 1)))).
Proof.
  intros X N Q k0 kmin kmax w H Hz Hw. unfold fft_input.
  rewrite (fill _ N _ (grid k0 (kmax / kmin) N)); [cbn [rbind]|apply fresh_length|reflexivity].
  rewrite (fill _ N _ (biased (x_spline X) w Q k0 (kmax / kmin) N));
    [cbn [rbind]|apply fresh_length|intros i b Hi _ _; rewrite Hw by exact Hi; reflexivity].
  rewrite values_ok. cbn [rbind].
  rewrite (fill _ (N / 2 + 1) _ (spectral (x_spline X) w Q k0 (kmax / kmin) N)); [reflexivity|apply fresh_length|].
  intros i b Hi _ _.
  pose proof (half_index N i H Hi) as HI.
  assert (E : size_t (Z.of_nat (N / 2 + 1) - 2 + Z.of_nat i) = Z.of_nat (N / 2 + 1 - 2 + i)).
  { unfold size_t. pose proof (Nat.div_le_mono 2 N 2 ltac:(lia) H) as D. change (2 / 2) with 1 in D.
    rewrite Z.mod_small; lia. }
  rewrite E, load_map by exact HI. cbn [rbind]. rewrite Hw by exact HI. cbn [rbind].
  rewrite <- (map_map (r2c (map (biased (x_spline X) w Q k0 (kmax / kmin) N) (seq 0 N))) Some).
  rewrite load_map by exact Hi. reflexivity.
Qed.
Lemma twofast_ok : forall X ox oy N l nu r0 k0 kmin kmax w m, 2 <= N -> (Z.of_nat N < 2 ^ 64)%Z ->
  List.length ox = N -> List.length oy = N ->
  (forall i, i < N -> fft_window k0 kmin kmax N (grid k0 (kmax / kmin) N i) = Done (w i)) ->
  (forall i, i <= N / 2 -> x_mql X (2 * PI * INR i / ln (kmax / kmin)) (select_q l nu) l (k0 * r0) = Done (m i)) ->
  twofast_1bessel X ox oy N l nu r0 k0 kmin kmax
  = Done (map Some (map (grid r0 (kmax / kmin) N) (seq 0 N)),
          map Some (map (bessel_sum (x_spline X) w m (select_q l nu + nu) nu r0 k0 (kmax / kmin) N) (seq 0 N))).
Proof.
  intros X ox oy N l nu r0 k0 kmin kmax w m H Hz Lx Ly Hw Hm. unfold twofast_1bessel.
  rewrite (fft_input_ok X N _ k0 kmin kmax w H Hz Hw). cbn [rbind].
  rewrite (fill _ N _ (grid r0 (kmax / kmin) N)); [cbn [rbind]|exact Lx|reflexivity].
  set (p := fun i => (k0 * k0 * k0 * Rpower (kmax / kmin) (- ((select_q l nu + nu) * INR i / INR N)) / PI / Rpower (r0 * k0) nu / ln (kmax / kmin))%R).
  rewrite (fill _ N _ p); [cbn [rbind]|apply fresh_length|reflexivity].
  set (z := fun k => Cmult (spectral (x_spline X) w (select_q l nu + nu) k0 (kmax / kmin) N k) (m k)).
  rewrite (fill _ (N / 2 + 1) _ z); [cbn [rbind]|apply fresh_length|].
  2:{ intros i b Hi _ _. rewrite load_map by exact Hi. cbn [rbind]. rewrite Hm by lia. reflexivity. }
  rewrite (fill _ (N / 2 + 1) _ z); [cbn [rbind]|rewrite !map_length, seq_length; reflexivity|].
  2:{ intros i b Hi _ _. rewrite load_map by exact Hi. reflexivity. }
  rewrite values_ok. cbn [rbind].
  set (y := fun j => c2r N (map z (seq 0 (N / 2 + 1))) j). rewrite <- (map_map y Some).
  rewrite (fill _ N _ (fun i => (y i * p i)%R)); [cbn [rbind]|rewrite !map_length, seq_length; reflexivity|].
  2:{ intros i b Hi Hl Hb. unfold load at 1. destruct (Z.ltb_spec (Z.of_nat i) 0); [lia|]. rewrite Nat2Z.id. unfold rd. rewrite Hb by lia.
      rewrite !nth_error_map, nth_error_seq by exact Hi. cbn [option_map of_opt rbind].
      rewrite load_map by exact Hi. reflexivity. }
  rewrite (fill _ N _ (fun i => (y i * p i)%R)); [reflexivity|exact Ly|].
  intros i b Hi _ _. rewrite load_map by exact Hi. reflexivity.
Qed.

(** ** C42 *)
Lemma grid_exp : forall x0 ratio N i, grid x0 ratio N i = (x0 * exp (INR i / INR N * ln ratio))%R.
Proof. reflexivity. Qed.
Lemma exp_lt_inv : forall a b, (exp a = exp b -> a = b)%R.
Proof. intros a b H. apply exp_inv. exact H. Qed.
Lemma window_ok : forall kmin kmax N i, (0 < kmin)%R -> i < N ->
  (92 / 100 <= INR (N - 1) / INR N * ln (kmax / kmin))%R ->
  (INR i / INR N * ln (kmax / kmin) <> 46 / 100)%R ->
  (INR (N - 1 - i) / INR N * ln (kmax / kmin) <> 46 / 100)%R ->
  exists w, fft_window kmin kmin kmax N (grid kmin (kmax / kmin) N i) = Done w /\ (0 <= w <= 1)%R.
Proof.
  intros kmin kmax N i P Hi H E1 E2. unfold fft_window. set (t := ln (kmax / kmin)) in *.
  assert (G : forall j, grid kmin (kmax / kmin) N j = (kmin * exp (INR j / INR N * t))%R) by reflexivity.
  rewrite !G.
  assert (T : (exp (- (46 / 100)) * (kmin * exp (INR (N - 1) / INR N * t)) = kmin * exp (INR (N - 1) / INR N * t - 46 / 100))%R).
  { unfold Rminus. rewrite exp_plus. ring. }
  rewrite T.
  assert (Mono : forall a b, (a <= b -> kmin * exp a <= kmin * exp b)%R).
  { intros a b [L| ->]; [|lra]. apply Rmult_le_compat_l; [lra|]. left. apply exp_increasing. exact L. }
  assert (Inj : forall a b, (kmin * exp a = kmin * exp b -> a = b)%R).
  { intros a b E. apply exp_inv. apply (Rmult_eq_reg_l kmin); [exact E|lra]. }
  destruct (C41_window_partial kmin (kmin * exp (INR (N - 1) / INR N * t)) (exp (46 / 100) * kmin)
              (kmin * exp (INR (N - 1) / INR N * t - 46 / 100))) as (_ & _ & A & _ & _).
  - pose proof (Mono 0 (46 / 100) ltac:(lra))%R as M. rewrite exp_0 in M. lra.
  - pose proof (Mono (46 / 100) (INR (N - 1) / INR N * t - 46 / 100) ltac:(lra))%R. lra.
  - apply Mono. lra.
  - apply A.
    + intros E. apply E1. apply Inj. rewrite E. ring.
    + intros E. apply E2. apply Inj in E. rewrite minus_INR by lia.
      assert (Np : (INR N <> 0)%R) by (apply not_0_INR; lia).
      replace ((INR (N - 1) - INR i) / INR N * t)%R with (INR (N - 1) / INR N * t - INR i / INR N * t)%R by (field; exact Np).
      rewrite E. lra.
Qed.
(** At least two samples and a range of wavenumbers wider than e^0.92: the transform stays
    inside its arrays, writes every element of both outputs and its abscissae increase. *)
Theorem C42_twofast_partial : forall X ox oy N l nu r0 kmin kmax,
  2 <= N -> (Z.of_nat N < 2 ^ 64)%Z -> List.length ox = N -> List.length oy = N ->
  (0 < kmin)%R -> (kmin < kmax)%R -> (0 < r0)%R ->
  (92 / 100 <= INR (N - 1) / INR N * ln (kmax / kmin))%R ->
  (forall i, i < N -> (INR i / INR N * ln (kmax / kmin) <> 46 / 100)%R) ->
  (forall t a, exists v, x_mql X t (select_q l nu) l a = Done v) ->
  exists xs ys, twofast_1bessel X ox oy N l nu r0 kmin kmin kmax = Done (map Some xs, map Some ys)
    /\ List.length xs = N /\ List.length ys = N /\ nth 0 xs 0%R = r0
    /\ (forall i j, i < j < N -> (nth i xs 0 < nth j xs 0)%R)
    /\ (forall i, i < N -> (nth i xs 0 < r0 * kmax / kmin)%R).
Proof.
  intros X ox oy N l nu r0 kmin kmax H Hz Lx Ly P1 P2 P3 Hr He Hm.
  assert (Np : (0 < INR N)%R) by (apply lt_0_INR; lia).
  assert (R1 : (1 < kmax / kmin)%R).
  { apply (Rmult_lt_reg_r kmin); [exact P1|]. unfold Rdiv. rewrite Rmult_assoc, Rinv_l by lra. lra. }
  assert (Lp : (0 < ln (kmax / kmin))%R) by (rewrite <- ln_1; apply ln_increasing; lra).
  set (w := fun i => match fft_window kmin kmin kmax N (grid kmin (kmax / kmin) N i) with Done w => w | _ => 0%R end).
  set (m := fun i => match x_mql X (2 * PI * INR i / ln (kmax / kmin)) (select_q l nu) l (kmin * r0) with Done w => w | _ => RtoC 0 end).
  rewrite (twofast_ok X ox oy N l nu r0 kmin kmin kmax w m H Hz Lx Ly).
  - eexists. eexists. split; [reflexivity|]. rewrite !map_length, seq_length.
    assert (Nth : forall i, i < N -> nth i (map (grid r0 (kmax / kmin) N) (seq 0 N)) 0%R = (r0 * exp (INR i / INR N * ln (kmax / kmin)))%R).
    { intros i Hi. rewrite (nth_indep _ _ (grid r0 (kmax / kmin) N 0)) by (rewrite map_length, seq_length; exact Hi).
      rewrite map_nth, seq_nth by exact Hi. reflexivity. }
    split; [reflexivity|]. split; [reflexivity|]. split.
    + rewrite Nth by lia. replace (INR 0) with 0%R by reflexivity. unfold Rdiv. rewrite !Rmult_0_l, exp_0. ring.
    + split.
      * intros i j Hij. rewrite !Nth by lia. apply Rmult_lt_compat_l; [exact P3|]. apply exp_increasing.
        apply Rmult_lt_compat_r; [exact Lp|]. unfold Rdiv. apply Rmult_lt_compat_r; [apply Rinv_0_lt_compat; exact Np|].
        apply lt_INR. lia.
      * intros i Hi. rewrite Nth by exact Hi. replace (r0 * kmax / kmin)%R with (r0 * (kmax / kmin))%R by (unfold Rdiv; ring).
        apply Rmult_lt_compat_l; [exact P3|]. rewrite <- (exp_ln (kmax / kmin)) at 2 by lra. apply exp_increasing.
        rewrite <- (Rmult_1_l (ln (kmax / kmin))) at 2. apply Rmult_lt_compat_r; [exact Lp|].
        apply (Rmult_lt_reg_r (INR N)); [exact Np|]. unfold Rdiv. rewrite Rmult_assoc, Rinv_l by lra.
        rewrite Rmult_1_l, Rmult_1_r. apply lt_INR. exact Hi.
  - intros i Hi. unfold w. destruct (window_ok kmin kmax N i P1 Hi Hr (He i Hi)) as (v & -> & _); [|reflexivity].
    apply He. lia.
  - intros i Hi. unfold m. destruct (Hm (2 * PI * INR i / ln (kmax / kmin))%R (kmin * r0)%R) as [v ->]. reflexivity.
Qed.
Print Assumptions C42_twofast_partial.
Example C42_twofast_example : exists N kmin kmax, 2 <= N /\ (0 < kmin)%R /\ (kmin < kmax)%R
  /\ (92 / 100 <= INR (N - 1) / INR N * ln (kmax / kmin))%R
  /\ (forall i, i < N -> (INR i / INR N * ln (kmax / kmin) <> 46 / 100)%R).
Proof.
  exists 4, 1%R, (exp 2).
  assert (E : ln (exp 2 / 1) = 2%R) by (unfold Rdiv; rewrite Rinv_1, Rmult_1_r; apply ln_exp). rewrite E.
  pose proof (exp_ineq1 2 ltac:(lra)). split; [lia|]. split; [lra|]. split; [lra|]. split; [cbn; lra|].
  intros i Hi. destruct i as [|[|[|[|]]]]; cbn; try lia; lra.
Qed.

(** No samples: the window of the spectrum is read in front of an empty array. *)
Theorem C42_no_samples_refuted : forall X ox oy l nu r0 k0 kmin kmax,
  twofast_1bessel X ox oy 0 l nu r0 k0 kmin kmax = Undefined.
Proof. reflexivity. Qed.
Print Assumptions C42_no_samples_refuted.
(** One sample, or a range narrower than e^0.92: the process ends. *)
Theorem C42_narrow_exits_refuted : forall X ox oy N l nu r0 kmin kmax, 1 <= N -> (0 < kmin)%R ->
  (INR (N - 1) / INR N * ln (kmax / kmin) < 92 / 100)%R ->
  twofast_1bessel X ox oy N l nu r0 kmin kmin kmax = Exited.
Proof.
  intros X ox oy N l nu r0 kmin kmax H P Hr. unfold twofast_1bessel, fft_input.
  rewrite (fill _ N _ (grid kmin (kmax / kmin) N)); [cbn [rbind]|apply fresh_length|reflexivity].
  destruct N as [|N]; [lia|]. cbn [rfor].
  unfold fft_window at 1. rewrite C41_narrow_range_refuted; [reflexivity|exact P|].
  rewrite grid_exp, (Rmult_comm _ kmin). apply Rmult_lt_compat_l; [exact P|]. apply exp_increasing.
  replace (46 / 50)%R with (92 / 100)%R by lra. exact Hr.
Qed.
Print Assumptions C42_narrow_exits_refuted.
Example C42_narrow_example : (INR (4 - 1) / INR 4 * ln (2 / 1) < 92 / 100)%R.
Proof.
  assert (L : (ln 2 < 1)%R).
  { apply (Rlt_le_trans _ (ln (exp 1))); [|rewrite ln_exp; lra]. apply ln_increasing; [lra|]. pose proof (exp_ineq1 1 ltac:(lra)). lra. }
  assert (L0 : (0 < ln 2)%R) by (rewrite <- ln_1; apply ln_increasing; lra).
  replace (2 / 1)%R with 2%R by lra. cbn. lra.
Qed.

(** ** C66: the transform is linear in the spectrum *)
Lemma rsum_lin : forall n a b (f g h : nat -> R), (forall k, k < n -> (f k = a * g k + b * h k)%R) ->
  (rsum n f = a * rsum n g + b * rsum n h)%R.
Proof.
  intros n a b f g h H. unfold rsum.
  assert (G : forall l, (forall k, In k l -> (f k = a * g k + b * h k)%R) ->
    (fold_right Rplus 0 (map f l) = a * fold_right Rplus 0 (map g l) + b * fold_right Rplus 0 (map h l))%R).
  { induction l as [|k r IH]; intros Hl; cbn [map fold_right]; [ring|]. rewrite (Hl k (or_introl eq_refl)), IH; [ring|].
    intros j Hj. apply Hl. right. exact Hj. }
  apply G. intros k Hk. apply H. apply in_seq in Hk. lia.
Qed.
Lemma csum_lin : forall n (a b : R) (f g h : nat -> C), (forall k, k < n -> f k = Cplus (Cmult (RtoC a) (g k)) (Cmult (RtoC b) (h k))) ->
  csum n f = Cplus (Cmult (RtoC a) (csum n g)) (Cmult (RtoC b) (csum n h)).
Proof.
  intros n a b f g h H. unfold csum.
  assert (G : forall l, (forall k, In k l -> f k = Cplus (Cmult (RtoC a) (g k)) (Cmult (RtoC b) (h k))) ->
    fold_right Cplus (RtoC 0) (map f l)
    = Cplus (Cmult (RtoC a) (fold_right Cplus (RtoC 0) (map g l))) (Cmult (RtoC b) (fold_right Cplus (RtoC 0) (map h l)))).
  { induction l as [|k r IH]; intros Hl; cbn [map fold_right]; [ring|]. rewrite (Hl k (or_introl eq_refl)), IH; [ring|].
    intros j Hj. apply Hl. right. exact Hj. }
  apply G. intros k Hk. apply H. apply in_seq in Hk. lia.
Qed.
Lemma conj_lin : forall (a b : R) (y z : C), Cconj (Cplus (Cmult (RtoC a) y) (Cmult (RtoC b) z))
  = Cplus (Cmult (RtoC a) (Cconj y)) (Cmult (RtoC b) (Cconj z)).
Proof. intros a b [y1 y2] [z1 z2]. unfold Cconj, Cplus, Cmult, RtoC. cbn [fst snd]. f_equal; ring. Qed.
Lemma nth_mapseq : forall A (v : nat -> A) n i d, i < n -> nth i (map v (seq 0 n)) d = v i.
Proof.
  intros A v n i d H. rewrite (nth_indep _ _ (v 0)) by (rewrite map_length, seq_length; exact H).
  rewrite map_nth, seq_nth by exact H. reflexivity.
Qed.
Lemma bessel_sum_lin : forall a b f g h w m Q nu r0 k0 ratio N j,
  (forall x, (h x = a * f x + b * g x)%R) ->
  (bessel_sum h w m Q nu r0 k0 ratio N j = a * bessel_sum f w m Q nu r0 k0 ratio N j + b * bessel_sum g w m Q nu r0 k0 ratio N j)%R.
Proof.
  intros a b f g h w m Q nu r0 k0 ratio N j H. unfold bessel_sum.
  assert (S : forall k, spectral h w Q k0 ratio N k
     = Cplus (Cmult (RtoC a) (spectral f w Q k0 ratio N k)) (Cmult (RtoC b) (spectral g w Q k0 ratio N k))).
  { intros k. unfold spectral, r2c. rewrite !map_length, !seq_length.
    rewrite (csum_lin N a b _ (fun j => Cmult (RtoC (nth j (map (biased f w Q k0 ratio N) (seq 0 N)) 0%R)) (cis (- (2 * PI * INR j * INR k / INR N))))
                              (fun j => Cmult (RtoC (nth j (map (biased g w Q k0 ratio N) (seq 0 N)) 0%R)) (cis (- (2 * PI * INR j * INR k / INR N))))).
    - rewrite conj_lin. unfold Cdiv. ring.
    - intros i Hi. rewrite !nth_mapseq by exact Hi. unfold biased. rewrite H.
      rewrite !RtoC_mult, RtoC_plus, !RtoC_mult. ring. }
  set (F := fun k => Cmult (spectral f w Q k0 ratio N k) (m k)).
  set (G := fun k => Cmult (spectral g w Q k0 ratio N k) (m k)).
  assert (L : (c2r N (map (fun k => Cmult (spectral h w Q k0 ratio N k) (m k)) (seq 0 (N / 2 + 1))) j
     = a * c2r N (map F (seq 0 (N / 2 + 1))) j + b * c2r N (map G (seq 0 (N / 2 + 1))) j)%R).
  { unfold c2r. apply rsum_lin. intros k Hk. rewrite !nth_mapseq by exact Hk. unfold F, G. rewrite S.
    unfold Cmult, Cplus, RtoC. cbn [fst snd]. ring. }
  rewrite L. ring.
Qed.
Theorem C66_linear : forall mql f g a b ox oy N l nu r0 kmin kmax,
  2 <= N -> (Z.of_nat N < 2 ^ 64)%Z -> List.length ox = N -> List.length oy = N ->
  (0 < kmin)%R -> (92 / 100 <= INR (N - 1) / INR N * ln (kmax / kmin))%R ->
  (forall i, i < N -> (INR i / INR N * ln (kmax / kmin) <> 46 / 100)%R) ->
  (forall t al, exists v, mql t (select_q l nu) l al = Done v) ->
  let transform h := twofast_1bessel {| x_spline := h; x_mql := mql |} ox oy N l nu r0 kmin kmin kmax in
  exists xs yf yg yh, transform f = Done (xs, map Some yf) /\ transform g = Done (xs, map Some yg)
    /\ transform (fun k => a * f k + b * g k)%R = Done (xs, map Some yh)
    /\ forall j, j < N -> nth j yh 0%R = (a * nth j yf 0 + b * nth j yg 0)%R.
Proof.
  intros mql f g a b ox oy N l nu r0 kmin kmax H Hz Lx Ly P1 Hr He Hm transform.
  set (w := fun i => match fft_window kmin kmin kmax N (grid kmin (kmax / kmin) N i) with Done w => w | _ => 0%R end).
  set (m := fun i => match mql (2 * PI * INR i / ln (kmax / kmin))%R (select_q l nu) l (kmin * r0)%R with Done w => w | _ => RtoC 0 end).
  assert (T : forall h, transform h = Done (map Some (map (grid r0 (kmax / kmin) N) (seq 0 N)),
     map Some (map (bessel_sum h w m (select_q l nu + nu) nu r0 kmin (kmax / kmin) N) (seq 0 N)))).
  { intros h. unfold transform. apply (twofast_ok {| x_spline := h; x_mql := mql |} ox oy N l nu r0 kmin kmin kmax w m H Hz Lx Ly).
    - intros i Hi. unfold w. destruct (window_ok kmin kmax N i P1 Hi Hr (He i Hi)) as (v & -> & _); [|reflexivity]. apply He. lia.
    - intros i Hi. cbn [x_mql]. unfold m.
      destruct (Hm (2 * PI * INR i / ln (kmax / kmin))%R (kmin * r0)%R) as [v ->]. reflexivity. }
  rewrite !T. do 4 eexists. split; [reflexivity|]. split; [reflexivity|]. split; [reflexivity|].
  intros j Hj. rewrite !nth_mapseq by exact Hj. apply bessel_sum_lin. reflexivity.
Qed.
Print Assumptions C66_linear.

(** ** C65: the two builds perform the same complex operations *)
Theorem C65_twofast : forall (w L : R) (z m : C), L <> 0%R ->
  cpp_conj_scale w z L = Cdiv (Cmult (RtoC w) (Cconj z)) (RtoC L) /\ cpp_mult z m = Cmult z m.
Proof.
  intros w L [x y] [u v] HL. split; [|reflexivity].
  unfold cpp_conj_scale, Cdiv, Cmult, Cinv, Cconj, RtoC. cbn [fst snd]. f_equal; field; nra.
Qed.
Theorem C65_twobessel_refuted : exists z v : C, cpp_scale_conj z v <> c_scale_conj z v.
Proof.
  exists (1, 1)%R, (1, 1)%R. unfold cpp_scale_conj, c_scale_conj, Cconj, Cmult. cbn [fst snd]. intros E. injection E. lra.
Qed.
Print Assumptions C65_twofast.
Print Assumptions C65_twobessel_refuted.

(** ** C67: the unit of length does not matter *)
Lemma rle_scale : forall c a b, (0 < c)%R -> rle (c * a) (c * b) = rle a b.
Proof. intros c a b H. unfold rle. destruct (Rle_dec (c * a) (c * b)), (Rle_dec a b); try reflexivity; exfalso; nra. Qed.
Lemma rlt_scale : forall c a b, (0 < c)%R -> rlt (c * a) (c * b) = rlt a b.
Proof. intros c a b H. unfold rlt. destruct (Rlt_dec (c * a) (c * b)), (Rlt_dec a b); try reflexivity; exfalso; nra. Qed.
Lemma ratio_scale : forall c a b, (0 < c)%R -> (c * a / (c * b) = a / b)%R.
Proof. intros c a b H. unfold Rdiv. rewrite Rinv_mult. field_simplify_eq; [ring|lra] || (replace (c * a * (/ c * / b))%R with ((c * / c) * (a * / b))%R by ring; rewrite Rinv_r by lra; ring). Qed.
Lemma window_scale : forall c v a b l r, (0 < c)%R -> twofast_window (c * v) (c * a) (c * b) (c * l) (c * r) = twofast_window v a b l r.
Proof.
  intros c v a b l r H. unfold twofast_window. rewrite !rle_scale, !rlt_scale by exact H.
  replace ((c * v - c * a) / (c * l - c * a))%R with ((v - a) / (l - a))%R by (rewrite <- !Rmult_minus_distr_l; symmetry; apply ratio_scale; exact H).
  replace ((c * b - c * v) / (c * b - c * r))%R with ((b - v) / (b - r))%R by (rewrite <- !Rmult_minus_distr_l; symmetry; apply ratio_scale; exact H).
  reflexivity.
Qed.
(** Wavenumbers in another unit ([c] times the numbers), the same spectrum as a function of the physical wavenumber, separations in the
    inverse unit: the values are those of a spectrum divided by the new unit of volume. *)
Theorem C67_units : forall mql P c ox oy N l nu r0 kmin kmax,
  2 <= N -> (Z.of_nat N < 2 ^ 64)%Z -> List.length ox = N -> List.length oy = N ->
  (0 < c)%R -> (0 < kmin)%R -> (92 / 100 <= INR (N - 1) / INR N * ln (kmax / kmin))%R ->
  (forall i, i < N -> (INR i / INR N * ln (kmax / kmin) <> 46 / 100)%R) ->
  (forall t al, exists v, mql t (select_q l nu) l al = Done v) ->
  exists xs ys xs' ys',
    twofast_1bessel {| x_spline := P; x_mql := mql |} ox oy N l nu r0 kmin kmin kmax = Done (map Some xs, map Some ys)
    /\ twofast_1bessel {| x_spline := fun k => P (k / c)%R; x_mql := mql |} ox oy N l nu (r0 / c) (c * kmin) (c * kmin) (c * kmax)
       = Done (map Some xs', map Some ys')
    /\ forall j, j < N -> (nth j xs' 0 = nth j xs 0 / c /\ nth j ys' 0 = c ^ 3 * nth j ys 0)%R.
Proof.
  intros mql P c ox oy N l nu r0 kmin kmax H Hz Lx Ly Hc P1 Hr He Hm.
  set (w := fun i => match fft_window kmin kmin kmax N (grid kmin (kmax / kmin) N i) with Done w => w | _ => 0%R end).
  set (m := fun i => match mql (2 * PI * INR i / ln (kmax / kmin))%R (select_q l nu) l (kmin * r0)%R with Done w => w | _ => RtoC 0 end).
  assert (W : forall i, i < N -> fft_window kmin kmin kmax N (grid kmin (kmax / kmin) N i) = Done (w i)).
  { intros i Hi. unfold w. destruct (window_ok kmin kmax N i P1 Hi Hr (He i Hi)) as (v & -> & _); [|reflexivity]. apply He. lia. }
  assert (Gs : forall x i, grid (c * x) (kmax / kmin) N i = (c * grid x (kmax / kmin) N i)%R) by (intros; unfold grid; ring).
  rewrite (twofast_ok {| x_spline := P; x_mql := mql |} ox oy N l nu r0 kmin kmin kmax w m H Hz Lx Ly W).
  2:{ intros i Hi. cbn [x_mql]. unfold m. destruct (Hm (2 * PI * INR i / ln (kmax / kmin))%R (kmin * r0)%R) as [v ->]. reflexivity. }
  rewrite (twofast_ok {| x_spline := fun k => P (k / c)%R; x_mql := mql |} ox oy N l nu (r0 / c) (c * kmin) (c * kmin) (c * kmax) w m H Hz Lx Ly).
  - do 4 eexists. split; [reflexivity|]. split; [reflexivity|]. cbn [x_spline]. rewrite !ratio_scale by exact Hc.
    intros j Hj. rewrite !nth_mapseq by exact Hj. split; [unfold grid, Rdiv; ring|].
    unfold bessel_sum.
    assert (S : forall k, spectral (fun k => P (k / c)%R) w (select_q l nu + nu) (c * kmin) (kmax / kmin) N k
                        = spectral P w (select_q l nu + nu) kmin (kmax / kmin) N k).
    { intros k. unfold spectral.
      rewrite (map_ext _ (biased P w (select_q l nu + nu) kmin (kmax / kmin) N)); [reflexivity|].
      intros i. unfold biased. rewrite Gs. replace (c * grid kmin (kmax / kmin) N i / c)%R with (grid kmin (kmax / kmin) N i) by (field; lra).
      reflexivity. }
    rewrite (map_ext _ (fun k => Cmult (spectral P w (select_q l nu + nu) kmin (kmax / kmin) N k) (m k))) by (intros k; rewrite S; reflexivity).
    replace (r0 / c * (c * kmin))%R with (r0 * kmin)%R by (field; lra). unfold Rdiv. ring.
  - intros i Hi. rewrite ratio_scale by exact Hc. rewrite <- W by exact Hi. unfold fft_window. rewrite !ratio_scale by exact Hc. rewrite !Gs.
    rewrite <- (window_scale c (grid kmin (kmax / kmin) N i)) by exact Hc. f_equal; ring.
  - intros i Hi. cbn [x_mql]. rewrite ratio_scale by exact Hc. replace (c * kmin * (r0 / c))%R with (kmin * r0)%R by (field; lra). unfold m.
    destruct (Hm (2 * PI * INR i / ln (kmax / kmin))%R (kmin * r0)%R) as [v ->]. reflexivity.
Qed.
Print Assumptions C67_units.

(** ** C68: the transform is the FFTlog sum of arXiv:1709.02401 *)
(** Samples k_m = kmin e^(m G / N) of the spectrum times k^(3 - Q) and the window, their Fourier coefficients phi_n, and the sum over
    frequencies of phi_n M(t_n), as a function of the sample number of r_j = r0 e^(j G / N). *)
Theorem C68_twofast_formula : forall X ox oy N l nu r0 kmin kmax W M,
  2 <= N -> (Z.of_nat N < 2 ^ 64)%Z -> List.length ox = N -> List.length oy = N -> (0 < kmin)%R -> (kmin < kmax)%R ->
  let G := ln (kmax / kmin) in let q := select_q l nu in
  let k i := (kmin * exp (INR i / INR N * G))%R in
  (forall i, i < N -> twofast_window (k i) kmin (k (N - 1)) (kmin * exp (46 / 100)) (k (N - 1) * exp (- 46 / 100)) = Done (W i)) ->
  (forall n, n <= N / 2 -> x_mql X (2 * PI * INR n / G) q l (kmin * r0) = Done (M n)) ->
  let phi n := csum N (fun m => Cmult (RtoC (exp ((3 - (q + nu)) * INR m / INR N * G) * x_spline X (k m) * W m)) (cis (- (2 * PI * INR m * INR n / INR N)))) in
  exists xs ys, twofast_1bessel X ox oy N l nu r0 kmin kmin kmax = Done (map Some xs, map Some ys)
    /\ forall j, j < N -> nth j xs 0%R = (r0 * exp (INR j / INR N * G))%R
    /\ nth j ys 0%R = (kmin ^ 3 / (PI * Rpower (r0 * kmin) nu * G) * exp (- ((q + nu) * INR j / INR N * G))
         * (G / (2 * PI * INR N)) * rsum (N / 2 + 1) (fun n => (if (n =? 0)%nat then 1 else if (2 * n =? N)%nat then 1 else 2)
             * W (N / 2 - 1 + n)%nat * fst (Cmult (Cmult (Cconj (phi n)) (M n)) (cis (2 * PI * INR j * INR n / INR N)))))%R.
Proof.
  intros X ox oy N l nu r0 kmin kmax W M H Hz Lx Ly P1 P2 G q k HW HM phi.
  assert (Kg : forall i, grid kmin (kmax / kmin) N i = k i) by (intros i; reflexivity).
  rewrite (twofast_ok X ox oy N l nu r0 kmin kmin kmax W M H Hz Lx Ly).
  - eexists. eexists. split; [reflexivity|]. intros j Hj. rewrite !nth_mapseq by exact Hj. split; [reflexivity|].
    unfold bessel_sum. fold q.
    assert (Gp : (0 < G)%R).
    { unfold G. rewrite <- ln_1. apply ln_increasing; [lra|]. apply (Rmult_lt_reg_r kmin); [exact P1|]. unfold Rdiv. rewrite Rmult_assoc, Rinv_l by lra. lra. }
    assert (Np : (0 < INR N)%R) by (apply lt_0_INR; lia). pose proof PI_RGT_0.
    assert (E : (c2r N (map (fun k0 => Cmult (spectral (x_spline X) W (q + nu) kmin (kmax / kmin) N k0) (M k0)) (seq 0 (N / 2 + 1))) j
      = G / (2 * PI * INR N) * rsum (N / 2 + 1) (fun n => (if (n =? 0)%nat then 1 else if (2 * n =? N)%nat then 1 else 2)
             * W (N / 2 - 1 + n)%nat * fst (Cmult (Cmult (Cconj (phi n)) (M n)) (cis (2 * PI * INR j * INR n / INR N)))))%R).
    { rewrite <- (Rplus_0_r (_ * rsum _ _)), <- (Rmult_0_l (rsum (N / 2 + 1) (fun _ => 0%R))). unfold c2r. apply rsum_lin. intros n Hn.
      rewrite nth_mapseq by exact Hn.
      assert (Wt : c2r_weight N n = (if (n =? 0)%nat then 1 else if (2 * n =? N)%nat then 1 else 2)%R).
      { unfold c2r_weight. destruct (Nat.eqb_spec n 0); [reflexivity|]. destruct (Nat.eqb_spec (2 * n) N) as [E|E].
        - assert (Nat.even N = true) as -> by (rewrite <- E; rewrite Nat.even_mul; reflexivity).
          destruct (Nat.eqb_spec n (N / 2)) as [|Ne]; [reflexivity|]. exfalso. apply Ne. rewrite <- E, (Nat.mul_comm 2), Nat.div_mul by lia. reflexivity.
        - destruct (Nat.even N) eqn:Ev; [|reflexivity]. destruct (Nat.eqb_spec n (N / 2)) as [->|]; [|reflexivity]. exfalso. apply E.
          apply Nat.even_spec in Ev. destruct Ev as [h ->]. rewrite (Nat.mul_comm 2 h), Nat.div_mul by lia. lia. }
      rewrite Wt.
      assert (Sp : spectral (x_spline X) W (q + nu) kmin (kmax / kmin) N n
                 = Cmult (RtoC (G / (2 * PI * INR N) * W (N / 2 - 1 + n)%nat)) (Cconj (phi n))).
      { unfold spectral. fold G. replace (N / 2 + 1 - 2 + n) with (N / 2 - 1 + n) by lia.
        assert (Ph : r2c (map (biased (x_spline X) W (q + nu) kmin (kmax / kmin) N) (seq 0 N)) n = phi n).
        { unfold r2c, phi. rewrite map_length, seq_length. unfold csum. f_equal. apply map_ext_in. intros m Hm. apply in_seq in Hm.
          rewrite nth_mapseq by lia. unfold biased. rewrite Kg. reflexivity. }
        rewrite Ph. unfold Cdiv. rewrite <- RtoC_inv by (apply Rgt_not_eq; apply Rdiv_lt_0_compat; [apply Rmult_lt_0_compat; lra|exact Gp]).
        replace (/ (2 * PI * INR N / G))%R with (G / (2 * PI * INR N))%R by (field; lra).
        rewrite RtoC_mult. ring. }
      rewrite Sp. set (F := Cconj (phi n)). clearbody F. set (g0 := (G / (2 * PI * INR N))%R).
      generalize (cis (2 * PI * INR j * INR n / INR N)). intros [e1 e2]. destruct F as [a b]. destruct (M n) as [c d].
      unfold Cmult, RtoC. cbn [fst snd]. ring. }
    rewrite E. unfold Rpower. fold G. unfold Rdiv.
    replace (- ((q + nu) * INR j * / INR N) * G)%R with (- ((q + nu) * INR j * / INR N * G))%R by ring. rewrite !Rinv_mult. ring.
  - intros i Hi. rewrite (Kg i). rewrite <- HW by exact Hi. unfold fft_window. cbv zeta. rewrite (Kg (N - 1)). f_equal; [ring|].
    replace (- (46 / 100))%R with (- 46 / 100)%R by field. ring.
  - exact HM.
Qed.
Print Assumptions C68_twofast_formula.

(** *** C68: the exponent the transform is biased with

    For every order [l] of the Bessel function and every power [nu] for which an
    exponent exists at all, the one that is chosen lies strictly inside the strip
    [-l < q < 2] in which the integral over x of x^(q-1) j_l(x) converges, and
    the biased spectrum decays at both ends of the table
    ([-1/10000 < q + nu < 39/10], the slopes the power spectrum is assumed to
    have at small and large wavenumbers). *)
Theorem C68_bias_exponent : forall l nu : R,
  (-2 < l)%R -> (-2 < nu)%R -> (nu < 39 / 10 + l)%R ->
  (- l < select_q l nu < 2 /\ - (1 / 10000) < select_q l nu + nu < 39 / 10)%R.
Proof.
  intros l nu Hl Hn Hs. unfold select_q. cbv zeta.
  assert (rlt_t : forall a b : R, rlt a b = true -> (a < b)%R).
  { intros a b H. unfold rlt in H. destruct (Rlt_dec a b); [assumption|discriminate]. }
  unfold Rmax, Rmin.
  destruct (Rle_dec (9999 / 10000 - 1 - nu) (- l)) as [A|A];
  destruct (Rle_dec (9 / 10 + 3 - nu) 2) as [B|B];
  match goal with |- context [if ?c then _ else _] => destruct c eqn:E end;
  try (apply andb_prop in E; destruct E as [E1 E2]; apply rlt_t in E1; apply rlt_t in E2);
  lra.
Qed.
(** The four tables with j_4 and the largest power used by the code. *)
Example C68_bias_exponent_case : (- 4 < select_q 4 4 < 2)%R.
Proof. destruct (C68_bias_exponent 4 4); lra. Qed.
Print Assumptions C68_bias_exponent.
