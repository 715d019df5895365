(** * Property C22 at the cosines from 0.999 on

    From |mu| = 0.999 on, and short of 1, the code replaces the coefficient of one table in the
    term of redshift-space distortions with lensing by the one for mu = 1
    (functions.c:2199-2391), and the integrand is not the correlation of the two fields. *)
From Coq Require Import Reals Lra Lia List ZArith Bool FunctionalExtensionality.
From Coquelicot Require Import Coquelicot.
From Coq Require Import List.
Import ListNotations.
From Verif Require Import Integrals CExpr Terms Signal TermsMeta TermsSum Additive SignalSum
  ExchangeSignal Built Weights Evolved Props_Terms Meet Props_Meet.
Open Scope R_scope.
#[local] Opaque nonintegrated single_integrated double_integrated.

(** The universe [cut] of C87 with the tables the code builds for it.  Specification or proof
    only; nothing in the code. *)
Definition cut_built : env := configured cut [0; 2]%Z (pair_set rsd len) false.

Lemma gap : forall h e, 0 <= h <= 1 / 1000 -> 0 < e <= 3 / 10000 ->
  let d1 := 2 - (1 - h) / 2 in
  let d2 := 2 + (1 - h) / 2 in
  d2 * wide (1 - e) d1 (d2 / 2) + d1 * wide (1 - e) d2 (d1 / 2)
  < d2 * narrow (1 - e) d1 (d2 / 2) + d1 * narrow (1 - e) d2 (d1 / 2).
Proof.
  intros h e Hh He d1 d2.
  assert (A : forall n u, 0 <= u <= 1 / 1000 -> 0 <= u ^ n <= 1).
  { intros n u Hu. split; [apply pow_le; lra|].
    rewrite <- (pow1 n). apply pow_incr. lra. }
  assert (B : forall i j, (1 <= i + j)%nat -> 0 <= h ^ i * e ^ j <= 1 / 1000).
  { intros i j H. pose proof (A i h Hh). pose proof (A j e ltac:(lra)).
    split; [apply Rmult_le_pos; lra|].
    destruct i as [|i].
    - destruct j as [|j]; [lia|]. cbn [pow]. pose proof (A j e ltac:(lra)). nra.
    - cbn [pow]. pose proof (A i h Hh).
      assert (0 <= h ^ i * e ^ j <= 1) by (split; [apply Rmult_le_pos; lra|nra]). nra. }
  pose proof (B 0%nat 1%nat ltac:(lia)).
  pose proof (B 0%nat 2%nat ltac:(lia)).
  pose proof (B 0%nat 3%nat ltac:(lia)).
  pose proof (B 1%nat 0%nat ltac:(lia)).
  pose proof (B 1%nat 1%nat ltac:(lia)).
  pose proof (B 1%nat 2%nat ltac:(lia)).
  pose proof (B 1%nat 3%nat ltac:(lia)).
  pose proof (B 2%nat 0%nat ltac:(lia)).
  pose proof (B 2%nat 1%nat ltac:(lia)).
  pose proof (B 2%nat 2%nat ltac:(lia)).
  pose proof (B 2%nat 3%nat ltac:(lia)).
  pose proof (B 3%nat 0%nat ltac:(lia)).
  pose proof (B 3%nat 1%nat ltac:(lia)).
  pose proof (B 3%nat 2%nat ltac:(lia)).
  pose proof (B 3%nat 3%nat ltac:(lia)).
  pose proof (B 4%nat 0%nat ltac:(lia)).
  pose proof (B 4%nat 1%nat ltac:(lia)).
  pose proof (B 4%nat 2%nat ltac:(lia)).
  pose proof (B 4%nat 3%nat ltac:(lia)).
  pose proof (B 5%nat 0%nat ltac:(lia)).
  pose proof (B 5%nat 1%nat ltac:(lia)).
  pose proof (B 5%nat 2%nat ltac:(lia)).
  pose proof (B 5%nat 3%nat ltac:(lia)).
  pose proof (B 6%nat 0%nat ltac:(lia)).
  pose proof (B 6%nat 1%nat ltac:(lia)).
  pose proof (B 6%nat 2%nat ltac:(lia)).
  pose proof (B 6%nat 3%nat ltac:(lia)).
  clear A B.
  assert (Q : 0 < 285831/256 + (275259/512) * (h ^ 0 * e ^ 1) + (14085/256) * (h ^ 0 * e ^ 2) + (3825/256) * (h ^ 0 * e ^ 3) + (-57349/128) * (h ^ 1 * e ^ 0) + (79455/256) * (h ^ 1 * e ^ 1) + (-1791/128) * (h ^ 1 * e ^ 2) + (285/128) * (h ^ 1 * e ^ 3) + (44505/256) * (h ^ 2 * e ^ 0) + (-72731/512) * (h ^ 2 * e ^ 1) + (1723/256) * (h ^ 2 * e ^ 2) + (-337/256) * (h ^ 2 * e ^ 3) + (3229/64) * (h ^ 3 * e ^ 0) + (-1767/128) * (h ^ 3 * e ^ 1) + (39/64) * (h ^ 3 * e ^ 2) + (11/64) * (h ^ 3 * e ^ 3) + (-3319/256) * (h ^ 4 * e ^ 0) + (2197/512) * (h ^ 4 * e ^ 1) + (-149/256) * (h ^ 4 * e ^ 2) + (-1/256) * (h ^ 4 * e ^ 3) + (27/128) * (h ^ 5 * e ^ 0) + (-129/256) * (h ^ 5 * e ^ 1) + (33/128) * (h ^ 5 * e ^ 2) + (-3/128) * (h ^ 5 * e ^ 3) + (-9/256) * (h ^ 6 * e ^ 0) + (43/512) * (h ^ 6 * e ^ 1) + (-11/256) * (h ^ 6 * e ^ 2) + (1/256) * (h ^ 6 * e ^ 3)) by lra.
  apply Rminus_gt_0_lt.
  match type of Q with 0 < ?q => apply Rlt_le_trans with (e * q); [apply Rmult_lt_0_compat; lra|] end.
  apply Req_le. unfold d1, d2, wide, narrow. field.
Qed.

Lemma cut_form : forall m, 99 / 100 < m < 1 ->
  let c := (7 + m * m / 2) / (8 - m * m / 2) in
  let d1 := 2 - m / 2 in
  let d2 := 2 + m / 2 in
  pair_form cut_built rsd len 2 m 1 (1 / 2) (1 / 2)
  = (coffe_H0 * 1) ^ 2 * (- 9 / 280) * (d2 * wide c d1 (d2 / 2) + d1 * wide c d2 (d1 / 2)).
Proof.
  intros m Hm c d1 d2.
  unfold pair_form.
  assert (C : Weights.cosine (near cut_built 2 m 1) (far cut_built 2 m 1) 1 = c).
  { unfold Weights.cosine, near, far, c. cbn. field. nra. }
  assert (N : near cut_built 2 m 1 = d1) by (unfold near, d1; cbn; field).
  assert (F : far cut_built 2 m 1 = d2) by (unfold far, d2; cbn; field).
  rewrite C, N, F.
  numbers. cbn [cut_built configured cut spl tab1 par_h omega_cdm omega_baryon].
  assert (D1 : 3 / 2 < d1 < 151 / 100) by (unfold d1; lra).
  assert (D2 : 249 / 100 < d2 < 5 / 2) by (unfold d2; lra).
  assert (CC : c < 1).
  { unfold c. apply (Rmult_lt_reg_r (8 - m * m / 2)); [nra|].
    unfold Rdiv at 1. rewrite Rmult_assoc, Rinv_l by nra. nra. }
  clearbody c d1 d2. clear C N F Hm m.
  assert (Q : forall a b, 0 < a -> 0 < b -> 0 < a ^ 2 + (b * (1 / 2)) ^ 2 - 2 * a * (b * (1 / 2)) * c).
  { intros a b Ha Hb.
    replace (a ^ 2 + (b * (1 / 2)) ^ 2 - 2 * a * (b * (1 / 2)) * c)
      with ((b / 2 - a) ^ 2 + a * b * (1 - c)) by field.
    assert (0 < a * b * (1 - c)) by (repeat apply Rmult_lt_0_compat; lra).
    pose proof (pow2_ge_0 (b / 2 - a)). lra. }
  assert (S4 : forall q, 0 < q -> sqrt q ^ 4 = q ^ 2).
  { intros q Hq. replace (sqrt q ^ 4) with ((sqrt q * sqrt q) ^ 2) by ring.
    rewrite sqrt_sqrt by lra. reflexivity. }
  pose proof (Q d1 d2 ltac:(lra) ltac:(lra)) as Q1. pose proof (Q d2 d1 ltac:(lra) ltac:(lra)) as Q2.
  rewrite !S4 by assumption. unfold wide. generalize coffe_H0. intros H0. field. lra.
Qed.

Lemma cut_complete : complete cut_built = cut.
Proof.
  unfold complete, cut_built, configured, cut. cbn [con sw spl tab1 tab2 par_h omega_cdm omega_baryon].
  f_equal. apply functional_extensionality. intros []; reflexivity.
Qed.

(** At every such cosine the integrand differs from the correlation of the two fields. *)
Theorem C22_threshold_refuted : forall m, 999 / 1000 <= m < 1 ->
  exists E ells z s x, built E ells /\ full_sky_linear E /\ con E = pair_set rsd len /\
  0 < s < 2 * spl E bg_comoving_distance z /\ interior x /\
  value (single_integrated E z m s x) <> pair_form E rsd len z m s x x.
Proof.
  intros m Hm. exists cut_built, [0; 2]%Z, 2, 1, (1 / 2).
  assert (B : built cut_built [0; 2]%Z) by apply configured_built.
  split; [exact B|]. split; [constructor; try reflexivity; [repeat split|intros ? ? ?; reflexivity]|].
  split; [reflexivity|]. split; [cbn; lra|]. split; [split; lra|].
  rewrite (si_complete cut_built [0; 2]%Z B), cut_complete, cut_form, cut_value by lra.
  unfold Rltb. destruct (Rlt_dec m (999 / 1000)) as [X|_]; [lra|].
  set (c := (7 + m * m / 2) / (8 - m * m / 2)).
  assert (C1 : c < 1).
  { unfold c. apply (Rmult_lt_reg_r (8 - m * m / 2)); [nra|].
    unfold Rdiv at 1. rewrite Rmult_assoc, Rinv_l by nra. nra. }
  assert (C2 : 9997 / 10000 <= c).
  { unfold c. apply (Rmult_le_reg_r (8 - m * m / 2)); [nra|].
    replace ((7 + m * m / 2) / (8 - m * m / 2) * (8 - m * m / 2)) with (7 + m * m / 2) by (field; nra). nra. }
  pose proof (gap (1 - m) (1 - c) ltac:(lra) ltac:(lra)) as G. cbv zeta in G.
  replace (1 - (1 - m)) with m in G by ring. replace (1 - (1 - c)) with c in G by ring.
  pose proof H0_pos as HP.
  assert (HP2 : 0 < (coffe_H0 * 1) ^ 2) by (apply pow_lt; lra).
  intros Z. apply Rmult_eq_reg_l in Z; [lra|]. apply Rmult_integral_contrapositive_currified; lra.
Qed.
Print Assumptions C22_threshold_refuted.
