(** * The nodes of np.linspace lie between its ends *)
From Coq Require Import ZArith Reals Lia Lra Bool List.
From Flocq Require Import Core.
From Coq Require Import Floats.SpecFloat.
From Verif Require Import F64 PyParams Config Rounding.
Import ListNotations.
Open Scope R_scope.

Section Nodes.
Variables (c : Z) (m : nat).
Hypothesis Hc : (1 <= c <= 2 ^ 20)%Z.
Hypothesis Hm : (1 <= m)%nat.
Hypothesis Hm' : (Z.of_nat m <= 2 ^ 31)%Z.
Let M := IZR (Z.of_nat m).
Let C := IZR c.
Let st := rnd (C / M).

Lemma M_range : 1 <= M <= IZR (2 ^ 31).
Proof. split; apply IZR_le; lia. Qed.
Lemma C_range : 1 <= C <= IZR (2 ^ 20).
Proof. split; apply IZR_le; lia. Qed.
Lemma quotient_range : / IZR (2 ^ 31) <= C / M <= IZR (2 ^ 20).
Proof.
  pose proof M_range. pose proof C_range. assert (P : 0 < / M) by (apply Rinv_0_lt_compat; lra). split.
  - apply Rle_trans with (/ M); [apply Rinv_le; lra|]. unfold Rdiv. nra.
  - assert (/ M <= 1) by (rewrite <- Rinv_1; apply Rinv_le; lra). unfold Rdiv. nra.
Qed.
Lemma step_error : Rabs (st - C / M) <= bpow radix2 (-53) * (C / M).
Proof.
  pose proof quotient_range as [Q1 Q2]. assert (P : 0 < / IZR (2 ^ 31)) by (apply Rinv_0_lt_compat; apply IZR_lt; lia).
  pose proof (rnd_error (C / M)) as R. rewrite (Rabs_right (C / M)) in R by lra. apply R.
  apply Rle_trans with (/ IZR (2 ^ 31)); [|exact Q1]. change (IZR (2 ^ 31)) with (bpow radix2 31). rewrite <- bpow_opp. apply bpow_le. lia.
Qed.
Lemma small : bpow radix2 (-53) = / IZR (2 ^ 53).
Proof. reflexivity. Qed.
Lemma step_range : 0 < st <= IZR (2 ^ 20).
Proof.
  pose proof quotient_range as [Q1 Q2]. assert (P : 0 < / IZR (2 ^ 31)) by (apply Rinv_0_lt_compat; apply IZR_lt; lia).
  pose proof step_error as R. apply Rabs_le_inv in R. split.
  - assert (S : bpow radix2 (-53) <= / 2) by (rewrite small; apply Rinv_le; [lra|apply IZR_le; lia]). nra.
  - rewrite <- (rnd_Z (2 ^ 20)) by lia. apply rnd_mono. exact Q2.
Qed.
Lemma below : forall i, (i < m)%nat -> IZR (Z.of_nat i) * st <= C.
Proof.
  intros i H. pose proof step_error as R. apply Rabs_le_inv in R. pose proof M_range as Q. pose proof C_range as Qc.
  assert (Hi : 0 <= IZR (Z.of_nat i) <= M - 1).
  { split; [apply IZR_le; lia|]. unfold M. rewrite <- minus_IZR. apply IZR_le. lia. }
  set (I := IZR (Z.of_nat i)) in *. assert (S : st <= C / M * (1 + bpow radix2 (-53))) by lra.
  assert (P : 0 < / M) by (apply Rinv_0_lt_compat; lra). assert (PM : M * / M = 1) by (apply Rinv_r; lra).
  assert (B : / IZR (2 ^ 31) <= / M) by (apply Rinv_le; lra).
  assert (E : bpow radix2 (-53) <= / M) by (rewrite small; apply Rle_trans with (/ IZR (2 ^ 31)); [apply Rinv_le; [apply IZR_lt; lia|apply IZR_le; lia]|exact B]).
  assert (E0 : 0 < bpow radix2 (-53)) by apply bpow_gt_0. set (e := bpow radix2 (-53)) in *.
  apply Rle_trans with ((M - 1) * (C / M * (1 + e))).
  - pose proof step_range as [S0 _]. apply Rle_trans with ((M - 1) * st); [apply Rmult_le_compat_r; lra|apply Rmult_le_compat_l; lra].
  - unfold Rdiv. replace ((M - 1) * (C * / M * (1 + e))) with (C * ((M * / M - / M) * (1 + e))) by ring. rewrite PM.
    rewrite <- (Rmult_1_r C) at 2. apply Rmult_le_compat_l; [lra|]. nra.
Qed.

(** Node number i < m of the m+1 nodes from 0 to c: a number between 0 and c. *)
Lemma node : forall i, (i < m)%nat ->
  value (fadd (fmul (of_Z (Z.of_nat i)) (fdiv (of_Z c) (of_Z (Z.of_nat m)))) (S754_zero false)) (rnd (IZR (Z.of_nat i) * st))
  /\ 0 <= rnd (IZR (Z.of_nat i) * st) <= C.
Proof.
  intros i H. pose proof M_range as Q. pose proof C_range as Qc. pose proof step_range as S.
  assert (Vc : value (of_Z c) C) by (apply Z_value; lia).
  assert (Vm : value (of_Z (Z.of_nat m)) M) by (apply Z_value; lia).
  assert (Vi : value (of_Z (Z.of_nat i)) (IZR (Z.of_nat i))) by (apply Z_value; lia).
  assert (Big : IZR (2 ^ 20) < bpow radix2 1024).
  { change (IZR (2 ^ 20)) with (bpow radix2 20). apply bpow_lt. lia. }
  assert (Vs : value (fdiv (of_Z c) (of_Z (Z.of_nat m))) st).
  { apply div_value; [exact Vc|exact Vm|lra|]. fold st. rewrite Rabs_right by lra. lra. }
  pose proof (below i H) as B. assert (I0 : 0 <= IZR (Z.of_nat i)) by (apply IZR_le; lia).
  assert (P0 : 0 <= IZR (Z.of_nat i) * st) by (apply Rmult_le_pos; lra).
  assert (Rr : 0 <= rnd (IZR (Z.of_nat i) * st) <= C).
  { split.
    - replace 0 with (rnd 0) by (apply (rnd_value (S754_zero false)), zero_value). apply rnd_mono. exact P0.
    - unfold C in *. rewrite <- (rnd_Z c) by lia. apply rnd_mono. exact B. }
  assert (Vp : value (fmul (of_Z (Z.of_nat i)) (fdiv (of_Z c) (of_Z (Z.of_nat m)))) (rnd (IZR (Z.of_nat i) * st))).
  { apply mul_value; [exact Vi|exact Vs|]. rewrite Rabs_right by lra. lra. }
  split; [|exact Rr]. replace (rnd (IZR (Z.of_nat i) * st)) with (rnd (rnd (IZR (Z.of_nat i) * st) + 0)) by (rewrite Rplus_0_r; exact (rnd_value _ _ Vp)).
  apply add_value; [exact Vp|apply zero_value|]. rewrite Rplus_0_r, (rnd_value _ _ Vp). rewrite Rabs_right by lra. lra.
Qed.
Lemma step_not_zero : feqb (fdiv (of_Z c) (of_Z (Z.of_nat m))) f0 = false.
Proof.
  pose proof step_range as S. pose proof M_range as Q.
  assert (Vs : value (fdiv (of_Z c) (of_Z (Z.of_nat m))) st).
  { apply div_value; [apply Z_value; lia|apply Z_value; lia|fold M; lra|]. fold C M st. rewrite Rabs_right by lra.
    apply Rle_lt_trans with (IZR (2 ^ 20)); [lra|]. change (IZR (2 ^ 20)) with (bpow radix2 20). apply bpow_lt. lia. }
  rewrite (eqb_value _ f0 st 0 Vs (zero_value false)). apply Req_bool_false. lra.
Qed.
End Nodes.

(** All nodes of linspace(0, 15, n) pass the check of the methods that take a redshift. *)
Theorem linspace_within : forall n z, (2 <= n)%nat -> (Z.of_nat n <= 2 ^ 31)%Z -> In z (linspace f0 (of_Z 15) n) ->
  fltb z f0 = false /\ fltb (of_Z 15) z = false.
Proof.
  intros n z H1 H2 I. destruct n as [|[|k]]; [lia|lia|]. set (m := S k) in *.
  assert (D : fsub (of_Z 15) f0 = of_Z 15) by (vm_compute; reflexivity).
  unfold linspace in I. cbv zeta in I. rewrite D in I. fold m in I.
  rewrite (step_not_zero 15 m) in I by (cbn in *; lia). apply in_app_or in I.
  assert (V15 : value (of_Z 15) 15) by (apply Z_value; lia).
  destruct I as [I|[<-|[]]].
  - apply in_map_iff in I. destruct I as (i & <- & I). apply in_seq in I.
    destruct (node 15 m ltac:(lia) ltac:(unfold m; lia) ltac:(unfold m; lia) i ltac:(lia)) as (V & A).
    change f0 with (S754_zero false).
    rewrite (ltb_value _ _ _ _ V (zero_value false)), (ltb_value _ _ _ _ V15 V).
    split; apply Rlt_bool_false; lra.
  - split; vm_compute; reflexivity.
Qed.
