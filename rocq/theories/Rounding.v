(** * The numbers of F64 as rounded reals.

    F64 uses the standard library's SpecFloat; here its operations are related, through Flocq's
    formalisation of IEEE 754, to rounding of real numbers. *)
From Coq Require Import ZArith Reals Lia Lra Bool List.
From Flocq Require Import Core Relative IEEE754.BinarySingleNaN.
From Coq Require Import Floats.SpecFloat.
From Verif Require F64.
Import F64.
Import ListNotations.
Open Scope R_scope.

#[local] Instance prec_ok : FLX.Prec_gt_0 53 := eq_refl.
#[local] Instance emax_ok : Prec_lt_emax 53 1024 := eq_refl.
Notation b64 := (binary_float 53 1024).
(** Rounding to nearest, ties to even.
    IEEE 754 rounding to nearest even of the doubles of the code; nothing in the code itself (no lines). *)
Definition rnd (x : R) : R := round radix2 (SpecFloat.fexp 53 1024) ZnearestE x.
(** The finite double [x] is the real [r].
    IEEE 754 rounding to nearest even of the doubles of the code; nothing in the code itself (no lines). *)
Definition value (x : f64) (r : R) : Prop :=
  exists b : b64, B2SF b = x /\ BinarySingleNaN.is_finite b = true /\ B2R b = r.

Lemma nearest_same : forall s m l, round_nearest_even m l = choice_mode mode_NE s m l.
Proof. intros s m [|[]]; try reflexivity. cbn. unfold Round.cond_incr. destruct (Z.even m); reflexivity. Qed.
Lemma round_aux_same : forall s m e l,
  SpecFloat.binary_round_aux 53 1024 s m e l = BinarySingleNaN.binary_round_aux 53 1024 mode_NE s m e l.
Proof.
  intros s m e l. unfold SpecFloat.binary_round_aux, BinarySingleNaN.binary_round_aux.
  destruct (shr_fexp 53 1024 m e l) as [q k]. rewrite (nearest_same s). reflexivity.
Qed.
Lemma normalize_same : forall m e z, SpecFloat.binary_normalize 53 1024 m e z
  = B2SF (BinarySingleNaN.binary_normalize 53 1024 prec_ok emax_ok mode_NE m e z).
Proof.
  assert (R : forall s m e, SpecFloat.binary_round 53 1024 s m e = BinarySingleNaN.binary_round 53 1024 mode_NE s m e).
  { intros s m e. unfold SpecFloat.binary_round, BinarySingleNaN.binary_round, shl_align_fexp.
    destruct (shl_align _ _ _) as [q k]. apply round_aux_same. }
  intros [|p|p] e z; cbn; [reflexivity|rewrite B2SF_SF2B; apply R..].
Qed.
Lemma mul_same : forall x y : b64, fmul (B2SF x) (B2SF y) = B2SF (Bmult mode_NE x y).
Proof.
  intros [sx|sx| |sx mx ex Bx] [sy|sy| |sy my ey By]; try reflexivity. cbn. rewrite B2SF_SF2B. apply round_aux_same.
Qed.
Lemma add_same : forall x y : b64, fadd (B2SF x) (B2SF y) = B2SF (Bplus mode_NE x y).
Proof.
  intros [sx|sx| |sx mx ex Bx] [sy|sy| |sy my ey By]; try reflexivity; try (cbn; destruct (Bool.eqb _ _); reflexivity).
  apply normalize_same.
Qed.
Lemma sub_same : forall x y : b64, fsub (B2SF x) (B2SF y) = B2SF (Bminus mode_NE x y).
Proof.
  intros [sx|sx| |sx mx ex Bx] [sy|sy| |sy my ey By]; try reflexivity; try (cbn; destruct (Bool.eqb _ _); reflexivity).
  cbn. unfold Zminus. rewrite <- cond_Zopp_negb. apply normalize_same.
Qed.
Lemma div_same : forall x y : b64, fdiv (B2SF x) (B2SF y) = B2SF (Bdiv mode_NE x y).
Proof.
  intros [sx|sx| |sx mx ex Bx] [sy|sy| |sy my ey By]; try reflexivity. cbn. rewrite B2SF_SF2B.
  destruct (SFdiv_core_binary _ _ _ _ _ _) as [[mz ez] lz]. apply round_aux_same.
Qed.

(** ** The operations round the real result, unless it overflows *)
Lemma of_Z_value : forall z, Rabs (rnd (IZR z)) < bpow radix2 1024 -> value (of_Z z) (rnd (IZR z)).
Proof.
  intros z H. unfold value, of_Z. rewrite normalize_same. eexists. split; [reflexivity|].
  pose proof (binary_normalize_correct 53 1024 prec_ok emax_ok mode_NE z 0 false) as C. cbv zeta in C.
  replace (F2R {| Fnum := z; Fexp := 0 |}) with (IZR z) in C by (unfold F2R; cbn; ring).
  change (round radix2 (SpecFloat.fexp 53 1024) (round_mode mode_NE) (IZR z)) with (rnd (IZR z)) in C.
  rewrite Rlt_bool_true in C by exact H. destruct C as (C1 & C2 & _). split; assumption.
Qed.
Lemma mul_value : forall x y a b, value x a -> value y b -> Rabs (rnd (a * b)) < bpow radix2 1024 -> value (fmul x y) (rnd (a * b)).
Proof.
  intros x y a b (p & <- & Fp & <-) (q & <- & Fq & <-) H. exists (Bmult mode_NE p q). split; [symmetry; apply mul_same|].
  pose proof (Bmult_correct 53 1024 prec_ok emax_ok mode_NE p q) as C.
  change (round radix2 (SpecFloat.fexp 53 1024) (round_mode mode_NE) (B2R p * B2R q)) with (rnd (B2R p * B2R q)) in C.
  rewrite Rlt_bool_true in C by exact H. destruct C as (C1 & C2 & _). rewrite Fp, Fq in C2. split; assumption.
Qed.
Lemma add_value : forall x y a b, value x a -> value y b -> Rabs (rnd (a + b)) < bpow radix2 1024 -> value (fadd x y) (rnd (a + b)).
Proof.
  intros x y a b (p & <- & Fp & <-) (q & <- & Fq & <-) H. exists (Bplus mode_NE p q). split; [symmetry; apply add_same|].
  pose proof (Bplus_correct 53 1024 prec_ok emax_ok mode_NE p q Fp Fq) as C.
  change (round radix2 (SpecFloat.fexp 53 1024) (round_mode mode_NE) (B2R p + B2R q)) with (rnd (B2R p + B2R q)) in C.
  rewrite Rlt_bool_true in C by exact H. destruct C as (C1 & C2 & _). split; assumption.
Qed.
Lemma sub_value : forall x y a b, value x a -> value y b -> Rabs (rnd (a - b)) < bpow radix2 1024 -> value (fsub x y) (rnd (a - b)).
Proof.
  intros x y a b (p & <- & Fp & <-) (q & <- & Fq & <-) H. exists (Bminus mode_NE p q). split; [symmetry; apply sub_same|].
  pose proof (Bminus_correct 53 1024 prec_ok emax_ok mode_NE p q Fp Fq) as C.
  change (round radix2 (SpecFloat.fexp 53 1024) (round_mode mode_NE) (B2R p - B2R q)) with (rnd (B2R p - B2R q)) in C.
  rewrite Rlt_bool_true in C by exact H. destruct C as (C1 & C2 & _). split; assumption.
Qed.
Lemma div_value : forall x y a b, value x a -> value y b -> b <> 0 -> Rabs (rnd (a / b)) < bpow radix2 1024 -> value (fdiv x y) (rnd (a / b)).
Proof.
  intros x y a b (p & <- & Fp & <-) (q & <- & Fq & <-) N H. exists (Bdiv mode_NE p q). split; [symmetry; apply div_same|].
  pose proof (Bdiv_correct 53 1024 prec_ok emax_ok mode_NE p q N) as C.
  change (round radix2 (SpecFloat.fexp 53 1024) (round_mode mode_NE) (B2R p / B2R q)) with (rnd (B2R p / B2R q)) in C.
  rewrite Rlt_bool_true in C by exact H. destruct C as (C1 & C2 & _). rewrite Fp in C2. split; assumption.
Qed.
Lemma compare_value : forall x y a b, value x a -> value y b -> SFcompare x y = Some (Rcompare a b).
Proof.
  intros x y a b (p & <- & Fp & <-) (q & <- & Fq & <-). exact (Bcompare_correct 53 1024 p q Fp Fq).
Qed.
Lemma ltb_value : forall x y a b, value x a -> value y b -> fltb x y = Rlt_bool a b.
Proof.
  intros x y a b Hx Hy. unfold fltb, SFltb. rewrite (compare_value x y a b Hx Hy). reflexivity.
Qed.
Lemma eqb_value : forall x y a b, value x a -> value y b -> feqb x y = Req_bool a b.
Proof.
  intros x y a b Hx Hy. unfold feqb, SFeqb. rewrite (compare_value x y a b Hx Hy). reflexivity.
Qed.
Lemma zero_value : forall s, value (S754_zero s) 0.
Proof. intros s. exists (B754_zero s). repeat split. Qed.

(** ** Rounding *)
Lemma rnd_mono : forall x y, x <= y -> rnd x <= rnd y.
Proof. intros x y H. apply round_le; [exact (fexp_correct 53 1024 prec_ok)|apply valid_rnd_N|exact H]. Qed.
Lemma rnd_value : forall x a, value x a -> rnd a = a.
Proof.
  intros x a (b & _ & _ & <-). apply round_generic; [apply valid_rnd_N|]. apply generic_format_B2R.
Qed.
(** Whole numbers below 2^53 are doubles. *)
Lemma rnd_Z : forall z, (Z.abs z <= 2 ^ 53)%Z -> rnd (IZR z) = IZR z.
Proof.
  intros z H. apply round_generic; [apply valid_rnd_N|].
  change (SpecFloat.fexp 53 1024) with (FLT_exp (-1074) 53). apply generic_format_FLT.
  destruct (Z.eq_dec (Z.abs z) (2 ^ 53)) as [E|E].
  - destruct (Z.abs_eq_or_opp z) as [A|A].
    + exists (Float radix2 1 53); cbn; [|lia|lia]. rewrite A in E. rewrite E. unfold F2R. cbn. lra.
    + exists (Float radix2 (-1) 53); cbn; [|lia|lia]. assert (Z1 : z = (- (2 ^ 53))%Z) by lia. rewrite Z1. unfold F2R. cbn. lra.
  - exists (Float radix2 z 0); cbn; [unfold F2R; cbn; ring|lia|lia].
Qed.
Lemma Z_value : forall z, (Z.abs z <= 2 ^ 53)%Z -> value (of_Z z) (IZR z).
Proof.
  intros z H. rewrite <- (rnd_Z z H). apply of_Z_value. rewrite rnd_Z by exact H. rewrite <- abs_IZR.
  apply Rle_lt_trans with (IZR (2 ^ 53)); [apply IZR_le; exact H|]. change (IZR (2 ^ 53)) with (bpow radix2 53). apply bpow_lt. lia.
Qed.
(** The relative error of rounding a number that is not tiny. *)
Lemma rnd_error : forall x, bpow radix2 (-1022) <= Rabs x -> Rabs (rnd x - x) <= bpow radix2 (-53) * Rabs x.
Proof.
  intros x H. unfold rnd. change (SpecFloat.fexp 53 1024) with (FLT_exp (-1074) 53).
  pose proof (relative_error_N_FLT radix2 (-1074) 53 eq_refl (fun x => negb (Z.even x)) x H) as E.
  change (- (53) + 1)%Z with (-52)%Z in E.
  replace (/ 2 * bpow radix2 (-52)) with (bpow radix2 (-53)) in E; [exact E|].
  change (-52)%Z with (1 + -53)%Z. rewrite bpow_plus. change (bpow radix2 1) with 2. lra.
Qed.
