(** * Flat-sky lensing: the integrals behind the multipoles

    What the projections of the flat-sky lensing terms on the Legendre polynomials are, in
    terms of the tables the multipoles are computed from. *)
From Coq Require Import Reals Lra Lia Arith ZArith.
From Coquelicot Require Import Coquelicot.
From Coq Require Import List.
From Verif Require Import CExpr Integrals Legendre Fft Tables Props_Values Sonine.
Open Scope R_scope.

(** ** Even and odd functions *)
Lemma mirror : forall (F : R -> R), ex_RInt F 0 1 ->
  ex_RInt (fun m => F (- m)) (-1) 0 /\ RInt (fun m => F (- m)) (-1) 0 = RInt F 0 1.
Proof.
  intros F X.
  assert (H : is_RInt (fun m => F (- m)) (-1) 0 (RInt F 0 1)).
  { apply (is_RInt_ext (fun m => opp (opp (F (- m))))).
    - intros m _. apply opp_opp.
    - rewrite <- (opp_opp (RInt F 0 1)). apply (is_RInt_opp (V := R_CompleteNormedModule)).
      apply (is_RInt_comp_opp (V := R_CompleteNormedModule)). replace (- -1) with 1 by ring. rewrite Ropp_0.
      apply (is_RInt_swap (V := R_CompleteNormedModule)), (RInt_correct (V := R_CompleteNormedModule)), X. }
  split; [exists (RInt F 0 1); exact H|apply (is_RInt_unique (V := R_CompleteNormedModule)); exact H].
Qed.
Lemma even_integral : forall F : R -> R, (forall m, F (- m) = F m) -> ex_RInt F 0 1 ->
  ex_RInt F (-1) 1 /\ RInt F (-1) 1 = 2 * RInt F 0 1.
Proof.
  intros F E X. destruct (mirror F X) as [Y I].
  assert (Y' : ex_RInt F (-1) 0) by (apply (ex_RInt_ext (fun m => F (- m))); [intros m _; apply E|exact Y]).
  split; [apply (ex_RInt_Chasles (V := R_NormedModule) F (-1) 0 1 Y' X)|].
  pose proof (RInt_Chasles (V := R_CompleteNormedModule) F (-1) 0 1 Y' X) as C. unfold plus in C. cbn in C.
  rewrite (RInt_ext (fun m => F (- m)) F) in I by (intros m _; apply E).
  etransitivity; [symmetry; exact C|]. change (RInt F (-1) 0 + RInt F 0 1 = 2 * RInt F 0 1). rewrite I. ring.
Qed.
Lemma odd_integral : forall F : R -> R, (forall m, F (- m) = - F m) -> ex_RInt F 0 1 ->
  ex_RInt F (-1) 1 /\ RInt F (-1) 1 = 0.
Proof.
  intros F E X. destruct (mirror F X) as [Y I].
  assert (Y' : ex_RInt F (-1) 0).
  { apply (ex_RInt_ext (fun m => scal (-1) (F (- m)))).
    - intros m _. rewrite E. unfold scal. cbn. unfold mult. cbn. asR. ring.
    - apply (ex_RInt_scal (V := R_CompleteNormedModule)). exact Y. }
  split; [apply (ex_RInt_Chasles (V := R_NormedModule) F (-1) 0 1 Y' X)|].
  pose proof (RInt_Chasles (V := R_CompleteNormedModule) F (-1) 0 1 Y' X) as C. unfold plus in C. cbn in C.
  etransitivity; [symmetry; exact C|].
  rewrite (RInt_ext (fun m => F (- m)) (fun m => opp (F m))) in I by (intros m _; apply E).
  pose proof (eq_trans (eq_sym (RInt_opp (V := R_CompleteNormedModule) F (-1) 0 Y')) I) as J. unfold opp in J. cbn in J.
  change (- RInt F (-1) 0 = RInt F 0 1) in J. change (RInt F (-1) 0 + RInt F 0 1 = 0). lra.
Qed.
Lemma legendre_parity : forall l m, legendre l (- m) = (-1) ^ l * legendre l m.
Proof.
  intros l m. revert l. apply two_step; [cbn; ring..|]. intros n A B. rewrite !legendre_SS, A, B. cbn [pow]. unfold Rdiv. ring.
Qed.

Section Spectrum.
Variables (P : R -> R) (a b : R).
Hypotheses (Pa : 0 < a) (Pab : a <= b) (Pc : forall k, a <= k <= b -> continuous P k).
#[local] Notation T := (flat_integral P a b).

Lemma flat_cont : forall r, continuous T r.
Proof. intros r. apply (expands_cont _ _ r (flat_expands P a b Pab Pc)). Qed.
Lemma around_cont : forall s m, continuous (fun m => T (s * sqrt (1 - m * m))) m.
Proof.
  intros s m. apply (continuous_comp (fun m => s * sqrt (1 - m * m)) T); [|apply flat_cont].
  apply (continuous_mult (K := R_AbsRing) (fun _ => s)); [apply continuous_const|apply sine_cont].
Qed.

(** ** With the absolute value of the cosine *)
Lemma folded_ex : forall l s, ex_RInt (fun m => legendre l m * (Rabs m * T (s * sqrt (1 - m * m)))) 0 1.
Proof.
  intros l s. apply (ex_RInt_continuous (V := R_CompleteNormedModule)). intros m _.
  apply (continuous_mult (K := R_AbsRing)); [apply legendre_continuous|].
  apply (continuous_mult (K := R_AbsRing)); [apply continuous_Rabs|apply around_cont].
Qed.
Lemma folded_even : forall h s,
  ex_RInt (fun m => legendre (2 * h) m * (Rabs m * T (s * sqrt (1 - m * m)))) (-1) 1 /\
  RInt (fun m => legendre (2 * h) m * (Rabs m * T (s * sqrt (1 - m * m)))) (-1) 1
  = 2 * psum (fun k => power_coefficient (2 * h) k *
      (2 ^ (h - k) * INR (fact (h - k)) / (odd_factorial (h - k + 1) * PI) * wave P a b (2 * (h - k + 1)) 1 s)) (S h).
Proof.
  intros h s. destruct (even_integral (fun m => legendre (2 * h) m * (Rabs m * T (s * sqrt (1 - m * m))))) as [X E].
  - intros m. rewrite legendre_parity, Rabs_Ropp. rewrite pow_1_even. replace (- m * - m) with (m * m) by ring. ring.
  - apply folded_ex.
  - split; [exact X|]. rewrite E. f_equal.
    pose proof (psum_integral (power_coefficient (2 * h)) (fun k m => m ^ (2 * (h - k) + 1) * T (s * sqrt (1 - m * m))) 0 1 (S h)) as I.
    rewrite (psum_ext _ (fun k => power_coefficient (2 * h) k * RInt (fun m => m ^ (2 * (h - k) + 1) * T (s * sqrt (1 - m * m))) 0 1))
      by (intros k _; rewrite (sonine_flat P a b Pab Pc); reflexivity).
    apply (is_RInt_unique (V := R_CompleteNormedModule)).
    eapply is_RInt_ext; [|apply I].
    + intros m M. rewrite Rmin_left, Rmax_right in M by lra. cbv beta.
      rewrite (legendre_powers (2 * h) (S h) m) by lia. rewrite Rabs_pos_eq by lra.
      match goal with |- ?u = ?v => change (@eq R u v) end.
      transitivity (m * T (s * sqrt (1 - m * m)) * psum (fun k => power_coefficient (2 * h) k * m ^ (2 * h - 2 * k)) (S h)); [|ring].
      rewrite <- psum_scal. apply psum_ext. intros k _. replace (2 * (h - k) + 1)%nat with (S (2 * h - 2 * k)) by lia. cbn [pow]. ring.
    + intros k. apply (ex_RInt_continuous (V := R_CompleteNormedModule)). intros m _.
      apply (continuous_mult (K := R_AbsRing)); [|apply around_cont].
      apply (ex_derive_continuous (K := R_AbsRing) (V := R_NormedModule)). auto_derive. exact Logic.I.
Qed.
Lemma folded_odd : forall l s, Nat.odd l = true ->
  ex_RInt (fun m => legendre l m * (Rabs m * T (s * sqrt (1 - m * m)))) (-1) 1 /\
  RInt (fun m => legendre l m * (Rabs m * T (s * sqrt (1 - m * m)))) (-1) 1 = 0.
Proof.
  intros l s O. apply Nat.odd_spec in O. destruct O as [q ->]. apply odd_integral; [|apply folded_ex].
  intros m. rewrite legendre_parity, Rabs_Ropp. replace (2 * q + 1)%nat with (S (2 * q)) by lia. rewrite pow_1_odd. replace (- m * - m) with (m * m) by ring. ring.
Qed.

(** ** With a weight along the line of sight *)
Section Weight.
Variable w : R -> R.
Hypothesis Cw : forall x, 0 <= x <= 1 -> continuous w x.
(** Specification or proof only; nothing in the code. *)
Definition along (r : R) : R := RInt (fun x => w x * T (r * x)) 0 1.
Lemma along_expands : expands along (fun j => / PI * (pc 0 j * spectral P a b (1 + 2 * j)) * RInt (fun x => w x * x ^ (2 * j)) 0 1).
Proof.
  apply (superposition T _ w (fun x => x) 0 1 (flat_expands P a b Pab Pc)); [lra|exact Cw|intros; apply continuous_id].
Qed.
Lemma along_cont : forall s m, continuous (fun m => along (s * sqrt (1 - m * m))) m.
Proof.
  intros s m. apply (continuous_comp (fun m => s * sqrt (1 - m * m)) along); [|apply (expands_cont _ _ _ along_expands)].
  apply (continuous_mult (K := R_AbsRing) (fun _ => s)); [apply continuous_const|apply sine_cont].
Qed.
Lemma along_ex : forall l s, ex_RInt (fun m => legendre l m * along (s * sqrt (1 - m * m))) (-1) 1.
Proof.
  intros l s. apply (ex_RInt_continuous (V := R_CompleteNormedModule)). intros m _.
  apply (continuous_mult (K := R_AbsRing)); [apply legendre_continuous|apply along_cont].
Qed.
Lemma exchange : forall l s,
  RInt (fun m => legendre l m * along (s * sqrt (1 - m * m))) (-1) 1
  = RInt (fun x => w x * projected_flat P a b l (s * x)) 0 1.
Proof.
  intros l s.
  assert (F : expands (fun s => RInt (fun m => legendre l m * along (s * sqrt (1 - m * m))) (-1) 1)
    (fun j => / PI * (pc 0 j * spectral P a b (1 + 2 * j)) * RInt (fun x => w x * x ^ (2 * j)) 0 1 * against l j)).
  { eapply expands_ext; [| |apply (superposition along _ (legendre l) (fun m => sqrt (1 - m * m)) (-1) 1 along_expands)].
    - reflexivity.
    - intros j. cbv beta. apply f_equal. unfold against. apply RInt_ext. intros m M. rewrite Rmin_left, Rmax_right in M by lra.
      rewrite sine_even by lra. reflexivity.
    - lra.
    - intros m _. apply legendre_continuous.
    - intros m _. apply sine_cont. }
  assert (G : expands (fun s => RInt (fun x => w x * projected_flat P a b l (s * x)) 0 1)
    (fun j => / PI * (pc 0 j * spectral P a b (1 + 2 * j)) * against l j * RInt (fun x => w x * x ^ (2 * j)) 0 1)).
  { apply (superposition (projected_flat P a b l) _ w (fun x => x) 0 1 (projected_flat_expands P a b Pab Pc l)); [lra|exact Cw|intros; apply continuous_id]. }
  pose proof (expands_shift _ _ _ _ 0 F G) as E. cbv beta in E. rewrite E; [rewrite pow_O; apply Rmult_1_l|intros; lia|].
  intros j. cbn [Nat.add]. ring.
Qed.
End Weight.

(** ** The tables *)
Lemma len_table : forall l r, 0 < r ->
  2 * PI * PI * ((if Nat.ltb 0 l then r else 1) * tabulated P Integer 1 (Z.of_nat l) a b r)
  = RInt (fun k => k * P k * spherical_bessel l (k * r)) a b.
Proof.
  intros l r R0. pose proof PI_RGT_0 as Pp.
  assert (I : integral P Integer 1 (Z.of_nat l) a b r = / r * RInt (fun k => k * P k * spherical_bessel l (k * r)) a b / (2 * PI ^ 2)).
  { unfold integral. f_equal. cbn [bessel order]. rewrite Nat2Z.id.
    transitivity (RInt (fun k => scal (/ r) (k * P k * spherical_bessel l (k * r))) a b).
    - apply RInt_ext. intros k K. rewrite Rmin_left, Rmax_right in K by exact Pab. unfold scal. cbn -[spherical_bessel pow]. unfold mult. cbn -[spherical_bessel pow].
      assert (0 < k * r) by (apply Rmult_lt_0_compat; lra). rewrite Rpower_1 by assumption. asR. field. split; lra.
    - apply (RInt_scal (V := R_CompleteNormedModule)). apply (ex_RInt_continuous (V := R_CompleteNormedModule)). intros k K.
      rewrite Rmin_left, Rmax_right in K by exact Pab.
      apply (continuous_mult (K := R_AbsRing) (fun k => k * P k)).
      + apply (continuous_mult (K := R_AbsRing) (fun k => k)); [apply continuous_id|apply Pc; exact K].
      + apply (continuous_comp (fun k => k * r) (spherical_bessel l)).
        * apply (ex_derive_continuous (K := R_AbsRing) (V := R_NormedModule)). auto_derive. exact Logic.I.
        * unfold spherical_bessel. apply (continuous_mult (K := R_AbsRing) (fun x => x ^ l / (2 ^ (l + 1) * INR (fact l)))).
          -- apply (ex_derive_continuous (K := R_AbsRing) (V := R_NormedModule)). auto_derive. exact Logic.I.
          -- apply (expands_cont _ _ _ (poisson_expands (2 * l + 1))). }
  unfold tabulated. rewrite I. cbn [order]. destruct l as [|l].
  - cbn [Z.of_nat Z.leb Z.compare Nat.ltb Nat.leb]. replace (1 - 0) with 1 by ring. rewrite Rpower_1 by exact R0. asR. field. split; lra.
  - cbn [Nat.ltb Nat.leb]. destruct (Z.leb_spec (Z.of_nat (S l)) 1) as [H|H].
    + replace (Z.of_nat (S l)) with 1%Z by lia. replace (1 - 1) with 0 by ring. rewrite Rpower_O by exact R0. asR. field. split; lra.
    + asR. field. split; lra.
Qed.
Lemma half_table : forall m r, 0 < r ->
  2 * PI * PI * tabulated P HalfInteger (2 * Z.of_nat m + 3) (2 * Z.of_nat m + 1) a b r
  = sqrt (PI / 2) / (odd_factorial (m + 1) * PI) * wave P a b (2 * (m + 1)) 1 r.
Proof.
  intros m r R0. pose proof PI_RGT_0 as Pp. unfold tabulated. rewrite (proj2 (Z.leb_le _ _)) by lia. cbn [order].
  replace (IZR (2 * Z.of_nat m + 3) / 2 - IZR (2 * Z.of_nat m + 1) / 2) with 1 by (rewrite !plus_IZR; lra). rewrite Rpower_1 by exact R0.
  assert (O : odd_factorial (m + 1) <> 0).
  { unfold odd_factorial. apply Rmult_integral_contrapositive_currified; [apply INR_fact_neq_0|apply Rinv_neq_0_compat].
    apply Rmult_integral_contrapositive_currified; [apply pow_nonzero; lra|apply INR_fact_neq_0]. }
  assert (I : integral P HalfInteger (2 * Z.of_nat m + 3) (2 * Z.of_nat m + 1) a b r
    = / r * (sqrt (PI / 2) / (odd_factorial (m + 1) * PI)) * wave P a b (2 * (m + 1)) 1 r / (2 * PI ^ 2)).
  { unfold integral. f_equal. cbn [bessel order]. replace (Z.to_nat ((2 * Z.of_nat m + 1 + 1) / 2)) with (m + 1)%nat.
    2:{ replace (2 * Z.of_nat m + 1 + 1)%Z with ((Z.of_nat m + 1) * 2)%Z by ring. rewrite Z.div_mul by lia. lia. }
    transitivity (RInt (fun k => scal (/ r * (sqrt (PI / 2) / (odd_factorial (m + 1) * PI))) (k ^ 1 * P k * poisson (2 * (m + 1)) (k * r))) a b).
    - apply RInt_ext. intros k K. rewrite Rmin_left, Rmax_right in K by exact Pab.
      assert (X : 0 < k * r) by (apply Rmult_lt_0_compat; lra). set (x := k * r) in *.
      assert (Sx : sqrt (PI / (2 * x)) = sqrt (PI / 2) / sqrt x).
      { rewrite <- sqrt_div_alt by lra. f_equal. field. lra. }
      assert (Px : Rpower x (IZR (2 * Z.of_nat m + 3) / 2) = x ^ (m + 1) * sqrt x).
      { replace (IZR (2 * Z.of_nat m + 3) / 2) with (INR (m + 1) + / 2) by (rewrite !plus_IZR, mult_IZR, plus_INR, <- INR_IZR_INZ; cbn; lra).
        rewrite Rpower_plus, Rpower_pow, Rpower_sqrt by exact X. reflexivity. }
      rewrite Sx, Px. unfold scal, cylindrical_bessel. cbn -[poisson pow odd_factorial Nat.mul Nat.add]. unfold mult. cbn -[poisson pow odd_factorial Nat.mul Nat.add].
      assert (Q : sqrt x * sqrt x = x) by (apply sqrt_sqrt; lra). pose proof (sqrt_lt_R0 x X) as Q0. pose proof (pow_nonzero x (m + 1) ltac:(lra)) as Q1.
      rewrite pow_1. asR.
      transitivity (k ^ 2 * P k * sqrt (PI / 2) / (odd_factorial (m + 1) * PI) * poisson (2 * (m + 1)) x / (sqrt x * sqrt x)).
      { field. repeat split; lra. }
      rewrite Q. unfold x at 2. field. repeat split; lra.
    - apply (RInt_scal (V := R_CompleteNormedModule)). apply (wave_ex P a b Pab Pc). }
  rewrite I. asR. field. repeat split; lra.
Qed.
End Spectrum.
