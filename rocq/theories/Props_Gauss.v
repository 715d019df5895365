(** * The covariance is that of a Gaussian field: C63, C64 *)
From Coq Require Import ZArith Reals List Lia Lra Bool Arith QArith Qreals FunctionalExtensionality.
From Coquelicot Require Import Coquelicot.
From Coq Require Import List.
From Verif Require Import Arrays Numeric Coupling Covariance CovLemmas Props_Cov.
Import ListNotations.
Open Scope nat_scope.

(** ** Specification *)
(** P_n: the Legendre polynomials, by their recurrence (Coupling.legendre_rec). *)
Definition Leg (n : nat) (mu : R) : R := peval (legendre n) mu.
(** Redshift-space factor of the spectrum between populations with biases b1, b2. *)
Definition kaiser (b1 b2 f mu : R) : R := ((b1 + f * mu ^ 2) * (b2 + f * mu ^ 2))%R.
(** 1 if the populations are the same. *)
Definition same (p q : Z) : R := if Z.eq_dec p q then 1%R else 0%R.
(** Bias and growth rate as the enabled contributions leave them. *)
Definition spec_bias (I : cov_in) (z : R) (p : Z) : R := if ci_den I then ci_bias I p z else 0%R.
Definition spec_growth (I : cov_in) (z : R) : R := if ci_rsd I then ci_growth I z else 0%R.
Definition spectrum_factor (I : cov_in) (z : R) (p q : Z) (mu : R) : R :=
  kaiser (spec_bias I z p) (spec_bias I z q) (spec_growth I z) mu.
(** Average over pairs of modes of the spectra of populations. *)
Definition cosmic_angular (I : cov_in) (z : R) (l1 l2 : nat) : R :=
  RInt (fun mu => Leg l1 mu * Leg l2 mu
     * (spectrum_factor I z (ci_pop1 I) (ci_pop3 I) mu * spectrum_factor I z (ci_pop2 I) (ci_pop4 I) mu
        + spectrum_factor I z (ci_pop1 I) (ci_pop4 I) mu * spectrum_factor I z (ci_pop2 I) (ci_pop3 I) mu))%R (-1) 1.
(** Spectrum of one pair times shot noise of the other. *)
Definition mixed_angular (I : cov_in) (z n1 n2 : R) (l1 l2 : nat) : R :=
  RInt (fun mu => Leg l1 mu * Leg l2 mu
     * (spectrum_factor I z (ci_pop1 I) (ci_pop3 I) mu * (same (ci_pop2 I) (ci_pop4 I) / n2)
        + spectrum_factor I z (ci_pop2 I) (ci_pop4 I) mu * (same (ci_pop1 I) (ci_pop3 I) / n1)
        + spectrum_factor I z (ci_pop1 I) (ci_pop4 I) mu * (same (ci_pop2 I) (ci_pop3 I) / n2)
        + spectrum_factor I z (ci_pop2 I) (ci_pop3 I) mu * (same (ci_pop1 I) (ci_pop4 I) / n1)))%R (-1) 1.

(** ** Multipoles of the spectrum *)
Lemma Leg_values : forall mu, Leg 0 mu = 1%R /\ Leg 2 mu = ((3 * mu ^ 2 - 1) / 2)%R
  /\ Leg 4 mu = ((35 * mu ^ 4 - 30 * mu ^ 2 + 3) / 8)%R.
Proof.
  intros mu. destruct (legendre_rec 0 mu) as (P0 & P1 & R2). destruct (legendre_rec 1 mu) as (_ & _ & R3).
  destruct (legendre_rec 2 mu) as (_ & _ & R4). unfold Leg.
  change (Z.of_nat 0) with 0%Z in R2. change (Z.of_nat 1) with 1%Z in R3. change (Z.of_nat 2) with 2%Z in R4.
  cbn [Z.add Z.mul Pos.add Pos.mul Pos.succ] in *.
  rewrite P0, P1 in R2. rewrite P1 in R3.
  assert (E2 : peval (legendre 2) mu = ((3 * mu ^ 2 - 1) / 2)%R) by lra.
  rewrite E2 in R3, R4.
  assert (E3 : peval (legendre 3) mu = ((5 * mu * ((3 * mu ^ 2 - 1) / 2) - 2 * mu) / 3)%R) by lra.
  rewrite E3 in R4. split; [exact P0|]. split; [exact E2|]. nra.
Qed.
Lemma kaiser_multipoles : forall b1 b2 f mu,
  kaiser b1 b2 f mu = (coefficient b1 b2 f 0 * Leg 0 mu + coefficient b1 b2 f 2 * Leg 2 mu + coefficient b1 b2 f 4 * Leg 4 mu)%R.
Proof.
  intros b1 b2 f mu. destruct (Leg_values mu) as (-> & -> & ->). unfold kaiser, coefficient. cbn [Z.eqb Pos.eqb]. field.
Qed.
(** The other coefficients vanish. *)
Lemma coefficient_other : forall b1 b2 f l, l <> 0%Z -> l <> 2%Z -> l <> 4%Z -> coefficient b1 b2 f l = 0%R.
Proof.
  intros b1 b2 f l H0 H2 H4. unfold coefficient.
  destruct (Z.eqb_spec l 0); [congruence|]. destruct (Z.eqb_spec l 2); [congruence|]. destruct (Z.eqb_spec l 4); [congruence|]. reflexivity.
Qed.
Lemma same_kr : forall p q, same p q = kr p q.
Proof. intros p q. unfold same, kr, kronecker. destruct (Z.eq_dec p q) as [->|N]; [rewrite Z.eqb_refl; reflexivity|].
  apply Z.eqb_neq in N. rewrite N. reflexivity. Qed.

Lemma coupling_RInt : forall n m a b, (n <= 10)%nat -> (m <= 10)%nat -> (a <= 4)%nat -> (b <= 4)%nat ->
  is_RInt (fun x => Leg n x * Leg m x * Leg a x * Leg b x)%R (-1) 1
    (coupling (Z.of_nat n) (Z.of_nat m) (Z.of_nat a) (Z.of_nat b)).
Proof. exact legendre_integral_value. Qed.
(** Linear combinations of products of Legendre polynomials. *)
Lemma RInt_combination : forall l1 l2, (l1 <= 10)%nat -> (l2 <= 10)%nat ->
  forall (t : list (R * (nat * nat))), (forall c a b, In (c, (a, b)) t -> (a <= 4 /\ b <= 4)%nat) ->
  forall (F : R -> R) V, is_RInt F (-1) 1 V ->
  is_RInt (fun mu => fold_left (fun acc (x : R * (nat * nat)) =>
             (acc + fst x * (Leg l1 mu * Leg l2 mu * Leg (fst (snd x)) mu * Leg (snd (snd x)) mu))%R) t (F mu)) (-1) 1
    (fold_left (fun acc (x : R * (nat * nat)) =>
             (acc + fst x * coupling (Z.of_nat l1) (Z.of_nat l2) (Z.of_nat (fst (snd x))) (Z.of_nat (snd (snd x))))%R) t V).
Proof.
  intros l1 l2 H1 H2. induction t as [|[c [a b]] t IH]; intros Ht F V HF; [exact HF|].
  cbn [fold_left fst snd].
  apply (IH (fun c' a' b' H => Ht c' a' b' (or_intror H))
           (fun mu => (F mu + c * (Leg l1 mu * Leg l2 mu * Leg a mu * Leg b mu))%R)).
  destruct (Ht c a b (or_introl eq_refl)) as [Ha Hb].
  apply (is_RInt_plus F (fun mu => (c * (Leg l1 mu * Leg l2 mu * Leg a mu * Leg b mu))%R)); [exact HF|].
  apply (is_RInt_scal (fun mu => (Leg l1 mu * Leg l2 mu * Leg a mu * Leg b mu)%R)).
  apply coupling_RInt; assumption.
Qed.
Lemma RInt_zero : is_RInt (fun _ => 0%R) (-1) 1 0%R.
Proof.
  evar_last; [apply (is_RInt_const (-1) 1 (0%R : R))|].
  assert (E : ((1 - -1) * 0 = 0 :> R)%R) by ring. exact E.
Qed.
Definition evens : list nat := [0; 2; 4]%nat.

Lemma cosmic_is_angular : forall I z l1 l2, (l1 <= 10)%nat -> (l2 <= 10)%nat ->
  cosmic_sum I z (Z.of_nat l1) (Z.of_nat l2) = (cosmic_angular I z l1 l2 / 4)%R.
Proof.
  intros I z l1 l2 H1 H2. unfold cosmic_sum, cosmic_angular. cbv zeta. f_equal. symmetry. apply is_RInt_unique.
  change (bias_at I) with (spec_bias I). change (growth_at I) with (spec_growth I). unfold coefficient_pair.
  set (f := spec_growth I z).
  set (b1 := spec_bias I z (ci_pop1 I)). set (b2 := spec_bias I z (ci_pop2 I)).
  set (b3 := spec_bias I z (ci_pop3 I)). set (b4 := spec_bias I z (ci_pop4 I)).
  set (t := map (fun ab : nat * nat => ((coefficient b1 b3 f (Z.of_nat (fst ab)) * coefficient b2 b4 f (Z.of_nat (snd ab))
               + sgn (Z.of_nat (snd ab)) * coefficient b1 b4 f (Z.of_nat (fst ab)) * coefficient b2 b3 f (Z.of_nat (snd ab)))%R, ab))
             (list_prod evens evens)).
  pose proof (RInt_combination l1 l2 H1 H2 t) as C.
  assert (Ht : forall c a b, In (c, (a, b)) t -> (a <= 4 /\ b <= 4)%nat).
  { intros c a b H. unfold t in H. apply in_map_iff in H. destruct H as ([a' b'] & E & H). injection E as _ -> ->.
    apply in_prod_iff in H. cbn in H. lia. }
  specialize (C Ht (fun _ => 0%R) 0%R RInt_zero).
  match type of C with is_RInt ?F0 _ _ ?V0 => match goal with |- is_RInt ?G0 _ _ ?W0 =>
    assert (EV : W0 = V0); [|rewrite EV; apply (is_RInt_ext F0); [|exact C]] end end.
  - unfold t. cbn [list_prod even_orders evens map app fold_left fst snd Z.of_nat Pos.of_succ_nat Pos.succ]. reflexivity.
  - intros mu _. unfold t. cbn [list_prod evens map app fold_left fst snd Z.of_nat Pos.of_succ_nat Pos.succ].
    unfold spectrum_factor. fold f b1 b2 b3 b4. rewrite !kaiser_multipoles.
    replace (sgn 0) with 1%R by reflexivity. replace (sgn 2) with 1%R by reflexivity. replace (sgn 4) with 1%R by reflexivity.
    match goal with |- ?a = ?b => assert (E : a = b :> R) by ring; exact E end.
Qed.

Lemma mixed_is_angular : forall I b l1 l2, (l1 <= 10)%nat -> (l2 <= 10)%nat ->
  mixed_sum I b (Z.of_nat l1) (Z.of_nat l2) = (mixed_angular I (b_z b) (b_n1 b) (b_n2 b) l1 l2 / 8)%R.
Proof.
  intros I b l1 l2 H1 H2. unfold mixed_sum, mixed_angular. cbv zeta. f_equal. symmetry. apply is_RInt_unique.
  change (bias_at I) with (spec_bias I). change (growth_at I) with (spec_growth I). unfold coefficient_pair.
  set (f := spec_growth I (b_z b)).
  set (b1 := spec_bias I (b_z b) (ci_pop1 I)). set (b2 := spec_bias I (b_z b) (ci_pop2 I)).
  set (b3 := spec_bias I (b_z b) (ci_pop3 I)). set (b4 := spec_bias I (b_z b) (ci_pop4 I)).
  set (t := map (fun a : nat => ((coefficient b1 b3 f (Z.of_nat a) * kr (ci_pop2 I) (ci_pop4 I) / b_n2 b
               + coefficient b2 b4 f (Z.of_nat a) * kr (ci_pop1 I) (ci_pop3 I) / b_n1 b
               + coefficient b1 b4 f (Z.of_nat a) * kr (ci_pop2 I) (ci_pop3 I) / b_n2 b
               + coefficient b2 b3 f (Z.of_nat a) * kr (ci_pop1 I) (ci_pop4 I) / b_n1 b)%R, (a, 0)))
             evens).
  pose proof (RInt_combination l1 l2 H1 H2 t) as C.
  assert (Ht : forall c a b, In (c, (a, b)) t -> (a <= 4 /\ b <= 4)%nat).
  { intros c a b0 H. unfold t in H. apply in_map_iff in H. destruct H as (a' & E & H). injection E as _ -> <-.
    cbn in H. lia. }
  specialize (C Ht (fun _ => 0%R) 0%R RInt_zero).
  match type of C with is_RInt ?F0 _ _ ?V0 => match goal with |- is_RInt ?G0 _ _ ?W0 =>
    assert (EV : W0 = V0); [|rewrite EV; apply (is_RInt_ext F0); [|exact C]] end end.
  - unfold t. cbn [even_orders evens map fold_left fst snd Z.of_nat Pos.of_succ_nat Pos.succ]. reflexivity.
  - intros mu _. unfold t. cbn [evens map fold_left fst snd Z.of_nat Pos.of_succ_nat Pos.succ].
    unfold spectrum_factor. fold f b1 b2 b3 b4. rewrite !kaiser_multipoles, !same_kr.
    assert (L0 : Leg 0 mu = 1%R) by apply Leg_values.
    match goal with |- ?a = ?b => assert (E : a = b :> R) by (rewrite L0; unfold Rdiv; ring); exact E end.
Qed.

Lemma even_nat : forall x, Z.even (Z.of_nat x) = Nat.even x.
Proof.
  assert (G : forall x, Z.even (Z.of_nat x) = Nat.even x /\ Z.even (Z.of_nat (S x)) = Nat.even (S x)).
  { induction x as [|x [IH1 IH2]]; [split; reflexivity|]. split; [exact IH2|].
    rewrite Nat.even_succ_succ, <- IH1. rewrite !Nat2Z.inj_succ. rewrite Z.even_succ_succ. reflexivity. }
  intros x. apply G.
Qed.

(** ** C63 *)
(** The standard integration; the spectrum of the bin as in C62.  [P z] is the real-space
    power spectrum at the redshift of the bin. *)
Theorem C63_gaussian_partial : forall X I k i m j n b l1 l2 r1 r2 pix,
  shape_ok I -> in_range I k i m j n ->
  ci_fftlog I = false -> (ci_nonlinear I = true -> ci_class I = true /\ ci_avg I = false) ->
  (forall q, e_pk2 X q = (e_pk X q ^ 2)%R) -> (forall z q, e_zpk2 X z q = (e_zpk X z q ^ 2)%R) ->
  (forall c f x y, e_quad X (fun q => (c * f q)%R) x y = (c * e_quad X f x y)%R) ->
  bin_of X I k = Some b -> (l1 <= 10)%nat -> (l2 <= 10)%nat ->
  nth_error (ci_ells I) i = Some (Z.of_nat l1) -> nth_error (ci_ells I) j = Some (Z.of_nat l2) ->
  nth_error (ci_sep I) m = Some r1 -> nth_error (ci_sep I) n = Some r2 ->
  (if ci_window I then nth_error (ci_pix I) (if ci_nonlinear I then k else 0) else Some 0%R) = Some pix ->
  let P := spectrum_at X I (b_z b) in
  let transform g := e_quad X (fun q => q ^ 2 * g q * windowed_bessel X (Z.of_nat l1) q r1 pix * windowed_bessel X (Z.of_nat l2) q r2 pix)%R
                       (k_from X I) (k_to X I) in
  let sign := (if Nat.even ((Nat.max l1 l2 - Nat.min l1 l2) / 2) then 1 else -1)%R in
  let factor := (IZR (2 * Z.of_nat l1 + 1) * IZR (2 * Z.of_nat l2 + 1) / (4 * PI ^ 2 * b_volume b))%R in
  cov X (mixed_only I) k i m j n
    = Some (sign * (if Nat.even (l1 + l2) then 1 else -1) * factor * mixed_angular I (b_z b) (b_n1 b) (b_n2 b) l1 l2 * transform P)%R
  /\ cov X (cosmic_only I) k i m j n
    = Some (sign * factor * cosmic_angular I (b_z b) l1 l2 * transform (fun q => P q ^ 2)%R)%R.
Proof.
  intros X I k i m j n b l1 l2 r1 r2 pix S H F Nl P2 Z2 Hq Eb L1 L2 E1 E2 E3 E4 Ew P transform sign factor.
  destruct (C62_spectrum_of_bin_partial X I k i m j n b _ _ r1 r2 pix S H F Nl P2 Z2 Hq Eb E1 E2 E3 E4 Ew) as [M C].
  assert (Sg : sgn (Z.quot (Z.of_nat l2 - Z.of_nat l1) 2) = sign).
  { unfold sign, sgn, csign.
    assert (A : Z.abs (Z.quot (Z.of_nat l2 - Z.of_nat l1) 2) = Z.of_nat ((Nat.max l1 l2 - Nat.min l1 l2) / 2)).
    { rewrite Nat2Z.inj_div, <- Z.quot_abs by lia. rewrite Z.quot_div_nonneg by lia. f_equal; lia. }
    assert (B : forall x, (if (Z.of_nat x mod 2 =? 0)%Z then 1 else -1)%Z = (if Nat.even x then 1 else -1)%Z).
    { intros x. rewrite Zmod_even. rewrite even_nat. destruct (Nat.even x); reflexivity. }
    rewrite A, B. destruct (Nat.even _); reflexivity. }
  assert (S2 : sgn (Z.of_nat l1 + Z.of_nat l2) = (if Nat.even (l1 + l2) then 1 else -1)%R).
  { rewrite <- Nat2Z.inj_add. unfold sgn, csign. rewrite Z.abs_eq by lia. rewrite Zmod_even, even_nat.
    destruct (Nat.even (l1 + l2)); reflexivity. }
  cbv zeta in M, C. rewrite M, C. rewrite Sg, S2, mixed_is_angular, cosmic_is_angular by assumption.
  unfold factor, transform, P. rewrite mult_IZR. unfold Rdiv. rewrite !Rinv_mult.
  assert (PP : (/ (PI ^ 2) = / PI * / PI)%R) by (rewrite <- pow_inv; ring).
  rewrite PP.
  split; apply f_equal.
  - replace (/ 4)%R with (2 * / 8)%R by lra. ring.
  - set (q4 := (/ 4)%R). replace (sign * (IZR (2 * Z.of_nat l1 + 1) * IZR (2 * Z.of_nat l2 + 1) * (q4 * (/ PI * / PI) * / b_volume b)))%R
      with (sign * (IZR (2 * Z.of_nat l1 + 1) * IZR (2 * Z.of_nat l2 + 1) * ((2 * / 2 * q4) * (/ PI * / PI) * / b_volume b)))%R
      by (replace (2 * / 2)%R with 1%R by lra; ring).
    ring.
Qed.
Print Assumptions C63_gaussian_partial.

(** The bin: redshift, volume and densities of redshift number k (not averaged). *)
Definition survey_volume (I : cov_in) (fsky z dz : R) : R :=
  (4 * PI / 3 * fsky * ((ci_chi I (z + dz)) ^ 3 - (ci_chi I (z - dz)) ^ 3))%R.
Theorem C63_bin : forall X I k z dz fsky n1 n2, ci_avg I = false ->
  nth_error (ci_zmean I) k = Some z -> nth_error (ci_deltaz I) k = Some dz -> nth_error (ci_fsky I) k = Some fsky ->
  nth_error (ci_n1 I) k = Some n1 -> nth_error (ci_n2 I) k = Some n2 ->
  exists b, bin_of X I k = Some b /\ b_z b = z /\ b_n1 b = n1 /\ b_n2 b = n2 /\ b_volume b = survey_volume I fsky z dz.
Proof.
  intros X I k z dz fsky n1 n2 A Ez Ed Ef E1 E2. unfold bin_of. rewrite A, Ez, Ed, Ef, E1, E2. eexists. split; [reflexivity|].
  repeat split. cbn [b_volume]. unfold survey_volume, shell. field.
Qed.
(** The bin of the averaged covariance: the middle of the bin, and what takes the place of the volume. *)
Theorem C63_average_bin : forall X I k z1 z2 fsky n1 n2, ci_avg I = true ->
  nth_error (ci_zmin I) k = Some z1 -> nth_error (ci_zmax I) k = Some z2 -> nth_error (ci_fsky I) k = Some fsky ->
  nth_error (ci_n1 I) k = Some n1 -> nth_error (ci_n2 I) k = Some n2 ->
  exists b, bin_of X I k = Some b /\ b_z b = (z1 + (z2 - z1) / 2)%R /\ b_n1 b = n1 /\ b_n2 b = n2
    /\ b_volume b = (4 * PI * fsky * / e_quad X (fun z => / (ci_conf I z * (1 + z) * (ci_chi I z) ^ 2)) z1 z2
                      * (299792458 / 100000 / ci_h I) ^ 2)%R.
Proof.
  intros X I k z1 z2 fsky n1 n2 A Ez Ed Ef E1 E2. unfold bin_of. rewrite A, Ez, Ed, Ef, E1, E2. eexists. split; [reflexivity|].
  split; [cbn [b_z]; field|]. split; [reflexivity|]. split; [reflexivity|]. cbn [b_volume].
  assert (F : volume_integrand I = (fun z => / (ci_conf I z * (1 + z) * (ci_chi I z) ^ 2))%R).
  { apply functional_extensionality. intros z. unfold volume_integrand, Rdiv. rewrite !Rinv_mult. ring. }
  rewrite F. assert (Hi : (/ hubble_0 = 299792458 / 100000)%R) by (unfold hubble_0; field).
  unfold Rdiv at 1 2. rewrite <- pow_inv, Rinv_mult, Hi. unfold Rdiv. ring.
Qed.
(** It is not the volume of the bin: in a universe with a constant expansion rate H (distance z/H, conformal rate H/(1+z)) it grows
    when the bin shrinks, so that the narrower of two nested bins has the smaller covariance. *)
Theorem C63_average_volume_refuted : exists X I b b',
  (forall f x y, e_quad X f x y = RInt f x y)
  /\ ci_avg I = true /\ ci_zmin I = [1; 1]%R /\ ci_zmax I = [3 / 2; 2]%R /\ ci_fsky I = [1; 1]%R
  /\ bin_of X I 0 = Some b /\ bin_of X I 1 = Some b'
  /\ (b_volume b' < b_volume b)%R
  /\ ((ci_chi I (3 / 2)) ^ 3 - (ci_chi I 1) ^ 3 < (ci_chi I 2) ^ 3 - (ci_chi I 1) ^ 3)%R.
Proof.
  pose (H := hubble_0). assert (Hp : (0 < H)%R) by (unfold H, hubble_0; lra).
  exists {| e_quad := fun f a b => RInt f a b; e_jl := fun _ x => (sin x / x)%R; e_Si := fun x => x;
     e_pk := fun _ => 1%R; e_pk2 := fun _ => 1%R; e_kmin := 0%R; e_kmax := 2%R;
     e_zpk := fun z _ => (1 + z)%R; e_zpk2 := fun z _ => ((1 + z) ^ 2)%R; e_zkmin := 0%R; e_zkmax := 2%R;
     e_fft := fun _ _ _ r1 r2 => (r1 * r2)%R |}.
  exists {| ci_avg := true; ci_ells := [0; 2]%Z; ci_sep := [1; 2]%R; ci_zmean := []; ci_deltaz := [];
     ci_zmin := [1; 1]%R; ci_zmax := [3 / 2; 2]%R; ci_fsky := [1; 1]%R; ci_n1 := [1; 1]%R; ci_n2 := [1; 1]%R; ci_pix := [1; 1]%R;
     ci_cosmic := true; ci_mixed := true; ci_poisson := true; ci_window := false; ci_nonlinear := false; ci_class := true;
     ci_fftlog := false; ci_bins := 10; ci_den := true; ci_rsd := true; ci_pop1 := 1; ci_pop2 := 1; ci_pop3 := 1; ci_pop4 := 1;
     ci_bias := fun _ _ => 1%R; ci_growth := fun _ => 1%R; ci_D1 := fun _ => 1%R; ci_chi := fun z => (z / H)%R; ci_conf := fun z => (H / (1 + z))%R;
     ci_h := 1%R |}.
  eexists. eexists. split; [reflexivity|]. split; [reflexivity|]. split; [reflexivity|]. split; [reflexivity|]. split; [reflexivity|].
  split; [reflexivity|]. split; [reflexivity|]. cbn [b_volume e_quad ci_h ci_chi].
  assert (Q : forall y, (1 < y)%R -> RInt (volume_integrand
     {| ci_avg := true; ci_ells := [0; 2]%Z; ci_sep := [1; 2]%R; ci_zmean := []; ci_deltaz := [];
     ci_zmin := [1; 1]%R; ci_zmax := [3 / 2; 2]%R; ci_fsky := [1; 1]%R; ci_n1 := [1; 1]%R; ci_n2 := [1; 1]%R; ci_pix := [1; 1]%R;
     ci_cosmic := true; ci_mixed := true; ci_poisson := true; ci_window := false; ci_nonlinear := false; ci_class := true;
     ci_fftlog := false; ci_bins := 10; ci_den := true; ci_rsd := true; ci_pop1 := 1; ci_pop2 := 1; ci_pop3 := 1; ci_pop4 := 1;
     ci_bias := fun _ _ => 1%R; ci_growth := fun _ => 1%R; ci_D1 := fun _ => 1%R; ci_chi := fun z => (z / H)%R; ci_conf := fun z => (H / (1 + z))%R;
     ci_h := 1%R |}) 1 y = (H * (1 - / y))%R).
  { intros y Hy. apply is_RInt_unique.
    replace (H * (1 - / y))%R with (minus (- (H / y)) (- (H / 1)))%R by (unfold minus, plus, opp; cbn; field; lra).
    apply (is_RInt_derive (fun z => - (H / z))%R).
    - intros x Hx. rewrite Rmin_left, Rmax_right in Hx by lra. auto_derive; [lra|]. unfold volume_integrand. cbn [ci_conf ci_chi]. field. lra.
    - intros x Hx. rewrite Rmin_left, Rmax_right in Hx by lra.
      apply (continuous_ext_loc _ (fun z => H * / (z * z))%R).
      + exists (mkposreal (1 / 2) ltac:(lra)). intros z Hz. unfold ball in Hz. cbn in Hz. unfold AbsRing_ball, abs, minus, plus, opp in Hz. cbn in Hz.
        apply Rabs_def2 in Hz. unfold volume_integrand. cbn [ci_conf ci_chi]. match goal with |- @eq _ ?u ?v => change (@eq R u v) end. field. lra.
      + apply (ex_derive_continuous (fun z => H * / (z * z))%R). auto_derive. nra. }
  rewrite !Q by lra. split.
  - assert (P : (0 < 4 * PI * 1)%R) by (pose proof PI_RGT_0; lra).
    assert (K : (0 < / (hubble_0 * 1) ^ 2)%R) by (apply Rinv_0_lt_compat; fold H; nra).
    unfold Rdiv. apply Rmult_lt_compat_r; [exact K|]. apply Rmult_lt_compat_l; [exact P|].
    replace (H * (1 - / (3 * / 2)))%R with (H / 3)%R by field. replace (H * (1 - / 2))%R with (H / 2)%R by field.
    apply Rinv_lt_contravar; nra.
  - assert (0 < / H)%R by (apply Rinv_0_lt_compat; exact Hp). set (w := (/ H)%R) in *. unfold Rdiv. fold w.
    assert (0 < w * w * w)%R by (repeat apply Rmult_lt_0_compat; assumption). nra.
Qed.
Print Assumptions C63_average_volume_refuted.
(** Shot noise: only for the same multipole and separation. *)
Theorem C63_poisson : forall X I k i j m l r pix z dz fsky n1 n2,
  shape_ok I -> in_range I k i m j m -> ci_avg I = false ->
  nth_error (ci_zmean I) k = Some z -> nth_error (ci_deltaz I) k = Some dz -> nth_error (ci_fsky I) k = Some fsky ->
  nth_error (ci_n1 I) k = Some n1 -> nth_error (ci_n2 I) k = Some n2 -> nth_error (ci_pix I) k = Some pix ->
  nth_error (ci_ells I) i = Some (Z.of_nat l) -> nth_error (ci_ells I) j = Some (Z.of_nat l) -> nth_error (ci_sep I) m = Some r ->
  let bin_volume := if ci_window I then (((r + pix / 2) ^ 3 - (r - pix / 2) ^ 3) / 3)%R else (r ^ 2 * pix)%R in
  cov X (poisson_only I) k i m j m
  = Some (INR (2 * l + 1) / (4 * PI) * (same (ci_pop1 I) (ci_pop3 I) * same (ci_pop2 I) (ci_pop4 I)
            + (if Nat.even l then 1 else -1) * (same (ci_pop1 I) (ci_pop4 I) * same (ci_pop2 I) (ci_pop3 I)))
          / bin_volume / (n1 * n2 * survey_volume I fsky z dz))%R.
Proof.
  intros X I k i j m l r pix z dz fsky n1 n2 S H A Ez Ed Ef E1 E2 Ep El El' Er bin_volume.
  destruct (C63_bin X I k z dz fsky n1 n2 A Ez Ed Ef E1 E2) as (b & Eb & Bz & B1 & B2 & BV).
  rewrite cov_entry by (try apply shape_parts; assumption). unfold entry_at.
  change (bin_of X (poisson_only I) k) with (bin_of X I k). rewrite Eb. change (ci_ells (poisson_only I)) with (ci_ells I). rewrite El, El'.
  unfold poisson_part, mixed_entry, cosmic_entry. cbn [poisson_only with_parts ci_poisson ci_pix ci_sep ci_mixed ci_cosmic ci_window ci_pop1 ci_pop2 ci_pop3 ci_pop4].
  rewrite Ep, Er. apply f_equal. rewrite !kr_eq, <- !same_kr, B1, B2, BV.
  assert (S2 : sgn (Z.of_nat l) = (if Nat.even l then 1 else -1)%R).
  { unfold sgn, csign. rewrite Z.abs_eq by lia. rewrite Zmod_even, even_nat. destruct (Nat.even l); reflexivity. }
  rewrite S2.
  assert (W : (if ci_window I then 1 / shell (r - pix / 2) (r + pix / 2) else 1 / r / r / pix)%R = (/ bin_volume)%R).
  { unfold bin_volume. destruct (ci_window I); unfold shell, Rdiv; [ring|]. rewrite !Rinv_mult, <- pow_inv. ring. }
  rewrite W. clear W. rewrite INR_IZR_INZ. replace (Z.of_nat (2 * l + 1)) with (2 * Z.of_nat l + 1)%Z by lia.
  unfold Rdiv. rewrite !Rinv_mult. ring.
Qed.
Print Assumptions C63_poisson.
Example C63_hypotheses : exists X I k i m j n b l1 l2 r1 r2 pix,
  shape_ok I /\ in_range I k i m j n /\ ci_fftlog I = false /\ bin_of X I k = Some b
  /\ nth_error (ci_ells I) i = Some (Z.of_nat l1) /\ nth_error (ci_ells I) j = Some (Z.of_nat l2)
  /\ nth_error (ci_sep I) m = Some r1 /\ nth_error (ci_sep I) n = Some r2
  /\ (if ci_window I then nth_error (ci_pix I) (if ci_nonlinear I then k else 0) else Some 0%R) = Some pix.
Proof.
  exists ex_ext, (ex_in [1; 1]%R [2; 2]%R 1 2 2 3), 1, 0, 1, 1, 0. eexists. exists 0, 2, 2%R, 1%R, 0%R.
  split; [apply ex_shape; reflexivity|]. split; [unfold in_range; cbn; lia|]. repeat split.
Qed.

(** ** C64: exchanging the two populations of a data point *)
(** Exchanging the populations (and densities) of the first data point multiplies its
    multipole l by (-1)^l, and hence the covariance. *)
Theorem C64_exchange_partial : forall X I n1 n2 p1 p2 p3 p4 k i m j n l1,
  let before := with_pops I p1 p2 p3 p4 n1 n2 in
  let after := with_pops I p2 p1 p3 p4 n2 n1 in
  shape_ok before -> shape_ok after -> in_range I k i m j n ->
  nth_error (ci_ells I) i = Some l1 -> (Z.even l1 = true \/ (ci_mixed I = false /\ ci_cosmic I = false)) ->
  exists v, cov X before k i m j n = Some v
         /\ cov X after k i m j n = Some (if Z.even l1 then v else - v)%R.
Proof.
  intros X I n1 n2 p1 p2 p3 p4 k i m j n l1 before after S1 S2 H E1 Ev.
  destruct (cov_some X before k i m j n S1 H) as [v Hv]. exists v. split; [exact Hv|].
  rewrite cov_entry in Hv by assumption. rewrite cov_entry by assumption.
  destruct (bin_some X before k S1 (proj1 H)) as [b Eb]. destruct (bin_some X after k S2 (proj1 H)) as [b' Eb'].
  assert (D1 : b_n1 b = b_n2 b' /\ b_n2 b = b_n1 b' /\ b_z b = b_z b' /\ b_volume b = b_volume b').
  { clear -Eb Eb'. unfold bin_of in Eb, Eb'. unfold before, after in *. cbn [with_pops ci_avg ci_n1 ci_n2 ci_fsky ci_zmin ci_zmax ci_zmean ci_deltaz ci_h] in *.
    destruct (nth_error n1 k) as [a1|]; [|discriminate]. destruct (nth_error n2 k) as [a2|]; [|discriminate].
    destruct (nth_error (ci_fsky I) k); [|discriminate]. destruct (ci_avg I).
    - destruct (nth_error (ci_zmin I) k); [|discriminate]. destruct (nth_error (ci_zmax I) k); [|discriminate].
      injection Eb as <-. injection Eb' as <-. repeat split.
    - destruct (nth_error (ci_zmean I) k); [|discriminate]. destruct (nth_error (ci_deltaz I) k); [|discriminate].
      injection Eb as <-. injection Eb' as <-. repeat split. }
  destruct D1 as (A1 & A2 & Ez & Evo).
  unfold entry_at in *. rewrite Eb in Hv. rewrite Eb'.
  change (ci_ells before) with (ci_ells I) in Hv. change (ci_ells after) with (ci_ells I). rewrite E1 in *.
  destruct (nth_error (ci_ells I) j) as [l2|] eqn:E2; [|discriminate].
  (* Poisson *)
  assert (Sq : forall l, (sgn l * sgn l = 1)%R).
  { intros l. unfold sgn, csign. destruct (Z.abs l mod 2 =? 0)%Z; lra. }
  assert (Sv : sgn l1 = if Z.even l1 then 1%R else (-1)%R).
  { unfold sgn, csign. rewrite Zmod_even. replace (Z.even (Z.abs l1)) with (Z.even l1).
    - destruct (Z.even l1); reflexivity.
    - destruct (Z.abs_eq_or_opp l1) as [->| ->]; [reflexivity|]. symmetry. apply Z.even_opp. }
  assert (Po : exists p, poisson_part before b k m n l1 l2 = Some p /\ poisson_part after b' k m n l1 l2 = Some (sgn l1 * p)%R).
  { destruct (poisson_some before b k m n l1 l2 S1 (proj1 H)) as [p Hp]; [apply H|apply H|]. exists p. split; [exact Hp|].
    unfold poisson_part in *. cbn [before after with_pops ci_poisson ci_pix ci_sep ci_pop1 ci_pop2 ci_pop3 ci_pop4 ci_window] in *.
    destruct (ci_poisson I); [|injection Hp as <-; f_equal; ring].
    destruct (nth_error (ci_pix I) k) as [pix|]; [|discriminate].
    destruct (nth_error (ci_sep I) m) as [rm|]; [|discriminate]. destruct (nth_error (ci_sep I) n) as [rn|]; [|discriminate].
    set (G := IZR (2 * l1 + 1)) in *. clearbody G. injection Hp as <-. apply f_equal. rewrite Evo, A1, A2.
    destruct (Z.eq_dec l1 l2) as [->|N]; [|rewrite (kr_neq l1 l2 N); unfold Rdiv; ring].
    set (W := if ci_window I then _ else _).
    replace (kr p2 p3 * kr p1 p4)%R with (sgn l2 * sgn l2 * (kr p2 p3 * kr p1 p4))%R by (rewrite Sq; ring).
    unfold Rdiv. ring. }
  destruct Po as (p & Hp & Hp'). rewrite Hp in Hv. rewrite Hp'.
  assert (Fu : forall t, full X before t (zi before k) i j m n = full X after t (zi after k) i j m n) by reflexivity.
  assert (Mx : forall v, mixed_of before b l1 l2 v = mixed_of after b' l1 l2 v).
  { intros w. unfold mixed_of. cbn [before after with_pops ci_nonlinear ci_D1]. rewrite Ez, Evo. do 2 f_equal.
    unfold mixed_sum. cbv zeta. cbn [before after with_pops ci_pop1 ci_pop2 ci_pop3 ci_pop4]. unfold coefficient_pair.
    change (bias_at before) with (bias_at I). change (bias_at after) with (bias_at I).
    change (growth_at before) with (growth_at I). change (growth_at after) with (growth_at I). rewrite Ez, A1, A2.
    f_equal. cbn [even_orders fold_left]. unfold Rdiv. ring. }
  assert (Cs : forall v, cosmic_of before b l1 l2 v = cosmic_of after b' l1 l2 v).
  { intros w. unfold cosmic_of. cbn [before after with_pops ci_nonlinear ci_D1]. rewrite Ez, Evo. do 2 f_equal.
    unfold cosmic_sum. cbv zeta. cbn [before after with_pops ci_pop1 ci_pop2 ci_pop3 ci_pop4]. unfold coefficient_pair.
    change (bias_at before) with (bias_at I). change (bias_at after) with (bias_at I).
    change (growth_at before) with (growth_at I). change (growth_at after) with (growth_at I).
    f_equal. cbn [list_prod even_orders map app fold_left].
    rewrite (coupling_swap_ab l1 l2 2 0), (coupling_swap_ab l1 l2 4 0), (coupling_swap_ab l1 l2 4 2).
    replace (sgn 0) with 1%R by reflexivity. replace (sgn 2) with 1%R by reflexivity. replace (sgn 4) with 1%R by reflexivity.
    ring. }
  unfold mixed_entry, cosmic_entry in *. rewrite !Fu in Hv.
  change (ci_mixed before) with (ci_mixed I) in Hv. change (ci_mixed after) with (ci_mixed I).
  change (ci_cosmic before) with (ci_cosmic I) in Hv. change (ci_cosmic after) with (ci_cosmic I).
  destruct Ev as [Ev|[Em Ec]].
  - rewrite Ev. rewrite Sv, Ev, Rmult_1_l.
    destruct (ci_mixed I); [destruct (full X after true _ i j m n) as [w|]; [rewrite <- Mx|discriminate]|];
    (destruct (ci_cosmic I); [destruct (full X after false _ i j m n) as [u|]; [rewrite <- Cs|discriminate]|]; exact Hv).
  - rewrite Em, Ec in *. injection Hv as <-. rewrite Sv. destruct (Z.even l1); apply f_equal; ring.
Qed.
Print Assumptions C64_exchange_partial.

(** Odd multipoles of one population with itself vanish, so their covariance should; the
    cosmic-variance part does not. *)
Definition ex_dipole : cov_in :=
  {| ci_avg := false; ci_ells := [1]%Z; ci_sep := [1]%R; ci_zmean := [1]%R; ci_deltaz := [1 / 2]%R;
     ci_zmin := []; ci_zmax := []; ci_fsky := [1]%R; ci_n1 := [1]%R; ci_n2 := [1]%R; ci_pix := [1]%R;
     ci_cosmic := true; ci_mixed := false; ci_poisson := true; ci_window := false; ci_nonlinear := false; ci_class := true;
     ci_fftlog := false; ci_bins := 0; ci_den := true; ci_rsd := false; ci_pop1 := 1; ci_pop2 := 1; ci_pop3 := 1; ci_pop4 := 1;
     ci_bias := fun _ _ => 1%R; ci_growth := fun _ => 0%R; ci_D1 := fun _ => 1%R; ci_chi := fun z => z; ci_conf := fun _ => 1%R;
     ci_h := 1%R |}.
Theorem C64_dipole_refuted : exists v, shape_ok ex_dipole /\ cov ex_ext ex_dipole 0 0 0 0 0 = Some v
  /\ (* exchanging the populations changes nothing, so the value should be its own negative *)
     v <> (- v)%R.
Proof.
  assert (S : shape_ok ex_dipole) by (constructor; cbn; try reflexivity; discriminate).
  assert (PI0 : PI <> 0%R) by apply PI_neq0.
  assert (S1 : sin 1 <> 0%R).
  { apply Rgt_not_eq. apply sin_gt_0; [lra|]. pose proof PI_RGT_0. pose proof PI2_1. lra. }
  assert (C0 : coupling 1 1 0 0 = (2 / 3)%R).
  { unfold coupling. rewrite (Qeq_eqR _ (2 # 3)) by (vm_compute; reflexivity). unfold Q2R. cbn. lra. }
  set (w := (9 * (2 * (2 * (sin 1) ^ 2) / PI / PI / 2) * (2 * (2 / 3) / 4) / (4 * PI * ((27 / 8 - 1 / 8) / 3)))%R).
  assert (W0 : w <> 0%R).
  { unfold w. apply Rmult_integral_contrapositive_currified; [|apply Rinv_neq_0_compat; lra].
    unfold Rdiv. repeat apply Rmult_integral_contrapositive_currified; try lra; try (apply Rinv_neq_0_compat; assumption);
      try assumption. }
  exists w. split; [exact S|]. split; [|lra].
  rewrite cov_entry; [|exact S|unfold in_range; cbn; lia].
  unfold entry_at, bin_of, poisson_part, mixed_entry, cosmic_entry, full, on, up, spectrum_of, integral_delta, zi.
  cbn [ex_dipole ci_n1 ci_n2 ci_fsky ci_avg ci_zmean ci_deltaz ci_ells ci_sep nth_error ci_poisson ci_mixed ci_cosmic ci_nonlinear ci_class
       ci_fftlog ci_window andb Nat.leb ci_pix ci_pop1 ci_pop2 ci_pop3 ci_pop4].
  apply f_equal. rewrite !kr_eq. replace (sgn 1) with (-1)%R by reflexivity.
  unfold cosmic_of, cosmic_sum, cov_integral, windowed_bessel, coefficient_pair, bias_at, growth_at, shell, prefactor.
  cbn [b_z b_volume b_n1 b_n2 ci_nonlinear ci_D1 ci_pop1 ci_pop2 ci_pop3 ci_pop4 ci_den ci_rsd ci_bias ci_growth ci_chi ci_h ex_dipole
       ex_ext e_quad e_jl e_pk2 e_kmin e_kmax even_orders fold_left list_prod map app].
  destruct (Req_EM_T 0 0) as [_|N]; [|congruence].
  rewrite C0. unfold coefficient. cbn [Z.eqb Pos.eqb].
  replace (sgn (Z.quot (1 - 1) 2)) with 1%R by reflexivity. replace (sgn 0) with 1%R by reflexivity.
  replace ((0 + 2) / 2)%R with 1%R by lra. replace (1 * 1)%R with 1%R by ring.
  replace (IZR ((2 * 1 + 1) * (2 * 1 + 1))) with 9%R by reflexivity.
  unfold w, Rdiv. rewrite ?Rinv_mult.
  replace ((1 + 1 * / 2) ^ 3)%R with (27 * / 8)%R by lra. replace ((1 - 1 * / 2) ^ 3)%R with (1 * / 8)%R by lra.
  rewrite ?Rinv_1, ?Rmult_1_r. ring.
Qed.
Print Assumptions C64_dipole_refuted.
Example C64_hypotheses : exists I n1 n2 k i m j n l1,
  shape_ok (with_pops I 1 2 2 3 n1 n2) /\ shape_ok (with_pops I 2 1 2 3 n2 n1) /\ in_range I k i m j n
  /\ nth_error (ci_ells I) i = Some l1 /\ Z.even l1 = true /\ n1 <> n2.
Proof.
  exists (ex_in [] [] 0 0 0 0), [1; 1]%R, [2; 2]%R, 1, 1, 1, 0, 0, 2%Z.
  split; [apply (ex_shape [1; 1]%R [2; 2]%R 1 2 2 3); reflexivity|].
  split; [apply (ex_shape [2; 2]%R [1; 1]%R 2 1 2 3); reflexivity|].
  split; [unfold in_range; cbn; lia|]. split; [reflexivity|]. split; [reflexivity|].
  intros E. injection E. lra.
Qed.
