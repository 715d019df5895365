(** * C81: the flat-sky lensing multipoles *)
From Coq Require Import Reals Lra Lia List ZArith Bool.
From Coquelicot Require Import Coquelicot.
From Coq Require Import List FunctionalExtensionality.
Import ListNotations.
From Verif Require Import Integrals CExpr Terms Signal TermsMeta TermsSum Additive SignalSum
  Lookup Exchange ExchangeSignal Built Weights Props_Terms Legendre Multipoles Flat Props_Multipoles
  Tables Props_Values Sonine Lensing LensingTerms.
Open Scope R_scope.

(** ** Specification *)

(** The tables of the linear spectrum hold the integrals they stand for (see C77). *)
Record lensing_tables (E : env) (P : R -> R) (a b : R) : Prop := {
  lt_low : 0 < a;
  lt_range : a <= b;
  lt_cont : forall k, a <= k <= b -> continuous P k;
  lt_flat : forall r, 0 < r -> tab1 E (K 1 (-1) true) result r = flat_integral P a b r;
  lt_len : forall l r, 0 < r -> tab1 E (K 1 (Z.of_nat l) false) result r = tabulated P Integer 1 (Z.of_nat l) a b r;
  lt_den : forall m r, 0 < r -> tab1 E (K (2 * Z.of_nat m + 3) (2 * Z.of_nat m + 1) true) result r
             = tabulated P HalfInteger (2 * Z.of_nat m + 3) (2 * Z.of_nat m + 1) a b r }.
(** The background is continuous along the line of sight to a redshift. *)
Record smooth_background (E : env) (z : R) : Prop := {
  sb_z : forall x, 0 <= x <= 1 -> continuous (fun x => spl E bg_z_as_chi (x * spl E bg_comoving_distance z)) x;
  sb_D : forall x, 0 <= x <= 1 -> continuous (fun x => spl E bg_D1 (spl E bg_z_as_chi (x * spl E bg_comoving_distance z))) x }.

(** ** The two formulas *)
Lemma fold_psum : forall f n, fold_left Rplus (map f (seq 0 n)) 0 = psum f n.
Proof.
  intros f n. induction n as [|n IH]; [reflexivity|].
  rewrite seq_S, map_app, fold_left_app, IH. reflexivity.
Qed.
Lemma pow2_half : forall h, pow2 (1 - Z.of_nat h) / sqrt (2 * PI) = / 2 ^ h / sqrt (PI / 2).
Proof.
  intros h. pose proof PI_RGT_0 as Pp.
  assert (S2 : sqrt (2 * PI) = 2 * sqrt (PI / 2)).
  { replace (2 * PI) with (2 * 2 * (PI / 2)) by lra. rewrite sqrt_mult by lra. rewrite sqrt_square by lra. reflexivity. }
  pose proof (sqrt_lt_R0 (PI / 2) ltac:(lra)) as S0.
  assert (E : pow2 (1 - Z.of_nat h) = 2 / 2 ^ h).
  { unfold pow2, Z.sub. rewrite powerRZ_add by lra. rewrite powerRZ_neg', <- pow_powerRZ. rewrite powerRZ_1. reflexivity. }
  rewrite E, S2. pose proof (pow_nonzero 2 h ltac:(lra)). field. split; lra.
Qed.

Section Formulas.
Variable E : env.
Hypothesis all_present : forall k, present E k = true.
Variables (P : R -> R) (a b : R).
Hypotheses (Pa : 0 < a) (Pab : a <= b) (Pc : forall k, a <= k <= b -> continuous P k).
Variables (z s : R).
Hypothesis Ps : 0 < s.
#[local] Notation T := (flat_integral P a b).
#[local] Notation nonlin := (sw E pk_nonlinear && sw E midpoint).

Lemma density_lensing_formula : forall l,
  (forall m, (if nonlin then tab2 E (K (2 * Z.of_nat m + 3) (2 * Z.of_nat m + 1) true) result2d z s
              else tab1 E (K (2 * Z.of_nat m + 3) (2 * Z.of_nat m + 1) true) result s)
             = tabulated P HalfInteger (2 * Z.of_nat m + 3) (2 * Z.of_nat m + 1) a b s) ->
  ex_RInt (fun m => legendre l m * (Rabs m * T (s * sqrt (1 - m * m)))) (-1) 1 /\
  2 * PI * PI * value (flat_den_len E z s l)
  = INR (2 * l + 1) / 2 * (density_lensing_factor E z s * (if nonlin then 1 else spl E bg_D1 z * spl E bg_D1 z)
     * RInt (fun m => legendre l m * (Rabs m * T (s * sqrt (1 - m * m)))) (-1) 1).
Proof.
  intros l HT. pose proof PI_RGT_0 as Pp. unfold flat_den_len. destruct (Nat.even l) eqn:Ev.
  - apply Nat.even_spec in Ev. destruct Ev as [h ->]. destruct (folded_even P a b Pab Pc h s) as [X I]. split; [exact X|].
    rewrite I. replace (2 * h / 2)%nat with h by (rewrite Nat.mul_comm, Nat.div_mul; lia).
    rewrite (proj2 (forallb_forall _ _)) by (intros; apply all_present). cbn [value].
    rewrite fold_psum.
    assert (Sm : psum (fun k => flat_den_len_coef (2 * h) k * (if nonlin then tab2 E (flat_den_len_key (2 * h) k) result2d z s
                   else tab1 E (flat_den_len_key (2 * h) k) result s)) (S h)
      = 2 ^ h * sqrt (PI / 2) / (2 * PI * PI) *
        psum (fun k => power_coefficient (2 * h) k *
          (2 ^ (h - k) * INR (fact (h - k)) / (odd_factorial (h - k + 1) * PI) * wave P a b (2 * (h - k + 1)) 1 s)) (S h)).
    { rewrite <- psum_scal. apply psum_ext. intros k Hk.
      assert (Ek : flat_den_len_key (2 * h) k = K (2 * Z.of_nat (h - k) + 3) (2 * Z.of_nat (h - k) + 1) true).
      { unfold flat_den_len_key. f_equal; lia. }
      rewrite Ek, HT. pose proof (half_table P a b Pa Pab Pc (h - k) s Ps) as HH.
      unfold flat_den_len_coef, power_coefficient. rewrite (proj2 (Nat.leb_le _ _)) by lia.
      replace (2 * h / 2 - k)%nat with (h - k)%nat by (rewrite (Nat.mul_comm 2 h), Nat.div_mul; lia).
      set (t := tabulated _ _ _ _ _ _ _) in *. set (w := wave _ _ _ _ _ _) in *. set (o := odd_factorial _) in *. set (f := INR (fact (h - k))).
      set (c1 := Binomial.C (2 * h) k). set (c2 := Binomial.C _ _).
      assert (E2 : 2 ^ h = 2 ^ k * 2 ^ (h - k)) by (rewrite <- pow_add; f_equal; lia).
      assert (E3 : 2 ^ (2 * h) = 2 ^ h * 2 ^ h) by (rewrite <- pow_add; f_equal; lia). rewrite E3.
      pose proof (pow_nonzero 2 k ltac:(lra)) as N1. pose proof (pow_nonzero 2 (h - k) ltac:(lra)) as N2.
      assert (O : o <> 0).
      { unfold o, odd_factorial. apply Rmult_integral_contrapositive_currified; [apply INR_fact_neq_0|apply Rinv_neq_0_compat].
        apply Rmult_integral_contrapositive_currified; [apply pow_nonzero; lra|apply INR_fact_neq_0]. }
      assert (Et : t = sqrt (PI / 2) / (o * PI) * w / (2 * PI * PI)) by (rewrite <- HH; field; lra).
      rewrite Et, E2. field. repeat split; lra. }
    rewrite Sm. set (B := psum _ _). unfold density_lensing_factor.
    set (G := if nonlin then 1 else _). set (Q := (2 - 5 * _) * _ + _).
    pose proof (pow2_half h) as H2. pose proof (sqrt_lt_R0 (PI / 2) ltac:(lra)) as S0. pose proof (pow_nonzero 2 h ltac:(lra)) as N.
    pose proof (sqrt_lt_R0 (2 * PI) ltac:(lra)) as S1.
    match goal with |- ?u = ?v => change (@eq R u v) end.
    transitivity (2 ^ h * sqrt (PI / 2) * B * (- 3 * (omega_cdm E + omega_baryon E) / PI / 8 * INR (2 * (2 * h) + 1) * G * (1 + z) * s * Q)
       * (pow2 (1 - Z.of_nat h) / sqrt (2 * PI)) * (coffe_H0 * par_h E) ^ 2).
    { field. split; lra. }
    rewrite H2. field. repeat split; lra.
  - assert (O : Nat.odd l = true) by (rewrite <- Nat.negb_even, Ev; reflexivity).
    destruct (folded_odd P a b Pab Pc l s O) as [X I]. split; [exact X|]. rewrite I. cbn [value]. unfold Rdiv. ring.
Qed.

Lemma lensing_weight_cont : smooth_background E z -> forall x, 0 <= x <= 1 -> continuous (lensing_weight E z) x.
Proof.
  intros [Cz CD] x X. unfold lensing_weight. cbv zeta.
  assert (Sq : forall f : R -> R, continuous f x -> continuous (fun x => f x ^ 2) x).
  { intros f C. apply (continuous_ext (fun x => f x * f x)); [intros; cbn; ring|]. apply (continuous_mult (K := R_AbsRing)); exact C. }
  apply (continuous_mult (K := R_AbsRing)); [apply (continuous_mult (K := R_AbsRing))|].
  - apply (Sq (fun x => spl E bg_D1 (spl E bg_z_as_chi (x * spl E bg_comoving_distance z)))). apply CD. exact X.
  - apply (Sq (fun x => 1 + spl E bg_z_as_chi (x * spl E bg_comoving_distance z))).
    apply (continuous_plus (K := R_AbsRing) (V := R_NormedModule)); [apply continuous_const|apply Cz; exact X].
  - apply (ex_derive_continuous (K := R_AbsRing) (V := R_NormedModule)). auto_derive. exact Logic.I.
Qed.

Lemma in_circle : forall m, -1 < m < 1 -> 0 < sqrt (1 - m * m).
Proof. intros m M. apply sqrt_lt_R0. nra. Qed.

(** [c] is the boost of the tables the multipoles use over those of the linear spectrum. *)
Lemma lensing_lensing_formula : forall l c, smooth_background E z ->
  (forall r, 0 < r -> tab1 E (K 1 (-1) true) result r = T r) ->
  (forall r, 0 < r -> tab1 E (K 1 (Z.of_nat l) false) result r = tabulated P Integer 1 (Z.of_nat l) a b r) ->
  (if nonlin then forall u r, tab2 E (K 1 (Z.of_nat l) false) result2d u r = c * (spl E bg_D1 u ^ 2 * tab1 E (K 1 (Z.of_nat l) false) result r) else c = 1) ->
  (forall m, -1 < m < 1 -> ex_RInt (fun x => lensing_lensing E z s m x) 0 1) /\
  ex_RInt (fun m => legendre l m * RInt (fun x => lensing_lensing E z s m x) 0 1) (-1) 1 /\
  RInt (fun m => legendre l m * RInt (fun x => lensing_lensing E z s m x) 0 1) (-1) 1
  = lensing_lensing_factor E z * RInt (fun x => lensing_weight E z x * projected_flat P a b l (s * x)) 0 1 /\
  (if Nat.even l then 2 * PI * PI * RInt (fun x => value (flat_len_len E z s l x)) 0 1 else 0)
  = c * (INR (2 * l + 1) / 2 * RInt (fun m => legendre l m * RInt (fun x => lensing_lensing E z s m x) 0 1) (-1) 1).
Proof.
  intros l c SB HT HL HN. pose proof PI_RGT_0 as Pp. set (w := lensing_weight E z). pose proof (lensing_weight_cont SB) as Cw. fold w in Cw.
  assert (In : forall m, -1 < m < 1 -> forall x, 0 < x < 1 ->
    lensing_lensing E z s m x = scal (lensing_lensing_factor E z) (w x * T (s * sqrt (1 - m * m) * x))).
  { intros m M x X. unfold lensing_lensing. pose proof (in_circle m M) as C0. rewrite HT.
    - replace (x * s * sqrt (1 - m * m)) with (s * sqrt (1 - m * m) * x) by ring. reflexivity.
    - apply Rmult_lt_0_compat; [apply Rmult_lt_0_compat|]; lra. }
  assert (Xw : forall r, ex_RInt (fun x => w x * T (r * x)) 0 1).
  { intros r. apply (ex_RInt_continuous (V := R_CompleteNormedModule)). intros x X. rewrite Rmin_left, Rmax_right in X by lra.
    apply (continuous_mult (K := R_AbsRing)); [apply Cw; exact X|].
    apply (continuous_comp (fun x => r * x) T); [|apply (flat_cont P a b Pab Pc)].
    apply (ex_derive_continuous (K := R_AbsRing) (V := R_NormedModule)). auto_derive. exact Logic.I. }
  assert (Xm : forall m, -1 < m < 1 -> ex_RInt (fun x => lensing_lensing E z s m x) 0 1).
  { intros m M. apply (ex_RInt_ext (fun x => scal (lensing_lensing_factor E z) (w x * T (s * sqrt (1 - m * m) * x)))).
    - intros x X. symmetry. apply In; [exact M|apply in_unit; exact X].
    - apply (ex_RInt_scal (V := R_CompleteNormedModule)). apply Xw. }
  assert (Im : forall m, -1 < m < 1 -> RInt (fun x => lensing_lensing E z s m x) 0 1 = lensing_lensing_factor E z * along P a b w (s * sqrt (1 - m * m))).
  { intros m M. rewrite (RInt_ext _ (fun x => scal (lensing_lensing_factor E z) (w x * T (s * sqrt (1 - m * m) * x))))
      by (intros x X; apply In; [exact M|apply in_unit; exact X]).
    apply (RInt_scal (V := R_CompleteNormedModule)). apply Xw. }
  assert (Ip : forall m, -1 < m < 1 -> legendre l m * RInt (fun x => lensing_lensing E z s m x) 0 1
    = scal (lensing_lensing_factor E z) (legendre l m * along P a b w (s * sqrt (1 - m * m)))).
  { intros m M. rewrite Im by exact M. unfold scal. cbn. unfold mult. cbn. match goal with |- ?u = ?v => change (@eq R u v) end. ring. }
  assert (Proj : RInt (fun m => legendre l m * RInt (fun x => lensing_lensing E z s m x) 0 1) (-1) 1
    = lensing_lensing_factor E z * RInt (fun x => w x * projected_flat P a b l (s * x)) 0 1).
  { rewrite (RInt_ext _ (fun m => scal (lensing_lensing_factor E z) (legendre l m * along P a b w (s * sqrt (1 - m * m))))).
    2:{ intros m M. rewrite Rmin_left, Rmax_right in M by lra. apply Ip. exact M. }
    etransitivity; [apply (RInt_scal (V := R_CompleteNormedModule)); apply (along_ex P a b Pab Pc w Cw)|].
    rewrite (exchange P a b Pab Pc w Cw). reflexivity. }
  split; [exact Xm|]. split; [|split; [exact Proj|]].
  - apply (ex_RInt_ext (fun m => scal (lensing_lensing_factor E z) (legendre l m * along P a b w (s * sqrt (1 - m * m))))).
    + intros m M. rewrite Rmin_left, Rmax_right in M by lra. symmetry. apply Ip. exact M.
    + apply (ex_RInt_scal (V := R_CompleteNormedModule)). apply (along_ex P a b Pab Pc w Cw).
  - rewrite Proj. destruct (Nat.even l) eqn:Ev.
    + apply Nat.even_spec in Ev. destruct Ev as [h ->].
      assert (V : forall x, 0 < x < 1 -> 2 * PI * PI * value (flat_len_len E z s (2 * h) x)
         = c * (INR (2 * (2 * h) + 1) / 2 * lensing_lensing_factor E z) * (w x * projected_flat P a b (2 * h) (s * x))).
      { intros x X. assert (R0 : 0 < x * s) by (apply Rmult_lt_0_compat; lra).
        unfold flat_len_len. rewrite all_present. cbn [value].
        pose proof (len_table P a b Pa Pab Pc (2 * h) (x * s) R0) as HTb. rewrite <- HL in HTb by exact R0.
        rewrite (gegenbauer_even P a b Pab Pc). rewrite (Rmult_comm s x). rewrite <- HTb.
        unfold w, lensing_weight, lensing_lensing_factor, central. cbv zeta.
        rewrite (Rmult_comm (spl E bg_comoving_distance z) x). set (u := spl E bg_z_as_chi _) in *.
        replace (2 * h / 2)%nat with h by (rewrite (Nat.mul_comm 2 h), Nat.div_mul; lia).
        pose proof (INR_fact_neq_0 h). pose proof (pow_nonzero 2 (2 * h) ltac:(lra)).
        assert (TT : (if nonlin then tab2 E (K 1 (Z.of_nat (2 * h)) false) result2d u (x * s)
                      else tab1 E (K 1 (Z.of_nat (2 * h)) false) result (x * s) * spl E bg_D1 u ^ 2)
                     = c * (spl E bg_D1 u ^ 2 * tab1 E (K 1 (Z.of_nat (2 * h)) false) result (x * s))).
        { destruct nonlin; [apply HN|rewrite HN; ring]. }
        revert TT. destruct nonlin; intros TT; [rewrite TT|]; (destruct (0 <? 2 * h)%nat);
          try (rewrite HN); field; repeat split; lra. }
      transitivity (RInt (fun x => scal (2 * PI * PI) (value (flat_len_len E z s (2 * h) x))) 0 1).
      * symmetry. apply (RInt_scal (V := R_CompleteNormedModule)).
        apply (ex_RInt_ext (fun x => scal (/ (2 * PI * PI) * (c * (INR (2 * (2 * h) + 1) / 2 * lensing_lensing_factor E z))) (w x * projected_flat P a b (2 * h) (s * x)))).
        -- intros x X. apply in_unit in X.
           change (/ (2 * PI * PI) * (c * (INR (2 * (2 * h) + 1) / 2 * lensing_lensing_factor E z)) * (w x * projected_flat P a b (2 * h) (s * x))
             = value (flat_len_len E z s (2 * h) x)).
           rewrite Rmult_assoc, <- (V x X). field. lra.
        -- apply (ex_RInt_scal (V := R_CompleteNormedModule)). apply (ex_RInt_continuous (V := R_CompleteNormedModule)). intros x X. rewrite Rmin_left, Rmax_right in X by lra.
           apply (continuous_mult (K := R_AbsRing)); [apply Cw; exact X|].
           apply (continuous_comp (fun x => s * x) (projected_flat P a b (2 * h))); [|apply (expands_cont _ _ _ (projected_flat_expands P a b Pab Pc (2 * h)))].
           apply (ex_derive_continuous (K := R_AbsRing) (V := R_NormedModule)). auto_derive. exact Logic.I.
      * rewrite (RInt_ext _ (fun x => scal (c * (INR (2 * (2 * h) + 1) / 2 * lensing_lensing_factor E z)) (w x * projected_flat P a b (2 * h) (s * x))))
          by (intros x X; apply V; apply in_unit; exact X).
        etransitivity; [apply (RInt_scal (V := R_CompleteNormedModule))|].
        -- apply (ex_RInt_continuous (V := R_CompleteNormedModule)). intros x X. rewrite Rmin_left, Rmax_right in X by lra.
           apply (continuous_mult (K := R_AbsRing)); [apply Cw; exact X|].
           apply (continuous_comp (fun x => s * x) (projected_flat P a b (2 * h))); [|apply (expands_cont _ _ _ (projected_flat_expands P a b Pab Pc (2 * h)))].
           apply (ex_derive_continuous (K := R_AbsRing) (V := R_NormedModule)). auto_derive. exact Logic.I.
        -- unfold scal. cbn -[INR Nat.mul Nat.add]. unfold mult. cbn -[INR Nat.mul Nat.add]. match goal with |- ?u = ?v => change (@eq R u v) end. ring.
    + assert (O : Nat.odd l = true) by (rewrite <- Nat.negb_even, Ev; reflexivity).
      rewrite (RInt_ext _ (fun _ => 0)); [rewrite zero_integral; ring|]. intros x _. rewrite (gegenbauer_odd P a b Pab Pc l _ O). apply Rmult_0_r.
Qed.
End Formulas.

(** ** From a run of the program to the formulas *)
Lemma complete_configured : forall E ells S cross t,
  complete (configured (set_output E t) ells S cross) = set_output (complete (configured E ells S cross)) t.
Proof.
  intros. unfold complete, configured, set_output. cbn [con sw spl tab1 tab2 present par_h omega_cdm omega_baryon]. cbv zeta. f_equal.
  apply functional_extensionality. intros []; reflexivity.
Qed.
Section Run.
Variables (E : env) (ells : list Z) (S : contrib -> bool) (cross : bool).
#[local] Notation Em := (configured (set_output E true) ells S cross).
#[local] Notation Ec := (configured (set_output E false) ells S cross).
#[local] Notation E0 := (complete (configured E ells S cross)).

Lemma run_multipole : forall z s l, In (Z.of_nat l) ells -> multipole Em z s l = multipole (set_output E0 true) z s l.
Proof.
  intros z s l I. unfold multipole. rewrite (signal_complete _ ells (configured_built _ ells S cross)).
  - rewrite complete_configured. reflexivity.
  - intros _. split; [reflexivity|exact I].
Qed.
Lemma run_xi : forall z s m, xi Ec z s m = xi (set_output E0 false) z s m.
Proof.
  intros z s m. unfold xi. rewrite (signal_complete _ ells (configured_built _ ells S cross)).
  - rewrite complete_configured. reflexivity.
  - discriminate.
Qed.
Lemma run_local_value : forall z m s, nonintegrated Em z m s = nonintegrated (set_output E0 true) z m s.
Proof. intros. rewrite (ni_complete _ ells (configured_built _ ells S cross)), complete_configured. reflexivity. Qed.
Lemma run_single_value : forall z m s x, single_integrated Em z m s x = single_integrated (set_output E0 true) z m s x.
Proof. intros. rewrite (si_complete _ ells (configured_built _ ells S cross)), complete_configured. reflexivity. Qed.
Lemma run_double_value : forall z m s x y, double_integrated Em z m s x y = double_integrated (set_output E0 true) z m s x y.
Proof. intros. rewrite (di_complete _ ells (configured_built _ ells S cross)), complete_configured. reflexivity. Qed.
Lemma run_integrable : forall z s l, integrable Em z s l <-> integrable (set_output E0 true) z s l.
Proof.
  intros z s l.
  assert (N : nonintegrated Em = nonintegrated (set_output E0 true))
    by (do 3 (apply functional_extensionality; intros ?); apply run_local_value).
  assert (I1 : single_integrated Em = single_integrated (set_output E0 true))
    by (do 4 (apply functional_extensionality; intros ?); apply run_single_value).
  assert (I2 : double_integrated Em = double_integrated (set_output E0 true))
    by (do 5 (apply functional_extensionality; intros ?); apply run_double_value).
  split; intros [A B C D F G]; [rewrite N, I1, I2 in *|rewrite <- N, <- I1, <- I2 in *]; constructor; assumption.
Qed.
End Run.

(** ** C81: with the flat-sky options the multipoles are still projections *)
Theorem C81_projection : forall E ells S cross P a b z s l,
  let Em := configured (set_output E true) ells S cross in
  let Ec := configured (set_output E false) ells S cross in
  In (Z.of_nat l) ells -> 0 < s ->
  sw E pk_nonlinear && sw E midpoint = false ->
  lensing_tables E P a b -> smooth_background E z -> integrable Em z s l ->
  multipole Em z s l = INR (2 * l + 1) / 2 * RInt (fun m => legendre l m * xi Ec z s m) (-1) 1.
Proof.
  intros E ells S cross P a b z s l Em Ec I Ps Lin [Pa Pab Pc TF TL TD] SB HI.
  unfold Em. rewrite run_multipole by exact I.
  rewrite (RInt_ext (fun m => legendre l m * xi Ec z s m) (fun m => legendre l m * xi (set_output (complete (configured E ells S cross)) false) z s m))
    by (intros m _; unfold Ec; rewrite run_xi; reflexivity).
  apply run_integrable in HI. set (E0 := complete (configured E ells S cross)) in *.
  assert (Hp : forall k, present E0 k = true) by reflexivity.
  assert (Hp' : forall k, present (set_output E0 true) k = true) by reflexivity.
  apply flat_projection; [exact Hp|exact HI| |]; intros _.
  - destruct (density_lensing_formula (set_output E0 true) Hp' P a b Pa Pab Pc z s Ps l) as [X V].
    { intros m. change (sw (set_output E0 true) pk_nonlinear && sw (set_output E0 true) midpoint) with (sw E pk_nonlinear && sw E midpoint).
      rewrite Lin. apply TD. exact Ps. }
    change (sw (set_output E0 true) pk_nonlinear && sw (set_output E0 true) midpoint) with (sw E pk_nonlinear && sw E midpoint) in V. rewrite Lin in V.
    assert (EQ : forall m, -1 < m < 1 -> legendre l m * density_lensing E0 z s m
      = scal (density_lensing_factor E0 z s * (spl E bg_D1 z * spl E bg_D1 z)) (legendre l m * (Rabs m * flat_integral P a b (s * sqrt (1 - m * m))))).
    { intros m M. unfold density_lensing, density_lensing_table.
      change (sw E0 pk_nonlinear && sw E0 midpoint) with (sw E pk_nonlinear && sw E midpoint). rewrite Lin.
      change (tab1 E0) with (tab1 E). rewrite TF by (apply Rmult_lt_0_compat; [exact Ps|apply in_circle; exact M]).
      change (spl E0) with (spl E).
      match goal with |- _ = scal ?u ?v => change (scal u v) with (u * v) end. ring. }
    split.
    + eapply ex_RInt_ext; [|apply (ex_RInt_scal (V := R_CompleteNormedModule)); exact X].
      intros m M. rewrite Rmin_left, Rmax_right in M by lra. symmetry. apply EQ. exact M.
    + rewrite V. apply f_equal. symmetry. etransitivity; [apply RInt_ext; intros m M; rewrite Rmin_left, Rmax_right in M by lra; apply EQ; exact M|].
      apply (RInt_scal (V := R_CompleteNormedModule)). exact X.
  - destruct (lensing_lensing_formula (set_output E0 true) Hp' P a b Pa Pab Pc z s Ps l 1) as (A & B & _ & V).
    + destruct SB. constructor; assumption.
    + exact TF.
    + apply TL.
    + change (sw (set_output E0 true) pk_nonlinear && sw (set_output E0 true) midpoint) with (sw E pk_nonlinear && sw E midpoint). rewrite Lin. reflexivity.
    + rewrite Rmult_1_l in V. split; [exact A|split; [exact B|exact V]].
Qed.
Print Assumptions C81_projection.

(** ** Signs *)
Lemma poisson_positive : forall p x, Rabs x <= 1 -> 0 < poisson p x.
Proof.
  intros p x X. pose proof PI_RGT_0 as Pp. pose proof PI2_3_2 as P2. unfold poisson. apply RInt_gt_0; [exact Pp| |].
  - intros t T. apply Rmult_lt_0_compat; [|apply pow_lt, sin_gt_0; lra].
    assert (A : Rabs (x * cos t) <= 1).
    { rewrite Rabs_mult. rewrite <- (Rmult_1_l 1). apply Rmult_le_compat; try apply Rabs_pos; [exact X|]. apply Rabs_le. apply COS_bound. }
    apply Rabs_le_between in A. apply cos_gt_0; lra.
  - intros t _. apply (ex_derive_continuous (K := R_AbsRing) (V := R_NormedModule)). auto_derive. exact Logic.I.
Qed.
Section Signs.
Variables (P : R -> R) (a b : R).
Hypotheses (Pa : 0 < a) (Pab : a < b) (Pc : forall k, a <= k <= b -> continuous P k) (Pp : forall k, a < k < b -> 0 < P k).
Lemma small_argument : forall k r, a < k < b -> 0 <= r -> b * r <= 1 -> Rabs (k * r) <= 1.
Proof. intros k r K R0 B. rewrite Rabs_pos_eq by nra. nra. Qed.
Lemma poisson_cont_at : forall p r k, continuous (fun k => poisson p (k * r)) k.
Proof.
  intros p r k. apply (continuous_comp (fun k => k * r) (poisson p)).
  - apply (ex_derive_continuous (K := R_AbsRing) (V := R_NormedModule)). auto_derive. exact Logic.I.
  - apply (expands_cont _ _ _ (poisson_expands p)).
Qed.
Lemma pow_mult_cont : forall n k, a <= k <= b -> continuous (fun k => k ^ n * P k) k.
Proof.
  intros n k K. apply (continuous_mult (K := R_AbsRing)); [|apply Pc; exact K].
  apply (ex_derive_continuous (K := R_AbsRing) (V := R_NormedModule)). auto_derive. exact Logic.I.
Qed.
Lemma wave_positive : forall p n r, 0 <= r -> b * r <= 1 -> 0 < wave P a b p n r.
Proof.
  intros p n r R0 B. unfold wave. apply RInt_gt_0; [exact Pab| |].
  - intros k K. apply Rmult_lt_0_compat; [apply Rmult_lt_0_compat; [apply pow_lt; lra|apply Pp; exact K]|].
    apply poisson_positive, small_argument; assumption.
  - intros k K. apply (continuous_mult (K := R_AbsRing) (fun k => k ^ n * P k)); [apply pow_mult_cont; exact K|apply poisson_cont_at].
Qed.
Lemma projected_positive : forall r, 0 <= r -> b * r <= 1 -> 0 < projected_flat P a b 0 r.
Proof.
  intros r R0 B. pose proof (gegenbauer_even P a b (Rlt_le _ _ Pab) Pc 0 r) as G. change (2 * 0)%nat with 0%nat in G. rewrite G.
  replace (central 0) with 1 by (unfold central; cbn; field).
  assert (W : 0 < RInt (fun k => k * P k * spherical_bessel 0 (k * r)) a b); [|lra].
  rewrite (RInt_ext _ (fun k => scal (/ 2) (k ^ 1 * P k * poisson 1 (k * r)))).
  - pose proof (wave_positive 1 1 r R0 B) as W. unfold wave in W.
    pose proof (RInt_scal (V := R_CompleteNormedModule) _ a b (/ 2) (wave_ex P a b (Rlt_le _ _ Pab) Pc 1 1 r)) as SC.
    eapply Rlt_le_trans; [|right; symmetry; exact SC].
    match goal with |- 0 < scal ?u ?v => change (0 < u * v) end. lra.
  - intros k _. unfold spherical_bessel. match goal with |- _ = scal ?u ?v => change (scal u v) with (u * v) end.
    change (2 * 0 + 1)%nat with 1%nat. cbn [pow fact Nat.add INR]. match goal with |- ?u = ?v => change (@eq R u v) end. field.
Qed.
End Signs.

(** ** A configuration in which only the flat-sky terms are left *)
Section Silent.
Variable E : env.
Hypothesis all_present : forall k, present E k = true.
#[local] Notation Em := (set_output E true).
Hypotheses (N0 : forall z m s, value (nonintegrated Em z m s) = 0)
  (N1 : forall z m s x, value (single_integrated Em z m s x) = 0)
  (N2 : forall z m s x y, value (double_integrated Em z m s x y) = 0).
Lemma silent_integrable : forall z s l, integrable Em z s l.
Proof.
  intros z s l. constructor.
  - apply zero_integrable. intros m. rewrite N0. apply Rmult_0_r.
  - intros m _. apply zero_integrable. intros x. apply N1.
  - apply zero_integrable. intros m. rewrite (proj2 (zero_integrable _ 0 1 (N1 z m s))). apply Rmult_0_r.
  - intros m x _ _. apply zero_integrable. intros y. apply N2.
  - intros m _. apply zero_integrable. intros x. apply zero_integrable. intros y. apply N2.
  - apply zero_integrable. intros m. rewrite (proj2 (zero_integrable _ 0 1 (fun x => proj2 (zero_integrable _ 0 1 (N2 z m s x))))). apply Rmult_0_r.
Qed.
Lemma silent_parts : forall z s l, other_parts E z s l = 0.
Proof.
  intros z s l. unfold other_parts, projection, local_part, single_part, double_part.
  rewrite (RInt_ext (fun m => legendre l m * (if local_on Em then value (nonintegrated Em z m s) else 0)) (fun _ => 0))
    by (intros m _; destruct (local_on Em); [rewrite N0|]; apply Rmult_0_r).
  rewrite (RInt_ext (fun m => legendre l m * (if single_on Em then RInt (fun x => value (single_integrated Em z m s x)) 0 1 else 0)) (fun _ => 0))
    by (intros m _; destruct (single_on Em); [rewrite (proj2 (zero_integrable _ 0 1 (N1 z m s)))|]; apply Rmult_0_r).
  rewrite (RInt_ext (fun m => legendre l m * (if integrated_on Em then RInt (fun x => RInt (fun y => value (double_integrated Em z m s x y)) 0 1) 0 1 else 0)) (fun _ => 0))
    by (intros m _; destruct (integrated_on Em); [rewrite (proj2 (zero_integrable _ 0 1 (fun x => proj2 (zero_integrable _ 0 1 (N2 z m s x)))))|]; apply Rmult_0_r).
  rewrite !zero_integral. ring.
Qed.
End Silent.

Definition galaxies_lensing : contrib -> bool := fun c => match c with den | len => true | _ => false end.
Definition lensing_only : contrib -> bool := fun c => match c with len => true | _ => false end.
Section Alone.
Variables (E : env) (ells : list Z).
#[local] Notation E1 := (complete (configured E ells galaxies_lensing true)).
#[local] Notation E2 := (complete (configured E ells lensing_only false)).
Lemma cross_local : forall z m s, value (nonintegrated (set_output E1 true) z m s) = 0.
Proof.
  intros. rewrite <- (with_set_same (set_output E1 true)), ni_value by reflexivity. rewrite sum_zero; [apply Rmult_0_l|].
  intros [[p q] t] Hb. apply picked_off. apply in_map with (f := fst) in Hb. cbn [fst] in Hb.
  revert Hb. cbn [map ni_blocks fst]. intros Hb. cbn [In] in Hb.
  repeat destruct Hb as [Hb|Hb]; try contradiction; inversion Hb; subst; reflexivity.
Qed.
Lemma cross_single : sw E flatsky_local_nonlocal = true -> forall z m s x, value (single_integrated (set_output E1 true) z m s x) = 0.
Proof.
  intros F z m s x. rewrite <- (with_set_same (set_output E1 true)). apply single_full_off; [reflexivity|reflexivity|].
  unfold single_full_on. cbn [with_set con sw set_output complete configured]. rewrite F. reflexivity.
Qed.
Lemma cross_double : forall z m s x y, value (double_integrated (set_output E1 true) z m s x y) = 0.
Proof.
  intros. rewrite <- (with_set_same (set_output E1 true)), di_value by reflexivity. rewrite sum_zero; [apply Rmult_0_l|].
  intros [[p q] t] Hb. apply picked_off. apply in_map with (f := fst) in Hb. cbn [fst] in Hb.
  revert Hb. cbn [map di_blocks fst]. intros Hb. cbn [In] in Hb.
  repeat destruct Hb as [Hb|Hb]; try contradiction; inversion Hb; subst; reflexivity.
Qed.
Lemma alone_local : forall z m s, value (nonintegrated (set_output E2 true) z m s) = 0.
Proof. intros. rewrite <- (with_set_same (set_output E2 true)). apply ni_off; reflexivity. Qed.
Lemma alone_single : forall z m s x, value (single_integrated (set_output E2 true) z m s x) = 0.
Proof. intros. rewrite <- (with_set_same (set_output E2 true)). apply si_off; reflexivity. Qed.
Lemma alone_double : sw E flatsky_nonlocal = true -> forall z m s x y, value (double_integrated (set_output E2 true) z m s x y) = 0.
Proof.
  intros F z m s x y. rewrite <- (with_set_same (set_output E2 true)). apply double_full_off; [reflexivity|reflexivity|].
  cbn [sw con set_output complete configured]. rewrite F. reflexivity.
Qed.
End Alone.

(** ** Nonlinear spectra *)

(** The tables of the evolved spectrum at one redshift: the same integrals, except that the
    flat-sky one is not rescaled (C79_flat_refuted). *)
Record evolved_lensing_tables (E : env) (P : R -> R) (a b z : R) : Prop := {
  el_low : 0 < a;
  el_range : a < b;
  el_cont : forall k, a <= k <= b -> continuous P k;
  el_flat : forall r, 0 < r -> tab2 E (K 1 (-1) true) result2d z r = tabulated P HalfInteger 1 (-1) a b r;
  el_den : forall m r, 0 < r -> tab2 E (K (2 * Z.of_nat m + 3) (2 * Z.of_nat m + 1) true) result2d z r
             = tabulated P HalfInteger (2 * Z.of_nat m + 3) (2 * Z.of_nat m + 1) a b r }.

(** With a nonlinear spectrum the density-lensing multipoles are more than 12 times the
    projections of the density-lensing correlation function. *)
Theorem C81_nonlinear_density_refuted : forall E ells P a b z s,
  let Em := configured (set_output E true) ells galaxies_lensing true in
  let Ec := configured (set_output E false) ells galaxies_lensing true in
  0 < s -> sw E flatsky_local_nonlocal = true -> sw E pk_nonlinear = true -> sw E midpoint = true ->
  evolved_lensing_tables E P a b z ->
  12 < sqrt (2 / PI) * 2 * PI * PI /\
  (forall l, integrable Em z s l) /\
  (forall l, In (Z.of_nat l) ells ->
     multipole Em z s l = sqrt (2 / PI) * 2 * PI * PI
       * (INR (2 * l + 1) / 2 * RInt (fun m => legendre l m * xi Ec z s m) (-1) 1)) /\
  (In 0%Z ells -> density_lensing_factor E z s <> 0 -> b * s <= 1 -> (forall k, a < k < b -> 0 < P k) ->
     multipole Em z s 0 <> INR (2 * 0 + 1) / 2 * RInt (fun m => legendre 0 m * xi Ec z s m) (-1) 1).
Proof.
  intros E ells P a b z s Em Ec Ps Fl Nl Mid [Pa Pab Pc TF TD].
  set (E0 := complete (configured E ells galaxies_lensing true)).
  set (F := sqrt (2 / PI) * 2 * PI * PI).
  assert (F12 : 12 < F).
  { unfold F. pose proof PI2_3_2. pose proof PI_4. assert (Q : 1 / 4 <= 2 / PI) by (apply Rmult_le_reg_r with PI; [lra|]; unfold Rdiv; rewrite (Rmult_assoc 2), Rinv_l by lra; lra).
    assert (R2 : 7 / 10 < sqrt (2 / PI)).
    { rewrite <- (sqrt_square (7 / 10)) by lra. apply sqrt_lt_1; [lra|lra|]. apply Rmult_lt_reg_r with PI; [lra|]. unfold Rdiv at 3. rewrite (Rmult_assoc 2), Rinv_l by lra. lra. }
    assert (9 < PI * PI) by nra. nra. }
  assert (Hp' : forall k, present (set_output E0 true) k = true) by reflexivity.
  assert (N0 := cross_local E ells). assert (N1 := cross_single E ells Fl). assert (N2 := cross_double E ells). fold E0 in N0, N1, N2.
  assert (HI : forall l, integrable (set_output E0 true) z s l) by (intros l; apply silent_integrable; assumption).
  assert (NLm : sw (set_output E0 true) pk_nonlinear && sw (set_output E0 true) midpoint = true)
    by (change (sw E pk_nonlinear && sw E midpoint = true); rewrite Nl, Mid; reflexivity).
  assert (DLF : forall l, ex_RInt (fun m => legendre l m * (Rabs m * flat_integral P a b (s * sqrt (1 - m * m)))) (-1) 1 /\
    2 * PI * PI * value (flat_den_len (set_output E0 true) z s l)
    = INR (2 * l + 1) / 2 * (density_lensing_factor E z s * RInt (fun m => legendre l m * (Rabs m * flat_integral P a b (s * sqrt (1 - m * m)))) (-1) 1)).
  { intros l. destruct (density_lensing_formula (set_output E0 true) Hp' P a b Pa (Rlt_le _ _ Pab) Pc z s Ps l) as [X V].
    - intros m. rewrite NLm. apply TD. exact Ps.
    - rewrite NLm in V. rewrite Rmult_1_r in V. split; [exact X|exact V]. }
  assert (EQ : forall l m, -1 < m < 1 -> legendre l m * density_lensing E0 z s m
     = scal (density_lensing_factor E z s / F) (legendre l m * (Rabs m * flat_integral P a b (s * sqrt (1 - m * m))))).
  { intros l m M. unfold density_lensing, density_lensing_table.
    change (sw E0 pk_nonlinear && sw E0 midpoint) with (sw E pk_nonlinear && sw E midpoint). rewrite Nl, Mid. cbn [andb].
    assert (R0 : 0 < s * sqrt (1 - m * m)) by (apply Rmult_lt_0_compat; [exact Ps|apply in_circle; exact M]).
    change (tab2 E0) with (tab2 E). rewrite TF by exact R0. rewrite <- (flat_tabulated P a b _ Pa (Rlt_le _ _ Pab) Pc R0). fold F.
    change (density_lensing_factor E0 z s) with (density_lensing_factor E z s).
    match goal with |- _ = scal ?u ?v => change (scal u v) with (u * v) end. field. lra. }
  assert (XD : forall l, ex_RInt (fun m => legendre l m * density_lensing E0 z s m) (-1) 1).
  { intros l. eapply ex_RInt_ext; [|apply (ex_RInt_scal (V := R_CompleteNormedModule)); exact (proj1 (DLF l))].
    intros m M. rewrite Rmin_left, Rmax_right in M by lra. symmetry. apply EQ. exact M. }
  assert (ID : forall l, RInt (fun m => legendre l m * density_lensing E0 z s m) (-1) 1
     = density_lensing_factor E z s / F * RInt (fun m => legendre l m * (Rabs m * flat_integral P a b (s * sqrt (1 - m * m)))) (-1) 1).
  { intros l. etransitivity; [apply RInt_ext; intros m M; rewrite Rmin_left, Rmax_right in M by lra; apply EQ; exact M|].
    apply (RInt_scal (V := R_CompleteNormedModule)). exact (proj1 (DLF l)). }
  assert (On : density_lensing_on E0 = true) by exact Fl.
  assert (Off : lensing_lensing_on E0 = false) by reflexivity.
  assert (Parts : forall l, In (Z.of_nat l) ells ->
     multipole Em z s l = INR (2 * l + 1) / 2 * (density_lensing_factor E z s * RInt (fun m => legendre l m * (Rabs m * flat_integral P a b (s * sqrt (1 - m * m)))) (-1) 1) /\
     INR (2 * l + 1) / 2 * RInt (fun m => legendre l m * xi Ec z s m) (-1) 1
     = INR (2 * l + 1) / 2 * (density_lensing_factor E z s / F * RInt (fun m => legendre l m * (Rabs m * flat_integral P a b (s * sqrt (1 - m * m)))) (-1) 1)).
  { intros l I. unfold Em. rewrite run_multipole by exact I.
    rewrite (RInt_ext (fun m => legendre l m * xi Ec z s m) (fun m => legendre l m * xi (set_output E0 false) z s m))
      by (intros m _; unfold Ec; rewrite run_xi; reflexivity).
    fold E0. destruct (flat_parts E0 ltac:(reflexivity) z s l (HI l)) as [-> ->].
    - intros _. apply XD.
    - rewrite Off. discriminate.
    - rewrite On, Off, (silent_parts E0 N0 N1 N2), ID, (proj2 (DLF l)). rewrite !Rplus_0_l, !Rplus_0_r. split; reflexivity. }
  split; [exact F12|]. split; [intros l; apply run_integrable, HI|]. split.
  - intros l I. destruct (Parts l I) as [-> ->]. field. lra.
  - intros I NF Bs Pp Eq. destruct (Parts 0%nat I) as [M X]. rewrite M, X in Eq.
    destruct (folded_even P a b (Rlt_le _ _ Pab) Pc 0 s) as [_ I0]. change (2 * 0)%nat with 0%nat in I0. change (2 * 0 + 1)%nat with 1%nat in Eq.
    assert (W : 0 < RInt (fun m => legendre 0 m * (Rabs m * flat_integral P a b (s * sqrt (1 - m * m)))) (-1) 1).
    { rewrite I0. cbn [psum Nat.sub Nat.add Nat.mul]. change (0 - 0)%nat with 0%nat.
      pose proof (wave_positive P a b Pa Pab Pc Pp 2 1 s (Rlt_le _ _ Ps) Bs) as W. pose proof PI_RGT_0.
      replace (power_coefficient 0 0) with 1.
      2:{ unfold power_coefficient. cbn. unfold Binomial.C. cbn. field. }
      replace (odd_factorial 1) with 1 by (unfold odd_factorial; cbn; field).
      cbn [pow fact INR]. replace (2 * (0 + 1 * (1 * 1 / (1 * PI) * wave P a b 2 1 s))) with (2 / PI * wave P a b 2 1 s) by (field; lra).
      apply Rmult_lt_0_compat; [apply Rdiv_lt_0_compat; lra|exact W]. }
    cbn [INR] in Eq. set (J := RInt _ _ _) in *. apply Rmult_eq_reg_l in Eq; [|lra].
    assert (Eq' : density_lensing_factor E z s * J * (F - 1) = 0).
    { replace (density_lensing_factor E z s * J * (F - 1)) with (F * (density_lensing_factor E z s * J - density_lensing_factor E z s / F * J)) by (field; lra). rewrite Eq. ring. }
    apply Rmult_integral in Eq'. destruct Eq' as [Eq'|Eq']; [|lra]. apply Rmult_integral in Eq'. destruct Eq' as [Eq'|Eq']; [contradiction|lra].
Qed.
Print Assumptions C81_nonlinear_density_refuted.

(** The lensing correlation function always takes the linear spectrum in the flat sky
    (functions.c:3521-3561) while the multipoles take the evolved one (functions.c:4047-4081):
    a spectrum [c] times the linear one multiplies the multipoles by [c] and leaves the
    correlation function alone. *)
Theorem C81_nonlinear_lensing_refuted : forall E ells P a b z s c,
  let Em := configured (set_output E true) ells lensing_only false in
  let Ec := configured (set_output E false) ells lensing_only false in
  0 < s -> sw E flatsky_nonlocal = true -> sw E pk_nonlinear = true -> sw E midpoint = true ->
  lensing_tables E P a b -> smooth_background E z ->
  (forall l u r, tab2 E (K 1 (Z.of_nat l) false) result2d u r
     = c * (spl E bg_D1 u ^ 2 * tab1 E (K 1 (Z.of_nat l) false) result r)) ->
  (forall l, integrable Em z s l) /\
  (forall l, In (Z.of_nat l) ells ->
     multipole Em z s l = c * (INR (2 * l + 1) / 2 * RInt (fun m => legendre l m * xi Ec z s m) (-1) 1)) /\
  (In 0%Z ells -> c <> 1 -> lensing_lensing_factor E z <> 0 -> a < b -> b * s <= 1 -> (forall k, a < k < b -> 0 < P k) ->
     (forall x, 0 < x < 1 -> 0 < lensing_weight E z x) ->
     multipole Em z s 0 <> INR (2 * 0 + 1) / 2 * RInt (fun m => legendre 0 m * xi Ec z s m) (-1) 1).
Proof.
  intros E ells P a b z s c Em Ec Ps Fl Nl Mid [Pa Pab Pc TF TL TD] SB HN.
  set (E0 := complete (configured E ells lensing_only false)).
  assert (Hp' : forall k, present (set_output E0 true) k = true) by reflexivity.
  assert (N0 := alone_local E ells). assert (N1 := alone_single E ells). assert (N2 := alone_double E ells Fl). fold E0 in N0, N1, N2.
  assert (HI : forall l, integrable (set_output E0 true) z s l) by (intros l; apply silent_integrable; assumption).
  assert (NLm : sw (set_output E0 true) pk_nonlinear && sw (set_output E0 true) midpoint = true)
    by (change (sw E pk_nonlinear && sw E midpoint = true); rewrite Nl, Mid; reflexivity).
  assert (SB' : smooth_background (set_output E0 true) z) by (destruct SB; constructor; assumption).
  assert (LL : forall l, (forall m, -1 < m < 1 -> ex_RInt (fun x => lensing_lensing E0 z s m x) 0 1) /\
    ex_RInt (fun m => legendre l m * RInt (fun x => lensing_lensing E0 z s m x) 0 1) (-1) 1 /\
    RInt (fun m => legendre l m * RInt (fun x => lensing_lensing E0 z s m x) 0 1) (-1) 1
    = lensing_lensing_factor E z * RInt (fun x => lensing_weight E z x * projected_flat P a b l (s * x)) 0 1 /\
    (if Nat.even l then 2 * PI * PI * RInt (fun x => value (flat_len_len (set_output E0 true) z s l x)) 0 1 else 0)
    = c * (INR (2 * l + 1) / 2 * RInt (fun m => legendre l m * RInt (fun x => lensing_lensing E0 z s m x) 0 1) (-1) 1)).
  { intros l. apply (lensing_lensing_formula (set_output E0 true) Hp' P a b Pa Pab Pc z s Ps l c SB' TF (TL l)).
    rewrite NLm. intros u r. apply HN. }
  assert (On : lensing_lensing_on E0 = true) by exact Fl.
  assert (Off : density_lensing_on E0 = false) by reflexivity.
  assert (Parts : forall l, In (Z.of_nat l) ells ->
     multipole Em z s l = c * (INR (2 * l + 1) / 2 * (lensing_lensing_factor E z * RInt (fun x => lensing_weight E z x * projected_flat P a b l (s * x)) 0 1)) /\
     INR (2 * l + 1) / 2 * RInt (fun m => legendre l m * xi Ec z s m) (-1) 1
     = INR (2 * l + 1) / 2 * (lensing_lensing_factor E z * RInt (fun x => lensing_weight E z x * projected_flat P a b l (s * x)) 0 1)).
  { intros l I. unfold Em. rewrite run_multipole by exact I.
    rewrite (RInt_ext (fun m => legendre l m * xi Ec z s m) (fun m => legendre l m * xi (set_output E0 false) z s m))
      by (intros m _; unfold Ec; rewrite run_xi; reflexivity).
    fold E0. destruct (LL l) as (A & B & C & D). destruct (flat_parts E0 ltac:(reflexivity) z s l (HI l)) as [-> ->].
    - rewrite Off. discriminate.
    - intros _. split; [exact A|exact B].
    - rewrite On, Off, (silent_parts E0 N0 N1 N2), D, C. rewrite !Rplus_0_l. split; reflexivity. }
  split; [intros l; apply run_integrable, HI|]. split.
  - intros l I. destruct (Parts l I) as [-> ->]. reflexivity.
  - intros I NC NF AB Bs Pp Wp Eq. destruct (Parts 0%nat I) as [M X]. rewrite M, X in Eq. change (2 * 0 + 1)%nat with 1%nat in Eq.
    assert (W : 0 < RInt (fun x => lensing_weight E z x * projected_flat P a b 0 (s * x)) 0 1).
    { apply RInt_gt_0; [lra| |].
      - intros x Hx. apply Rmult_lt_0_compat; [apply Wp; exact Hx|]. apply projected_positive; try assumption; [apply Rmult_le_pos; lra|].
        apply Rle_trans with (b * s); [|exact Bs]. apply Rmult_le_compat_l; [lra|]. rewrite <- (Rmult_1_r s) at 2. apply Rmult_le_compat_l; lra.
      - intros x Hx. apply (continuous_mult (K := R_AbsRing)); [apply (lensing_weight_cont E z SB); exact Hx|].
        apply (continuous_comp (fun x => s * x) (projected_flat P a b 0)); [|apply (expands_cont _ _ _ (projected_flat_expands P a b Pab Pc 0))].
        apply (ex_derive_continuous (K := R_AbsRing) (V := R_NormedModule)). auto_derive. exact Logic.I. }
    cbn [INR] in Eq. set (J := RInt _ _ _) in *.
    assert (Eq' : (c - 1) * (lensing_lensing_factor E z * J) = 0) by lra.
    apply Rmult_integral in Eq'. destruct Eq' as [Eq'|Eq']; [lra|]. apply Rmult_integral in Eq'. destruct Eq' as [Eq'|Eq']; [contradiction|lra].
Qed.
Print Assumptions C81_nonlinear_lensing_refuted.

(** ** Universes that meet the hypotheses *)

(** The universe [plane] with a spectrum equal to 1 between 1 and 2, both flat-sky options and,
    if asked for, an evolved spectrum [c] times the linear one (the growth is 1). *)
Definition unit_spectrum : R -> R := fun _ => 1.
Definition lensed_table (k : key) (r : R) : R :=
  match k with K n l h => if h then tabulated unit_spectrum HalfInteger n l 1 2 r else tabulated unit_spectrum Integer n l 1 2 r end.
Definition lensed (nonlinear : bool) (c : R) : env :=
  mkEnv (fun _ => false)
    (fun f => match f with flatsky_local | flatsky_local_nonlocal | flatsky_nonlocal => true
                         | pk_nonlinear | midpoint => nonlinear | _ => false end)
    (spl plane)
    (fun k _ r => match k with K 1 (-1) true => flat_integral unit_spectrum 1 2 r | _ => lensed_table k r end)
    (fun k _ _ r => c * lensed_table k r) (fun _ => false) 1 (1 / 4) (3 / 4).
Lemma lensed_tables : forall n c, lensing_tables (lensed n c) unit_spectrum 1 2.
Proof.
  intros n c. constructor; try lra.
  - intros k _. apply continuous_const.
  - reflexivity.
  - intros l r _. cbn [lensed tab1]. destruct (Z.of_nat l) eqn:Q; try reflexivity. exfalso; lia.
  - intros m r _. cbn [lensed tab1]. destruct (2 * Z.of_nat m + 3)%Z as [|p|p] eqn:Q; try lia. destruct p; try reflexivity. lia.
Qed.
Lemma lensed_background : forall n c z, smooth_background (lensed n c) z.
Proof.
  intros n c z. constructor; intros x _; cbn [lensed spl plane]; [|apply continuous_const].
  apply (ex_derive_continuous (K := R_AbsRing) (V := R_NormedModule)). auto_derive. exact Logic.I.
Qed.

(** Density and lensing with their auto-correlations: every hypothesis holds, and the two
    flat-sky formulas are both in use. *)
Definition density_only : contrib -> bool := fun c => match c with den => true | _ => false end.
Lemma lensed_integrable : forall ells z s l,
  integrable (configured (set_output (lensed false 1) true) ells galaxies_lensing false) z s l.
Proof.
  intros ells z s l. apply run_integrable. set (E0 := complete (configured (lensed false 1) ells galaxies_lensing false)).
  set (D := configured (set_output (lensed false 1) true) ells density_only false).
  assert (FL : flat_local D).
  { constructor; [reflexivity|repeat split|]. intros []; try discriminate; reflexivity. }
  pose proof (flat_integrable D ells (configured_built _ _ _ _) FL z s l) as [L _ _ _ _ _].
  assert (N1 : forall m x, value (single_integrated (set_output E0 true) z m s x) = 0).
  { intros m x. rewrite <- (with_set_same (set_output E0 true)). apply single_full_off; reflexivity. }
  assert (N2 : forall m x y, value (double_integrated (set_output E0 true) z m s x y) = 0).
  { intros m x y. rewrite <- (with_set_same (set_output E0 true)). apply double_full_off; reflexivity. }
  constructor.
  - eapply ex_RInt_ext; [|exact L]. intros m _. cbv beta. apply f_equal. unfold D.
    rewrite run_local_value. set (E1 := complete (configured (lensed false 1) ells density_only false)).
    assert (Same : set_output E1 true = with_set (set_output E0 true) density_only false).
    { unfold E1, E0, set_output, with_set, complete, configured. cbn [con sw spl tab1 tab2 present par_h omega_cdm omega_baryon]. f_equal.
      apply functional_extensionality. intros []; reflexivity. }
    rewrite Same. rewrite <- (with_set_same (set_output E0 true)) at 2. rewrite !ni_value by reflexivity.
    apply f_equal2; [|reflexivity]. unfold sum_over. apply f_equal. apply map_ext_in. intros [[p q] t] Hb.
    unfold picked. replace (guard (con (set_output E0 true)) (sw (set_output E0 true) only_cross) p q)
      with (guard density_only false p q); [reflexivity|].
    apply in_map with (f := fst) in Hb. cbn [fst] in Hb. revert Hb. cbn [map ni_blocks fst]. intros Hb. cbn [In] in Hb.
    repeat destruct Hb as [Hb|Hb]; try contradiction; inversion Hb; subst; reflexivity.
  - intros m _. apply zero_integrable. intros x. apply N1.
  - apply zero_integrable. intros m. rewrite (proj2 (zero_integrable _ 0 1 (N1 m))). apply Rmult_0_r.
  - intros m x _ _. apply zero_integrable. intros y. apply N2.
  - intros m _. apply zero_integrable. intros x. apply zero_integrable. intros y. apply N2.
  - apply zero_integrable. intros m. rewrite (proj2 (zero_integrable _ 0 1 (fun x => proj2 (zero_integrable _ 0 1 (N2 m x))))). apply Rmult_0_r.
Qed.
Example C81_met : forall s l, 0 < s -> In (Z.of_nat l) [0; 2; 4]%Z ->
  let E := lensed false 1 in
  let Em := configured (set_output E true) [0; 2; 4]%Z galaxies_lensing false in
  let Ec := configured (set_output E false) [0; 2; 4]%Z galaxies_lensing false in
  density_lensing_on Em = true /\ lensing_lensing_on Em = true /\
  multipole Em 1 s l = INR (2 * l + 1) / 2 * RInt (fun m => legendre l m * xi Ec 1 s m) (-1) 1.
Proof.
  intros s l Ps I E Em Ec. split; [reflexivity|]. split; [reflexivity|].
  apply (C81_projection E [0; 2; 4]%Z galaxies_lensing false unit_spectrum 1 2 1 s l); try assumption; try reflexivity.
  - apply lensed_tables.
  - apply lensed_background.
  - apply lensed_integrable.
Qed.
Print Assumptions C81_met.

Lemma lensed_factors : forall n c s, density_lensing_factor (lensed n c) 1 s = - (coffe_H0 * 1) ^ 2 * (3 / PI / 8 * 12) * s
  /\ lensing_lensing_factor (lensed n c) 1 = (coffe_H0 * 1) ^ 4 * (36 * 1000 / 8 / PI).
Proof.
  intros n c s. pose proof PI_RGT_0. unfold density_lensing_factor, lensing_lensing_factor.
  cbn [lensed spl plane omega_cdm omega_baryon par_h]. split; field; lra.
Qed.
Lemma lensed_evolved : evolved_lensing_tables (lensed true 1) unit_spectrum 1 2 1.
Proof.
  constructor; try lra.
  - intros k _. apply continuous_const.
  - intros r _. cbn [lensed tab2 lensed_table]. apply Rmult_1_l.
  - intros m r _. cbn [lensed tab2 lensed_table]. apply Rmult_1_l.
Qed.
(** The monopole of density-lensing is not the projection. *)
Example C81_nonlinear_density_met :
  let E := lensed true 1 in
  multipole (configured (set_output E true) [0]%Z galaxies_lensing true) 1 (1 / 2) 0
  <> INR (2 * 0 + 1) / 2 * RInt (fun m => legendre 0 m * xi (configured (set_output E false) [0]%Z galaxies_lensing true) 1 (1 / 2) m) (-1) 1.
Proof.
  intros E. destruct (C81_nonlinear_density_refuted E [0]%Z unit_spectrum 1 2 1 (1 / 2)) as (_ & _ & _ & N); try reflexivity; try lra.
  - apply lensed_evolved.
  - apply N; [left; reflexivity| |lra|intros; unfold unit_spectrum; lra].
    unfold E. destruct (lensed_factors true 1 (1 / 2)) as [-> _]. pose proof PI_RGT_0. unfold coffe_H0.
    apply Rmult_integral_contrapositive_currified; [|lra]. apply Rmult_integral_contrapositive_currified.
    + apply Ropp_neq_0_compat, pow_nonzero. lra.
    + apply Rgt_not_eq. unfold Rdiv. repeat (apply Rmult_lt_0_compat; try lra; try (apply Rinv_0_lt_compat; lra)).
Qed.
Print Assumptions C81_nonlinear_density_met.
(** Neither is that of lensing with a spectrum twice the linear one. *)
Example C81_nonlinear_lensing_met :
  let E := lensed true 2 in
  multipole (configured (set_output E true) [0]%Z lensing_only false) 1 (1 / 2) 0
  <> INR (2 * 0 + 1) / 2 * RInt (fun m => legendre 0 m * xi (configured (set_output E false) [0]%Z lensing_only false) 1 (1 / 2) m) (-1) 1.
Proof.
  intros E. destruct (C81_nonlinear_lensing_refuted E [0]%Z unit_spectrum 1 2 1 (1 / 2) 2) as (_ & _ & N); try reflexivity; try lra.
  - apply lensed_tables.
  - apply lensed_background.
  - intros l u r. unfold E. cbn [lensed tab2 tab1 spl plane]. apply f_equal. unfold lensed_table.
    destruct (Z.of_nat l) as [|p|p] eqn:Q; try (rewrite pow1; symmetry; apply Rmult_1_l). exfalso; lia.
  - apply N; [left; reflexivity|lra| |lra|lra|intros; unfold unit_spectrum; lra|].
    + unfold E. destruct (lensed_factors true 2 0) as [_ ->]. pose proof PI_RGT_0. unfold coffe_H0.
      apply Rmult_integral_contrapositive_currified; [apply pow_nonzero; lra|].
      apply Rgt_not_eq. unfold Rdiv. repeat (apply Rmult_lt_0_compat; try lra; try (apply Rinv_0_lt_compat; lra)).
    + intros x X. unfold lensing_weight, E. cbn [lensed spl plane]. cbv zeta.
      apply Rmult_lt_0_compat; [apply Rmult_lt_0_compat|]; apply pow_lt; nra.
Qed.
Print Assumptions C81_nonlinear_lensing_met.

(** ** C70 in the flat sky *)

(** Whatever the options, the averaged multipole is the average of the projections of the
    correlation function. *)
Theorem C70_projection : forall E zmin zmax s l,
  averageable E zmin zmax s l ->
  let z1 := first_z E zmin s in let z2 := last_z E zmax s in z1 <> z2 ->
  averaged E zmin zmax s l
  = / (z2 - z1) * RInt (fun z => coffe_H0 * par_h E / (spl E bg_conformal_Hz z * (1 + z))
      * (INR (2 * l + 1) / 2 * RInt (fun m => legendre l m * xi E z s m) (-1) 1)) z1 z2.
Proof.
  intros E zmin zmax s l A z1 z2 N. unfold z1, z2. rewrite averaged_integral by assumption.
  apply f_equal. apply RInt_ext. intros z Hz. pose proof (a_inner _ _ _ _ _ A z Hz) as I.
  pose proof (local_ex E z s l I) as X0. pose proof (single_ex E z s l I) as X1. pose proof (double_ex E z s l I) as X2.
  destruct (projection_sum l _ _ X0 X1) as [Y1 P1]. destruct (projection_sum l _ _ Y1 X2) as [Y2 P2].
  rewrite (RInt_ext (fun m => legendre l m * xi E z s m) (fun m => legendre l m * (local_part E z s m + single_part E z s m + double_part E z s m)))
    by (intros m _; rewrite xi_parts; reflexivity).
  fold (projection l (fun m => local_part E z s m + single_part E z s m + double_part E z s m)). rewrite P2, P1.
  apply f_equal2; [|reflexivity]. unfold av_weight, Rdiv. rewrite Rinv_mult. ring.
Qed.
Print Assumptions C70_projection.

(** With the flat-sky options too, the averaged multipoles of one run are the averages of the
    multipoles of another. *)
Theorem C70_flat_average : forall E ells S cross P a b zmin zmax s l,
  let Em := configured (set_output E true) ells S cross in
  let Ec := configured (set_output E false) ells S cross in
  let z1 := first_z E zmin s in let z2 := last_z E zmax s in
  In (Z.of_nat l) ells -> 0 < s -> z1 <> z2 ->
  sw E pk_nonlinear && sw E midpoint = false ->
  lensing_tables E P a b -> averageable Ec zmin zmax s l ->
  (forall z, Rmin z1 z2 < z < Rmax z1 z2 -> smooth_background E z /\ integrable Em z s l) ->
  averaged Ec zmin zmax s l
  = / (z2 - z1) * RInt (fun z => coffe_H0 * par_h E / (spl E bg_conformal_Hz z * (1 + z)) * multipole Em z s l) z1 z2.
Proof.
  intros E ells S cross P a b zmin zmax s l Em Ec z1 z2 I Ps N Lin T A H.
  rewrite (C70_projection Ec zmin zmax s l A N).
  change (first_z Ec zmin s) with z1. change (last_z Ec zmax s) with z2. apply f_equal. apply RInt_ext. intros z Hz.
  apply f_equal2; [reflexivity|]. destruct (H z Hz) as [SB HI]. symmetry. apply (C81_projection E ells S cross P a b); assumption.
Qed.
Print Assumptions C70_flat_average.

(** The density-lensing term of [lensed] grows like 1+z. *)
Section LensedAverage.
Variable ells : list Z.
#[local] Notation E := (lensed false 1).
#[local] Notation Ec := (configured (set_output E false) ells galaxies_lensing true).
#[local] Notation E0 := (complete (configured E ells galaxies_lensing true)).
Lemma lensed_local : forall z m s, value (nonintegrated Ec z m s) = 0.
Proof.
  intros. rewrite (ni_complete _ ells (configured_built _ ells _ _)), complete_configured.
  rewrite <- (with_set_same (set_output E0 false)), ni_value by reflexivity. rewrite sum_zero; [apply Rmult_0_l|].
  intros [[p q] t] Hb. apply picked_off. apply in_map with (f := fst) in Hb. cbn [fst] in Hb.
  revert Hb. cbn [map ni_blocks fst]. intros Hb. cbn [In] in Hb.
  repeat destruct Hb as [Hb|Hb]; try contradiction; inversion Hb; subst; reflexivity.
Qed.
Lemma lensed_single : forall z m s x, value (single_integrated Ec z m s x) = density_lensing E z s m.
Proof.
  intros. rewrite (si_complete _ ells (configured_built _ ells _ _)), complete_configured.
  rewrite (single_difference E0 ltac:(reflexivity)). rewrite (cross_single E ells eq_refl).
  change (density_lensing_on E0) with true. cbv iota. rewrite Rplus_0_l. reflexivity.
Qed.
Lemma lensed_double : forall z m s x y, value (double_integrated Ec z m s x y) = 0.
Proof.
  intros. rewrite (di_complete _ ells (configured_built _ ells _ _)), complete_configured.
  rewrite (double_difference E0 ltac:(reflexivity)). rewrite (cross_double E ells).
  change (lensing_lensing_on E0) with false. cbv iota. apply Rplus_0_l.
Qed.
Lemma lensed_growth : forall z s m, density_lensing E z s m = scal ((1 + z) / 2) (density_lensing E 1 s m).
Proof.
  intros. match goal with |- _ = scal ?u ?v => change (scal u v) with (u * v) end.
  unfold density_lensing, density_lensing_factor, density_lensing_table. cbn [lensed spl plane sw tab1 andb omega_cdm omega_baryon par_h].
  pose proof PI_RGT_0. field. lra.
Qed.
Lemma lensed_projectable : forall z s l, 0 < s -> ex_RInt (fun m => legendre l m * density_lensing E z s m) (-1) 1.
Proof.
  intros z s l Ps. pose proof (lensed_tables false 1) as [Pa Pab Pc TF TL TD].
  destruct (density_lensing_formula E0 ltac:(reflexivity) unit_spectrum 1 2 Pa Pab Pc z s Ps l) as [X _].
  { intros m. apply TD. exact Ps. }
  apply (ex_RInt_ext (fun m => scal (density_lensing_factor E z s) (legendre l m * (Rabs m * flat_integral unit_spectrum 1 2 (s * sqrt (1 - m * m)))))).
  - intros m M. rewrite Rmin_left, Rmax_right in M by lra. match goal with |- scal ?u ?v = _ => change (scal u v) with (u * v) end.
    unfold density_lensing, density_lensing_table. cbn [lensed sw andb spl plane].
    rewrite TF by (apply Rmult_lt_0_compat; [exact Ps|apply in_circle; exact M]). match goal with |- ?u = ?v => change (@eq R u v) end. ring.
  - apply (ex_RInt_scal (V := R_CompleteNormedModule)). exact X.
Qed.
Lemma unit_constant : forall c : R, RInt (fun _ => c) 0 1 = c.
Proof. intros c. etransitivity; [apply (RInt_const (V := R_CompleteNormedModule))|]. change ((1 - 0) * c = c). ring. Qed.
Lemma lensed_c_integrable : forall z s l, 0 < s -> integrable Ec z s l.
Proof.
  intros z s l Ps. assert (N2 : forall m x y, value (double_integrated Ec z m s x y) = 0) by (intros; apply lensed_double).
  assert (Si : forall m, RInt (fun x => value (single_integrated Ec z m s x)) 0 1 = density_lensing E z s m).
  { intros m. rewrite (RInt_ext _ (fun _ => density_lensing E z s m)) by (intros; apply lensed_single). apply unit_constant. }
  constructor.
  - apply zero_integrable. intros m. rewrite lensed_local. apply Rmult_0_r.
  - intros m _. apply (ex_RInt_ext (fun _ => density_lensing E z s m)); [intros; symmetry; apply lensed_single|apply ex_RInt_const].
  - eapply ex_RInt_ext; [|apply (lensed_projectable z s l Ps)]. intros m _. cbv beta. rewrite Si. reflexivity.
  - intros m x _ _. apply zero_integrable. intros y. apply N2.
  - intros m _. apply zero_integrable. intros x. apply zero_integrable. intros y. apply N2.
  - apply zero_integrable. intros m. rewrite (proj2 (zero_integrable _ 0 1 (fun x => proj2 (zero_integrable _ 0 1 (N2 m x))))). apply Rmult_0_r.
Qed.
Lemma lensed_averageable : forall s l, 0 < s <= 10 -> averageable Ec 1 2 s l.
Proof.
  intros s l [Ps Ps1].
  assert (F1 : first_z Ec 1 s = (10 + s / 2) / 10) by (unfold first_z; cbn [configured set_output lensed spl plane]; field).
  assert (L1 : last_z Ec 2 s = (20 - s / 2) / 10) by (unfold last_z; cbn [configured set_output lensed spl plane]; field).
  assert (Zr : forall f : R -> R, (forall z, f z = 0) -> forall w, ex_RInt (fun z => w z * f z) (first_z Ec 1 s) (last_z Ec 2 s)).
  { intros f F w. apply zero_integrable. intros z. rewrite F. apply Rmult_0_r. }
  constructor.
  - intros z _. apply lensed_c_integrable. exact Ps.
  - apply Zr. intros z. unfold projection, local_part. apply zero_integrable. intros m. destruct (local_on Ec); [rewrite lensed_local|]; apply Rmult_0_r.
  - apply (ex_RInt_ext (fun z => av_weight Ec z * ((1 + z) / 2 * RInt (fun m => legendre l m * density_lensing E 1 s m) (-1) 1))).
    + intros z _. apply f_equal. unfold projection, single_part. change (single_on Ec) with true. cbv iota. symmetry.
      rewrite (RInt_ext _ (fun m => scal ((1 + z) / 2) (legendre l m * density_lensing E 1 s m))).
      * apply (RInt_scal (V := R_CompleteNormedModule)). apply lensed_projectable. exact Ps.
      * intros m _. rewrite (RInt_ext _ (fun _ => density_lensing E z s m)) by (intros; apply lensed_single). rewrite unit_constant, lensed_growth.
        match goal with |- _ = scal ?u ?v => change (scal u v) with (u * v) end.
        match goal with |- _ * scal ?u ?v = _ => change (scal u v) with (u * v) end.
        match goal with |- ?u = ?v => change (@eq R u v) end. ring.
    + apply (ex_RInt_continuous (V := R_CompleteNormedModule)). intros z Hz. rewrite F1, L1 in Hz. rewrite Rmin_left, Rmax_right in Hz by lra.
      unfold av_weight. cbn [configured set_output lensed spl plane par_h].
      apply (ex_derive_continuous (K := R_AbsRing) (V := R_NormedModule)). auto_derive. lra.
  - apply Zr. intros z. unfold projection, double_part. apply zero_integrable. intros m. destruct (integrated_on Ec); [|apply Rmult_0_r].
    rewrite (proj2 (zero_integrable _ 0 1 (fun x => proj2 (zero_integrable _ 0 1 (lensed_double z m s x))))). apply Rmult_0_r.
Qed.
End LensedAverage.
Example C70_flat_met : forall s l, 0 < s < 10 -> In (Z.of_nat l) [0; 2; 4]%Z ->
  let E := lensed false 1 in
  let z1 := first_z E 1 s in let z2 := last_z E 2 s in
  averaged (configured (set_output E false) [0; 2; 4]%Z galaxies_lensing true) 1 2 s l
  = / (z2 - z1) * RInt (fun z => coffe_H0 * par_h E / (spl E bg_conformal_Hz z * (1 + z))
      * multipole (configured (set_output E true) [0; 2; 4]%Z galaxies_lensing true) z s l) z1 z2.
Proof.
  intros s l Ps I E z1 z2.
  apply (C70_flat_average E [0; 2; 4]%Z galaxies_lensing true unit_spectrum 1 2 1 2 s l); try assumption; try reflexivity; try lra.
  - unfold first_z, last_z, E. cbn [lensed spl plane]. lra.
  - apply lensed_tables.
  - apply lensed_averageable. lra.
  - intros z _. split; [apply lensed_background|]. apply run_integrable. apply silent_integrable.
    + apply cross_local.
    + apply cross_single. reflexivity.
    + apply cross_double.
Qed.
Print Assumptions C70_flat_met.
