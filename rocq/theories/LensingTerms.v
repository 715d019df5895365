(** * Flat-sky lensing: the terms of the correlation function that the multipoles replace *)
From Coq Require Import Reals Lra Lia List ZArith Bool.
From Coquelicot Require Import Coquelicot.
From Coq Require Import List FunctionalExtensionality.
Import ListNotations.
From Verif Require Import Integrals CExpr Terms Signal TermsMeta TermsSum Additive SignalSum
  Lookup Exchange ExchangeSignal Built Weights Props_Terms Legendre Multipoles Flat Props_Multipoles.
Open Scope R_scope.
#[local] Opaque nonintegrated single_integrated double_integrated flat_den_len flat_len_len.

(** ** Code that does not look at the output *)
(** Specification or proof only; nothing in the code. *)
Fixpoint quiet_c (c : cond) : bool :=
  match c with
  | Flag output_multipoles => false
  | Flag _ | Con _ | Finite | Lt _ _ | Eq _ _ => true
  | Not c => quiet_c c
  | And c d | Or c d => quiet_c c && quiet_c d
  end.
Fixpoint quiet1 (c : stmt) : bool :=
  match c with
  | If c p q => quiet_c c && forallb quiet1 p && forallb quiet1 q
  | _ => true
  end.

Lemma holds_quiet : forall E b s c, quiet_c c = true -> holds (set_output E b) s c = holds E s c.
Proof.
  intros E b s. induction c; intros H; try reflexivity; cbn [quiet_c] in H; try (apply andb_true_iff in H; destruct H);
    cbn [holds]; rewrite ?eval_output; try rewrite IHc1, IHc2 by assumption; try rewrite IHc by assumption; try reflexivity.
  destruct f; try reflexivity. discriminate.
Qed.
Lemma dens_quiet : forall E b l s, forallb quiet1 l = true -> dens (set_output E b) s l = dens E s l.
Proof.
  intros E b.
  apply (stmts_ind2
    (fun c => forall s, quiet1 c = true -> den1 (set_output E b) s c = den1 E s c)
    (fun l => forall s, forallb quiet1 l = true -> dens (set_output E b) s l = dens E s l)); try reflexivity.
  - intros v e s _. simpl. rewrite eval_output. reflexivity.
  - intros e s _. simpl. rewrite eval_output. reflexivity.
  - intros c p q IHp IHq s H. cbn [quiet1] in H. rewrite !andb_true_iff in H. destruct H as [[Hc Hp] Hq].
    rewrite !den1_If, holds_quiet by exact Hc. destruct (holds E s c); auto.
  - intros c l IHc IHl s H. cbn [forallb] in H. apply andb_true_iff in H. destruct H.
    simpl. rewrite IHc by assumption. apply IHl. assumption.
Qed.
Lemma incr_quiet : forall E b s l, forallb quiet1 l = true -> incr (set_output E b) s l = incr E s l.
Proof.
  intros E b s.
  apply (stmts_ind2
    (fun c => quiet1 c = true -> incr1 (set_output E b) s c = incr1 E s c)
    (fun l => forallb quiet1 l = true -> incr (set_output E b) s l = incr E s l)); try reflexivity.
  - intros e _. simpl. apply eval_output.
  - intros c p q IHp IHq H. cbn [quiet1] in H. rewrite !andb_true_iff in H. destruct H as [[Hc Hp] Hq].
    rewrite !incr1_If, holds_quiet by exact Hc. destruct (holds E s c); auto.
  - intros c l IHc IHl H. cbn [forallb] in H. apply andb_true_iff in H. destruct H. simpl. rewrite IHc, IHl by assumption. reflexivity.
Qed.

Section Terms.
Variable E : env.
Hypothesis all_present : forall k, present E k = true.
#[local] Notation Em := (set_output E true).
#[local] Notation Ec := (set_output E false).

(** What the correlation function holds and the multipoles do not.
    Specification or proof only; nothing in the code. *)
Definition density_lensing_on : bool := con E den && con E len && sw E flatsky_local_nonlocal.
Definition lensing_lensing_on : bool := con E len && negb (sw E only_cross) && sw E flatsky_nonlocal.
Definition density_lensing_table (z r : R) : R :=
  if sw E pk_nonlinear && sw E midpoint then tab2 E (K 1 (-1) true) result2d z r
  else spl E bg_D1 z * spl E bg_D1 z * tab1 E (K 1 (-1) true) result r.
Definition density_lensing_factor (z s : R) : R :=
  (coffe_H0 * par_h E) ^ 2 * (- 3 * (omega_cdm E + omega_baryon E) / PI / 8 * (1 + z) * s
    * ((2 - 5 * spl E par_magnification_bias1 z) * spl E par_galaxy_bias2 z
       + (2 - 5 * spl E par_magnification_bias2 z) * spl E par_galaxy_bias1 z)).
Definition density_lensing (z s m : R) : R :=
  density_lensing_factor z s * (Rabs m * density_lensing_table z (s * sqrt (1 - m * m))).
Definition lensing_lensing_factor (z : R) : R :=
  9 * (omega_cdm E + omega_baryon E) ^ 2 * (2 - 5 * spl E par_magnification_bias1 z)
  * (2 - 5 * spl E par_magnification_bias2 z) * spl E bg_comoving_distance z ^ 3 / 8 / PI * (coffe_H0 * par_h E) ^ 4.
Definition lensing_weight (z x : R) : R :=
  let u := spl E bg_z_as_chi (x * spl E bg_comoving_distance z) in
  spl E bg_D1 u ^ 2 * (1 + u) ^ 2 * (x * (1 - x)) ^ 2.
Definition lensing_lensing (z s m x : R) : R :=
  lensing_lensing_factor z * (lensing_weight z x * tab1 E (K 1 (-1) true) result (x * s * sqrt (1 - m * m))).

Lemma quiet_sum : forall b t bs, forallb (fun p => forallb quiet1 (snd p)) bs = true -> forall S c,
  sum_over bs (picked (set_output E b) t S c) = sum_over bs (picked E t S c).
Proof.
  intros b t bs Q S c. unfold sum_over. f_equal. apply map_ext_in. intros [[p q] l] I.
  rewrite forallb_forall in Q. specialize (Q _ I). cbn [snd] in Q. unfold picked. destruct (guard S c p q); [|reflexivity].
  apply incr_quiet. destruct l as [|[]]; try reflexivity. destruct l; [|reflexivity]. cbn [body].
  cbn [forallb quiet1] in Q. rewrite !andb_true_iff in Q. tauto.
Qed.

Lemma local_same : forall z m s, value (nonintegrated Ec z m s) = value (nonintegrated Em z m s).
Proof.
  assert (H : forall b z m s, value (nonintegrated (set_output E b) z m s) = value (nonintegrated E z m s)).
  { intros b z m s. rewrite <- (with_set_same (set_output E b)), <- (with_set_same E).
    rewrite !ni_value by exact all_present. unfold ni_s0. rewrite (with_set_same E). rewrite dens_quiet by reflexivity.
    rewrite quiet_sum by reflexivity. reflexivity. }
  intros. rewrite !H. reflexivity.
Qed.

Lemma single_difference : forall z m s x,
  value (single_integrated Ec z m s x)
  = value (single_integrated Em z m s x) + (if density_lensing_on then density_lensing z s m else 0).
Proof.
  intros z m s x. rewrite <- (with_set_same Ec), <- (with_set_same Em). rewrite !si_value by exact all_present.
  unfold si_s0. rewrite !dens_quiet by reflexivity.
  set (t := dens E (upd (args z m s) x_ x) si_prelude).
  change si_blocks with ((den, len, si_den_len) :: List.tl si_blocks). unfold sum_over. cbn [map fold_right].
  fold (sum_over (List.tl si_blocks) (picked Ec t (con Ec) (sw Ec only_cross))).
  fold (sum_over (List.tl si_blocks) (picked Em t (con Em) (sw Em only_cross))).
  rewrite !quiet_sum by reflexivity. change (con Ec) with (con E). change (con Em) with (con E).
  change (sw Ec only_cross) with (sw E only_cross). change (sw Em only_cross) with (sw E only_cross).
  set (rest := sum_over _ _).
  cut (picked Ec t (con E) (sw E only_cross) (den, len, si_den_len)
       = picked Em t (con E) (sw E only_cross) (den, len, si_den_len) + (if density_lensing_on then density_lensing z s m else 0)); [lra|].
  unfold picked, guard, density_lensing_on. cbn [contrib_beq]. destruct (con E den && con E len); cbn [andb]; [|ring].
  unfold si_den_len. cbn [body]. cbn [incr]. rewrite !incr1_If. cbn [holds set_output sw negb]. rewrite !andb_true_r, !andb_false_r.
  destruct (sw E flatsky_local_nonlocal) eqn:F.
  - cbn [incr]. rewrite !incr1_If. cbn [holds set_output sw]. rewrite F. cbn [negb incr].
    assert (Vz : t z_mean = z) by (unfold t; rewrite dens_keeps by reflexivity; reflexivity).
    assert (Vm : t mu = m) by (unfold t; rewrite dens_keeps by reflexivity; reflexivity).
    assert (Vs : t sep = s) by (unfold t; rewrite dens_keeps by reflexivity; reflexivity).
    val t si_prelude sz_mean1. val t si_prelude sz_mean2. val t si_prelude bz_mean1. val t si_prelude bz_mean2.
    unfold density_lensing, density_lensing_table, density_lensing_factor.
    destruct (sw E pk_nonlinear && sw E midpoint) eqn:N; cbn [incr incr1]; cbn [eval set_output spl tab1 tab2 par_h omega_cdm omega_baryon];
      rewrite V, V0, V1, V2, ?Vz, ?Vm, ?Vs; pose proof PI_RGT_0; field; lra.
  - rewrite !Rplus_0_r. rewrite (incr_quiet E false), (incr_quiet E true) by reflexivity. reflexivity.
Qed.

Lemma double_difference : forall z m s x y,
  value (double_integrated Ec z m s x y)
  = value (double_integrated Em z m s x y) + (if lensing_lensing_on then lensing_lensing z s m x else 0).
Proof.
  intros z m s x y. rewrite <- (with_set_same Ec), <- (with_set_same Em). rewrite !di_value by exact all_present.
  unfold di_s0. rewrite !dens_quiet by reflexivity.
  set (t := dens E (upd (upd (args z m s) x_1 x) x_2 y) di_prelude).
  change di_blocks with ((len, len, di_len_len) :: List.tl di_blocks). unfold sum_over. cbn [map fold_right].
  fold (sum_over (List.tl di_blocks) (picked Ec t (con Ec) (sw Ec only_cross))).
  fold (sum_over (List.tl di_blocks) (picked Em t (con Em) (sw Em only_cross))).
  rewrite !quiet_sum by reflexivity. change (con Ec) with (con E). change (con Em) with (con E).
  change (sw Ec only_cross) with (sw E only_cross). change (sw Em only_cross) with (sw E only_cross).
  change (par_h Ec) with (par_h E). change (par_h Em) with (par_h E).
  set (rest := sum_over _ _).
  cut (picked Ec t (con E) (sw E only_cross) (len, len, di_len_len) * (coffe_H0 * par_h E) ^ 4
       = picked Em t (con E) (sw E only_cross) (len, len, di_len_len) * (coffe_H0 * par_h E) ^ 4
         + (if lensing_lensing_on then lensing_lensing z s m x else 0)); [lra|].
  unfold picked, guard, lensing_lensing_on. cbn [contrib_beq]. destruct (con E len && negb (sw E only_cross)); cbn [andb]; [|ring].
  unfold di_len_len. cbn [body]. cbn [incr]. rewrite !incr1_If. cbn [holds set_output sw negb]. rewrite !andb_true_r, !andb_false_r.
  destruct (sw E flatsky_nonlocal) eqn:F.
  - cbn [incr]. rewrite !incr1_If. cbn [holds set_output sw]. rewrite F. cbn [negb incr incr1].
    assert (Vz : t z_mean = z) by (unfold t; rewrite dens_keeps by reflexivity; reflexivity).
    assert (Vm : t mu = m) by (unfold t; rewrite dens_keeps by reflexivity; reflexivity).
    assert (Vs : t sep = s) by (unfold t; rewrite dens_keeps by reflexivity; reflexivity).
    assert (Vx : t x_1 = x) by (unfold t; rewrite dens_keeps by reflexivity; reflexivity).
    val t di_prelude sz_mean1. val t di_prelude sz_mean2. val t di_prelude chi_mean.
    unfold lensing_lensing, lensing_lensing_factor, lensing_weight. cbv zeta.
    cbn [eval set_output spl tab1 tab2 par_h omega_cdm omega_baryon].
    rewrite V, V0, V1, ?Vz, ?Vm, ?Vs, ?Vx. pose proof PI_RGT_0. field. lra.
  - rewrite !Rplus_0_r. rewrite (incr_quiet E false), (incr_quiet E true) by reflexivity. reflexivity.
Qed.

(** ** The parts of the correlation function *)
Variables (z s : R) (l : nat).
Hypothesis HI : integrable Em z s l.

Lemma local_part_same : forall m, local_part Ec z s m = local_part Em z s m.
Proof. intros m. unfold local_part. change (local_on Ec) with (local_on Em). rewrite local_same. reflexivity. Qed.
Lemma single_part_difference : forall m, -1 < m < 1 ->
  single_part Ec z s m = single_part Em z s m + (if density_lensing_on then density_lensing z s m else 0).
Proof.
  intros m M. unfold single_part. change (single_on Ec) with (single_on Em).
  destruct (single_on Em) eqn:On.
  - rewrite (RInt_ext _ (fun x => plus (value (single_integrated Em z m s x)) (if density_lensing_on then density_lensing z s m else 0)))
      by (intros x _; rewrite single_difference; reflexivity).
    etransitivity; [apply (RInt_plus (V := R_CompleteNormedModule)); [apply (i_single_inner _ _ _ _ HI m M)|apply ex_RInt_const]|].
    pose proof (RInt_const (V := R_CompleteNormedModule) 0 1 (if density_lensing_on then density_lensing z s m else 0)) as C.
    match goal with |- plus ?u ?v = _ => change (u + v = u + (if density_lensing_on then density_lensing z s m else 0)) end.
    f_equal. etransitivity; [exact C|]. unfold scal. cbn. unfold mult. cbn. match goal with |- ?u = ?v => change (@eq R u v) end. ring.
  - replace density_lensing_on with false; [ring|]. symmetry. unfold density_lensing_on. unfold single_on in On. cbn [con set_output] in On.
    rewrite !orb_false_iff in On. destruct (con E den), (con E len); try reflexivity. cbn in On. decompose [and] On. discriminate.
Qed.
Lemma double_part_difference : forall m, -1 < m < 1 ->
  ex_RInt (fun x => lensing_lensing z s m x) 0 1 ->
  double_part Ec z s m = double_part Em z s m + (if lensing_lensing_on then RInt (fun x => lensing_lensing z s m x) 0 1 else 0).
Proof.
  intros m M X. unfold double_part. change (integrated_on Ec) with (integrated_on Em).
  destruct (integrated_on Em) eqn:On.
  - set (extra := fun x => if lensing_lensing_on then lensing_lensing z s m x else 0).
    assert (Xe : ex_RInt extra 0 1) by (unfold extra; destruct lensing_lensing_on; [exact X|apply ex_RInt_const]).
    rewrite (RInt_ext _ (fun x => plus (RInt (fun y => value (double_integrated Em z m s x y)) 0 1) (extra x))).
    2:{ intros x Hx. rewrite (RInt_ext _ (fun y => plus (value (double_integrated Em z m s x y)) (extra x)))
          by (intros y _; rewrite double_difference; reflexivity).
        etransitivity; [apply (RInt_plus (V := R_CompleteNormedModule)); [apply (i_double_inner _ _ _ _ HI m x M (in_unit x Hx))|apply ex_RInt_const]|].
        apply f_equal. etransitivity; [apply (RInt_const (V := R_CompleteNormedModule))|].
        unfold scal. cbn. unfold mult. cbn. match goal with |- ?u = ?v => change (@eq R u v) end. ring. }
    etransitivity; [apply (RInt_plus (V := R_CompleteNormedModule)); [apply (i_double_mid _ _ _ _ HI m M)|exact Xe]|].
    match goal with |- plus ?u ?v = _ => change (u + v = u + (if lensing_lensing_on then RInt (fun x => lensing_lensing z s m x) 0 1 else 0)) end.
    f_equal. unfold extra. destruct lensing_lensing_on; [reflexivity|apply zero_integral].
  - replace lensing_lensing_on with false; [ring|]. symmetry. unfold lensing_lensing_on. unfold integrated_on in On. cbn [con set_output] in On.
    rewrite !orb_false_iff in On. destruct On as [[-> _] _]. reflexivity.
Qed.

(** ** The parts of the multipoles *)
Lemma run_single_flat :
  run exact (coffe_integrate Em (mkPoint z 0 0 s 0 l) SingleIntegrated Multipoles)
  = (if density_lensing_on then 2 * PI * PI * value (flat_den_len Em z s l) else 0)
    + INR (2 * l + 1) * projected l (single_part Em z s).
Proof.
  unfold coffe_integrate. cbn [p_z p_sep p_l]. unfold single_part.
  destruct (single_on Em) eqn:On; cbn [negb run].
  - apply f_equal2.
    + unfold density_lensing_on. cbn [con sw set_output]. destruct (con E den), (con E rsd), (con E d1), (con E len), (sw E flatsky_local_nonlocal); reflexivity.
    + assert (G : forall x, Rmin 0 1 < x < Rmax 0 1 ->
        RInt (fun y => value (times_legendre l (2 * x - 1) (single_integrated Em z (2 * x - 1) s y))) 0 1
        = legendre l (2 * x - 1) * RInt (fun y => value (single_integrated Em z (2 * x - 1) s y)) 0 1).
      { intros x Hx. rewrite (RInt_ext _ (fun y => scal (legendre l (2 * x - 1)) (value (single_integrated Em z (2 * x - 1) s y)))).
        2:{ intros y _. rewrite value_times_legendre, leg_factor_legendre. reflexivity. }
        rewrite (RInt_scal _ _ _ _ (i_single_inner _ _ _ _ HI (2 * x - 1) (in_sky x Hx))). reflexivity. }
      destruct (single_full_on Em) eqn:Full; cbn [run qn exact cube coord nth].
      * f_equal. unfold projected. apply RInt_ext. exact G.
      * unfold projected. rewrite (RInt_ext _ (fun _ => 0)); [rewrite zero_integral; ring|]. intros x Hx.
        rewrite (RInt_ext _ (fun _ => 0)); [rewrite zero_integral; apply Rmult_0_r|]. intros y _.
        rewrite <- (with_set_same Em). apply (single_full_off Em); [exact all_present|reflexivity|]. rewrite with_set_same. exact Full.
  - replace density_lensing_on with false; [rewrite projected_zero; ring|]. symmetry.
    unfold density_lensing_on. unfold single_on in On. cbn [con set_output] in On.
    rewrite !orb_false_iff in On. destruct (con E den), (con E len); try reflexivity. cbn in On. decompose [and] On. discriminate.
Qed.
Lemma run_double_flat :
  run exact (coffe_integrate Em (mkPoint z 0 0 s 0 l) DoubleIntegrated Multipoles)
  = (if lensing_lensing_on && Nat.even l then 2 * PI * PI * RInt (fun x => value (flat_len_len Em z s l x)) 0 1 else 0)
    + INR (2 * l + 1) * projected l (double_part Em z s).
Proof.
  unfold coffe_integrate. cbn [p_z p_sep p_l]. unfold double_part.
  destruct (integrated_on Em) eqn:On; cbn [negb run].
  - apply f_equal2.
    + unfold lensing_lensing_on. cbn [con sw set_output].
      destruct (con E len), (sw E only_cross), (sw E flatsky_nonlocal), (Nat.even l); reflexivity.
    + match goal with |- run exact (if ?c then _ else _) = _ => destruct c eqn:Full end; cbn [run qn exact cube coord nth].
      * f_equal. unfold projected. apply RInt_ext. intros x Hx.
        rewrite (RInt_ext _ (fun y => scal (legendre l (2 * x - 1))
          (RInt (fun w => value (double_integrated Em z (2 * x - 1) s y w)) 0 1))).
        2:{ intros y Hy.
            rewrite (RInt_ext _ (fun w => scal (legendre l (2 * x - 1)) (value (double_integrated Em z (2 * x - 1) s y w)))).
            2:{ intros w _. rewrite value_times_legendre, leg_factor_legendre. reflexivity. }
            rewrite (RInt_scal _ _ _ _ (i_double_inner _ _ _ _ HI (2 * x - 1) y (in_sky x Hx) (in_unit y Hy))). reflexivity. }
        rewrite (RInt_scal _ _ _ _ (i_double_mid _ _ _ _ HI (2 * x - 1) (in_sky x Hx))). reflexivity.
      * unfold projected. rewrite (RInt_ext _ (fun _ => 0)); [rewrite zero_integral; ring|]. intros x Hx.
        rewrite (RInt_ext _ (fun _ => 0)); [rewrite zero_integral; apply Rmult_0_r|]. intros y _.
        rewrite (RInt_ext _ (fun _ => 0)); [apply zero_integral|]. intros w _.
        rewrite <- (with_set_same Em). apply (double_full_off Em); [exact all_present|reflexivity|exact Full].
  - replace lensing_lensing_on with false; [cbn [andb]; rewrite projected_zero; ring|]. symmetry.
    unfold lensing_lensing_on. unfold integrated_on in On. cbn [con set_output] in On.
    rewrite !orb_false_iff in On. destruct On as [[-> _] _]. reflexivity.
Qed.

(** What the multipole of a configuration adds to its other terms, and what the correlation
    function does.  Specification or proof only; nothing in the code. *)
Definition other_parts : R :=
  INR (2 * l + 1) / 2 * (projection l (local_part Em z s) + projection l (single_part Em z s) + projection l (double_part Em z s)).
Lemma flat_parts :
  (density_lensing_on = true -> ex_RInt (fun m => legendre l m * density_lensing z s m) (-1) 1) ->
  (lensing_lensing_on = true -> (forall m, -1 < m < 1 -> ex_RInt (fun x => lensing_lensing z s m x) 0 1) /\
     ex_RInt (fun m => legendre l m * RInt (fun x => lensing_lensing z s m x) 0 1) (-1) 1) ->
  multipole Em z s l = other_parts
    + (if density_lensing_on then 2 * PI * PI * value (flat_den_len Em z s l) else 0)
    + (if lensing_lensing_on then if Nat.even l then 2 * PI * PI * RInt (fun x => value (flat_len_len Em z s l x)) 0 1 else 0 else 0) /\
  INR (2 * l + 1) / 2 * RInt (fun m => legendre l m * xi Ec z s m) (-1) 1 = other_parts
    + (if density_lensing_on then INR (2 * l + 1) / 2 * RInt (fun m => legendre l m * density_lensing z s m) (-1) 1 else 0)
    + (if lensing_lensing_on then INR (2 * l + 1) / 2 * RInt (fun m => legendre l m * RInt (fun x => lensing_lensing z s m x) 0 1) (-1) 1 else 0).
Proof.
  intros HD HL.
  set (D := fun m => if density_lensing_on then density_lensing z s m else 0).
  set (L := fun m => if lensing_lensing_on then RInt (fun x => lensing_lensing z s m x) 0 1 else 0).
  assert (Zx : ex_RInt (fun m => legendre l m * 0) (-1) 1).
  { apply (ex_RInt_ext (fun _ => 0)); [intros; symmetry; apply Rmult_0_r|apply ex_RInt_const]. }
  assert (Zi : RInt (fun m => legendre l m * 0) (-1) 1 = 0).
  { rewrite (RInt_ext _ (fun _ => 0)) by (intros; apply Rmult_0_r). apply zero_integral. }
  assert (XD : ex_RInt (fun m => legendre l m * D m) (-1) 1).
  { unfold D. destruct density_lensing_on; [apply HD; reflexivity|exact Zx]. }
  assert (XL : ex_RInt (fun m => legendre l m * L m) (-1) 1).
  { unfold L. destruct lensing_lensing_on; [apply HL; reflexivity|exact Zx]. }
  pose proof (local_ex Em z s l HI) as X0. pose proof (single_ex Em z s l HI) as X1. pose proof (double_ex Em z s l HI) as X2.
  assert (Xi : forall m, -1 < m < 1 -> xi Ec z s m = local_part Em z s m + (single_part Em z s m + D m) + (double_part Em z s m + L m)).
  { intros m M. rewrite xi_parts, local_part_same, single_part_difference by exact M. unfold D, L.
    assert (ED : double_part Ec z s m = double_part Em z s m + (if lensing_lensing_on then RInt (fun x => lensing_lensing z s m x) 0 1 else 0)).
    { destruct lensing_lensing_on eqn:On.
      - pose proof (double_part_difference m M) as DD. rewrite On in DD. apply DD. apply HL; [reflexivity|exact M].
      - rewrite Rplus_0_r. unfold double_part. change (integrated_on Ec) with (integrated_on Em). destruct (integrated_on Em); [|reflexivity].
        apply RInt_ext. intros x _. apply RInt_ext. intros y _. rewrite double_difference, On. apply Rplus_0_r. }
    rewrite ED. reflexivity. }
  destruct (projection_sum l _ _ X1 XD) as [Y1 P1]. destruct (projection_sum l _ _ X2 XL) as [Y2 P2].
  destruct (projection_sum l _ _ X0 Y1) as [Y3 P3]. destruct (projection_sum l _ _ Y3 Y2) as [Y4 P4].
  split.
  - unfold multipole, signal, other_parts. rewrite run_local, run_single_flat, run_double_flat.
    rewrite !projected_half by assumption.
    replace (if lensing_lensing_on && Nat.even l then 2 * PI * PI * RInt (fun x => value (flat_len_len Em z s l x)) 0 1 else 0)
      with (if lensing_lensing_on then if Nat.even l then 2 * PI * PI * RInt (fun x => value (flat_len_len Em z s l x)) 0 1 else 0 else 0)
      by (destruct lensing_lensing_on, (Nat.even l); reflexivity).
    set (a0 := projection l (local_part Em z s)). set (a1 := projection l (single_part Em z s)). set (a2 := projection l (double_part Em z s)).
    match goal with |- ?u = ?v => change (@eq R u v) end. field.
  - rewrite (RInt_ext _ (fun m => legendre l m * (local_part Em z s m + (single_part Em z s m + D m) + (double_part Em z s m + L m)))).
    2:{ intros m M. rewrite Rmin_left, Rmax_right in M by lra. rewrite Xi by exact M. reflexivity. }
    fold (projection l (fun m => local_part Em z s m + (single_part Em z s m + D m) + (double_part Em z s m + L m))).
    rewrite P4, P3, P1, P2. unfold other_parts.
    assert (ED : (if density_lensing_on then INR (2 * l + 1) / 2 * RInt (fun m => legendre l m * density_lensing z s m) (-1) 1 else 0) = INR (2 * l + 1) / 2 * projection l D).
    { unfold D, projection. destruct density_lensing_on; [reflexivity|]. rewrite Zi. ring. }
    assert (EL : (if lensing_lensing_on then INR (2 * l + 1) / 2 * RInt (fun m => legendre l m * RInt (fun x => lensing_lensing z s m x) 0 1) (-1) 1 else 0) = INR (2 * l + 1) / 2 * projection l L).
    { unfold L, projection. destruct lensing_lensing_on; [reflexivity|]. rewrite Zi. ring. }
    rewrite ED, EL.
    set (a0 := projection l (local_part Em z s)). set (a1 := projection l (single_part Em z s)). set (a2 := projection l (double_part Em z s)).
    set (a3 := projection l D). set (a4 := projection l L). match goal with |- ?u = ?v => change (@eq R u v) end. field.
Qed.

(** The multipole of a configuration is the projection of its correlation function as soon as
    the two flat-sky formulas are the projections of the two flat-sky terms. *)
Lemma flat_projection :
  (density_lensing_on = true -> ex_RInt (fun m => legendre l m * density_lensing z s m) (-1) 1 /\
     2 * PI * PI * value (flat_den_len Em z s l) = INR (2 * l + 1) / 2 * RInt (fun m => legendre l m * density_lensing z s m) (-1) 1) ->
  (lensing_lensing_on = true -> (forall m, -1 < m < 1 -> ex_RInt (fun x => lensing_lensing z s m x) 0 1) /\
     ex_RInt (fun m => legendre l m * RInt (fun x => lensing_lensing z s m x) 0 1) (-1) 1 /\
     (if Nat.even l then 2 * PI * PI * RInt (fun x => value (flat_len_len Em z s l x)) 0 1 else 0)
     = INR (2 * l + 1) / 2 * RInt (fun m => legendre l m * RInt (fun x => lensing_lensing z s m x) 0 1) (-1) 1) ->
  multipole Em z s l = INR (2 * l + 1) / 2 * RInt (fun m => legendre l m * xi Ec z s m) (-1) 1.
Proof.
  intros HD HL. destruct flat_parts as [-> ->].
  - intros On. apply HD. exact On.
  - intros On. destruct (HL On) as (A & B & _). split; assumption.
  - apply f_equal2; [apply f_equal2; [reflexivity|]|].
    + destruct density_lensing_on; [apply HD; reflexivity|reflexivity].
    + destruct lensing_lensing_on; [apply HL; reflexivity|reflexivity].
Qed.
End Terms.
