(** * Properties C21 and C87: the integrated potentials correlated with each other

    At points closer than 10^-6 the divergent integral is taken at the first point only
    (functions.c:3495-3497), so that exchanging the populations changes the result. *)
From Coq Require Import Reals Lra Lia List ZArith Bool.
From Coquelicot Require Import Coquelicot.
From Coq Require Import List.
Import ListNotations.
From Verif Require Import Integrals CExpr Terms Signal TermsMeta TermsSum Additive SignalSum
  Lookup Exchange ExchangeSignal Built Evolved Weights Props_Terms Meet Props_Meet.
Open Scope R_scope.
#[local] Opaque nonintegrated single_integrated double_integrated.

(** A universe where the table for coinciding points is the distance.
    Specification or proof only; nothing in the code. *)
Definition deep : env :=
  mkEnv (fun _ => false)
    (fun f => match f with output_multipoles => true | _ => false end)
    (fun f x => match f with
       | bg_comoving_distance => 10 * x | bg_z_as_chi => x / 10
       | par_magnification_bias1 | par_magnification_bias2 => 0
       | _ => 1 end)
    (fun _ t x => match t with renormalization_zero_separation => x | _ => 0 end)
    (fun _ _ _ _ => 0) (fun _ => true) 1 (1 / 4) (3 / 4).
Definition deep_g4 : env := configured deep [0; 2]%Z (single g4) false.


Lemma near_value : forall E zm m s x y,
  (forall k, present E k = true) -> sw E divergent = true -> con E = single g4 -> sw E only_cross = false ->
  distance2 E zm m s x y <= (1 / 1000000) ^ 2 ->
  let a := near E zm m s in let b := far E zm m s in
  value (double_integrated E zm m s x y)
  = 9 * (omega_cdm E + omega_baryon E) * (omega_cdm E + omega_baryon E)
    * (2 - 5 * magnification E First (redshift E a)) * (2 - 5 * magnification E Second (redshift E b))
    * spl E bg_D1 (redshift E (a * x)) * spl E bg_D1 (redshift E (b * y))
    / spl E bg_a (redshift E (a * x)) / spl E bg_a (redshift E (b * y))
    * tab1 E (K 4 0 false) renormalization_zero_separation (a * x) * (coffe_H0 * par_h E) ^ 4.
Proof.
  intros E zm m s x y PR DV CE CR Hq a b.
  rewrite <- (with_set_same E) at 1. rewrite di_value by exact PR. rewrite CE, CR.
  unfold di_s0.
  assert (R2 : dens E (upd (upd (args zm m s) x_1 x) x_2 y) di_prelude r2 = kept (distance2 E zm m s x y)) by apply di_r2.
  set (t := dens E (upd (upd (args zm m s) x_1 x) x_2 y) di_prelude) in *.
  assert (t sep = s) as K1 by (unfold t; rewrite dens_keeps by reflexivity; reflexivity).
  assert (t mu = m) as K2 by (unfold t; rewrite dens_keeps by reflexivity; reflexivity).
  assert (t z_mean = zm) as K3 by (unfold t; rewrite dens_keeps by reflexivity; reflexivity).
  assert (t x_1 = x) as K4 by (unfold t; rewrite dens_keeps by reflexivity; reflexivity).
  assert (t x_2 = y) as K5 by (unfold t; rewrite dens_keeps by reflexivity; reflexivity).
  val t di_prelude chi_mean. rewrite K3 in V.
  val t di_prelude chi1. rewrite V, K1, K2 in V0.
  val t di_prelude chi2. rewrite V, K1, K2 in V1.
  change (t chi1 = a) in V0. change (t chi2 = b) in V1.
  val t di_prelude lambda1. rewrite V0, K4 in V2.
  val t di_prelude lambda2. rewrite V1, K5 in V3.
  val t di_prelude z1_const. rewrite V0 in V4. val t di_prelude z2_const. rewrite V1 in V5.
  val t di_prelude z1. rewrite V2 in V6. val t di_prelude z2. rewrite V3 in V7.
  val t di_prelude s1. rewrite V4 in V8. val t di_prelude s2. rewrite V5 in V9.
  assert (RR : t ren = tab1 E (K 4 0 false) renormalization_zero_separation (a * x)).
  { unfold t in *. change di_prelude with (firstn 18 di_prelude ++ skipn 18 di_prelude) in *.
    rewrite !dens_app in *.
    set (u := dens E (upd (upd (args zm m s) x_1 x) x_2 y) (firstn 18 di_prelude)) in *.
    rewrite !dens_keeps in R2, V2 by reflexivity. clearbody u.
    cbn [skipn di_prelude dens]. rewrite den1_If. cbn [holds].
    rewrite DV. cbn [dens]. rewrite den1_If. cbn [holds eval].
    rewrite R2. unfold Rltb.
    destruct (Rlt_dec ((IZR 1 / IZR 1000000) ^ 2) (kept (distance2 E zm m s x y))) as [N|N].
    { exfalso. revert N. unfold kept. destruct (Rltb _ 0); lra. }
    cbn [negb dens den1 eval]. rewrite upd_same, V2. reflexivity. }
  clear R2. clearbody t.
  unfold sum_over, di_blocks. cbn [map fold_right]. unfold picked, guard. cbn [contrib_beq single andb negb].
  unfold di_g4_g4. cbn [body incr incr1 eval].
  rewrite V6, V7, V8, V9, RR. unfold magnification, redshift. ring.
Qed.

Ltac near_numbers :=
  match goal with |- ?d <= _ => replace d with (1 / 4000000000000); [lra|] end;
  unfold distance2, Evolved.cosine;
  cbn;
  field; lra.

(** Two galaxies 10^-6 apart, at the centre of the interval of integration. *)
Theorem C21_near_refuted : exists Q E ells p,
  invariant Q /\ built E ells /\ no_derivatives E /\ symmetric_renormalization E /\
  sw E pk_nonlinear = false /\ not_flat E /\ -1 < p_mu p < 1 /\ con E = single g4 /\
  signal Q (exchange E) (reversed p) Corrfunc <> signal Q E p Corrfunc.
Proof.
  exists midpoint_rule, deep_g4, [0; 2]%Z, (mkPoint 1 0 0 (1 / 1000000) (1 / 2) 0).
  assert (B : built deep_g4 [0; 2]%Z) by apply configured_built.
  assert (B' : built (exchange deep_g4) [0; 2]%Z) by (apply exchange_built; exact B).
  split; [apply midpoint_invariant|]. split; [exact B|]. split; [repeat split|].
  split; [intros ? ? ?; reflexivity|]. split; [reflexivity|]. split; [left; reflexivity|].
  split; [cbn; lra|]. split; [reflexivity|].
  assert (V : forall E m, built E [0; 2]%Z -> con E = single g4 -> sw E only_cross = false ->
      signal midpoint_rule E (mkPoint 1 0 0 (1 / 1000000) m 0) Corrfunc
      = value (double_integrated (ready E) 1 m (1 / 1000000) (1 / 2) (1 / 2))).
  { clear. intros E m B C O. unfold signal, coffe_integrate.
    unfold local_on, single_on, integrated_on. rewrite C. unfold single.
    cbn [contrib_beq orb andb negb run midpoint_rule q1 qn p_z p_sep p_mu coord repeat nth].
    rewrite (di_ready E _ B). ring. }
  unfold reversed. cbn [p_z p_zmin p_zmax p_sep p_mu p_l].
  rewrite (V _ _ B eq_refl eq_refl), (V _ _ B' eq_refl eq_refl). clear V.
  rewrite (near_value (ready deep_g4)) by
    (reflexivity || near_numbers).
  rewrite (near_value (ready (exchange deep_g4))) by
    (reflexivity || near_numbers).
  cbn. unfold near, far, coffe_H0. cbn. lra.
Qed.
Print Assumptions C21_near_refuted.

(** ** C87: the integrated potentials correlated with themselves jump *)

(** Specification or proof only; nothing in the code. *)
Definition shell : env := round (single g4) false.
Definition shell_factor (y : R) : R :=
  9 * (3 / 10) ^ 2 * 9 * (1 - 3 / 4 / 100) * (1 - 5 / 2 * y / 100).

Lemma shell_inside : forall y, (3 / 4 - 5 / 2 * y) ^ 2 <= (1 / 1000000) ^ 2 ->
  value (double_integrated shell 2 1 1 (1 / 2) y) = shell_factor y * 2 * coffe_H0 ^ 4.
Proof.
  intros y Hy. rewrite near_value; try reflexivity.
  - unfold near, far, redshift, magnification, shell_factor. cbn [shell round spl tab1 par_h omega_cdm omega_baryon].
    field.
  - unfold distance2, Evolved.cosine. cbn [shell round spl].
    replace (_ - _) with ((3 / 4 - 5 / 2 * y) ^ 2); [exact Hy|field].
Qed.

Lemma shell_outside : forall y, 0 < y < 1 -> (1 / 1000000) ^ 2 < (3 / 4 - 5 / 2 * y) ^ 2 ->
  value (double_integrated shell 2 1 1 (1 / 2) y)
  = shell_factor y * (2 - Rabs (3 / 4 - 5 / 2 * y)) * coffe_H0 ^ 4.
Proof.
  intros y Hy Hq.
  assert (C : Weights.cosine (near shell 2 1 1) (far shell 2 1 1) 1 = 1).
  { unfold Weights.cosine, near, far. cbn [shell round spl]. field. }
  assert (V : in_view shell 2 1 1).
  { constructor.
    - constructor; try reflexivity; [repeat split|intros ? ? ?; reflexivity].
    - cbn [shell round spl]. lra.
    - lra.
    - discriminate.
    - intros X Y HX HY. destruct X; try discriminate HX; destruct Y; try discriminate HY; reflexivity. }
  rewrite (weights_double shell 2 1 1 V (fun _ => eq_refl) eq_refl (1 / 2) y); [|split; lra|split; lra|].
  2:{ rewrite C. unfold near, far. cbn [shell round spl].
      replace (_ - _) with ((3 / 4 - 5 / 2 * y) ^ 2); [exact Hq|field]. }
  rewrite C. unfold sum_over, enabled_pairs. cbn -[correlation pow].
  unfold correlation, kernel, weight, place, divergent_table, table, growth, factor_a. cbn [field_of along rank Nat.leb base].
  unfold near, far, redshift, magnification. cbn [shell round spl par_h omega_cdm omega_baryon].
  replace (_ ^ 2 + _ ^ 2 - _) with ((3 / 4 - 5 / 2 * y) ^ 2) by field.
  unfold divergent_table, table. cbn [shell round tab1 tab2].
  replace ((3 / 4 - 5 / 2 * y) ^ 2) with (Rsqr (3 / 4 - 5 / 2 * y)) by (unfold Rsqr; ring).
    rewrite sqrt_Rsqr_abs. unfold shell_factor. generalize (Rabs (3 / 4 - 5 / 2 * y)). intros v. field.
Qed.

(** With smooth tables the correlation of the time delay with itself jumps where the two points
    are 10^-6 apart: inside, the value for coinciding points is used. *)
Theorem C87_potentials_refuted : exists E z s m0 x0 y0,
  smooth E /\ con E = single g4 /\
  0 < s < 2 * spl E bg_comoving_distance z /\ -1 <= m0 <= 1 /\ 0 < x0 < 1 /\ 0 < y0 < 1 /\
  ~ joined2 E z s m0 x0 y0.
Proof.
  set (y0 := 3 / 10 - 4 / 10000000).
  exists shell, 2, 1, 1, (1 / 2), y0.
  split; [apply smooth_round|]. split; [reflexivity|].
  split; [cbn [spl shell round]; lra|]. split; [lra|]. split; [lra|]. split; [unfold y0; lra|].
  intros J. pose proof H0_pos as HP.
  assert (HP4 : 0 < coffe_H0 ^ 4) by (apply pow_lt; lra).
  destruct (J (coffe_H0 ^ 4 / 1000000) ltac:(lra)) as (d & Hd & D).
  assert (M1 := Rmin_l (d / 2) (1 / 10)). assert (M2 := Rmin_r (d / 2) (1 / 10)).
  assert (M3 : 0 < Rmin (d / 2) (1 / 10)) by (apply Rmin_glb_lt; lra).
  set (h := Rmin (d / 2) (1 / 10)) in *. clearbody h.
  specialize (D 1 (1 / 2) (y0 - h) ltac:(lra)).
  assert (Z : forall r, Rabs (r - r) < d) by (intros r; replace (r - r) with 0 by ring; rewrite Rabs_R0; exact Hd).
  specialize (D (Z _) (Z _)). clear Z.
  assert (Y : Rabs (y0 - h - y0) < d) by (replace (y0 - h - y0) with (- h) by ring; rewrite Rabs_Ropp, Rabs_pos_eq; lra).
  specialize (D Y). clear Y.
  rewrite (shell_inside y0) in D.
  2:{ unfold y0. lra. }
  assert (W : 3 / 4 - 5 / 2 * (y0 - h) = 1 / 1000000 + 5 / 2 * h) by (unfold y0; lra).
  rewrite shell_outside in D.
  2:{ unfold y0. lra. }
  2:{ rewrite W. nra. }
  rewrite W, (Rabs_pos_eq (1 / 1000000 + 5 / 2 * h)) in D by lra. clear W.
  revert D. generalize dependent (coffe_H0 ^ 4). intros K HK D.
  assert (F : shell_factor y0 * 2 - shell_factor (y0 - h) * (2 - (1 / 1000000 + 5 / 2 * h)) > 1 / 1000000).
  { unfold shell_factor, y0. nra. }
  apply Rabs_def2 in D. destruct D as [_ D].
  revert D F. generalize (shell_factor y0 * 2), (shell_factor (y0 - h) * (2 - (1 / 1000000 + 5 / 2 * h))).
  intros u v D F. nra.
Qed.
Print Assumptions C87_potentials_refuted.
