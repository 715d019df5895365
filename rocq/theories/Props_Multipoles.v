(** * Multipoles, redshift averages and the flat sky *)
From Coq Require Import Reals Lra Lia List ZArith Bool.
From Coquelicot Require Import Coquelicot.
From Coq Require Import List FunctionalExtensionality.
Import ListNotations.
From Verif Require Import Integrals CExpr Terms Signal TermsMeta TermsSum Additive SignalSum
  Lookup Exchange ExchangeSignal Built Weights Props_Terms Legendre Multipoles Flat.
Open Scope R_scope.
#[local] Opaque nonintegrated single_integrated double_integrated.

(** A universe for the examples: distances grow with redshift, everything else constant. *)
Definition plane : env :=
  mkEnv (fun _ => false)
    (fun f => match f with output_multipoles | flatsky_local => true | _ => false end)
    (fun f x => match f with
       | bg_comoving_distance => 10 * x | bg_z_as_chi => x / 10 | bg_a => 1 | bg_D1 => 1
       | bg_f => 3 | bg_conformal_Hz => 5 | bg_G1 => 1 | bg_G2 => 2
       | par_galaxy_bias1 => 1 | par_galaxy_bias2 => 2
       | par_magnification_bias1 | par_magnification_bias2 => 0
       | par_evolution_bias1 | par_evolution_bias2 => 0 end)
    (fun _ _ _ => 1) (fun _ _ _ _ => 0) (fun _ => false) 1 (1 / 4) (3 / 4).
Definition in_plane (S : contrib -> bool) : env := configured plane [0; 2]%Z S false.
Definition galaxies : contrib -> bool := fun c => match c with den | rsd => true | _ => false end.

Lemma in_plane_built : forall S, built (in_plane S) [0; 2]%Z.
Proof. intros. apply configured_built. Qed.
Lemma in_plane_flat : forall S, (forall X, S X = true -> plain X = true) -> flat_local (in_plane S).
Proof. intros S H. constructor; [reflexivity|repeat split|exact H]. Qed.
Lemma galaxies_flat : flat_local (in_plane galaxies).
Proof. apply in_plane_flat. intros []; try discriminate; reflexivity. Qed.

(** ** C69: the multipoles are projections of the correlation function *)

(** With a quadrature that returns the integral, the multipole l is (2l+1)/2 times the
    integral of the correlation function times P_l over the cosine. Missing from the full
    property: the two flat-sky options of the terms integrated along the line of sight. *)
Theorem C69_projection_partial : forall E z s l,
  full_nonlocal E -> integrable E z s l ->
  multipole E z s l
  = INR (2 * l + 1) / 2 * RInt (fun m => legendre l m * xi E z s m) (-1) 1.
Proof. intros E z s l F I. apply multipole_projection; assumption. Qed.
Print Assumptions C69_projection_partial.

Example C69_met : forall s l, full_nonlocal (in_plane galaxies) /\ integrable (in_plane galaxies) 1 s l
  /\ xi (in_plane galaxies) 1 1 0 <> xi (in_plane galaxies) 1 1 1.
Proof.
  intros s l. split; [split; reflexivity|split].
  - apply (flat_integrable _ _ (in_plane_built galaxies) galaxies_flat).
  - rewrite !(flat_xi _ _ (in_plane_built galaxies) galaxies_flat).
    unfold flat_series, enabled_pairs, in_plane, configured. cbv [con sw galaxies].
    cbn [filter all_contribs list_prod map app along Nat.b2n Nat.add Nat.eqb andb negb contrib_beq fst snd fold_right coefficients add].
    unfold series, bias, rate, flat_table, growth. cbn [series_from spl sw plane tab1 andb].
    rewrite !legendre_0, !legendre_1, !legendre_2, !legendre_3, !legendre_4. lra.
Qed.
Print Assumptions C69_met.

(** The number of multipoles is enough: in the flat sky the local terms are the sum of their
    first five multipoles times the Legendre polynomials. *)
Lemma series_coefficients : forall n c j m, (length c <= n)%nat ->
  series_from j (map (fun l => nth l c 0) (seq 0 n)) m = series_from j c m.
Proof.
  induction n as [|n IH]; intros [|a c] j m L; cbn [seq map series_from length nth] in *; try lia; try reflexivity.
  - rewrite <- seq_shift, map_map.
    specialize (IH [] (S j) m (Nat.le_0_l n)). cbn [series_from] in IH.
    rewrite (map_ext _ (fun l => nth l [] 0)) by (intros [|x]; reflexivity). rewrite IH. ring.
  - rewrite <- seq_shift, map_map. cbn [nth]. rewrite IH by lia. reflexivity.
Qed.

Lemma add_length : forall c d n, (length c <= n)%nat -> (length d <= n)%nat -> (length (add c d) <= n)%nat.
Proof.
  induction c as [|a c IH]; intros [|b d] n Hc Hd; cbn [add length] in *; try lia.
  destruct n; [lia|]. apply le_n_S. apply IH; lia.
Qed.

Theorem C69_sum_of_multipoles : forall E ells z s m,
  built E ells -> flat_local E ->
  xi E z s m = sum_over (seq 0 5) (fun l => multipole E z s l * legendre l m).
Proof.
  intros E ells z s m B F. rewrite (flat_xi E ells B F).
  assert (L : (length (flat_series E z s) <= 5)%nat).
  { unfold flat_series. induction (enabled_pairs (con E) (sw E only_cross) 0) as [|[X Y] l IH]; cbn [fold_right length]; [lia|].
    apply add_length; [|exact IH]. destruct X, Y; cbn; lia. }
  unfold series. rewrite <- (series_coefficients 5 (flat_series E z s) 0 m L).
  unfold sum_over. cbn [seq map series_from fold_right].
  rewrite <- !(flat_multipole E ells B F). reflexivity.
Qed.
Print Assumptions C69_sum_of_multipoles.

(** The correlation function and the multipoles of one configuration can be compared: the
    switch that tells the terms which output is computed only matters in the flat-sky
    options of the integrated terms. *)
Definition set_output (E : env) (b : bool) : env :=
  mkEnv (con E) (fun f => match f with output_multipoles => b | f => sw E f end)
        (spl E) (tab1 E) (tab2 E) (present E) (par_h E) (omega_cdm E) (omega_baryon E).

Fixpoint safe_c (c : cond) : bool :=
  match c with
  | And (Flag flatsky_local_nonlocal) _ | And (Flag flatsky_nonlocal) _ => true
  | Flag output_multipoles => false
  | Flag _ | Con _ | Finite | Lt _ _ | Eq _ _ => true
  | Not c => safe_c c
  | And c d | Or c d => safe_c c && safe_c d
  end.
Fixpoint safe1 (c : stmt) : bool :=
  match c with
  | If c p q => safe_c c && forallb safe1 p && forallb safe1 q
  | _ => true
  end.

Lemma eval_output : forall E b s e, eval (set_output E b) s e = eval E s e.
Proof.
  induction e; simpl; try reflexivity;
    try (rewrite IHe1, IHe2; reflexivity); rewrite IHe; reflexivity.
Qed.
Lemma holds_output : forall E b s c, full_nonlocal E -> safe_c c = true ->
  holds (set_output E b) s c = holds E s c.
Proof.
  intros E b s c [F1 F2]. induction c; intros H; try reflexivity;
    try (cbn [holds]; rewrite ?eval_output; reflexivity).
  - destruct f; try reflexivity. discriminate.
  - cbn [holds]. rewrite IHc by exact H. reflexivity.
  - assert (D : (c1 = Flag flatsky_local_nonlocal \/ c1 = Flag flatsky_nonlocal)
      \/ safe_c c1 = true /\ safe_c c2 = true).
    { destruct c1; try (right; apply andb_true_iff; exact H).
      destruct f; try (right; apply andb_true_iff; exact H); left; [left|right]; reflexivity. }
    destruct D as [[-> | ->]|[D1 D2]]; cbn [holds set_output sw]; rewrite ?F1, ?F2; try reflexivity.
    rewrite IHc1, IHc2 by assumption. reflexivity.
  - cbn [safe_c] in H. apply andb_true_iff in H. destruct H. cbn [holds].
    rewrite IHc1, IHc2 by assumption. reflexivity.
Qed.
Lemma exec_output : forall E b l s, full_nonlocal E -> forallb safe1 l = true ->
  exec (set_output E b) s l = exec E s l.
Proof.
  intros E b l s F. revert l s.
  apply (stmts_ind2
    (fun c => forall s, safe1 c = true -> exec1 (set_output E b) s c = exec1 E s c)
    (fun l => forall s, forallb safe1 l = true -> exec (set_output E b) s l = exec E s l)).
  - intros v e s _. cbn [exec1]. rewrite eval_output. unfold use. reflexivity.
  - intros e s _. cbn [exec1]. rewrite eval_output. reflexivity.
  - intros c p q IHp IHq s H. cbn [safe1] in H. rewrite !andb_true_iff in H. destruct H as [[Hc Hp] Hq].
    rewrite !exec1_If, holds_output by assumption. destruct (holds E s c); auto.
  - intros e s _. cbn [exec1]. rewrite eval_output. reflexivity.
  - reflexivity.
  - reflexivity.
  - intros c l IHc IHl s H. cbn [forallb] in H. apply andb_true_iff in H. destruct H.
    cbn [exec]. rewrite IHc by assumption. destruct (exec1 E s c); auto.
Qed.

#[local] Transparent nonintegrated single_integrated double_integrated.
Lemma ni_output : forall E b zm m s, full_nonlocal E ->
  nonintegrated (set_output E b) zm m s = nonintegrated E zm m s.
Proof. intros. unfold nonintegrated. apply exec_output; [assumption|reflexivity]. Qed.
Lemma si_output : forall E b zm m s x, full_nonlocal E ->
  single_integrated (set_output E b) zm m s x = single_integrated E zm m s x.
Proof. intros. unfold single_integrated. apply exec_output; [assumption|reflexivity]. Qed.
Lemma di_output : forall E b zm m s x y, full_nonlocal E ->
  double_integrated (set_output E b) zm m s x y = double_integrated E zm m s x y.
Proof. intros. unfold double_integrated. apply exec_output; [assumption|reflexivity]. Qed.
#[local] Opaque nonintegrated single_integrated double_integrated.

Theorem C69_output_irrelevant : forall Q E b p o, full_nonlocal E ->
  signal Q (set_output E b) p o = signal Q E p o.
Proof.
  intros Q E b p o F. unfold signal, coffe_integrate. cbv zeta.
  change (local_on (set_output E b)) with (local_on E).
  change (single_on (set_output E b)) with (single_on E).
  change (single_full_on (set_output E b)) with (single_full_on E).
  change (integrated_on (set_output E b)) with (integrated_on E).
  change (av_weight (set_output E b)) with (av_weight E).
  change (av_z (set_output E b)) with (av_z E).
  change (flat_den_len (set_output E b)) with (flat_den_len E).
  change (flat_len_len (set_output E b)) with (flat_len_len E).
  cbn [set_output con sw].
  replace (nonintegrated (set_output E b)) with (nonintegrated E)
    by (do 3 (apply functional_extensionality; intro); symmetry; apply ni_output; exact F).
  replace (single_integrated (set_output E b)) with (single_integrated E)
    by (do 4 (apply functional_extensionality; intro); symmetry; apply si_output; exact F).
  replace (double_integrated (set_output E b)) with (double_integrated E)
    by (do 5 (apply functional_extensionality; intro); symmetry; apply di_output; exact F).
  reflexivity.
Qed.
Print Assumptions C69_output_irrelevant.
Example C69_output_met : full_nonlocal (ex everything false).
Proof. split; reflexivity. Qed.

(** ** C70: the averaged multipoles are averages of the multipoles *)

(** The averaged multipole over a bin is H0 h / (z2 - z1) times the integral of the multipole
    over d z / (H(z) (1 + z)), from half a separation above the lower edge to half a
    separation below the upper one. *)
Theorem C70_average_partial : forall E zmin zmax s l,
  full_nonlocal E -> averageable E zmin zmax s l ->
  let z1 := first_z E zmin s in let z2 := last_z E zmax s in z1 <> z2 ->
  averaged E zmin zmax s l
  = / (z2 - z1) * RInt (fun z => coffe_H0 * par_h E / (spl E bg_conformal_Hz z * (1 + z)) * multipole E z s l) z1 z2.
Proof.
  intros E zmin zmax s l F A z1 z2 N. unfold z1, z2. rewrite averaged_multipoles by assumption.
  f_equal. apply RInt_ext. intros z _. f_equal. unfold av_weight, Rdiv. rewrite Rinv_mult. ring.
Qed.
Print Assumptions C70_average_partial.

(** Everything but the distance is the same at every redshift of [plane]. *)
Lemma plane_series : forall z s, flat_series (in_plane galaxies) z s = flat_series (in_plane galaxies) 1 s.
Proof. reflexivity. Qed.

Lemma plane_continuous : forall z, 0 <= z -> continuous (fun z => / 5 / (1 + z) * (coffe_H0 * 1)) z.
Proof.
  intros z Hz. apply (ex_derive_continuous (K := R_AbsRing) (V := R_NormedModule)). auto_derive. lra.
Qed.

Example C70_met : full_nonlocal (in_plane galaxies) /\ averageable (in_plane galaxies) 1 2 1 0 /\
  first_z (in_plane galaxies) 1 1 < last_z (in_plane galaxies) 2 1.
Proof.
  split; [split; reflexivity|]. split.
  2:{ unfold first_z, last_z. cbn. lra. }
  assert (Z12 : first_z (in_plane galaxies) 1 1 = 21 / 20 /\ last_z (in_plane galaxies) 2 1 = 39 / 20)
    by (unfold first_z, last_z; cbn; lra).
  destruct Z12 as [Z1 Z2].
  assert (C : forall part c, (forall z, part z = c) ->
    ex_RInt (fun z => av_weight (in_plane galaxies) z * part z) (21 / 20) (39 / 20)).
  { intros part c Hc. apply (ex_RInt_continuous (V := R_CompleteNormedModule)). intros z Hz.
    rewrite Rmin_left, Rmax_right in Hz by lra.
    apply (continuous_mult (av_weight (in_plane galaxies)) part).
    - apply plane_continuous. lra.
    - apply (continuous_ext (fun _ => c)); [intros; symmetry; apply Hc|apply continuous_const]. }
  constructor; rewrite ?Z1, ?Z2.
  - intros z _. apply (flat_integrable _ _ (in_plane_built galaxies) galaxies_flat).
  - apply (C _ (projection 0 (local_part (in_plane galaxies) 1 1))). intros z.
    unfold projection. apply RInt_ext. intros m _. unfold local_part.
    rewrite !(built_flat _ _ (in_plane_built galaxies) galaxies_flat), plane_series. reflexivity.
  - apply (C _ 0). intros z. unfold projection, single_part.
    rewrite (flat_no_single _ galaxies_flat), (RInt_ext _ (fun _ => 0)) by (intros; apply Rmult_0_r). apply zero_integral.
  - apply (C _ 0). intros z. unfold projection, double_part.
    rewrite (flat_no_double _ galaxies_flat), (RInt_ext _ (fun _ => 0)) by (intros; apply Rmult_0_r). apply zero_integral.
Qed.
Print Assumptions C70_met.

(** The pairs that enter the average are inside the bin as long as the separation fits. *)
Theorem C70_inside : forall E zmin zmax s u m,
  let chi := spl E bg_comoving_distance in
  (forall d, chi zmin <= d <= chi zmax -> chi (spl E bg_z_as_chi d) = d) ->
  (forall z z', z <= z' -> chi z <= chi z') ->
  (forall d d', chi zmin <= d -> d <= d' -> d' <= chi zmax -> spl E bg_z_as_chi d <= spl E bg_z_as_chi d') ->
  0 <= s <= chi zmax - chi zmin -> 0 <= u <= 1 -> -1 <= m <= 1 ->
  let z := av_z E (mkPoint 0 zmin zmax s 0 0) u in
  chi zmin <= near E z m s <= chi zmax /\ chi zmin <= far E z m s <= chi zmax.
Proof.
  intros E zmin zmax s u m chi I M1 M2 Hs Hu Hm z.
  set (z1 := spl E bg_z_as_chi (chi zmin + s / 2)). set (z2 := spl E bg_z_as_chi (chi zmax - s / 2)).
  assert (C1 : chi z1 = chi zmin + s / 2) by (apply I; lra).
  assert (C2 : chi z2 = chi zmax - s / 2) by (apply I; lra).
  assert (L : z1 <= z2) by (apply M2; lra).
  assert (Z : z = (z2 - z1) * u + z1) by reflexivity.
  assert (B1 : chi z1 <= chi z) by (apply M1; nra).
  assert (B2 : chi z <= chi z2) by (apply M1; nra).
  unfold near, far. change (spl E bg_comoving_distance z) with (chi z). nra.
Qed.
Print Assumptions C70_inside.

(** For larger separations some of them are not, and the code does not refuse. *)
Theorem C70_inside_refuted : forall E zmin zmax s,
  let chi := spl E bg_comoving_distance in
  (forall d, chi (spl E bg_z_as_chi d) = d) -> 0 < s -> chi zmax - chi zmin < s ->
  exists u m, 0 <= u <= 1 /\ -1 <= m <= 1 /\
    let z := av_z E (mkPoint 0 zmin zmax s 0 0) u in chi zmax < far E z m s.
Proof.
  intros E zmin zmax s chi I P Hs. exists 0, 1. repeat split; try lra.
  cbv zeta. unfold far, av_z. cbn [p_zmin p_zmax p_sep]. rewrite Rmult_0_r, Rplus_0_l.
  change (chi zmax < chi (spl E bg_z_as_chi (chi zmin + s / 2)) + s * 1 / 2). rewrite I. lra.
Qed.
Print Assumptions C70_inside_refuted.

Example C70_inside_met :
  let chi := spl plane bg_comoving_distance in
  (forall d, chi (spl plane bg_z_as_chi d) = d) /\ (forall z z', z <= z' -> chi z <= chi z') /\
  (forall d d', d <= d' -> spl plane bg_z_as_chi d <= spl plane bg_z_as_chi d') /\ chi 2 - chi 1 = 10.
Proof. cbn. repeat split; intros; lra. Qed.

(** coffe.pyx:2764-2790: the largest separation for a bin around a redshift. *)
Definition maximum_separation (E : env) (z dz : R) : R :=
  2 * (spl E bg_comoving_distance (z + dz) - spl E bg_comoving_distance z).

(** ** C76: up to the maximum separation, pairs stay inside their bin *)

(** The comoving distance is concave: it is the integral of 1/H, and H grows with redshift. *)
Definition concave (chi : R -> R) : Prop :=
  forall z d, 0 <= d <= z -> chi (z + d) + chi (z - d) <= 2 * chi z.

Theorem C76_inside : forall E z dz s m,
  let chi := spl E bg_comoving_distance in
  concave chi -> 0 <= dz <= z -> 0 <= s <= maximum_separation E z dz -> -1 <= m <= 1 ->
  chi (z - dz) <= near E z m s <= chi (z + dz) /\ chi (z - dz) <= far E z m s <= chi (z + dz).
Proof.
  intros E z dz s m chi C D S M. specialize (C z dz D).
  unfold maximum_separation in S. unfold near, far. fold chi in S |- *. nra.
Qed.
Print Assumptions C76_inside.

(** It is the largest such separation. *)
Theorem C76_largest : forall E z dz s,
  maximum_separation E z dz < s -> far E z 1 s > spl E bg_comoving_distance (z + dz).
Proof. intros E z dz s S. unfold maximum_separation in S. unfold far. lra. Qed.
Print Assumptions C76_largest.

(** It also fits into the bin of the averaged multipoles. *)
Theorem C76_average : forall E z dz,
  let chi := spl E bg_comoving_distance in
  concave chi -> 0 <= dz <= z -> maximum_separation E z dz <= chi (z + dz) - chi (z - dz).
Proof.
  intros E z dz chi C D. specialize (C z dz D). unfold maximum_separation.
  fold chi. lra.
Qed.
Print Assumptions C76_average.

(** A distance with a finite horizon. *)
Example C76_met : concave (fun z => 1 - / (1 + z)) /\
  0 < 2 * ((1 - / (1 + (1 + 1 / 2))) - (1 - / (1 + 1))).
Proof.
  split; [|lra]. intros z d D.
  assert (0 < (1 + (z + d)) * (1 + (z - d)) * (1 + z)) by (apply Rmult_lt_0_compat; [apply Rmult_lt_0_compat|]; lra).
  apply Rminus_le.
  replace (1 - / (1 + (z + d)) + (1 - / (1 + (z - d))) - 2 * (1 - / (1 + z)))
    with (- (2 * d ^ 2) / ((1 + (z + d)) * (1 + (z - d)) * (1 + z))) by (field; lra).
  apply Rmult_le_reg_r with (1 := H). unfold Rdiv. rewrite Rmult_assoc, Rinv_l by lra.
  pose proof (pow2_ge_0 d). lra.
Qed.

(** ** C71: in the flat sky the multipoles of the local terms are those of linear theory *)

(** For every multipole, any of density, redshift-space distortions and Doppler, equal or
    different populations and both kinds of spectrum. The exception is the quadrupole of the
    Doppler term with itself. *)
Theorem C71_linear_theory_partial : forall E ells z s l,
  built E ells -> flat_local E ->
  (l = 2%nat -> con E d1 = true -> sw E only_cross = true) ->
  multipole E z s l = sum_over (enabled_pairs (con E) (sw E only_cross) 0)
    (fun p => linear_theory E z s (fst p) (snd p) l).
Proof. intros. eapply flat_linear; eassumption. Qed.
Print Assumptions C71_linear_theory_partial.

(** In particular the monopole, quadrupole and hexadecapole of density and redshift-space
    distortions of one population, and nothing else. *)
Theorem C71_kaiser : forall E ells z s l,
  built E ells -> flat_local E -> (forall X, con E X = match X with den | rsd => true | _ => false end) ->
  sw E only_cross = false -> bias E First z = bias E Second z ->
  let b := bias E First z in let f := rate E z in
  multipole E z s l =
  match l with
  | 0%nat => (b ^ 2 + 2 / 3 * b * f + f ^ 2 / 5) * flat_table E z s 0 0
  | 2%nat => - (4 / 3 * b * f + 4 / 7 * f ^ 2) * flat_table E z s 0 2
  | 4%nat => 8 / 35 * f ^ 2 * flat_table E z s 0 4
  | _ => 0
  end.
Proof.
  intros E ells z s l B F C O Hb b f. rewrite (flat_multipole E ells B F).
  unfold flat_series, enabled_pairs. rewrite O.
  assert (C' : con E = fun X => match X with den | rsd => true | _ => false end)
    by (apply functional_extensionality; exact C).
  rewrite C'.
  cbn [filter all_contribs list_prod map app along Nat.b2n Nat.add Nat.eqb andb negb contrib_beq fst snd fold_right coefficients add].
  rewrite <- Hb. fold b f.
  destruct l as [|[|[|[|[|[|l]]]]]]; cbn [nth]; try field.
Qed.
Print Assumptions C71_kaiser.

Example C71_met : built (in_plane galaxies) [0; 2]%Z /\ flat_local (in_plane galaxies) /\
  multipole (in_plane galaxies) 1 1 2 = - (6 + 36 / 7).
Proof.
  split; [apply in_plane_built|]. split; [apply galaxies_flat|].
  rewrite (flat_multipole _ _ (in_plane_built galaxies) galaxies_flat).
  unfold flat_series, enabled_pairs, in_plane, configured. cbv [con sw galaxies].
  cbn [filter all_contribs list_prod map app along Nat.b2n Nat.add Nat.eqb andb negb contrib_beq fst snd fold_right coefficients add nth].
  unfold bias, rate, flat_table, growth. cbn [spl sw plane tab1 andb]. field.
Qed.
Print Assumptions C71_met.

(** The Doppler quadrupole has the opposite sign: it is off by twice the value of linear
    theory for every configuration with the Doppler term. *)
Theorem C71_doppler_refuted : forall E ells z s,
  built E ells -> flat_local E -> con E d1 = true -> sw E only_cross = false ->
  multipole E z s 2 = sum_over (enabled_pairs (con E) (sw E only_cross) 0)
    (fun p => linear_theory E z s (fst p) (snd p) 2)
    + 4 / 3 * (hubble E z * rate E z) ^ 2 * doppler E First z * doppler E Second z * s ^ 2 * flat_table E z s 2 2.
Proof.
  intros E ells z s B F C O. rewrite (flat_multipole E ells B F).
  unfold flat_series. rewrite flat_series_nth.
  set (w := 4 / 3 * (hubble E z * rate E z) ^ 2 * doppler E First z * doppler E Second z * s ^ 2 * flat_table E z s 2 2).
  assert (D : nth 2 (coefficients E z s d1 d1) 0 = linear_theory E z s d1 d1 2 + w).
  { unfold linear_theory, radial, w. cbn [order amplitude coefficients nth Nat.add Nat.mul Nat.min].
    erewrite (moment_series _ [hubble E z ^ 2 * rate E z ^ 2 * doppler E First z * doppler E Second z / 3; 0;
       2 / 3 * (hubble E z ^ 2 * rate E z ^ 2 * doppler E First z * doppler E Second z)]).
    - unfold i_power. cbn [nth Nat.modulo Nat.divmod snd Nat.sub fst Nat.add]. field.
    - intros m _. unfold series. cbn [series_from]. rewrite legendre_0, legendre_1, legendre_2. field. }
  assert (G : forall L : list (contrib * contrib), NoDup L -> In (d1, d1) L ->
    (forall p, In p L -> plain (fst p) = true /\ plain (snd p) = true) ->
    sum_over L (fun p => nth 2 (coefficients E z s (fst p) (snd p)) 0)
    = sum_over L (fun p => linear_theory E z s (fst p) (snd p) 2) + w).
  { unfold sum_over. induction L as [|[X Y] L IH]; intros ND HI HP; [contradiction|].
    inversion ND; subst. cbn [map fold_right fst snd].
    destruct (HP (X, Y) (or_introl eq_refl)) as [PX PY]. cbn [fst snd] in PX, PY.
    assert (R : forall L', ~ In (d1, d1) L' -> (forall p, In p L' -> plain (fst p) = true /\ plain (snd p) = true) ->
      fold_right Rplus 0 (map (fun p => nth 2 (coefficients E z s (fst p) (snd p)) 0) L')
      = fold_right Rplus 0 (map (fun p => linear_theory E z s (fst p) (snd p) 2) L')).
    { intros L' N P'. f_equal. apply map_ext_in. intros [X' Y'] H'. destruct (P' _ H') as [Q1 Q2].
      apply coefficients_linear; [exact Q1|exact Q2|]. intros E1 E2. cbn [fst snd] in *. subst. contradiction. }
    destruct HI as [HI|HI].
    - injection HI as -> ->. rewrite D, (R L) by (assumption || (intros; apply HP; right; assumption)). ring.
    - rewrite (IH H2 HI) by (intros; apply HP; right; assumption).
      rewrite (coefficients_linear E z s X Y 2 PX PY); [ring|]. intros -> ->. contradiction. }
  apply G.
  - unfold enabled_pairs. apply NoDup_filter. clear. cbn.
    repeat (constructor; [cbn; intuition discriminate|]). constructor.
  - apply filter_In. split; [cbn; tauto|]. cbn [fst snd along Nat.b2n Nat.add Nat.eqb contrib_beq]. rewrite C, O. reflexivity.
  - intros p HI. destruct (flat_pairs_plain E F p HI) as (P1 & P2 & _). split; assumption.
Qed.
Print Assumptions C71_doppler_refuted.
