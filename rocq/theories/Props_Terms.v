(** * Properties C17, C19, C20, C21, C22: the signal terms *)
From Coq Require Import Reals ZArith Bool List Lia Lra FunctionalExtensionality.
Import ListNotations.
From Verif Require Import Integrals CExpr Terms Signal TermsMeta TermsSum Additive SignalSum
  Lookup Uses Exchange ExchangeSignal Built Weights.
Open Scope R_scope.

(** ** A concrete configuration and quadrature, used to show that hypotheses are met *)

(** Evaluation at the middle of the interval or cube. *)
Definition midpoint_rule : quadrature :=
  mkQuad (fun f => f (1 / 2)) (fun d f => f (repeat (1 / 2) d)).

Definition universe : env :=
  mkEnv (fun _ => false)
    (fun f => match f with output_multipoles => true | _ => false end)
    (fun f z => match f with
       | bg_comoving_distance => 2 | bg_z_as_chi => z / 10 | bg_a => 1 / 2 | bg_D1 => 1
       | bg_f => 3 | bg_conformal_Hz => 5 | bg_G1 => 1 | bg_G2 => 2
       | par_galaxy_bias1 => 1 | par_galaxy_bias2 => 2
       | par_magnification_bias1 | par_magnification_bias2 => 0
       | par_evolution_bias1 | par_evolution_bias2 => 0 end)
    (fun k _ _ => match k with K 1 3 false => 0 | _ => 1 end) (fun _ _ _ _ => 0) (fun _ => false) 1 (1 / 4) (3 / 4).

Definition ex (S : contrib -> bool) (cross : bool) : env := configured universe [0; 2]%Z S cross.
Definition everything : contrib -> bool := fun _ => true.

Example ex_built : forall S cross, built (ex S cross) [0; 2]%Z.
Proof. intros. apply configured_built. Qed.

Lemma midpoint_linear : linear midpoint_rule.
Proof. constructor; reflexivity. Qed.
Lemma half_set : forall d i, set_nth i (1 / 2) (repeat (1 / 2) d) = repeat (1 / 2) d.
Proof. induction d; intros [|i]; cbn; try reflexivity. f_equal. apply IHd. Qed.
Lemma half_coord : forall d i, (i < d)%nat -> coord (repeat (1 / 2) d) i = 1 / 2.
Proof.
  unfold coord. induction d; intros i H; [lia|]. destruct i; cbn; [reflexivity|]. apply IHd. lia.
Qed.
Lemma midpoint_invariant : invariant midpoint_rule.
Proof.
  constructor; intros; cbn [midpoint_rule q1 qn].
  - apply H. split; lra.
  - f_equal. lra.
  - reflexivity.
  - apply H; [apply repeat_length|]. apply Forall_forall. intros x Hx.
    apply repeat_spec in Hx. subst. split; lra.
  - f_equal. unfold flip. rewrite half_coord by assumption.
    replace (1 - 1 / 2) with (1 / 2) by lra. apply half_set.
  - f_equal. unfold transpose. rewrite !half_coord by assumption. rewrite !half_set. reflexivity.
  - reflexivity.
Qed.

(** ** C17: every integral a signal looks up has been computed *)
Theorem C17_lookups_present : forall E ells p f o,
  built E ells -> asked E ells p o -> no_null (coffe_integrate E p f o).
Proof.
  intros E ells p f o B A. exact (integrate_no_null E ells (bu_table _ _ B) (bu_div _ _ B) p f o A).
Qed.
Print Assumptions C17_lookups_present.

Example C17_met : exists E ells p,
  built E ells /\ asked E ells p Multipoles /\ con E = everything.
Proof.
  exists (ex everything false), [0; 2]%Z, (mkPoint 1 0 0 1 0 2).
  split; [apply ex_built|]. split; [|reflexivity].
  intros _. split; [reflexivity|]. right. left. reflexivity.
Qed.

(** Without the divergent integral, a density-g1 signal would use a null pointer: the
    hypothesis that the table was built for the enabled contributions matters. *)
Example C17_needs_table : exists E p,
  (forall k, present E k = has_key (expected_keys E [])%list k) /\
  ~ no_null (coffe_integrate E p NonIntegrated Corrfunc).
Proof.
  exists (mkEnv everything (sw universe) (spl universe) (tab1 universe) (tab2 universe)
            (has_key (expected_keys universe [])) 1 (1 / 4) (3 / 4)), (mkPoint 1 0 0 1 0 0).
  split; [reflexivity|]. cbn [coffe_integrate local_on con everything orb negb no_null].
  intros H. apply H. rewrite nonintegrated_spec.
  assert (forall (b : bool) (A B : outcome), b = false -> (if b then A else B) = B) as S
    by (intros b A B ->; reflexivity).
  apply S. apply not_true_is_false. intros F. rewrite forallb_forall in F.
  specialize (F (K 4 0 false)). discriminate F.
  unfold all_keys. apply in_app_iff. right.
  apply in_concat. eexists. split.
  - apply in_map with (x := (g1, g1, ni_g1_g1)). cbn [In ni_blocks]. tauto.
  - cbn [snd]. unfold ni_g1_g1. cbn [keys]. apply in_app_iff. left.
    rewrite keys1_If. cbn. tauto.
Qed.

(** ** C19: contributions that are off do not contribute *)
Theorem C19_unused_is_irrelevant : forall Q E E' ells p o,
  built E ells -> built E' ells -> asked E ells p o ->
  same_where_used o E E' -> signal Q E p o = signal Q E' p o.
Proof.
  intros Q E E' ells p o B B' A S.
  assert (A' : asked E' ells p o).
  { intros H. rewrite <- (su_sw _ _ _ S). apply A. exact H. }
  rewrite (signal_complete E ells B Q p o A), (signal_complete E' ells B' Q p o A').
  apply signal_same; try reflexivity. destruct S. constructor; assumption.
Qed.
Print Assumptions C19_unused_is_irrelevant.

(** Two configurations with redshift-space distortions only, and different galaxy,
    magnification and evolution biases. *)
Example C19_met : exists E E',
  built E [0; 2]%Z /\ built E' [0; 2]%Z /\ same_where_used Multipoles E E' /\
  con E rsd = true /\ spl E par_galaxy_bias1 0 <> spl E' par_galaxy_bias1 0.
Proof.
  set (E := ex (single rsd) false).
  exists E, (mkEnv (con E) (sw E)
    (fun f z => match f with par_galaxy_bias1 => 7 | par_magnification_bias2 => 3
                           | bg_G1 => 11 | f => spl E f z end)
    (tab1 E) (tab2 E) (present E) (par_h E) (omega_cdm E) (omega_baryon E)).
  split; [apply ex_built|]. split.
  { destruct (ex_built (single rsd) false) as [T D]. constructor; [exact T|exact D]. }
  split; [|split; [reflexivity|cbn; lra]].
  constructor; try reflexivity.
  - intros f H z. cbn [always app In] in H.
    repeat (destruct H as [<-|H]; [reflexivity|]). contradiction.
  - intros c f Hc H z. destruct c; try discriminate Hc.
    cbn [uses In] in H. destruct H as [<-|[]]. reflexivity.
Qed.

Theorem C19_all_off_is_zero : forall Q E p o,
  (forall c, con E c = false) -> signal Q E p o = 0.
Proof.
  intros Q E p o H. unfold signal, coffe_integrate, local_on, single_on, integrated_on.
  rewrite !H. cbn [andb orb negb run]. ring.
Qed.
Print Assumptions C19_all_off_is_zero.

(** ... while the same configuration with densities on is not. *)
Example C19_on_is_not_zero :
  signal midpoint_rule (ex (single den) false) (mkPoint 1 0 0 1 0 0) Corrfunc <> 0.
Proof.
  assert (V : in_view (ex (single den) false) 1 0 1).
  { constructor.
    - constructor; try reflexivity; [repeat split|intros ? ? ?; reflexivity].
    - cbn. lra.
    - lra.
    - discriminate.
    - intros X Y HX HY. destruct X; try discriminate HX; destruct Y; try discriminate HY; reflexivity. }
  pose proof (built_local _ _ (ex_built (single den) false) _ _ _ V) as W.
  assert (G : signal midpoint_rule (ex (single den) false) (mkPoint 1 0 0 1 0 0) Corrfunc
              = 1 * value (nonintegrated (ex (single den) false) 1 0 1) + 0 + 0) by reflexivity.
  rewrite G, W. clear G W V.
  unfold sum_over, enabled_pairs. cbn. unfold correlation, kernel, weight, growth, bias, table, redshift. cbn. lra.
Qed.

(** ** C20: contributions add up in pairs *)
Theorem C20_contributions_add_up : forall Q E ells p o,
  linear Q -> asked E ells p o ->
  decomposes (fun S cross => signal Q (configured E ells S cross) p o).
Proof.
  intros Q E ells p o L A.
  assert (D : decomposes (fun S cross => signal Q (with_set (complete (set_div E true)) S cross) p o)).
  { apply signal_decomposes; [exact L|reflexivity|]. intros H. apply A. exact H. }
  intros S. specialize (D S). cbv zeta in *. destruct D as [D1 D2].
  rewrite !signal_configured by exact A. rewrite D1, D2.
  split; [|apply f_equal2]; apply sum_ext; intros; rewrite signal_configured by exact A; reflexivity.
Qed.
Print Assumptions C20_contributions_add_up.

Example C20_met : linear midpoint_rule /\ asked universe [0; 2]%Z (mkPoint 1 0 0 1 0 2) Multipoles.
Proof.
  split; [apply midpoint_linear|]. intros _. split; [reflexivity|]. right. left. reflexivity.
Qed.

(** ** C21: exchanging the populations *)

(** What is excluded: the Doppler-lensing pair (refuted below), and the correlation of two
    line-of-sight potential contributions, for which the code replaces the correlation of two
    nearby points by one evaluated at the first of them (refuted in Props_Near). *)
Record exchange_case (E : env) : Prop := {
  xk_deriv : no_derivatives E;
  xk_ren : symmetric_renormalization E;
  xk_d1_len : con E d1 && con E len = false;
  xk_one : one_potential E }.

Lemma exchange_built : forall E ells, built E ells -> built (exchange E) ells.
Proof. intros E ells [T D]. constructor; [exact T|exact D]. Qed.
Lemma exchange_complete : forall E, exchange_case E -> exchangeable (complete E).
Proof. intros E []. constructor; assumption || reflexivity. Qed.

Theorem C21_multipoles_partial : forall Q E ells p,
  invariant Q -> built E ells -> asked E ells p Multipoles -> exchange_case E ->
  sw E pk_nonlinear = false \/ observer_outside E p ->
  signal Q (exchange E) p Multipoles = (-1) ^ p_l p * signal Q E p Multipoles.
Proof.
  intros Q E ells p I B A X O.
  rewrite (signal_complete E ells B Q p _ A),
    (signal_complete _ ells (exchange_built E ells B) Q p _ A).
  change (complete (exchange E)) with (exchange (complete E)).
  apply signal_exchange_multipoles; try assumption.
  - apply exchange_complete. exact X.
  - apply A. reflexivity.
Qed.
Print Assumptions C21_multipoles_partial.

Theorem C21_average_multipoles_partial : forall Q E ells p,
  invariant Q -> built E ells -> exchange_case E -> not_flat E ->
  sw E pk_nonlinear = false \/ observer_outside E p ->
  signal Q (exchange E) p AverageMultipoles = (-1) ^ p_l p * signal Q E p AverageMultipoles.
Proof.
  intros Q E ells p I B X N O.
  assert (A : forall E', asked E' ells p AverageMultipoles) by (intros E' H; discriminate).
  rewrite (signal_complete E ells B Q p _ (A _)),
    (signal_complete _ ells (exchange_built E ells B) Q p _ (A _)).
  change (complete (exchange E)) with (exchange (complete E)).
  apply signal_exchange_average; try assumption.
  apply exchange_complete. exact X.
Qed.
Print Assumptions C21_average_multipoles_partial.

Theorem C21_corrfunc_partial : forall Q E ells p,
  invariant Q -> built E ells -> exchange_case E -> not_flat E -> -1 < p_mu p < 1 ->
  sw E pk_nonlinear = false \/ observer_outside E p ->
  signal Q (exchange E) (reversed p) Corrfunc = signal Q E p Corrfunc.
Proof.
  intros Q E ells p I B X N M O.
  assert (A : forall E' p, asked E' ells p Corrfunc) by (intros E' p' H; discriminate).
  rewrite (signal_complete E ells B Q p _ (A _ _)),
    (signal_complete _ ells (exchange_built E ells B) Q (reversed p) _ (A _ _)).
  change (complete (exchange E)) with (exchange (complete E)).
  apply signal_exchange_corrfunc; try assumption.
  apply exchange_complete. exact X.
Qed.
Print Assumptions C21_corrfunc_partial.

(** With identical populations the odd multipoles vanish. *)
Corollary C21_odd_multipoles_vanish_partial : forall Q E ells p,
  invariant Q -> built E ells -> asked E ells p Multipoles -> exchange_case E ->
  sw E pk_nonlinear = false \/ observer_outside E p ->
  (forall f z, spl (exchange E) f z = spl E f z) -> Nat.odd (p_l p) = true ->
  signal Q E p Multipoles = 0.
Proof.
  intros Q E ells p I B A X O Same Odd.
  pose proof (C21_multipoles_partial Q E ells p I B A X O) as H.
  replace (exchange E) with E in H.
  - assert (S : (-1) ^ p_l p = -1).
    { apply Nat.odd_spec in Odd. destruct Odd as [k ->].
      rewrite Nat.add_1_r. apply pow_1_odd. }
    rewrite S in H. lra.
  - destruct E. unfold exchange. cbn in *. f_equal.
    apply functional_extensionality. intros f. apply functional_extensionality. intros z.
    symmetry. apply Same.
Qed.
Print Assumptions C21_odd_multipoles_vanish_partial.

Definition all_but_los : contrib -> bool :=
  fun c => match c with d1 | g4 | g5 => false | _ => true end.
Example C21_met : exists Q E p,
  invariant Q /\ built E [0; 2]%Z /\ asked E [0; 2]%Z p Multipoles /\ exchange_case E /\
  not_flat E /\ sw E pk_nonlinear = false /\ con E = all_but_los /\
  spl (exchange E) par_galaxy_bias1 0 <> spl E par_galaxy_bias1 0.
Proof.
  exists midpoint_rule, (ex all_but_los false), (mkPoint 1 0 0 1 0 2).
  split; [apply midpoint_invariant|]. split; [apply ex_built|]. split.
  { intros _. split; [reflexivity|]. right. left. reflexivity. }
  split; [constructor; try reflexivity; repeat split|].
  split; [left; reflexivity|]. split; [reflexivity|]. split; [reflexivity|]. cbn. lra.
Qed.
(** The same with one of the potential contributions, when a contribution is not correlated with
    itself. *)
Definition all_but_g5 : contrib -> bool :=
  fun c => match c with d1 | g5 => false | _ => true end.
Example C21_met_cross : exists E,
  built E [0; 2]%Z /\ exchange_case E /\ not_flat E /\ con E = all_but_g5 /\
  spl (exchange E) par_galaxy_bias1 0 <> spl E par_galaxy_bias1 0.
Proof.
  exists (ex all_but_g5 true). split; [apply ex_built|].
  split; [constructor; try reflexivity; repeat split|].
  split; [left; reflexivity|]. split; [reflexivity|]. cbn. lra.
Qed.

(** ** C22: every contribution has one weight *)

(** The integrands of the three families are the sums over ordered pairs of enabled
    contributions of weight, weight and correlation of the underlying fields.
    Partial: linear power spectrum and full sky, away from coinciding points, and
    without the pairs of [inconsistent], for which it is false (below). *)
Theorem C22_local_partial : forall E ells zm m s,
  built E ells -> in_view E zm m s ->
  value (nonintegrated E zm m s) =
  sum_over (enabled_pairs (con E) (sw E only_cross) 0)
    (fun p => correlation E (fst p) (snd p) (near E zm m s) 1 (far E zm m s) 1
                (cosine (near E zm m s) (far E zm m s) s)).
Proof. intros E ells zm m s B. exact (built_local E ells B zm m s). Qed.
Print Assumptions C22_local_partial.

Theorem C22_single_integrated_partial : forall E ells zm m s x,
  built E ells -> in_view E zm m s ->
  let a := near E zm m s in let b := far E zm m s in let c := cosine a b s in
  0 < a ^ 2 + (b * x) ^ 2 - 2 * a * (b * x) * c -> 0 < (a * x) ^ 2 + b ^ 2 - 2 * (a * x) * b * c ->
  value (single_integrated E zm m s x) =
  sum_over (enabled_pairs (con E) (sw E only_cross) 1)
    (fun p => correlation E (fst p) (snd p) a x b x c).
Proof. intros E ells zm m s x B. exact (built_single E ells B zm m s x). Qed.
Print Assumptions C22_single_integrated_partial.

Theorem C22_double_integrated_partial : forall E ells zm m s x y,
  built E ells -> in_view E zm m s -> interior x -> interior y ->
  let a := near E zm m s in let b := far E zm m s in let c := cosine a b s in
  (1 / 1000000) ^ 2 < (a * x) ^ 2 + (b * y) ^ 2 - 2 * (a * x) * (b * y) * c ->
  value (double_integrated E zm m s x y) =
  sum_over (enabled_pairs (con E) (sw E only_cross) 2)
    (fun p => correlation E (fst p) (snd p) a x b y c).
Proof. intros E ells zm m s x y B. exact (built_double E ells B zm m s x y). Qed.
Print Assumptions C22_double_integrated_partial.

(** A set of contributions without an inconsistent pair. *)
Definition usual : contrib -> bool :=
  fun c => match c with den | rsd | d2 | len | g4 => true | _ => false end.
Example C22_met : exists E, built E [0; 2]%Z /\ con E = usual /\ in_view E 1 (1 / 2) 1 /\
  interior (1 / 2) /\ interior (1 / 4) /\
  let a := near E 1 (1 / 2) 1 in let b := far E 1 (1 / 2) 1 in
  (1 / 1000000) ^ 2 < (a * (1 / 2)) ^ 2 + (b * (1 / 4)) ^ 2
     - 2 * (a * (1 / 2)) * (b * (1 / 4)) * cosine a b 1 /\
  0 < a ^ 2 + (b * (1 / 2)) ^ 2 - 2 * a * (b * (1 / 2)) * cosine a b 1 /\
  0 < (a * (1 / 2)) ^ 2 + b ^ 2 - 2 * (a * (1 / 2)) * b * cosine a b 1.
Proof.
  exists (ex usual false). split; [apply ex_built|]. split; [reflexivity|]. split.
  { constructor.
    - constructor; try reflexivity; [repeat split|intros ? ? ?; reflexivity].
    - cbn. lra.
    - lra.
    - intros _ _. left. rewrite Rabs_right; lra.
    - intros X Y HX HY. destruct X; try discriminate HX; destruct Y; try discriminate HY; reflexivity. }
  split; [split; lra|]. split; [split; lra|]. cbv zeta. unfold cosine, near, far. cbn.
  repeat split; lra.
Qed.
(** The same with one galaxy straight behind the other. *)
Example C22_met_on_axis : exists E, built E [0; 2]%Z /\ con E = usual /\ in_view E 1 1 1 /\
  let a := near E 1 1 1 in let b := far E 1 1 1 in
  0 < a ^ 2 + (b * (1 / 2)) ^ 2 - 2 * a * (b * (1 / 2)) * cosine a b 1 /\
  0 < (a * (1 / 2)) ^ 2 + b ^ 2 - 2 * (a * (1 / 2)) * b * cosine a b 1.
Proof.
  exists (ex usual false). split; [apply ex_built|]. split; [reflexivity|]. split.
  { constructor.
    - constructor; try reflexivity; [repeat split|intros ? ? ?; reflexivity].
    - cbn. lra.
    - lra.
    - intros _ _. right. lra.
    - intros X Y HX HY. destruct X; try discriminate HX; destruct Y; try discriminate HY; reflexivity. }
  cbv zeta. unfold cosine, near, far. cbn. split; lra.
Qed.

(** *** The pairs for which it is false *)
Definition rd (X Y : contrib) : env := ready (ex (pair_set X Y) true).

Lemma ex_full_sky : forall S cross, full_sky_linear (ex S cross).
Proof. intros. constructor; try reflexivity; [repeat split|intros ? ? ?; reflexivity]. Qed.
Lemma rd_full_sky : forall X Y, full_sky_linear (rd X Y).
Proof. intros. constructor; try reflexivity; [repeat split|intros ? ? ?; reflexivity]. Qed.
Lemma rd_sep : forall X Y, 0 < 1 < 2 * spl (rd X Y) bg_comoving_distance 1.
Proof. intros. cbn. lra. Qed.
Lemma zero_inside : -1 <= 0 <= 1. Proof. lra. Qed.
Lemma rd_c : forall X Y, cosine (near (rd X Y) 1 0 1) (far (rd X Y) 1 0 1) 1 = 7 / 8.
Proof. intros. unfold cosine, near, far. cbn. lra. Qed.
Lemma rd_near : forall X Y, near (rd X Y) 1 0 1 = 2. Proof. intros. unfold near. cbn. lra. Qed.
Lemma rd_far : forall X Y, far (rd X Y) 1 0 1 = 2. Proof. intros. unfold far. cbn. lra. Qed.
Lemma rd_apart : forall X Y,
  let a := near (rd X Y) 1 0 1 in let b := far (rd X Y) 1 0 1 in let c := cosine a b 1 in
  0 < a ^ 2 + (b * (1 / 2)) ^ 2 - 2 * a * (b * (1 / 2)) * c /\
  0 < (a * (1 / 2)) ^ 2 + b ^ 2 - 2 * (a * (1 / 2)) * b * c.
Proof. intros X Y a b c. unfold c, b, a. rewrite rd_c, rd_near, rd_far. split; lra. Qed.

Definition pair_form (E : env) (X Y : contrib) (zm m s x y : R) : R :=
  let a := near E zm m s in let b := far E zm m s in let c := cosine a b s in
  correlation E X Y a x b y c + correlation E Y X a x b y c.

Ltac numbers :=
  unfold correlation, kernel, weight, place, growth, rate, hubble, factor_a, bias,
    magnification, evolution, doppler, redshift;
  cbn [field_of along rank Nat.leb base]; unfold table, divergent_table; cbv beta zeta;
  cbn [exchange rd ready ex configured complete set_div universe spl tab1 tab2 omega_cdm omega_baryon par_h
       key_n key_l key_half].

Theorem C22_local_refuted : forall Y, inconsistent d1 Y = true -> along Y = false ->
  exists E ells, built E ells /\ full_sky_linear E /\ con E = pair_set d1 Y /\
  sw E only_cross = true /\ 0 < 1 < 2 * spl E bg_comoving_distance 1 /\
  value (nonintegrated E 1 0 1) <> pair_form E d1 Y 1 0 1 1 1.
Proof.
  intros Y HI HY. exists (ex (pair_set d1 Y) true), [0; 2]%Z.
  split; [apply ex_built|]. split; [apply ex_full_sky|]. split; [reflexivity|].
  split; [reflexivity|]. split; [cbn; lra|].
  rewrite (ni_ready _ _ (ex_built _ _)). fold (rd d1 Y).
  assert (HP : field_of Y = Potential) by (destruct Y; try discriminate; reflexivity).
  rewrite (ni_pair (rd d1 Y) d1 Y); try reflexivity.
  2:{ destruct Y; try discriminate; cbn; tauto. }
  2:{ intros <-. discriminate. }
  pose proof (ni_weights_d1 (rd d1 Y) 1 0 1 (rd_sep d1 Y) zero_inside Y HY HP) as W.
  cbv zeta in W.
  assert (NF : ni_factor (rd d1 Y) (ni_s0 (rd d1 Y) 1 0 1) = 1).
  { unfold ni_factor. cbn. ring. }
  rewrite NF. change (pair_form (ex (pair_set d1 Y) true) d1 Y 1 0 1 1 1)
    with (pair_form (rd d1 Y) d1 Y 1 0 1 1 1).
  unfold pair_form. rewrite rd_c, rd_near, rd_far in *.
  change (growth (rd d1 Y) (redshift (rd d1 Y) 2)) with 1 in W.
  change (doppler (rd d1 Y) First (redshift (rd d1 Y) 2)) with 1 in W.
  change (doppler (rd d1 Y) Second (redshift (rd d1 Y) 2)) with 2 in W.
  intros C.
  assert (Z : correlation (rd d1 Y) Y d1 2 1 2 1 (7 / 8) = 0) by lra.
  revert Z. clear W C NF.
  destruct Y; try discriminate; numbers; unfold coffe_H0; lra.
Qed.
Print Assumptions C22_local_refuted.

Lemma half_inside : interior (1 / 2). Proof. split; lra. Qed.
Lemma quarter_inside : interior (1 / 4). Proof. split; lra. Qed.

Theorem C22_single_integrated_refuted : forall X Y,
  inconsistent X Y = true -> along X = false -> along Y = true ->
  exists E ells, built E ells /\ full_sky_linear E /\ con E = pair_set X Y /\
  sw E only_cross = true /\ 0 < 1 < 2 * spl E bg_comoving_distance 1 /\
  value (single_integrated E 1 0 1 (1 / 2)) <> pair_form E X Y 1 0 1 (1 / 2) (1 / 2).
Proof.
  intros X Y HI HX HY. exists (ex (pair_set X Y) true), [0; 2]%Z.
  split; [apply ex_built|]. split; [apply ex_full_sky|]. split; [reflexivity|].
  split; [reflexivity|]. split; [cbn; lra|].
  rewrite (si_ready _ _ (ex_built _ _)). fold (rd X Y).
  rewrite (si_pair (rd X Y) X Y); try reflexivity.
  2:{ destruct X; try discriminate; destruct Y; try discriminate; cbn; tauto. }
  change (pair_form (ex (pair_set X Y) true) X Y 1 0 1 (1 / 2) (1 / 2))
    with (pair_form (rd X Y) X Y 1 0 1 (1 / 2) (1 / 2)).
  destruct X; try discriminate HX; destruct Y; try discriminate HY; try discriminate HI; clear HX HY HI.
  all: match goal with |- context [rd ?X ?Y] =>
    first [ pose proof (si_weights_den_g5 (rd X Y) (rd_full_sky X Y) eq_refl 1 0 1
                          (rd_sep X Y) zero_inside (1 / 2) (proj1 (rd_apart X Y)) (proj2 (rd_apart X Y))) as W;
            match X with den => idtac end
          | pose proof (si_weights_d1_len (rd X Y) (rd_full_sky X Y) eq_refl 1 0 1
                          (rd_sep X Y) zero_inside (1 / 2) (proj1 (rd_apart X Y)) (proj2 (rd_apart X Y))) as W;
            match constr:((X, Y)) with (d1, len) => idtac end
          | pose proof (si_weights_d1 (rd X Y) (rd_full_sky X Y) eq_refl 1 0 1
                          (rd_sep X Y) zero_inside (1 / 2) (proj1 (rd_apart X Y)) (proj2 (rd_apart X Y)) Y eq_refl eq_refl) as W;
            match X with d1 => idtac end
          | pose proof (si_weights_g_len (rd X Y) (rd_full_sky X Y) eq_refl 1 0 1
                          (rd_sep X Y) zero_inside (1 / 2) (proj1 (rd_apart X Y)) (proj2 (rd_apart X Y)) X ltac:(tauto)) as W ] end.
  all: cbv zeta in W; unfold pair_form; rewrite rd_c, rd_near, rd_far in *.
  all: match type of W with context [incr ?E ?s ?b] => set (J := incr E s b) in * end.
  all: clearbody J; revert W; numbers; unfold coffe_H0; intros W C; subst J.
  all: try (specialize (W ltac:(lra) ltac:(lra))).
  all: lra.
Qed.
Print Assumptions C22_single_integrated_refuted.

Theorem C22_double_integrated_refuted :
  exists E ells, built E ells /\ full_sky_linear E /\ con E = pair_set g5 len /\
  sw E only_cross = true /\ 0 < 1 < 2 * spl E bg_comoving_distance 1 /\
  value (double_integrated E 1 0 1 (1 / 2) (1 / 4)) <> pair_form E g5 len 1 0 1 (1 / 2) (1 / 4).
Proof.
  exists (ex (pair_set g5 len) true), [0; 2]%Z.
  split; [apply ex_built|]. split; [apply ex_full_sky|]. split; [reflexivity|].
  split; [reflexivity|]. split; [cbn; lra|].
  rewrite (di_ready _ _ (ex_built _ _)). fold (rd g5 len).
  rewrite (di_pair (rd g5 len) g5 len); try reflexivity.
  2:{ cbn; tauto. }
  2:{ discriminate. }
  change (pair_form (ex (pair_set g5 len) true) g5 len 1 0 1 (1 / 2) (1 / 4))
    with (pair_form (rd g5 len) g5 len 1 0 1 (1 / 2) (1 / 4)).
  pose proof (di_weights_g5_len (rd g5 len) eq_refl 1 0 1
                (rd_sep g5 len) zero_inside (1 / 2) (1 / 4) half_inside quarter_inside) as W.
  cbv zeta in W; unfold pair_form; rewrite rd_c, rd_near, rd_far in *.
  specialize (W ltac:(lra)).
  match type of W with context [incr ?E ?s ?b] => set (J := incr E s b) in * end.
  match type of W with ?x * _ * _ = _ => set (J' := x * (coffe_H0 * par_h (rd g5 len)) ^ 4) in * end.
  clearbody J'. revert W; numbers; unfold coffe_H0; intros W C; subst J'. lra.
Qed.
Print Assumptions C22_double_integrated_refuted.

(** Every pair of [inconsistent] is one of the three kinds above. *)
Example C22_refuted_covers : forall X Y, inconsistent X Y = true ->
  (X = d1 /\ along Y = false) \/ (along X = false /\ along Y = true) \/ (X = g5 /\ Y = len).
Proof. intros X Y H. destruct X; try discriminate; destruct Y; try discriminate; cbn; tauto. Qed.

(** *** C21 fails for the Doppler-lensing pair *)
Theorem C21_refuted : exists Q E ells p,
  invariant Q /\ built E ells /\ no_derivatives E /\ symmetric_renormalization E /\
  sw E pk_nonlinear = false /\ not_flat E /\ -1 < p_mu p < 1 /\ con E = pair_set d1 len /\
  signal Q (exchange E) (reversed p) Corrfunc <> signal Q E p Corrfunc.
Proof.
  set (E := ex (pair_set d1 len) true).
  exists midpoint_rule, E, [0; 2]%Z, (mkPoint 1 0 0 1 0 0).
  split; [apply midpoint_invariant|]. split; [apply ex_built|].
  destruct (ex_full_sky (pair_set d1 len) true) as [D R L _ _ _].
  split; [exact D|]. split; [exact R|]. split; [exact L|]. split; [left; reflexivity|].
  split; [cbn; lra|]. split; [reflexivity|].
  assert (B : built E [0; 2]%Z) by apply ex_built.
  assert (B' : built (exchange E) [0; 2]%Z) by (apply exchange_built; exact B).
  assert (V : forall E, built E [0; 2]%Z -> con E = pair_set d1 len ->
      sw E only_cross = true -> signal midpoint_rule E (mkPoint 1 0 0 1 0 0) Corrfunc
      = value (single_integrated (ready E) 1 0 1 (1 / 2))).
  { clear. intros E B C O. unfold signal, coffe_integrate.
    unfold local_on, single_on, integrated_on. rewrite C. unfold pair_set.
    cbn [contrib_beq orb andb negb run midpoint_rule q1 qn p_z p_sep p_mu coord repeat nth].
    rewrite (ni_ready E _ B), (si_ready E _ B), (di_ready E _ B).
    rewrite <- (with_set_same (ready E)) at 1 3.
    rewrite ni_value, di_value by reflexivity.
    change (con (ready E)) with (con E). change (sw (ready E) only_cross) with (sw E only_cross).
    rewrite C, O.
    generalize (single_integrated (ready E) 1 0 1 (1 / 2)). intros v.
    unfold sum_over, ni_blocks, di_blocks; cbn [map fold_right]; unfold picked, guard, pair_set.
    cbn [contrib_beq orb andb negb]. ring. }
  unfold reversed. cbn [p_z p_zmin p_zmax p_sep p_mu p_l]. rewrite Ropp_0.
  rewrite (V E B eq_refl eq_refl), (V _ B' eq_refl eq_refl). clear V.
  change (ready (exchange E)) with (exchange (ready E)).
  rewrite (si_pair (ready E) d1 len) by (reflexivity || (cbn; tauto)).
  rewrite (si_pair (exchange (ready E)) d1 len) by (reflexivity || (cbn; tauto)).
  assert (S' : full_sky_linear (exchange (ready E)))
    by (constructor; try reflexivity; [repeat split|intros ? ? ?; reflexivity]).
  pose proof (si_weights_d1_len (ready E) (rd_full_sky d1 len) eq_refl 1 0 1
                (rd_sep d1 len) zero_inside (1 / 2) (proj1 (rd_apart d1 len)) (proj2 (rd_apart d1 len))) as W.
  pose proof (si_weights_d1_len (exchange (ready E)) S' eq_refl 1 0 1
                (rd_sep d1 len) zero_inside (1 / 2) (proj1 (rd_apart d1 len)) (proj2 (rd_apart d1 len))) as W'.
  cbv zeta in W, W'.
  change (near (exchange (ready E))) with (near (rd d1 len)) in W'.
  change (far (exchange (ready E))) with (far (rd d1 len)) in W'.
  change (near (ready E)) with (near (rd d1 len)) in W.
  change (far (ready E)) with (far (rd d1 len)) in W.
  rewrite rd_c, rd_near, rd_far in *.
  match type of W with context [incr ?E ?s ?b] => set (J := incr E s b) in * end.
  match type of W' with context [incr ?E ?s ?b] => set (J' := incr E s b) in * end.
  clearbody J J'. revert W W'. unfold E.
  numbers; unfold coffe_H0; intros W W' C; subst J'. lra.
Qed.
Print Assumptions C21_refuted.
