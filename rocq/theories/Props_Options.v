(** * The derivative and approximation options *)
From Coq Require Import Reals Lra Lia List ZArith Bool.
From Coquelicot Require Import Coquelicot.
From Coq Require Import List FunctionalExtensionality.
Import ListNotations.
From Verif Require Import Integrals CExpr Terms Signal TermsMeta TermsSum Additive SignalSum
  Lookup Exchange ExchangeSignal Built Weights Props_Terms Legendre Multipoles Flat Props_Multipoles.
Open Scope R_scope.
#[local] Opaque nonintegrated single_integrated double_integrated.

(** ** Changed configurations *)

(** One of the derivative options turned on. *)
Definition derivative_on (E : env) (d : flag) : env :=
  mkEnv (con E)
        (fun g => match d, g with
           | b_derivative, b_derivative | f_derivative, f_derivative
           | b_tilde_derivative, b_tilde_derivative | f_tilde_derivative, f_tilde_derivative => true
           | _, g => sw E g end)
        (spl E) (tab1 E) (tab2 E) (present E) (par_h E) (omega_cdm E) (omega_baryon E).
(** Another galaxy bias, the same for both populations and all redshifts. *)
Definition with_bias (E : env) (x : R) : env :=
  mkEnv (con E) (sw E)
        (fun f => match f with par_galaxy_bias1 | par_galaxy_bias2 => fun _ => x | f => spl E f end)
        (tab1 E) (tab2 E) (present E) (par_h E) (omega_cdm E) (omega_baryon E).
(** Another growth rate, the same for all redshifts. *)
Definition with_rate (E : env) (x : R) : env :=
  mkEnv (con E) (sw E) (fun f => match f with bg_f => fun _ => x | f => spl E f end)
        (tab1 E) (tab2 E) (present E) (par_h E) (omega_cdm E) (omega_baryon E).

(** Densities and redshift-space distortions of one population, in the flat sky, with the
    linear spectrum. *)
Record one_population (E : env) (z : R) : Prop := {
  op_flat : sw E flatsky_local = true;
  op_linear : sw E pk_nonlinear = false;
  op_none : no_derivatives E;
  op_only : forall X, con E X = true -> X = den \/ X = rsd;
  op_same : bias E First z = bias E Second z }.

(** ** Local terms that are a Legendre sum *)
Lemma local_only : forall E z s c, single_on E = false -> integrated_on E = false ->
  (forall m, local_part E z s m = series c m) ->
  (forall m, xi E z s m = series c m) /\ (forall l, multipole E z s l = nth l c 0).
Proof.
  intros E z s c N1 N2 L. split.
  - intros m. rewrite xi_parts. unfold single_part, double_part. rewrite N1, N2, L. ring.
  - intros l. unfold multipole, signal. rewrite (run_local E z s l).
    unfold coffe_integrate. cbn [p_z p_sep p_l]. rewrite N1, N2. cbn [negb run].
    rewrite (projected_half l (local_part E z s)).
    + rewrite !Rplus_0_r, <- (moment_series (local_part E z s) c l) by (intros; apply L).
      unfold moment, projection. match goal with |- ?a = ?b => change (@eq R a b) end. field.
    + apply (ex_RInt_ext (fun m => legendre l m * series c m)); [|apply series_ex].
      intros m _. rewrite L. reflexivity.
Qed.

Section Derivatives.
Variable E : env.
Variables z s : R.
#[local] Notation D := (growth E z).
#[local] Notation F := (rate E z).
#[local] Notation B := (bias E First z).
#[local] Notation B' := (bias E Second z).
#[local] Notation I l := (tab1 E (K 0 l false) result s).

(** The three sums of the code, functions.c:130-362 and 671-771, and the factor of
    functions.c:1429-1471. *)
Definition den_den_sum : list R :=
  if sw E b_derivative || sw E b_tilde_derivative then [2 * B * I 0]
  else if sw E f_derivative || sw E f_tilde_derivative then [0] else [B * B' * I 0].
Definition rsd_rsd_sum : list R :=
  if sw E b_derivative || sw E b_tilde_derivative then [0]
  else if sw E f_derivative || sw E f_tilde_derivative
  then [2 * F / 5 * I 0; 0; - (8 * F / 7) * I 2; 0; 16 * F / 35 * I 4]
  else [F * F / 5 * I 0; 0; - (4 * F * F / 7) * I 2; 0; 8 * F * F / 35 * I 4].
Definition den_rsd_sum : list R :=
  if sw E b_derivative || sw E b_tilde_derivative
  then [2 * F / 3 * I 0; 0; - (4 * F / 3) * I 2]
  else if sw E f_derivative || sw E f_tilde_derivative
  then [(B + B') / 3 * I 0; 0; - (2 * (B + B') / 3) * I 2]
  else [(B + B') * F / 3 * I 0; 0; - (2 * (B + B') * F / 3) * I 2].
Definition growth_factor : R :=
  if sw E b_derivative || sw E f_derivative then D ^ 2
  else if sw E b_tilde_derivative || sw E f_tilde_derivative then D else D ^ 2.
Definition galaxy_series : list R :=
  map (Rmult growth_factor)
    (add (if con E den && negb (sw E only_cross) then den_den_sum else [])
    (add (if con E rsd && negb (sw E only_cross) then rsd_rsd_sum else [])
         (if con E den && con E rsd then den_rsd_sum else []))).

Lemma map_series : forall k c j m, series_from j (map (Rmult k) c) m = k * series_from j c m.
Proof. induction c; intros; cbn [map series_from]; [ring|rewrite IHc; ring]. Qed.

Hypothesis FL : sw E flatsky_local = true.
Hypothesis LIN : sw E pk_nonlinear = false.
Hypothesis ONLY : forall X, con E X = true -> X = den \/ X = rsd.

Lemma others_off : forall X, X <> den -> X <> rsd -> con E X = false.
Proof. intros X H1 H2. destruct (con E X) eqn:C; [destruct (ONLY X C); contradiction|reflexivity]. Qed.

Lemma galaxy_value : forall m, (forall k, present E k = true) ->
  value (nonintegrated E z m s) = series galaxy_series m.
Proof.
  intros m P. rewrite <- (with_set_same E) at 1. rewrite ni_value by exact P.
  pose proof (flat_state_ok E z s m) as st.
  generalize dependent (ni_s0 E z m s). intros t st.
  assert (NF : ni_factor E t = growth_factor).
  { unfold ni_factor, growth_factor, growth. rewrite FL, LIN, (t_z _ _ _ _ _ st). cbn [andb].
    destruct (sw E b_derivative || sw E f_derivative); [reflexivity|].
    destruct (sw E b_tilde_derivative || sw E f_tilde_derivative); [apply pow_1|reflexivity]. }
  rewrite NF. unfold galaxy_series, series. rewrite map_series, Rmult_comm. f_equal.
  unfold sum_over, ni_blocks. cbn [map fold_right]. unfold picked, guard. cbn [contrib_beq].
  rewrite !(others_off d1), !(others_off d2), !(others_off g1), !(others_off g2), !(others_off g3) by discriminate.
  rewrite ?andb_false_r. cbn [andb].
  rewrite !add_series, !Rplus_0_r.
  assert (K1 : incr E t (body ni_den_den) = series_from 0 den_den_sum m).
  { unfold ni_den_den, den_den_sum. cbn [body incr].
    rewrite incr1_If; cbn [holds]; rewrite FL; cbn [incr].
    rewrite incr1_If; cbn [holds]; rewrite LIN; cbn [andb incr].
    rewrite incr1_If; cbn [holds]. destruct (sw E b_derivative || sw E b_tilde_derivative); cbn [incr].
    - cbn [incr1 eval]. rewrite (t_b1 _ _ _ _ _ st), (t_sep _ _ _ _ _ st). cbn [series_from]. rewrite legendre_0. ring.
    - rewrite incr1_If; cbn [holds]. destruct (sw E f_derivative || sw E f_tilde_derivative); cbn [incr incr1 eval].
      + cbn [series_from]. ring.
      + rewrite (t_b1 _ _ _ _ _ st), (t_b2 _ _ _ _ _ st), (t_sep _ _ _ _ _ st). cbn [series_from]. rewrite legendre_0. ring. }
  assert (K2 : incr E t (body ni_rsd_rsd) = series_from 0 rsd_rsd_sum m).
  { unfold ni_rsd_rsd, rsd_rsd_sum. cbn [body incr].
    rewrite incr1_If; cbn [holds]; rewrite FL; cbn [incr].
    rewrite incr1_If; cbn [holds]; rewrite LIN; cbn [andb incr].
    rewrite incr1_If; cbn [holds]. destruct (sw E b_derivative || sw E b_tilde_derivative); cbn [incr].
    - cbn [incr1 eval]. cbn [series_from]. ring.
    - rewrite incr1_If; cbn [holds]. destruct (sw E f_derivative || sw E f_tilde_derivative); cbn [incr incr1 eval];
      rewrite (t_f _ _ _ _ _ st), (t_sep _ _ _ _ _ st), (t_mu _ _ _ _ _ st); cbn [series_from]; rewrite legendre_0; field. }
  assert (K3 : incr E t (body ni_den_rsd) = series_from 0 den_rsd_sum m).
  { unfold ni_den_rsd, den_rsd_sum. cbn [body incr].
    rewrite incr1_If; cbn [holds]; rewrite FL; cbn [incr].
    rewrite incr1_If; cbn [holds]; rewrite LIN; cbn [andb incr].
    rewrite incr1_If; cbn [holds]. destruct (sw E b_derivative || sw E b_tilde_derivative); cbn [incr].
    - cbn [incr1 eval]. rewrite (t_f _ _ _ _ _ st), (t_sep _ _ _ _ _ st), (t_mu _ _ _ _ _ st). cbn [series_from]. rewrite legendre_0. field.
    - rewrite incr1_If; cbn [holds]. destruct (sw E f_derivative || sw E f_tilde_derivative); cbn [incr incr1 eval];
      rewrite ?(t_f _ _ _ _ _ st), (t_b1 _ _ _ _ _ st), (t_b2 _ _ _ _ _ st), (t_sep _ _ _ _ _ st), (t_mu _ _ _ _ _ st); cbn [series_from]; rewrite legendre_0; field. }
  rewrite K1, K2, K3.
  destruct (con E den && negb (sw E only_cross)), (con E rsd && negb (sw E only_cross)), (con E den && con E rsd);
    cbn [series_from]; ring.
Qed.
End Derivatives.

Lemma galaxy_outputs : forall E ells z s, built E ells ->
  sw E flatsky_local = true -> sw E pk_nonlinear = false -> (forall X, con E X = true -> X = den \/ X = rsd) ->
  (forall m, xi E z s m = series (galaxy_series E z s) m) /\
  (forall l, multipole E z s l = nth l (galaxy_series E z s) 0).
Proof.
  intros E ells z s B F L O.
  assert (N : forall X, X <> den -> X <> rsd -> con E X = false) by (apply others_off; exact O).
  apply local_only.
  - unfold single_on. rewrite !(N len), !(N g4), !(N g5) by discriminate. rewrite ?andb_false_r. reflexivity.
  - unfold integrated_on. rewrite !(N len), !(N g4), !(N g5) by discriminate. reflexivity.
  - intros m. unfold local_part. destruct (local_on E) eqn:LO.
    + rewrite (ni_complete E ells B). apply (galaxy_value (complete E) z s); assumption || reflexivity.
    + unfold local_on in LO. rewrite !orb_false_iff in LO.
      unfold galaxy_series. destruct LO as [[[[[[-> ->] _] _] _] _] _]. reflexivity.
Qed.

(** ** C73: the derivative options return derivatives *)
Lemma galaxy_length : forall E z s, (length (galaxy_series E z s) <= 5)%nat.
Proof.
  intros. unfold galaxy_series, den_den_sum, rsd_rsd_sum, den_rsd_sum. rewrite map_length.
  repeat apply add_length; repeat match goal with |- context [if ?b then _ else _] => destruct b end; cbn; lia.
Qed.

Lemma derive_times : forall (f : R -> R) x d k, is_derive f x d -> is_derive (fun y => f y * k) x (d * k).
Proof.
  intros f x d k H. apply (is_derive_ext (fun y => k * f y)); [intros; apply Rmult_comm|].
  rewrite Rmult_comm. apply is_derive_scal. exact H.
Qed.
Lemma derive_sum : forall (f g : R -> R) x d e, is_derive f x d -> is_derive g x e ->
  is_derive (fun y => f y + g y) x (d + e).
Proof. intros f g x d e Hf Hg. apply (is_derive_plus f g x d e Hf Hg). Qed.

(** It is enough to look at the coefficients. *)
Lemma derive_outputs : forall (E : R -> env) (E' : env) ells z s x,
  (forall y, built (E y) ells /\ sw (E y) flatsky_local = true /\ sw (E y) pk_nonlinear = false
     /\ (forall X, con (E y) X = true -> X = den \/ X = rsd)) ->
  built E' ells -> sw E' flatsky_local = true -> sw E' pk_nonlinear = false ->
  (forall X, con E' X = true -> X = den \/ X = rsd) ->
  (forall l, is_derive (fun y => nth l (galaxy_series (E y) z s) 0) x (nth l (galaxy_series E' z s) 0)) ->
  (forall m, is_derive (fun y => xi (E y) z s m) x (xi E' z s m)) /\
  (forall l, is_derive (fun y => multipole (E y) z s l) x (multipole E' z s l)).
Proof.
  intros E E' ells z s x H B' F' L' O' D.
  destruct (galaxy_outputs E' ells z s B' F' L' O') as [X' M'].
  split.
  - intros m. rewrite X'. unfold series.
    rewrite <- (series_coefficients 5 (galaxy_series E' z s) 0 m (galaxy_length E' z s)).
    apply (is_derive_ext (fun y => series_from 0 (map (fun l => nth l (galaxy_series (E y) z s) 0) (seq 0 5)) m)).
    + intros y. destruct (H y) as (B & F & L & O). destruct (galaxy_outputs (E y) ells z s B F L O) as [X _].
      rewrite X. apply series_coefficients. apply galaxy_length.
    + cbn [seq map series_from].
      repeat (apply (derive_sum (fun y => nth _ (galaxy_series (E y) z s) 0 * _)); [apply derive_times, D|]).
      apply (is_derive_const (K := R_AbsRing) (V := R_NormedModule) 0).
  - intros l. rewrite M'. apply (is_derive_ext (fun y => nth l (galaxy_series (E y) z s) 0)); [|apply D].
    intros y. destruct (H y) as (B & F & L & O). destruct (galaxy_outputs (E y) ells z s B F L O) as [_ M].
    symmetry. apply M.
Qed.

Ltac coefficients_derive :=
  intros [|[|[|[|[|l]]]]];
  unfold galaxy_series, den_den_sum, rsd_rsd_sum, den_rsd_sum, growth_factor, bias, rate, growth;
  cbn [derivative_on with_bias with_rate con sw spl tab1 orb];
  repeat match goal with H : sw _ _ = false |- _ => rewrite H end; cbn [orb];
  match goal with |- context [con ?E den] =>
    destruct (con E den), (con E rsd), (sw E only_cross); cbn [andb negb add map nth] end;
  try (apply (is_derive_const (K := R_AbsRing) (V := R_NormedModule) 0));
  auto_derive.

Section C73.
Variable E : env.
Variable ells : list Z.
Variables z s : R.
Hypothesis BU : built E ells.
Hypothesis OP : one_population E z.

Lemma C73_hyps : forall E', con E' = con E -> present E' = present E ->
  (forall f, f <> b_derivative -> f <> f_derivative -> f <> b_tilde_derivative -> f <> f_tilde_derivative -> sw E' f = sw E f) ->
  built E' ells /\ sw E' flatsky_local = true /\ sw E' pk_nonlinear = false
  /\ (forall X, con E' X = true -> X = den \/ X = rsd).
Proof.
  intros E' C P S. destruct OP, BU. split; [|repeat split].
  - constructor.
    + intros k. rewrite P. unfold expected_keys. rewrite !S by discriminate. apply bu_table.
    + intros c. rewrite C, S by discriminate. apply bu_div.
  - rewrite S by discriminate. assumption.
  - rewrite S by discriminate. assumption.
  - rewrite C. assumption.
Qed.

Lemma C73_derivative_hyps : forall d, In d [b_derivative; f_derivative; b_tilde_derivative; f_tilde_derivative] ->
  built (derivative_on E d) ells /\ sw (derivative_on E d) flatsky_local = true /\ sw (derivative_on E d) pk_nonlinear = false
  /\ (forall X, con (derivative_on E d) X = true -> X = den \/ X = rsd).
Proof.
  intros d _. apply C73_hyps; try reflexivity. intros [] H1 H2 H3 H4; try contradiction; destruct d; reflexivity.
Qed.

Lemma C73_bias_all : 
  (forall m, is_derive (fun x => xi (with_bias E x) z s m) (bias E First z) (xi (derivative_on E b_derivative) z s m)) /\
  (forall l, is_derive (fun x => multipole (with_bias E x) z s l) (bias E First z) (multipole (derivative_on E b_derivative) z s l)).
Proof.
  destruct (C73_derivative_hyps b_derivative) as (B & F & L & O); [cbn; tauto|].
  apply (derive_outputs (fun x => with_bias E x) _ ells); try assumption.
  - intros y. apply C73_hyps; reflexivity.
  - destruct (op_none _ _ OP) as (N1 & N2 & N3 & N4). pose proof (op_same _ _ OP) as Sm. unfold bias in Sm.
    coefficients_derive.
    all: try exact Logic.I; try (destruct l; reflexivity); rewrite ?Sm; try field.
Qed.

Lemma C73_rate_all :
  (forall m, is_derive (fun x => xi (with_rate E x) z s m) (rate E z) (xi (derivative_on E f_derivative) z s m)) /\
  (forall l, is_derive (fun x => multipole (with_rate E x) z s l) (rate E z) (multipole (derivative_on E f_derivative) z s l)).
Proof.
  destruct (C73_derivative_hyps f_derivative) as (B & F & L & O); [cbn; tauto|].
  apply (derive_outputs (fun x => with_rate E x) _ ells); try assumption.
  - intros y. apply C73_hyps; reflexivity.
  - destruct (op_none _ _ OP) as (N1 & N2 & N3 & N4). pose proof (op_same _ _ OP) as Sm. unfold bias in Sm.
    coefficients_derive.
    all: try exact Logic.I; try (destruct l; reflexivity); rewrite ?Sm; try field.
Qed.

Hypothesis HD : growth E z <> 0.

Lemma C73_bias_growth_all :
  (forall m, is_derive (fun x => xi (with_bias E (x / growth E z)) z s m) (bias E First z * growth E z)
     (xi (derivative_on E b_tilde_derivative) z s m)) /\
  (forall l, is_derive (fun x => multipole (with_bias E (x / growth E z)) z s l) (bias E First z * growth E z)
     (multipole (derivative_on E b_tilde_derivative) z s l)).
Proof.
  destruct (C73_derivative_hyps b_tilde_derivative) as (B & F & L & O); [cbn; tauto|].
  apply (derive_outputs (fun x => with_bias E (x / growth E z)) _ ells); try assumption.
  - intros y. apply C73_hyps; reflexivity.
  - destruct (op_none _ _ OP) as (N1 & N2 & N3 & N4). pose proof (op_same _ _ OP) as Sm. unfold bias in Sm.
    unfold growth in HD. coefficients_derive.
    all: repeat split; try exact Logic.I; try exact HD; try (destruct l; reflexivity); rewrite ?Sm; try (field; exact HD).
Qed.

Lemma C73_rate_growth_all :
  (forall m, is_derive (fun x => xi (with_rate E (x / growth E z)) z s m) (rate E z * growth E z)
     (xi (derivative_on E f_tilde_derivative) z s m)) /\
  (forall l, is_derive (fun x => multipole (with_rate E (x / growth E z)) z s l) (rate E z * growth E z)
     (multipole (derivative_on E f_tilde_derivative) z s l)).
Proof.
  destruct (C73_derivative_hyps f_tilde_derivative) as (B & F & L & O); [cbn; tauto|].
  apply (derive_outputs (fun x => with_rate E (x / growth E z)) _ ells); try assumption.
  - intros y. apply C73_hyps; reflexivity.
  - destruct (op_none _ _ OP) as (N1 & N2 & N3 & N4). pose proof (op_same _ _ OP) as Sm. unfold bias in Sm.
    unfold growth in HD. coefficients_derive.
    all: repeat split; try exact Logic.I; try exact HD; try (destruct l; reflexivity); rewrite ?Sm; try (field; exact HD).
Qed.
End C73.

(** For one population, in the flat sky, with the linear spectrum, and with densities and
    redshift-space distortions: the option [b_derivative] returns the derivative of the
    correlation function and of every multipole with respect to the galaxy bias,
    [f_derivative] with respect to the growth rate; the other two with respect to their
    products with the growth factor. Missing: everything else (see the refutations). *)
Theorem C73_bias_partial : forall E ells z s, built E ells -> one_population E z ->
  (forall m, is_derive (fun x => xi (with_bias E x) z s m) (bias E First z) (xi (derivative_on E b_derivative) z s m)) /\
  (forall l, is_derive (fun x => multipole (with_bias E x) z s l) (bias E First z) (multipole (derivative_on E b_derivative) z s l)).
Proof. intros. eapply C73_bias_all; eassumption. Qed.
Print Assumptions C73_bias_partial.
Theorem C73_rate_partial : forall E ells z s, built E ells -> one_population E z ->
  (forall m, is_derive (fun x => xi (with_rate E x) z s m) (rate E z) (xi (derivative_on E f_derivative) z s m)) /\
  (forall l, is_derive (fun x => multipole (with_rate E x) z s l) (rate E z) (multipole (derivative_on E f_derivative) z s l)).
Proof. intros. eapply C73_rate_all; eassumption. Qed.
Print Assumptions C73_rate_partial.
Theorem C73_bias_growth_partial : forall E ells z s, built E ells -> one_population E z ->
  let D := growth E z in D <> 0 ->
  (forall m, is_derive (fun x => xi (with_bias E (x / D)) z s m) (bias E First z * D)
     (xi (derivative_on E b_tilde_derivative) z s m)) /\
  (forall l, is_derive (fun x => multipole (with_bias E (x / D)) z s l) (bias E First z * D)
     (multipole (derivative_on E b_tilde_derivative) z s l)).
Proof. intros E ells z s B O D HD. eapply C73_bias_growth_all; eassumption. Qed.
Print Assumptions C73_bias_growth_partial.
Theorem C73_rate_growth_partial : forall E ells z s, built E ells -> one_population E z ->
  let D := growth E z in D <> 0 ->
  (forall m, is_derive (fun x => xi (with_rate E (x / D)) z s m) (rate E z * D)
     (xi (derivative_on E f_tilde_derivative) z s m)) /\
  (forall l, is_derive (fun x => multipole (with_rate E (x / D)) z s l) (rate E z * D)
     (multipole (derivative_on E f_tilde_derivative) z s l)).
Proof. intros E ells z s B O D HD. eapply C73_rate_growth_all; eassumption. Qed.
Print Assumptions C73_rate_growth_partial.

Example C73_met : forall b, built (with_bias (in_plane galaxies) b) [0; 2]%Z /\
  one_population (with_bias (in_plane galaxies) b) 1 /\ growth (with_bias (in_plane galaxies) b) 1 <> 0.
Proof.
  intros b. split; [|split].
  - constructor; [reflexivity|]. intros [] H1 H2; discriminate.
  - constructor; try reflexivity; [repeat split|]. intros []; try discriminate; auto.
  - unfold growth. cbn [spl with_bias in_plane configured plane]. lra.
Qed.

(** With two populations the option does not return the derivative with respect to a common
    shift of the two biases: the code uses twice the first bias. *)
Definition shift_bias (E : env) (x : R) : env :=
  mkEnv (con E) (sw E)
        (fun f => match f with par_galaxy_bias1 => fun z => spl E par_galaxy_bias1 z + x
                  | par_galaxy_bias2 => fun z => spl E par_galaxy_bias2 z + x | f => spl E f end)
        (tab1 E) (tab2 E) (present E) (par_h E) (omega_cdm E) (omega_baryon E).

Theorem C73_two_populations_refuted : forall E ells z s m,
  built E ells -> sw E flatsky_local = true -> sw E pk_nonlinear = false -> no_derivatives E ->
  (forall X, con E X = true <-> X = den) -> sw E only_cross = false ->
  bias E First z <> bias E Second z -> growth E z <> 0 -> tab1 E (K 0 0 false) result s <> 0 ->
  ~ is_derive (fun x => xi (shift_bias E x) z s m) 0 (xi (derivative_on E b_derivative) z s m).
Proof.
  intros E ells z s m B F L N C O NE HD HI H.
  destruct N as (N1 & N2 & N3 & N4).
  assert (CD : con E den = true) by (apply C; reflexivity).
  assert (CR : con E rsd = false) by (destruct (con E rsd) eqn:Q; [apply C in Q; discriminate|reflexivity]).
  assert (B1 : forall x, built (shift_bias E x) ells) by (intros; destruct B; constructor; assumption).
  assert (B2 : built (derivative_on E b_derivative) ells) by (destruct B; constructor; assumption).
  assert (O1 : forall X, con E X = true -> X = den \/ X = rsd) by (intros X HX; left; apply C; exact HX).
  rewrite (proj1 (galaxy_outputs (derivative_on E b_derivative) ells z s B2 F L O1) m) in H.
  assert (H2 : is_derive (fun x => series (galaxy_series (shift_bias E x) z s) m) 0
    (series (galaxy_series (derivative_on E b_derivative) z s) m)).
  { revert H. apply is_derive_ext. intros x. apply (proj1 (galaxy_outputs (shift_bias E x) ells z s (B1 x) F L O1) m). }
  clear H. revert H2. unfold galaxy_series, den_den_sum, rsd_rsd_sum, den_rsd_sum, growth_factor, bias, rate, growth.
  unfold bias, growth in NE, HD.
  cbn [derivative_on shift_bias con sw spl tab1 orb]. rewrite CD, CR, O, N1, N2, N3, N4. cbn [andb negb orb add map].
  unfold series. cbn [series_from]. rewrite legendre_0. intros H2.
  assert (H3 : is_derive (fun x => spl E bg_D1 z ^ 2 *
     ((spl E par_galaxy_bias1 z + x) * (spl E par_galaxy_bias2 z + x) * tab1 E (K 0 0 false) result s) * 1 + 0) 0
     (spl E bg_D1 z ^ 2 * ((spl E par_galaxy_bias1 z + spl E par_galaxy_bias2 z) * tab1 E (K 0 0 false) result s))).
  { auto_derive; [exact Logic.I|]. ring. }
  pose proof (is_derive_unique _ _ _ H2) as U2. pose proof (is_derive_unique _ _ _ H3) as U3.
  rewrite U3 in U2. apply NE.
  assert (Q : spl E bg_D1 z ^ 2 * tab1 E (K 0 0 false) result s * (spl E par_galaxy_bias2 z - spl E par_galaxy_bias1 z) = 0) by lra.
  apply Rmult_integral in Q. destruct Q as [Q|Q]; [|lra].
  apply Rmult_integral in Q. destruct Q as [Q|Q]; [|contradiction].
  exfalso. exact (pow_nonzero _ 2 HD Q).
Qed.
Print Assumptions C73_two_populations_refuted.

Example C73_two_populations_met : exists E, built E [0; 2]%Z /\ (forall X, con E X = true <-> X = den)
  /\ bias E First 1 <> bias E Second 1 /\ growth E 1 <> 0 /\ tab1 E (K 0 0 false) result 1 <> 0.
Proof.
  exists (in_plane (single den)). split; [apply in_plane_built|].
  split; [intros []; cbn; split; intros; try discriminate; reflexivity|].
  unfold bias, growth. cbn. lra.
Qed.

(** Outside the flat sky the terms do not look at the options, only the growth does. *)
Definition full_growth (E : env) (z m s : R) : R :=
  if sw E b_derivative || sw E f_derivative then growth E z ^ 2
  else if sw E b_tilde_derivative || sw E f_tilde_derivative then growth E z
  else growth E (redshift E (near E z m s)) * growth E (redshift E (far E z m s)).

Lemma density_full_sky : forall E ells z s m,
  built E ells -> sw E pk_nonlinear = false -> sw E flatsky_local = false ->
  0 < s < 2 * spl E bg_comoving_distance z -> -1 < m < 1 ->
  (forall X, con E X = true <-> X = den) -> sw E only_cross = false ->
  xi E z s m
  = bias E First (redshift E (near E z m s)) * bias E Second (redshift E (far E z m s))
    * full_growth E z m s * tab1 E (K 0 0 false) result s.
Proof.
  intros E ells z s m B NL FL Hs Hm C O.
  assert (N : forall X, X <> den -> con E X = false).
  { intros X HX. destruct (con E X) eqn:Q; [apply C in Q; contradiction|reflexivity]. }
  assert (CD : con E den = true) by (apply C; reflexivity).
  rewrite xi_parts. unfold local_part, single_part, double_part, local_on, single_on, integrated_on.
  rewrite !(N rsd), !(N d1), !(N d2), !(N g1), !(N g2), !(N g3), !(N len), !(N g4), !(N g5), CD by discriminate.
  cbn [andb orb]. rewrite !Rplus_0_r.
  rewrite (ni_complete E ells B), <- (with_set_same (complete E)).
  rewrite (ni_value (complete E)) by reflexivity.
  pose proof (ni_state_ok (complete E) z m s Hs ltac:(lra)) as st.
  assert (Tz : ni_s0 (complete E) z m s z_mean = z) by (unfold ni_s0; rewrite dens_keeps by reflexivity; reflexivity).
  generalize dependent (ni_s0 (complete E) z m s). intros t st Tz.
  unfold ni_factor, full_growth. rewrite Tz, (n_z1 _ _ _ _ _ st), (n_z2 _ _ _ _ _ st).
  cbn [complete sw con]. rewrite NL, FL. cbn [andb orb].
  unfold sum_over, ni_blocks. cbn [map fold_right]. unfold picked, guard. cbn [contrib_beq].
  rewrite !(N rsd), !(N d1), !(N d2), !(N g1), !(N g2), !(N g3), CD, O by discriminate. cbn [andb negb].
  unfold ni_den_den. cbn [body incr]. rewrite incr1_If. cbn [holds complete sw].
  rewrite FL. cbn [incr]. rewrite incr1_If. cbn [holds complete sw]. rewrite NL. cbn [andb incr incr1 eval].
  rewrite (n_b1 _ _ _ _ _ st), (n_b2 _ _ _ _ _ st), (n_sep _ _ _ _ _ st).
  unfold growth, bias, redshift, near, far. cbn [complete spl tab1].
  match goal with |- ?a = ?b => change (@eq R a b) end.
  destruct (sw E b_derivative || sw E f_derivative); [ring|].
  destruct (sw E b_tilde_derivative || sw E f_tilde_derivative); ring.
Qed.

(** So there the option does not return the derivative with respect to the bias. *)
Theorem C73_full_sky_refuted : forall E ells z s m x,
  built E ells -> sw E pk_nonlinear = false -> sw E flatsky_local = false -> no_derivatives E ->
  0 < s < 2 * spl E bg_comoving_distance z -> -1 < m < 1 ->
  (forall X, con E X = true <-> X = den) -> sw E only_cross = false ->
  (forall w, growth E w = growth E z) -> growth E z <> 0 -> tab1 E (K 0 0 false) result s <> 0 ->
  x <> 0 -> x <> 2 ->
  ~ is_derive (fun b => xi (with_bias E b) z s m) x (xi (derivative_on (with_bias E x) b_derivative) z s m).
Proof.
  intros E ells z s m x B NL FL (N1 & N2 & N3 & N4) Hs Hm C O G HD HI X0 X2 H.
  assert (B1 : forall b, built (with_bias E b) ells) by (intros; destruct B; constructor; assumption).
  assert (B2 : built (derivative_on (with_bias E x) b_derivative) ells) by (destruct B; constructor; assumption).
  rewrite (density_full_sky _ ells z s m B2 NL FL Hs Hm C O) in H.
  assert (H2 : is_derive (fun b => b * b * (growth E z * growth E z) * tab1 E (K 0 0 false) result s) x
     (x * x * growth E z ^ 2 * tab1 E (K 0 0 false) result s)).
  { revert H. apply is_derive_ext. intros b.
    rewrite (density_full_sky _ ells z s m (B1 b) NL FL Hs Hm C O).
    unfold full_growth, growth, bias, redshift. cbn [with_bias spl sw tab1]. rewrite N1, N2, N3, N4. cbn [orb].
    unfold growth in G.
    rewrite (G (spl E bg_z_as_chi (near (with_bias E b) z m s))), (G (spl E bg_z_as_chi (far (with_bias E b) z m s))).
    reflexivity. }
  assert (H3 : is_derive (fun b => b * b * (growth E z * growth E z) * tab1 E (K 0 0 false) result s) x
     (2 * x * growth E z ^ 2 * tab1 E (K 0 0 false) result s)).
  { auto_derive; [exact Logic.I|]. ring. }
  pose proof (is_derive_unique _ _ _ H2) as U2. pose proof (is_derive_unique _ _ _ H3) as U3.
  rewrite U3 in U2.
  assert (Q : growth E z ^ 2 * tab1 E (K 0 0 false) result s * (x * (2 - x)) = 0) by lra.
  apply Rmult_integral in Q. destruct Q as [Q|Q]; apply Rmult_integral in Q; destruct Q as [Q|Q]; try lra.
  exact (pow_nonzero _ 2 HD Q).
Qed.
Print Assumptions C73_full_sky_refuted.

Example C73_full_sky_met : exists E z, built E [0; 2]%Z /\ sw E flatsky_local = false /\ no_derivatives E
  /\ 0 < 1 < 2 * spl E bg_comoving_distance z /\ (forall X, con E X = true <-> X = den)
  /\ (forall w, growth E w = growth E z) /\ growth E z <> 0 /\ tab1 E (K 0 0 false) result 1 <> 0.
Proof.
  exists (ex (single den) false), 1. split; [apply ex_built|].
  split; [reflexivity|]. split; [repeat split|].
  split; [|split; [intros []; cbn; split; intros; try discriminate; reflexivity|]].
  all: unfold growth; cbn; repeat split; intros; lra.
Qed.

(** ** C74: an approximation keeps every contribution *)

(** The Python interface computes every output with [output_multipoles] on, parser.c:927. With
    the two flat-sky options of the integrated terms on, the correlation function and the
    averaged multipoles do not change when lensing is switched off: it is left out of them. *)
Definition without_lensing (S : contrib -> bool) : contrib -> bool :=
  fun X => match X with len => false | X => S X end.

Theorem C74_lensing_refuted : forall Q U ells S cross p o,
  linear Q -> sw U output_multipoles = true ->
  sw U flatsky_local_nonlocal = true -> sw U flatsky_nonlocal = true ->
  (forall X, S X = true -> potential X = false) -> o <> Multipoles ->
  signal Q (configured U ells S cross) p o = signal Q (configured U ells (without_lensing S) cross) p o.
Proof.
  intros Q U ells S cross p o LQ OM F1 F2 NP NM.
  assert (A : asked U ells p o) by (intros H; contradiction).
  rewrite !signal_configured by exact A.
  set (U' := complete (set_div U true)).
  assert (PR : forall k, present U' k = true) by reflexivity.
  assert (G : S g4 = false /\ S g5 = false /\ S d2 = false /\ S g1 = false /\ S g2 = false /\ S g3 = false).
  { repeat split; (match goal with |- S ?X = false => destruct (S X) eqn:Q1; [specialize (NP X Q1); discriminate|reflexivity] end). }
  destruct G as (G4 & G5 & D2 & G1 & G2 & G3).
  assert (SF : forall zm m s x, value (single_integrated (with_set U' S cross) zm m s x) = 0).
  { intros. apply (single_full_off U' PR); [exact OM|]. unfold single_full_on. cbn [with_set con sw U' complete set_div].
    rewrite F1, G4, G5, G1, G2, G3, D2. cbn [negb]. rewrite ?andb_false_r. reflexivity. }
  assert (DF : forall zm m s x y, value (double_integrated (with_set U' S cross) zm m s x y) = 0).
  { intros. apply (double_full_off U' PR); [exact OM|]. cbn [U' complete set_div sw]. rewrite F2, G4, G5. cbn [negb]. apply andb_false_r. }
  assert (NI : forall zm m s, nonintegrated (with_set U' S cross) zm m s = nonintegrated (with_set U' (without_lensing S) cross) zm m s).
  { intros. rewrite !nonintegrated_spec, !forallb_present by reflexivity.
    rewrite !dens_with_set by apply ni_free. rewrite !total_with_set by apply ni_guarded.
    change (ni_factor (with_set U' (without_lensing S) cross)) with (ni_factor (with_set U' S cross)).
    apply f_equal, f_equal2; [|reflexivity]. apply (f_equal (fold_right Rplus 0)), map_ext_in. intros [[X Y] l] Hb.
    replace (guard (without_lensing S) cross X Y) with (guard S cross X Y); [reflexivity|].
    cbn [In ni_blocks] in Hb. repeat destruct Hb as [Hb|Hb]; try contradiction; injection Hb as <- <- _; reflexivity. }
  unfold signal. apply f_equal2; [apply f_equal2|].
  - unfold coffe_integrate. change (local_on (with_set U' (without_lensing S) cross)) with (local_on (with_set U' S cross)).
    replace (nonintegrated (with_set U' (without_lensing S) cross)) with (nonintegrated (with_set U' S cross))
      by (do 3 (apply functional_extensionality; intro); apply NI).
    reflexivity.
  - transitivity 0.
    + unfold coffe_integrate. destruct (negb (single_on (with_set U' S cross))); [reflexivity|].
      destruct o; [|contradiction|]; cbn [run].
      * rewrite (q1_zero Q LQ) by (intros; apply SF). ring.
      * rewrite (qn_zero Q LQ) by (intros; rewrite value_scale, value_times_legendre, SF; ring). ring.
    + unfold coffe_integrate. replace (single_on (with_set U' (without_lensing S) cross)) with false; [reflexivity|].
      unfold single_on. cbn [with_set con without_lensing]. rewrite G4, G5. rewrite ?andb_false_r. reflexivity.
  - transitivity 0.
    + unfold coffe_integrate. destruct (negb (integrated_on (with_set U' S cross))); [reflexivity|].
      destruct o; [|contradiction|]; cbn [run].
      * rewrite (qn_zero Q LQ) by (intros; apply DF). ring.
      * rewrite (qn_zero Q LQ) by (intros; rewrite value_scale, value_times_legendre, DF; ring). ring.
    + unfold coffe_integrate. replace (integrated_on (with_set U' (without_lensing S) cross)) with false; [reflexivity|].
      unfold integrated_on. cbn [with_set con without_lensing]. rewrite G4, G5. reflexivity.
Qed.
Print Assumptions C74_lensing_refuted.

(** The same settings with the output the program was asked for: lensing is there. *)
Definition both_flat (multipoles : bool) : env :=
  mkEnv (con plane)
    (fun f => match f with output_multipoles => multipoles
              | flatsky_local | flatsky_local_nonlocal | flatsky_nonlocal => true | _ => false end)
    (spl plane) (tab1 plane) (tab2 plane) (present plane) (par_h plane) (omega_cdm plane) (omega_baryon plane).
Example C74_met : linear midpoint_rule /\ sw (both_flat true) output_multipoles = true
  /\ sw (both_flat true) flatsky_local_nonlocal = true /\ sw (both_flat true) flatsky_nonlocal = true
  /\ (forall X, single len X = true -> potential X = false).
Proof. split; [exact midpoint_linear|]. repeat split. intros []; try discriminate; reflexivity. Qed.

Definition here : point := mkPoint 1 0 0 1 0 0.
Example C74_kept_when_asked :
  signal midpoint_rule (configured (both_flat false) [] (single len) false) here Corrfunc
  <> signal midpoint_rule (configured (both_flat false) [] (without_lensing (single len)) false) here Corrfunc.
Proof.
  rewrite !signal_configured by (intros H; discriminate H).
  unfold signal, coffe_integrate.
  change (local_on (with_set (complete (set_div (both_flat false) true)) (single len) false)) with false.
  change (single_on (with_set (complete (set_div (both_flat false) true)) (single len) false)) with false.
  change (integrated_on (with_set (complete (set_div (both_flat false) true)) (single len) false)) with true.
  change (local_on (with_set (complete (set_div (both_flat false) true)) (without_lensing (single len)) false)) with false.
  change (single_on (with_set (complete (set_div (both_flat false) true)) (without_lensing (single len)) false)) with false.
  change (integrated_on (with_set (complete (set_div (both_flat false) true)) (without_lensing (single len)) false)) with false.
  cbn [negb run midpoint_rule qn].
  rewrite di_value by reflexivity.
  unfold di_s0.
  match goal with |- context [dens ?E ?t0 di_prelude] => set (t := dens E t0 di_prelude) end.
  assert (T0 : t z_mean = 1) by (unfold t; rewrite dens_keeps by reflexivity; reflexivity).
  assert (T1 : t x_1 = 1 / 2) by (unfold t; rewrite dens_keeps by reflexivity; reflexivity).
  val t di_prelude chi_mean. val t di_prelude sz_mean1. val t di_prelude sz_mean2.
  rewrite T0 in V, V0, V1. clearbody t.
  change (t chi_mean = 10 * 1) in V. change (t sz_mean1 = 0) in V0. change (t sz_mean2 = 0) in V1.
  unfold sum_over, di_blocks. cbn [map fold_right]. unfold picked, guard. cbn [contrib_beq single andb negb].
  unfold di_len_len. cbn [body incr]. rewrite incr1_If. cbn [holds both_flat complete set_div sw andb negb incr incr1 eval].
  rewrite T1, V, V0, V1.
  cbn [complete set_div both_flat spl tab1 par_h omega_cdm omega_baryon plane]. unfold coffe_H0.
  apply Rgt_not_eq. rewrite !Rplus_0_r, !Rplus_0_l, Rmult_1_l. unfold Rgt, Rdiv.
  repeat apply Rmult_lt_0_compat; try lra; try (apply pow_lt; lra); apply Rinv_0_lt_compat; apply PI_RGT_0.
Qed.
