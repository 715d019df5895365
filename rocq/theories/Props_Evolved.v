(** * Property C80: the nonlinear formulas agree with the linear ones *)
From Coq Require Import Reals Lra Lia List ZArith Bool FunctionalExtensionality.
Import ListNotations.
From Verif Require Import Integrals CExpr Terms Signal TermsMeta TermsSum Additive SignalSum
  Lookup Exchange ExchangeSignal Built Weights Props_Terms Props_Options Evolved.
Open Scope R_scope.
#[local] Opaque nonintegrated single_integrated double_integrated flat_den_len flat_len_len.

(** ** Specification *)

(** A quadrature that looks at its integrand at the points of [seen] only. *)
Record looks_at (Q : quadrature) (seen : list R -> Prop) : Prop := {
  la_1 : forall f h, (forall x, seen [x] -> f x = h x) -> q1 Q f = q1 Q h;
  la_n : forall d f h, (forall v, length v = d -> seen v -> f v = h v) -> qn Q d f = qn Q d h }.

(** The redshift, the cosine and the two fractions of the distances at which the double
    integral is evaluated. *)
Definition evaluated (E : env) (p : point) (o : kind) (v : list R) : R * R * R * R :=
  match o with
  | Corrfunc => (p_z p, p_mu p, coord v 0, coord v 1)
  | Multipoles => (p_z p, 2 * coord v 0 - 1, coord v 1, coord v 2)
  | AverageMultipoles => (av_z E p (coord v 0), 2 * coord v 1 - 1, coord v 2, coord v 3)
  end.

Definition variables (o : kind) : nat :=
  match o with Corrfunc => 2 | Multipoles => 3 | AverageMultipoles => 4 end.

(** Lensing with itself, in the full sky, is computed. *)
Definition lensing_twice (E : env) : bool :=
  con E len && negb (sw E only_cross) && negb (sw E flatsky_nonlocal).

Record comparable (Q : quadrature) (E : env) (p : point) (o : kind) (g : R) : Prop := {
  (* a nonlinear spectrum, that grows as little as the linear one *)
  co_nonlinear : sw E pk_nonlinear = true;
  co_midpoint : sw E midpoint = true;
  co_same : unevolving E g;
  co_none : no_derivatives E;
  (* the potentials lack the growth factor *)
  co_potential : forall X, con E X = true -> potential4 X = true -> g = 1;
  (* geometry *)
  co_outside : observer_outside E p;
  co_cosine : o = Corrfunc -> -1 < p_mu p < 1;
  (* the quadrature stays inside the cube and away from coinciding points *)
  co_seen : exists seen, looks_at Q seen /\ (forall v, seen v -> Forall interior v) /\
    (lensing_twice E = false \/
     forall v z m x y, seen v -> length v = variables o -> evaluated E p o v = (z, m, x, y) ->
       1 / 100000000000000000000 < distance2 E z m (p_sep p) x y) }.

(** ** Proof *)
Lemma linear_built : forall E ells, built E ells -> built (with_linear E) ells.
Proof. intros E ells [T D]. constructor; [exact T|exact D]. Qed.

Section Signal.
Variable Q : quadrature.
Variable E : env.
Variable p : point.
Variable o : kind.
Variable g : R.
Hypothesis pE : forall k, present E k = true.
Hypothesis C : comparable Q E p o g.

Lemma signal_evolved : signal Q E p o = signal Q (with_linear E) p o.
Proof.
  destruct C as [N M G D P O Mu (seen & LA & INS & AW)].
  destruct O as (Os & Oz & Oa).
  assert (NI : forall z m, value (nonintegrated E z m (p_sep p)) = value (nonintegrated (with_linear E) z m (p_sep p)))
    by (intros; apply (ni_evolved E g pE G N M); assumption).
  assert (SI : forall z m x, p_sep p < 2 * spl E bg_comoving_distance z -> -1 < m < 1 -> interior x ->
      value (single_integrated E z m (p_sep p) x) = value (single_integrated (with_linear E) z m (p_sep p) x))
    by (intros; apply (si_evolved E g pE G N M); auto).
  assert (DI : forall v z m x y, seen v -> length v = variables o -> evaluated E p o v = (z, m, x, y) ->
      value (double_integrated E z m (p_sep p) x y) = value (double_integrated (with_linear E) z m (p_sep p) x y)).
  { intros v z m x y Hv Hl He. apply (di_evolved E g pE G N M). destruct AW as [A|A]; [left; exact A|right].
    apply (A v); assumption. }
  assert (IN : forall v i d, seen v -> length v = d -> (i < d)%nat -> interior (coord v i))
    by (intros v i d Hv <- Hi; apply coord_interior; auto).
  assert (HF : interior (1 / 2)) by (unfold interior; lra).
  unfold signal, coffe_integrate.
  change (local_on (with_linear E)) with (local_on E). change (single_on (with_linear E)) with (single_on E).
  change (integrated_on (with_linear E)) with (integrated_on E).
  change (single_full_on (with_linear E)) with (single_full_on E).
  change (con (with_linear E)) with (con E). change (av_weight (with_linear E)) with (av_weight E).
  change (av_z (with_linear E)) with (av_z E).
  change (sw (with_linear E) flatsky_local_nonlocal) with (sw E flatsky_local_nonlocal).
  change (sw (with_linear E) flatsky_nonlocal) with (sw E flatsky_nonlocal).
  change (sw (with_linear E) only_cross) with (sw E only_cross).
  apply f_equal2; [apply f_equal2|].
  - destruct (negb (local_on E)); [reflexivity|]. destruct o; cbn [run]; apply f_equal.
    + apply NI.
    + apply (la_1 Q seen LA). intros x _. rewrite !value_times_legendre, NI. reflexivity.
    + apply (la_n Q seen LA). intros v _ _. rewrite !value_scale, !value_times_legendre, NI. reflexivity.
  - destruct (negb (single_on E)); [reflexivity|]. destruct o; cbn [run].
    + apply f_equal, (la_1 Q seen LA). intros x Hx. apply SI; [exact Oz|apply Mu; reflexivity|].
      exact (IN [x] 0%nat 1%nat Hx eq_refl Nat.lt_0_1).
    + apply f_equal2.
      * destruct (_ && _ && _); [|reflexivity]. destruct (con E den); [|reflexivity]. cbn [run].
        rewrite (flat_den_len_evolved E g G N M). reflexivity.
      * destruct (single_full_on E); [|reflexivity]. cbn [run]. apply f_equal, (la_n Q seen LA).
        intros v L Hv. rewrite !value_times_legendre, SI; [reflexivity|exact Oz| |].
        -- apply mu_in. apply (IN v 0%nat 2%nat Hv L). lia.
        -- apply (IN v 1%nat 2%nat Hv L). lia.
    + apply f_equal, (la_n Q seen LA). intros v L Hv. rewrite !value_scale, !value_times_legendre, SI; [reflexivity| | |].
      * apply Oa. apply (IN v 0%nat 3%nat Hv L). lia.
      * apply mu_in. apply (IN v 1%nat 3%nat Hv L). lia.
      * apply (IN v 2%nat 3%nat Hv L). lia.
  - destruct (negb (integrated_on E)); [reflexivity|]. destruct o; cbn [run].
    + apply f_equal, (la_n Q seen LA). intros v L Hv. apply (DI v); [exact Hv|exact L|reflexivity].
    + apply f_equal2.
      * destruct (_ && _ && _ && _); [|reflexivity]. cbn [run]. apply f_equal, (la_1 Q seen LA).
        intros x _. apply (flat_len_len_evolved E g pE G N M).
      * destruct (_ || _); [|reflexivity]. cbn [run]. apply f_equal, (la_n Q seen LA).
        intros v L Hv. rewrite !value_times_legendre. apply f_equal. apply (DI v); [exact Hv|exact L|reflexivity].
    + apply f_equal, (la_n Q seen LA). intros v L Hv. rewrite !value_scale, !value_times_legendre.
      apply f_equal, f_equal. apply (DI v); [exact Hv|exact L|reflexivity].
Qed.
End Signal.

(** ** C80: the nonlinear formulas reduce to the linear ones *)
Theorem C80_same_partial : forall Q E ells p o g,
  built E ells -> asked E ells p o -> comparable Q E p o g ->
  signal Q E p o = signal Q (with_linear E) p o.
Proof.
  intros Q E ells p o g B A C.
  rewrite (signal_complete E ells B Q p o A).
  rewrite (signal_complete (with_linear E) ells (linear_built E ells B) Q p o A).
  change (complete (with_linear E)) with (with_linear (complete E)).
  apply (signal_evolved Q (complete E) p o g); [reflexivity|].
  destruct C as [N M [G1 G2] D P O Mu S]. constructor; try assumption. constructor; assumption.
Qed.
Print Assumptions C80_same_partial.

(** Every contribution but the local potentials, a growth of 3, the midpoint rule. *)
Definition lab (g t : R) : env :=
  mkEnv (fun _ => false)
    (fun f => match f with pk_nonlinear | midpoint | output_multipoles => true | _ => false end)
    (fun f z => match f with bg_D1 => g | f => spl universe f z end)
    (fun _ _ _ => t) (fun _ u _ _ => match u with result2d => g ^ 2 * t | _ => 0 end)
    (fun _ => false) 1 (1 / 4) (3 / 4).
Definition no_potentials (X : contrib) : bool := negb (potential4 X).
Definition middle : point := mkPoint 1 1 1 1 0 2.

Lemma lab_unevolving : forall g t ells S cross, unevolving (configured (lab g t) ells S cross) g.
Proof. intros. constructor; reflexivity. Qed.
Lemma half_seen : looks_at midpoint_rule (fun v => Forall (fun x => x = 1 / 2) v).
Proof.
  constructor; intros; cbn [midpoint_rule q1 qn].
  - apply H. constructor; [reflexivity|constructor].
  - apply H; [apply repeat_length|]. apply Forall_forall. intros x Hx. apply repeat_spec in Hx. exact Hx.
Qed.
Lemma half_at : forall v i, Forall (fun x => x = 1 / 2) v -> coord v i = 1 / 2 \/ coord v i = 0.
Proof.
  intros v i F. unfold coord. destruct (nth_in_or_default i v 0) as [H|H]; [left|right; exact H].
  rewrite Forall_forall in F. apply F. exact H.
Qed.

Example C80_met :
  let E := configured (lab 3 1) [0; 2]%Z no_potentials false in
  built E [0; 2]%Z /\ asked E [0; 2]%Z middle AverageMultipoles /\
  comparable midpoint_rule E middle AverageMultipoles 3 /\ lensing_twice E = true.
Proof.
  cbv zeta. split; [apply configured_built|]. split; [intros H; discriminate H|].
  split; [|reflexivity].
  constructor; try reflexivity.
  - apply lab_unevolving.
  - repeat split.
  - intros X H1 H2. cbn in H1. unfold no_potentials in H1. rewrite H2 in H1. discriminate H1.
  - unfold observer_outside. cbn. repeat split; intros; lra.
  - intros H. discriminate H.
  - exists (fun v => Forall (fun x => x = 1 / 2) v). split; [exact half_seen|]. split.
    + intros v F. apply Forall_forall. rewrite Forall_forall in F. intros x Hx. rewrite (F x Hx).
      unfold interior. lra.
    + right. intros v z m x y F L H.
      assert (X : forall i, (i < 4)%nat -> coord v i = 1 / 2).
      { intros i Hi. unfold coord. rewrite Forall_forall in F. apply F. apply nth_In.
        rewrite L. exact Hi. }
      unfold evaluated in H. rewrite !X in H by lia.
      assert (x = 1 / 2 /\ y = 1 / 2 /\ m = 0) as (-> & -> & ->).
      { injection H as _ H1 H2 H3. repeat split; [symmetry; exact H2|symmetry; exact H3|]. rewrite <- H1. field. }
      unfold distance2, cosine. cbn [configured lab spl universe middle p_sep]. lra.
Qed.

(** *** The local potentials lack the growth factor *)
Lemma potential_value : forall E g z m s, (forall k, present E k = true) ->
  sw E pk_nonlinear = true -> sw E midpoint = true -> no_derivatives E -> unevolving E g ->
  (forall X, con E X = true -> potential4 X = true) ->
  value (nonintegrated (with_linear E) z m s) = g ^ 2 * value (nonintegrated E z m s).
Proof.
  intros E g z m s PR N M (D1 & D2 & D3 & D4) G P.
  rewrite !nonintegrated_spec, !all_there by exact PR. cbn [value].
  rewrite dens_linear by reflexivity. generalize (dens E (args z m s) ni_prelude). intros t.
  rewrite (total_times E 1 t ni_blocks).
  - unfold ni_factor. cbn [with_linear sw spl]. rewrite N, M, D1, D2, D3, D4. cbn [andb orb].
    rewrite !(ue_growth E g G). destruct (sw E flatsky_local); ring.
  - unfold ni_blocks.
    repeat (apply Forall_cons;
      [cbn [snd]; match goal with |- times _ _ _ ?x => unfold x end;
       apply times_if; [reflexivity|intros F|intros _; apply times_nil];
       cbn [holds] in F; apply andb_true_iff in F; destruct F as [F1 F2];
       first [discriminate (P _ F1)|discriminate (P _ F2)|
         apply times_add; cbn [eval with_linear spl tab1 tab2 par_h omega_cdm omega_baryon]; ring]|]).
    apply Forall_nil.
Qed.

Theorem C80_potentials_refuted : forall Q E ells p o g, linear Q ->
  built E ells -> asked E ells p o ->
  sw E pk_nonlinear = true -> sw E midpoint = true -> no_derivatives E -> unevolving E g ->
  (forall X, con E X = true -> potential4 X = true) ->
  signal Q (with_linear E) p o = g ^ 2 * signal Q E p o.
Proof.
  intros Q E ells p o g LQ B A N M D G P.
  rewrite (signal_complete E ells B Q p o A).
  rewrite (signal_complete (with_linear E) ells (linear_built E ells B) Q p o A).
  change (complete (with_linear E)) with (with_linear (complete E)).
  assert (V : forall z m s, value (nonintegrated (with_linear (complete E)) z m s)
              = g ^ 2 * value (nonintegrated (complete E) z m s)).
  { intros. apply (potential_value (complete E) g); try assumption; try reflexivity.
    destruct G as [Ga Gb]. constructor; assumption. }
  assert (OFF : forall X, potential4 X = false -> con E X = false).
  { intros X H. destruct (con E X) eqn:K; [|reflexivity]. rewrite (P X K) in H. discriminate H. }
  unfold signal, coffe_integrate.
  unfold single_on, integrated_on. cbn [with_linear complete con].
  rewrite (OFF len), (OFF g4), (OFF g5) by reflexivity. cbn [andb orb negb run].
  change (local_on (with_linear (complete E))) with (local_on (complete E)).
  change (av_weight (with_linear (complete E))) with (av_weight (complete E)).
  change (av_z (with_linear (complete E))) with (av_z (complete E)).
  rewrite !Rplus_0_r.
  destruct (negb (local_on (complete E))); [cbn [run]; ring|]. destruct o; cbn [run].
  - rewrite V. ring.
  - replace (fun x => value (times_legendre (p_l p) (2 * x - 1) (nonintegrated (with_linear (complete E)) (p_z p) (2 * x - 1) (p_sep p))))
      with (fun x => g ^ 2 * value (times_legendre (p_l p) (2 * x - 1) (nonintegrated (complete E) (p_z p) (2 * x - 1) (p_sep p))))
      by (apply functional_extensionality; intros x; rewrite !value_times_legendre, V; ring).
    rewrite (mul1 Q LQ). ring.
  - match goal with |- _ * qn Q 2 ?f = _ * (_ * qn Q 2 ?h) =>
      replace f with (fun v => g ^ 2 * h v)
        by (apply functional_extensionality; intros v; rewrite !value_scale, !value_times_legendre, V; ring) end.
    rewrite (muln Q LQ). ring.
Qed.
Print Assumptions C80_potentials_refuted.

(** A growth of 3 and a value that is not zero: the linear one is nine times the other. *)
Example C80_potentials_met :
  let E := configured (lab 3 1) [0; 2]%Z (single g1) false in
  linear midpoint_rule /\ built E [0; 2]%Z /\ no_derivatives E /\ unevolving E 3 /\
  (forall X, con E X = true -> potential4 X = true) /\
  signal midpoint_rule E middle Corrfunc <> 0.
Proof.
  cbv zeta. split; [exact midpoint_linear|]. split; [apply configured_built|].
  split; [repeat split|]. split; [apply lab_unevolving|]. split; [intros []; discriminate || reflexivity|].
  rewrite signal_configured by (intros H; discriminate H).
  unfold signal, coffe_integrate.
  change (local_on (with_set (complete (set_div (lab 3 1) true)) (single g1) false)) with true.
  change (single_on (with_set (complete (set_div (lab 3 1) true)) (single g1) false)) with false.
  change (integrated_on (with_set (complete (set_div (lab 3 1) true)) (single g1) false)) with false.
  cbn [negb run]. rewrite ni_value by reflexivity.
  unfold ni_s0.
  match goal with |- context [dens ?E ?t0 ni_prelude] => set (t := dens E t0 ni_prelude) end.
  val t ni_prelude G1. val t ni_prelude G2. val t ni_prelude a1. val t ni_prelude a2. clearbody t.
  change (t G1 = 1) in V. change (t G2 = 2) in V0. change (t a1 = 1 / 2) in V1. change (t a2 = 1 / 2) in V2.
  unfold sum_over, ni_blocks. cbn [map fold_right]. unfold picked, guard. cbn [contrib_beq single andb negb].
  unfold ni_g1_g1. cbn [body incr incr1 eval]. rewrite V, V0, V1, V2.
  cbn [complete set_div lab spl tab1 tab2 par_h omega_cdm omega_baryon]. unfold coffe_H0, ni_factor.
  cbn [complete set_div lab sw andb].
  apply Rgt_not_eq. lra.
Qed.

(** *** At coinciding points the two formulas differ *)
Theorem C80_coincident_refuted : exists E z m s x y,
  unevolving E 2 /\ sw E pk_nonlinear = true /\ sw E midpoint = true /\ con E = single len /\
  (forall k, present E k = true) /\ interior x /\ interior y /\
  value (double_integrated (with_linear E) z m s x y) = 4 * value (double_integrated E z m s x y) /\
  value (double_integrated E z m s x y) <> 0.
Proof.
  set (U := complete (set_div (lab 2 0) true)).
  exists (with_set U (single len) false), 1, 0, 1, (1 / 1000000000000), (1 / 1000000000000).
  split; [constructor; reflexivity|]. do 4 (split; [reflexivity|]).
  split; [unfold interior; lra|]. split; [unfold interior; lra|].
  assert (V : forall L, L = U \/ L = with_linear U ->
    value (double_integrated (with_set L (single len) false) 1 0 1 (1 / 1000000000000) (1 / 1000000000000))
    = (if sw L pk_nonlinear then 1 else 4) *
      (9 / 4 * (2 * (2 * 1)) * (2 - 5 * 0) * (2 - 5 * 0) * 16 * (1 - 1 / 1000000000000) * (1 - 1 / 1000000000000)) * (coffe_H0 * 1) ^ 4).
  { intros L HL. assert (PL : forall k, present L k = true) by (destruct HL as [->| ->]; reflexivity).
    rewrite di_value by exact PL. unfold di_s0.
    assert (R2 : dens L (upd (upd (args 1 0 1) x_1 (1 / 1000000000000)) x_2 (1 / 1000000000000)) di_prelude r2
                 = kept (distance2 L 1 0 1 (1 / 1000000000000) (1 / 1000000000000))) by apply di_r2.
    set (t := dens L _ di_prelude) in *.
    assert (X1 : t x_1 = 1 / 1000000000000) by (unfold t; rewrite dens_keeps by reflexivity; reflexivity).
    assert (X2 : t x_2 = 1 / 1000000000000) by (unfold t; rewrite dens_keeps by reflexivity; reflexivity).
    assert (Z0 : t z_mean = 1 /\ t mu = 0 /\ t sep = 1) by (unfold t; rewrite !dens_keeps by reflexivity; repeat split).
    destruct Z0 as (Z0 & Z1 & Z2).
    val t di_prelude chi_mean. val t di_prelude chi1. val t di_prelude chi2. val t di_prelude s1. val t di_prelude s2.
    val t di_prelude lambda1. val t di_prelude lambda2.
    assert (SP : forall f u, spl L f u = spl (lab 2 0) f u) by (destruct HL as [->| ->]; reflexivity).
    assert (T1 : forall k u r, tab1 L k u r = 0) by (destruct HL as [->| ->]; reflexivity).
    assert (T2 : forall k u r q, tab2 L k u r q = 0) by (intros k [] r q; destruct HL as [->| ->]; cbn; ring).
    assert (SW : sw L midpoint = true /\ sw L flatsky_nonlocal = false /\ sw L output_multipoles = true)
      by (destruct HL as [->| ->]; repeat split).
    destruct SW as (SW1 & SW2 & SW3).
    assert (SM : Rltb (1 / 100000000000000000000) (t r2) = false).
    { rewrite R2. unfold distance2, cosine. rewrite SP. cbn [lab spl universe].
      unfold kept, Rltb. destruct (Rlt_dec _ 0); destruct (Rlt_dec _ _); try reflexivity; lra. }
    assert (OM : omega_cdm L = 1 / 4 /\ omega_baryon L = 3 / 4 /\ par_h L = 1) by (destruct HL as [->| ->]; repeat split).
    destruct OM as (OM1 & OM2 & OM3).
    rewrite SP in V, V2, V3. rewrite Z1, Z2, V in V0, V1. cbn [lab spl universe] in V, V0, V1, V2, V3.
    clear R2. clearbody t.
    unfold sum_over, di_blocks. cbn [map fold_right]. unfold picked, guard. cbn [contrib_beq single andb negb].
    unfold di_len_len. cbn [body]. cbn [incr]. rewrite !incr1_If. cbn [holds]. rewrite SW2. cbn [andb negb].
    cbn [incr]. rewrite !incr1_If. cbn [holds]. rewrite SW2. cbn [negb]. cbn [incr]. rewrite !incr1_If. cbn [holds eval].
    rewrite SM. cbn [incr]. rewrite !incr1_If. cbn [holds]. rewrite SW1, andb_true_r.
    destruct (sw L pk_nonlinear); cbn [incr incr1 eval]; rewrite ?T1, ?T2, !SP, V0, V1, V2, V3, X1, X2, OM1, OM2, OM3;
      cbn [lab spl universe]; generalize (coffe_H0 * 1); intros; field. }
  rewrite (V U) by (left; reflexivity).
  replace (with_linear (with_set U (single len) false)) with (with_set (with_linear U) (single len) false).
  2:{ unfold with_linear, with_set. cbn [con sw spl tab1 tab2 present par_h omega_cdm omega_baryon]. f_equal.
      apply functional_extensionality. intros []; reflexivity. }
  rewrite (V (with_linear U)) by (right; reflexivity).
  cbn [with_linear sw U complete set_div lab]. split; [ring|].
  apply Rgt_not_eq. unfold coffe_H0. lra.
Qed.
Print Assumptions C80_coincident_refuted.

(** ** C73 with a nonlinear spectrum: the derivative options do nothing *)

(** Conditions that read no derivative option. *)
Fixpoint plain_c (c : cond) : bool :=
  match c with
  | Flag b_derivative | Flag f_derivative | Flag b_tilde_derivative | Flag f_tilde_derivative => false
  | Not c => plain_c c
  | And c d | Or c d => plain_c c && plain_c d
  | _ => true
  end.
(** Code that reads them in linear branches only. *)
Fixpoint sheltered1 (c : stmt) : bool :=
  match c with
  | If (And (Flag pk_nonlinear) (Flag midpoint)) p q => forallb sheltered1 p
  | If c p q => plain_c c && forallb sheltered1 p && forallb sheltered1 q
  | _ => true
  end.
Definition sheltered (l : list stmt) : bool := forallb sheltered1 l.

Lemma ni_sheltered : forallb (fun b => sheltered (snd b)) ni_blocks = true. Proof. reflexivity. Qed.
Lemma si_sheltered : forallb (fun b => sheltered (snd b)) si_blocks = true. Proof. reflexivity. Qed.
Lemma di_sheltered : forallb (fun b => sheltered (snd b)) di_blocks = true. Proof. reflexivity. Qed.

Section Derivative.
Variable E : env.
Variable d : flag.
Hypothesis N : sw E pk_nonlinear = true.
Hypothesis M : sw E midpoint = true.
#[local] Notation E' := (derivative_on E d).

Lemma nonlinear_kept : sw E' pk_nonlinear = true.
Proof. destruct d; exact N. Qed.
Lemma midpoint_kept : sw E' midpoint = true.
Proof. destruct d; exact M. Qed.
Lemma eval_derivative : forall s e, eval E' s e = eval E s e.
Proof. intros s. induction e; cbn [eval]; try reflexivity; rewrite ?IHe1, ?IHe2, ?IHe; reflexivity. Qed.
Lemma flag_derivative : forall f, plain_c (Flag f) = true -> sw E' f = sw E f.
Proof. intros f H. destruct f; try discriminate H; destruct d; reflexivity. Qed.
Lemma holds_derivative : forall s c, plain_c c = true -> holds E' s c = holds E s c.
Proof.
  intros s. induction c; intros H; cbn [holds] in *; rewrite ?eval_derivative; try reflexivity.
  - apply flag_derivative. exact H.
  - rewrite IHc by exact H. reflexivity.
  - cbn [plain_c] in H. apply andb_true_iff in H. rewrite IHc1, IHc2 by apply H. reflexivity.
  - cbn [plain_c] in H. apply andb_true_iff in H. rewrite IHc1, IHc2 by apply H. reflexivity.
Qed.
Definition is_branch (c : cond) : bool :=
  match c with And (Flag pk_nonlinear) (Flag midpoint) => true | _ => false end.
Lemma sheltered1_If : forall c p q, sheltered1 (If c p q)
  = if is_branch c then sheltered p else plain_c c && sheltered p && sheltered q.
Proof.
  intros c p q. destruct c as [| | | |c1 c2| | |]; try reflexivity.
  destruct c1 as [|[]| | | | | |]; try reflexivity. destruct c2 as [|[]| | | | | |]; reflexivity.
Qed.
Lemma branch_is : forall c, is_branch c = true -> c = And (Flag pk_nonlinear) (Flag midpoint).
Proof.
  intros c. destruct c as [| | | |c1 c2| | |]; try discriminate.
  destruct c1 as [|[]| | | | | |]; try discriminate. destruct c2 as [|[]| | | | | |]; try discriminate. reflexivity.
Qed.
Lemma incr_derivative : forall l s, sheltered l = true -> incr E' s l = incr E s l.
Proof.
  apply (stmts_ind2
    (fun c => forall s, sheltered1 c = true -> incr1 E' s c = incr1 E s c)
    (fun l => forall s, sheltered l = true -> incr E' s l = incr E s l)); try reflexivity.
  - intros e s _. cbn [incr1]. apply eval_derivative.
  - intros c p q IHp IHq s H. rewrite sheltered1_If in H. rewrite !incr1_If.
    destruct (is_branch c) eqn:B.
    + rewrite (branch_is c B). cbn [holds]. rewrite nonlinear_kept, midpoint_kept, N, M. apply IHp. exact H.
    + apply andb_true_iff in H. destruct H as [H H2]. apply andb_true_iff in H. destruct H as [H H1].
      rewrite holds_derivative by exact H. destruct (holds E s c); [apply IHp|apply IHq]; assumption.
  - intros c l IHc IHl s H. cbn [sheltered forallb] in H. apply andb_true_iff in H. destruct H.
    cbn [incr]. rewrite IHc, IHl by assumption. reflexivity.
Qed.
Fixpoint plain1 (c : stmt) : bool :=
  match c with If c p q => plain_c c && forallb plain1 p && forallb plain1 q | _ => true end.
Lemma dens_derivative : forall l s, forallb plain1 l = true -> dens E' s l = dens E s l.
Proof.
  apply (stmts_ind2
    (fun c => forall s, plain1 c = true -> den1 E' s c = den1 E s c)
    (fun l => forall s, forallb plain1 l = true -> dens E' s l = dens E s l)); try reflexivity.
  - intros v e s _. cbn [den1]. rewrite eval_derivative. reflexivity.
  - intros e s _. cbn [den1]. rewrite eval_derivative. reflexivity.
  - intros c p q IHp IHq s H. rewrite !den1_If.
    change (plain1 (If c p q)) with (plain_c c && forallb plain1 p && forallb plain1 q) in H.
    apply andb_true_iff in H. destruct H as [H H2]. apply andb_true_iff in H. destruct H as [H H1].
    rewrite holds_derivative by exact H. destruct (holds E s c); [apply IHp|apply IHq]; assumption.
  - intros c l IHc IHl s H. cbn [forallb] in H. apply andb_true_iff in H. destruct H.
    cbn [dens]. rewrite IHc by assumption. apply IHl. assumption.
Qed.
Lemma total_derivative : forall s bs, forallb (fun b => sheltered (snd b)) bs = true ->
  total E' s bs = total E s bs.
Proof.
  intros s bs H. unfold total. induction bs as [|b bs IH]; [reflexivity|].
  cbn [forallb] in H. apply andb_true_iff in H. destruct H as [H1 H2].
  cbn [map fold_right]. rewrite IH, incr_derivative by assumption. reflexivity.
Qed.

Hypothesis pE : forall k, present E k = true.
Lemma ni_derivative : forall z m s, nonintegrated E' z m s = nonintegrated E z m s.
Proof.
  intros. rewrite !nonintegrated_spec, !all_there by exact pE.
  rewrite dens_derivative, total_derivative by reflexivity.
  unfold ni_factor. rewrite nonlinear_kept, midpoint_kept, N, M. reflexivity.
Qed.
Lemma si_derivative : forall z m s x, single_integrated E' z m s x = single_integrated E z m s x.
Proof.
  intros. rewrite !single_integrated_spec, !all_there by exact pE.
  rewrite dens_derivative, total_derivative by reflexivity. reflexivity.
Qed.
Lemma di_derivative : forall z m s x y, double_integrated E' z m s x y = double_integrated E z m s x y.
Proof.
  intros. rewrite !double_integrated_spec, !all_there by exact pE.
  rewrite dens_derivative, total_derivative by reflexivity. reflexivity.
Qed.
Lemma signal_derivative : forall Q p o, signal Q E' p o = signal Q E p o.
Proof.
  intros. unfold signal, coffe_integrate, single_full_on.
  change (local_on E') with (local_on E). change (single_on E') with (single_on E).
  change (integrated_on E') with (integrated_on E).
  change (con E') with (con E). change (av_weight E') with (av_weight E). change (av_z E') with (av_z E).
  rewrite !(flag_derivative flatsky_local_nonlocal), !(flag_derivative flatsky_nonlocal), !(flag_derivative only_cross) by reflexivity.
  replace (nonintegrated E') with (nonintegrated E) by (do 3 (apply functional_extensionality; intro); symmetry; apply ni_derivative).
  replace (single_integrated E') with (single_integrated E) by (do 4 (apply functional_extensionality; intro); symmetry; apply si_derivative).
  replace (double_integrated E') with (double_integrated E) by (do 5 (apply functional_extensionality; intro); symmetry; apply di_derivative).
  replace (flat_den_len E') with (flat_den_len E).
  2:{ do 3 (apply functional_extensionality; intro). Transparent flat_den_len. unfold flat_den_len.
      rewrite nonlinear_kept, midpoint_kept, N, M. reflexivity. }
  replace (flat_len_len E') with (flat_len_len E).
  2:{ do 4 (apply functional_extensionality; intro). Transparent flat_len_len. unfold flat_len_len.
      rewrite nonlinear_kept, midpoint_kept, N, M. reflexivity. }
  reflexivity.
Qed.
End Derivative.

Theorem C73_nonlinear_refuted : forall Q E ells p o d,
  built E ells -> asked E ells p o -> sw E pk_nonlinear = true -> sw E midpoint = true ->
  signal Q (derivative_on E d) p o = signal Q E p o.
Proof.
  intros Q E ells p o d B A N M.
  assert (B' : built (derivative_on E d) ells).
  { destruct B as [T D]. constructor.
    - intros k. cbn [derivative_on present]. rewrite T. destruct d; reflexivity.
    - intros c H1 H2. rewrite (flag_derivative E d divergent) by reflexivity. apply (D c); assumption. }
  assert (A' : asked (derivative_on E d) ells p o).
  { intros H. rewrite (flag_derivative E d output_multipoles) by reflexivity. apply A. exact H. }
  rewrite (signal_complete E ells B Q p o A), (signal_complete _ ells B' Q p o A').
  change (complete (derivative_on E d)) with (derivative_on (complete E) d).
  apply signal_derivative; assumption || reflexivity.
Qed.
Print Assumptions C73_nonlinear_refuted.

(** The derivative with respect to the bias of the density's correlation should be twice the
    function itself where the bias is 1; it is the function, which is not zero. *)
Example C73_nonlinear_met :
  let E := configured (lab 1 1) [0; 2]%Z (single den) false in
  built E [0; 2]%Z /\ sw E pk_nonlinear = true /\ sw E midpoint = true /\
  signal midpoint_rule E middle Corrfunc = 2.
Proof.
  cbv zeta. split; [apply configured_built|]. do 2 (split; [reflexivity|]).
  rewrite signal_configured by (intros H; discriminate H).
  unfold signal, coffe_integrate.
  change (local_on (with_set (complete (set_div (lab 1 1) true)) (single den) false)) with true.
  change (single_on (with_set (complete (set_div (lab 1 1) true)) (single den) false)) with false.
  change (integrated_on (with_set (complete (set_div (lab 1 1) true)) (single den) false)) with false.
  cbn [negb run]. rewrite ni_value by reflexivity.
  unfold ni_s0.
  match goal with |- context [dens ?E ?t0 ni_prelude] => set (t := dens E t0 ni_prelude) end.
  val t ni_prelude b1. val t ni_prelude b2. clearbody t.
  change (t b1 = 1) in V. change (t b2 = 2) in V0.
  unfold sum_over, ni_blocks. cbn [map fold_right]. unfold picked, guard. cbn [contrib_beq single andb negb].
  unfold ni_den_den. cbn [body]. cbn [incr]. rewrite incr1_If. cbn [holds].
  change (sw (complete (set_div (lab 1 1) true)) flatsky_local) with false.
  cbn [incr]. rewrite incr1_If. cbn [holds].
  change (sw (complete (set_div (lab 1 1) true)) pk_nonlinear && sw (complete (set_div (lab 1 1) true)) midpoint) with true.
  cbn [incr incr1 eval]. rewrite V, V0.
  cbn [complete set_div lab spl tab1 tab2]. unfold ni_factor.
  change (sw (complete (set_div (lab 1 1) true)) pk_nonlinear && sw (complete (set_div (lab 1 1) true)) midpoint) with true.
  cbn iota. lra.
Qed.
