(** * Multipoles of the local terms in the flat sky

    In the flat-sky approximation the local terms are finite Legendre sums in the cosine,
    so their multipoles can be computed once and for all and compared with linear theory. *)
From Coq Require Import Reals Lra Lia List ZArith Bool.
From Coquelicot Require Import Coquelicot.
From Coq Require Import List FunctionalExtensionality.
Import ListNotations.
From Verif Require Import Integrals CExpr Terms Signal TermsMeta TermsSum Additive SignalSum
  Lookup Exchange ExchangeSignal Built Weights Legendre Multipoles.
Open Scope R_scope.

(** ** Legendre sums *)
(** Specification or proof only; nothing in the code. *)
Fixpoint series_from (j : nat) (c : list R) (m : R) : R :=
  match c with [] => 0 | a :: c => a * legendre j m + series_from (S j) c m end.
(** c_0 P_0(m) + c_1 P_1(m) + ...  Specification or proof only; nothing in the code. *)
Definition series (c : list R) (m : R) : R := series_from 0 c m.

Lemma series_continuous : forall c j m, continuous (series_from j c) m.
Proof.
  induction c as [|a c IH]; intros j m; cbn [series_from].
  - apply continuous_const.
  - apply (continuous_plus (fun m => a * legendre j m) (series_from (S j) c)); [|apply IH].
    apply (continuous_mult (fun _ => a) (legendre j)); [apply continuous_const|apply legendre_continuous].
Qed.

Lemma series_ex : forall l c j a b, ex_RInt (fun m => legendre l m * series_from j c m) a b.
Proof.
  intros l c j a b. apply (ex_RInt_continuous (V := R_CompleteNormedModule)). intros m _.
  apply (continuous_mult (legendre l) (series_from j c)); [apply legendre_continuous|apply series_continuous].
Qed.

Lemma series_integral : forall l c j,
  RInt (fun m => legendre l m * series_from j c m) (-1) 1
  = if Nat.leb j l then 2 / (2 * INR l + 1) * nth (l - j) c 0 else 0.
Proof.
  intros l. induction c as [|a c IH]; intros j.
  - cbn [series_from]. rewrite (RInt_ext _ (fun _ => 0)) by (intros; apply Rmult_0_r).
    rewrite zero_integral. destruct (l - j)%nat; destruct (Nat.leb j l); cbn [nth]; match goal with |- ?a = ?b => change (@eq R a b) end; ring.
  - cbn [series_from].
    assert (P : is_RInt (fun m => legendre l m * legendre j m) (-1) 1
                  (if Nat.eqb l j then 2 / (2 * INR l + 1) else 0)).
    { destruct (Nat.eqb_spec l j) as [->|N]; [apply legendre_norm|apply legendre_orthogonal; exact N]. }
    pose proof (is_RInt_scal _ _ _ a _ P) as P1.
    pose proof (is_RInt_plus _ _ _ _ _ _ P1 (RInt_correct _ _ _ (series_ex l c (S j) (-1) 1))) as P2.
    rewrite IH in P2.
    assert (P3 : is_RInt (fun m => legendre l m * (a * legendre j m + series_from (S j) c m)) (-1) 1
      (a * (if Nat.eqb l j then 2 / (2 * INR l + 1) else 0)
       + (if Nat.leb (S j) l then 2 / (2 * INR l + 1) * nth (l - S j) c 0 else 0))).
    { eapply is_RInt_ext; [|exact P2]. intros m _.
      match goal with |- ?a = ?b => change (@eq R a b) end. unfold plus, scal. cbn. unfold mult. cbn. ring. }
    rewrite (is_RInt_unique _ _ _ _ P3). clear. match goal with |- ?a = ?b => change (@eq R a b) end.
    destruct (Nat.eqb_spec l j) as [->|N].
    + rewrite Nat.leb_refl, Nat.sub_diag. replace (Nat.leb (S j) j) with false
        by (symmetry; apply Nat.leb_gt; lia). cbn [nth]. ring.
    + destruct (Nat.leb_spec j l) as [L|L].
      * replace (Nat.leb (S j) l) with true by (symmetry; apply Nat.leb_le; lia).
        replace (l - j)%nat with (S (l - S j)) by lia. cbn [nth]. ring.
      * replace (Nat.leb (S j) l) with false by (symmetry; apply Nat.leb_gt; lia). ring.
Qed.

Lemma half_norm : forall l, INR (2 * l + 1) / 2 * (2 / (2 * INR l + 1)) = 1.
Proof.
  intros l. rewrite plus_INR, mult_INR. pose proof (pos_INR l). change (INR 2) with (1 + 1). change (INR 1) with 1.
  field. lra.
Qed.

(** The coefficient of P_l in a function of the cosine.  Specification or proof only; nothing in the code. *)
Definition moment (f : R -> R) (l : nat) : R :=
  INR (2 * l + 1) / 2 * RInt (fun m => legendre l m * f m) (-1) 1.

Lemma moment_series : forall f c l, (forall m, -1 < m < 1 -> f m = series c m) ->
  moment f l = nth l c 0.
Proof.
  intros f c l H. unfold moment.
  rewrite (RInt_ext _ (fun m => legendre l m * series c m)).
  2:{ intros m Hm. rewrite Rmin_left, Rmax_right in Hm by lra. rewrite (H m Hm). reflexivity. }
  unfold series. rewrite series_integral. cbn [Nat.leb]. rewrite Nat.sub_0_r, <- Rmult_assoc, half_norm. apply Rmult_1_l.
Qed.

(** The first Legendre polynomials. *)
Lemma legendre_0 : forall m, legendre 0 m = 1. Proof. reflexivity. Qed.
Lemma legendre_1 : forall m, legendre 1 m = m. Proof. reflexivity. Qed.
Lemma legendre_2 : forall m, legendre 2 m = (3 * m ^ 2 - 1) / 2.
Proof. intros. rewrite legendre_SS, legendre_1, legendre_0. cbn [INR]. field. Qed.
Lemma legendre_3 : forall m, legendre 3 m = (5 * m ^ 3 - 3 * m) / 2.
Proof. intros. rewrite legendre_SS, legendre_2, legendre_1. cbn [INR]. field. Qed.
Lemma legendre_4 : forall m, legendre 4 m = (35 * m ^ 4 - 30 * m ^ 2 + 3) / 8.
Proof. intros. rewrite legendre_SS, legendre_3, legendre_2. cbn [INR]. field. Qed.

(** ** Specification: linear theory *)

(** The real part of i^n.  Specification or proof only; nothing in the code. *)
Definition i_power (n : nat) : R :=
  match Nat.modulo n 4 with 0%nat => 1 | 2%nat => -1 | _ => 0 end.

Section Spec.
Variable E : env.
Variables z s : R.

(** The Fourier amplitude of a contribution at cosine [v] to the line of sight, without its
    powers of i/k.  Specification or proof only; nothing in the code. *)
Definition amplitude (w : galaxy) (X : contrib) (v : R) : R :=
  match X with
  | den => bias E w z
  | rsd => rate E z * v ^ 2
  | d1 => hubble E z * rate E z * doppler E w z * v
  | _ => 0
  end.
(** The power of i/k.  Specification or proof only; nothing in the code. *)
Definition order (X : contrib) : nat := match X with d1 => 1 | _ => 0 end.

(** The tabulated integral with its growth factor: the nonlinear spectrum at that redshift,
    or the linear one today times the square of the growth.  Specification or proof only; nothing in the code. *)
Definition flat_table (n l : nat) : R :=
  if sw E pk_nonlinear && sw E midpoint
  then tab2 E (K (Z.of_nat n) (Z.of_nat l) false) result2d z s
  else growth E z ^ 2 * tab1 E (K (Z.of_nat n) (Z.of_nat l) false) result s.
(** The spherical transform of order l of P(k)/k^n, from the tables.
    Specification or proof only; nothing in the code. *)
Definition radial (n l : nat) : R := s ^ (Nat.min n l) * flat_table n l.

(** The multipole of the correlation of two contributions: i^l times the multipole of the
    spectrum, in which the second amplitude is at the opposite wavevector.
    Specification or proof only; nothing in the code. *)
Definition linear_theory (X Y : contrib) (l : nat) : R :=
  i_power (l + order X + 3 * order Y)
  * moment (fun v => amplitude First X v * amplitude Second Y v) l
  * radial (order X + order Y) l.

End Spec.

(** Contributions with a flat-sky form.  Specification or proof only; nothing in the code. *)
Definition plain (X : contrib) : bool := match X with den | rsd | d1 => true | _ => false end.

Record flat_local (E : env) : Prop := {
  fl_flat : sw E flatsky_local = true;
  fl_none : no_derivatives E;
  fl_plain : forall X, con E X = true -> plain X = true }.

(** ** What the code computes *)

Section Code.
Variable E : env.
Variables z s : R.
#[local] Notation T := (flat_table E z s).
#[local] Notation B1 := (bias E First z). #[local] Notation B2 := (bias E Second z).
#[local] Notation F := (rate E z). #[local] Notation H := (hubble E z).
#[local] Notation D1 := (doppler E First z). #[local] Notation D2 := (doppler E Second z).

(** The Legendre coefficients of a pair.  Specification or proof only; nothing in the code. *)
Definition coefficients (X Y : contrib) : list R :=
  match X, Y with
  | den, den => [B1 * B2 * T 0 0]
  | rsd, rsd => [F ^ 2 / 5 * T 0 0; 0; - 4 / 7 * F ^ 2 * T 0 2; 0; 8 / 35 * F ^ 2 * T 0 4]
  | d1, d1 => [H ^ 2 * F ^ 2 * D1 * D2 / 3 * T 2 0; 0; 2 / 3 * (H ^ 2 * F ^ 2 * D1 * D2) * s ^ 2 * T 2 2]
  | den, rsd => [B1 * F / 3 * T 0 0; 0; - 2 / 3 * B1 * F * T 0 2]
  | rsd, den => [B2 * F / 3 * T 0 0; 0; - 2 / 3 * B2 * F * T 0 2]
  | den, d1 => [0; B1 * F * H * D2 * s * T 1 1]
  | d1, den => [0; - (B2 * F * H * D1 * s * T 1 1)]
  | rsd, d1 => [0; 3 / 5 * F ^ 2 * H * D2 * s * T 1 1; 0; - 2 / 5 * F ^ 2 * H * D2 * s * T 1 3]
  | d1, rsd => [0; - 3 / 5 * F ^ 2 * H * D1 * s * T 1 1; 0; 2 / 5 * F ^ 2 * H * D1 * s * T 1 3]
  | _, _ => []
  end.

Hypothesis FL : flat_local E.

Record flat_state (m : R) (t : store) : Prop := {
  t_sep : t sep = s; t_mu : t mu = m; t_z : t z_mean = z;
  t_f : t fmean = F; t_h : t curlyH_mean = H; t_b1 : t bz_mean1 = B1; t_b2 : t bz_mean2 = B2;
  t_g1 : t Gz_mean1 = D1; t_g2 : t Gz_mean2 = D2 }.

Lemma flat_state_ok : forall m, flat_state m (ni_s0 E z m s).
Proof.
  intros m. unfold ni_s0. set (t := dens E (args z m s) ni_prelude).
  assert (t sep = s) as K1 by (unfold t; rewrite dens_keeps by reflexivity; reflexivity).
  assert (t mu = m) as K2 by (unfold t; rewrite dens_keeps by reflexivity; reflexivity).
  assert (t z_mean = z) as K3 by (unfold t; rewrite dens_keeps by reflexivity; reflexivity).
  constructor; try assumption;
  match goal with |- t ?v = _ => val t ni_prelude v end; rewrite ?K3 in *; assumption.
Qed.

Lemma flat_pair : forall m X Y, plain X = true -> plain Y = true -> lookup X Y ni_blocks <> [] ->
  incr E (ni_s0 E z m s) (lookup X Y ni_blocks) * ni_factor E (ni_s0 E z m s)
  = if contrib_beq X Y then series (coefficients X X) m
    else series (coefficients X Y) m + series (coefficients Y X) m.
Proof.
  intros m X Y HX HY HL. pose proof (flat_state_ok m) as st.
  generalize dependent (ni_s0 E z m s). intros t st.
  destruct (fl_none _ FL) as (N1 & N2 & N3 & N4).
  assert (NF : ni_factor E t = if sw E pk_nonlinear && sw E midpoint then 1 else growth E z ^ 2).
  { unfold ni_factor. rewrite (fl_flat _ FL), N1, N2, N3, N4, (t_z _ _ st). reflexivity. }
  rewrite NF.
  destruct X; try discriminate HX; destruct Y; try discriminate HY;
  try (elim HL; reflexivity); clear HX HY HL;
  match goal with |- context [lookup ?X ?Y ?l] =>
    let v := eval cbv [lookup find ni_blocks contrib_beq fst snd andb] in (lookup X Y l) in
    change (lookup X Y l) with v end;
  match goal with |- context [body ?l] => unfold l end; cbn [body incr];
  repeat (rewrite incr1_If; cbn [holds];
          rewrite ?(fl_flat _ FL), ?N1, ?N2, ?N3, ?N4; cbn [andb orb negb]; cbn [incr]);
  cbn [contrib_beq coefficients]; unfold flat_table; destruct (sw E pk_nonlinear && sw E midpoint); cbn [incr incr1 eval contrib_beq coefficients];
  rewrite ?incr1_If; cbn [holds]; rewrite ?N1, ?N2, ?N3, ?N4; cbn [orb]; cbn [incr]; rewrite ?incr1_If;
  cbn [holds]; rewrite ?N1, ?N2, ?N3, ?N4; cbn [orb]; cbn [incr incr1 eval];
  rewrite ?(t_sep _ _ st), ?(t_mu _ _ st), ?(t_z _ _ st), ?(t_f _ _ st), ?(t_h _ _ st), ?(t_b1 _ _ st),
    ?(t_b2 _ _ st), ?(t_g1 _ _ st), ?(t_g2 _ _ st).
  all: unfold series; cbn [series_from Z.of_nat Pos.of_succ_nat Pos.succ coefficients].
  all: rewrite ?legendre_opp, ?legendre_0; field.
Qed.

Lemma flat_value : forall m, (forall k, present E k = true) ->
  value (nonintegrated E z m s) = sum_over (enabled_pairs (con E) (sw E only_cross) 0)
    (fun p => series (coefficients (fst p) (snd p)) m).
Proof.
  intros m P. rewrite <- (with_set_same E) at 1. rewrite ni_value by exact P.
  rewrite sum_scal_r, <- (ni_sum (con E) (sw E only_cross) (fun X Y => series (coefficients X Y) m)).
  apply sum_ext_in. intros [[p q] l] HI.
  apply folded_picked. intros G. apply guard_both' in G. destruct G as [G1 G2].
  pose proof (flat_pair m p q (fl_plain _ FL _ G1) (fl_plain _ FL _ G2)) as W.
  assert (L : lookup p q ni_blocks = body l /\ body l <> []).
  { clear -HI. cbn [In ni_blocks] in HI.
    repeat (destruct HI as [HI|HI]; [injection HI as <- <- <-|]); try contradiction;
    split; try reflexivity; discriminate. }
  destruct L as (L & L0). rewrite L in W. apply W. exact L0.
Qed.

(** The sum over pairs is again a Legendre sum.  Specification or proof only; nothing in the code. *)
Fixpoint add (c d : list R) : list R :=
  match c, d with [], _ => d | _, [] => c | a :: c, b :: d => a + b :: add c d end.
Lemma add_series : forall c d j m, series_from j (add c d) m = series_from j c m + series_from j d m.
Proof.
  induction c as [|a c IH]; intros [|b d] j m; cbn [add series_from]; try ring. rewrite IH. ring.
Qed.
Lemma add_nth : forall c d l, nth l (add c d) 0 = nth l c 0 + nth l d 0.
Proof.
  induction c as [|a c IH]; intros [|b d] [|l]; cbn [add nth]; try ring. apply IH.
Qed.

Definition flat_series : list R :=
  fold_right (fun p => add (coefficients (fst p) (snd p))) [] (enabled_pairs (con E) (sw E only_cross) 0).

Lemma flat_series_sum : forall l m,
  sum_over l (fun p => series (coefficients (fst p) (snd p)) m)
  = series (fold_right (fun p => add (coefficients (fst p) (snd p))) [] l) m.
Proof.
  unfold sum_over, series. induction l as [|p l IH]; intros m; cbn [map fold_right]; [reflexivity|].
  rewrite IH, add_series. reflexivity.
Qed.
Lemma flat_series_nth : forall l n,
  nth n (fold_right (fun p => add (coefficients (fst p) (snd p))) [] l) 0
  = sum_over l (fun p => nth n (coefficients (fst p) (snd p)) 0).
Proof.
  unfold sum_over. induction l as [|p l IH]; intros n; cbn [map fold_right]; [destruct n; reflexivity|].
  rewrite add_nth, IH. reflexivity.
Qed.

(** The flat-sky local configurations have no integrals along the line of sight. *)
Lemma flat_no_single : single_on E = false.
Proof.
  unfold single_on.
  assert (N : forall X, plain X = false -> con E X = false).
  { intros X HX. destruct (con E X) eqn:C; [|reflexivity]. rewrite (fl_plain _ FL X C) in HX. discriminate. }
  rewrite !(N len), !(N g4), !(N g5) by reflexivity. rewrite ?andb_false_r. reflexivity.
Qed.
Lemma flat_no_double : integrated_on E = false.
Proof.
  unfold integrated_on.
  assert (N : forall X, plain X = false -> con E X = false).
  { intros X HX. destruct (con E X) eqn:C; [|reflexivity]. rewrite (fl_plain _ FL X C) in HX. discriminate. }
  rewrite !(N len), !(N g4), !(N g5) by reflexivity. reflexivity.
Qed.

(** ** The code computes linear theory, except for the quadrupole of the Doppler term *)
Lemma coefficients_linear : forall X Y l, plain X = true -> plain Y = true ->
  (X = d1 -> Y = d1 -> l <> 2%nat) ->
  nth l (coefficients X Y) 0 = linear_theory E z s X Y l.
Proof.
  assert (P0 : forall k m, k = series [k] m)
    by (intros; unfold series; cbn [series_from]; rewrite legendre_0; ring).
  assert (P1 : forall k m, k * m = series [0; k] m)
    by (intros; unfold series; cbn [series_from]; rewrite legendre_1; ring).
  assert (P2 : forall k m, k * m ^ 2 = series [k / 3; 0; 2 / 3 * k] m)
    by (intros; unfold series; cbn [series_from]; rewrite legendre_0, legendre_2; field).
  assert (P3 : forall k m, k * m ^ 3 = series [0; 3 / 5 * k; 0; 2 / 5 * k] m)
    by (intros; unfold series; cbn [series_from]; rewrite legendre_1, legendre_3; field).
  assert (P4 : forall k m, k * m ^ 4 = series [k / 5; 0; 4 / 7 * k; 0; 8 / 35 * k] m)
    by (intros; unfold series; cbn [series_from]; rewrite legendre_0, legendre_2, legendre_4; field).
  intros X Y l HX HY HL. unfold linear_theory, radial.
  destruct X; try discriminate HX; destruct Y; try discriminate HY; cbn [order amplitude Nat.add Nat.mul coefficients].
  Local Ltac close P k :=
    match goal with |- context [moment ?f ?l] =>
      let X := fresh in
      eassert (moment f l = _) as X by (apply moment_series; intros; etransitivity; [|apply (P k)]; ring);
      rewrite X; clear X end;
    match goal with l : nat |- _ =>
      destruct l as [|[|[|[|[|l]]]]]; cbn [nth Nat.min Nat.add]; try (destruct l; ring); unfold i_power; cbn [Nat.modulo Nat.divmod snd Nat.sub fst Nat.add];
      try (field) end.
  - close P0 (B1 * B2).
  - close P2 (B1 * F).
  - close P1 (B1 * H * F * D2).
  - close P2 (B2 * F).
  - close P4 (F ^ 2).
  - close P3 (F ^ 2 * H * D2).
  - close P1 (B2 * H * F * D1).
  - close P3 (F ^ 2 * H * D1).
  - specialize (HL eq_refl eq_refl). close P2 (H ^ 2 * F ^ 2 * D1 * D2). elim HL; reflexivity.
Qed.
End Code.

(** ** In the configurations the program can be in *)
Section Built.
Variable E : env.
Variable ells : list Z.
Hypothesis B : built E ells.
Hypothesis FL : flat_local E.
Variables z s : R.
#[local] Opaque nonintegrated single_integrated double_integrated.

Lemma built_flat : forall m,
  value (nonintegrated E z m s) = series (flat_series E z s) m.
Proof.
  intros m. rewrite (ni_complete E ells B). unfold flat_series.
  rewrite <- (flat_series_sum E z s).
  apply (flat_value (complete E) z s); [|reflexivity].
  destruct FL. constructor; assumption.
Qed.
Lemma built_no_single : forall m x, value (single_integrated E z m s x) = 0.
Proof.
  intros m x. rewrite (si_complete E ells B), <- (with_set_same (complete E)).
  apply (si_off (complete E)); [reflexivity|]. rewrite (with_set_same (complete E)). exact (flat_no_single E FL).
Qed.
Lemma built_no_double : forall m x y, value (double_integrated E z m s x y) = 0.
Proof.
  intros m x y. rewrite (di_complete E ells B), <- (with_set_same (complete E)).
  apply (di_off (complete E)); [reflexivity|]. rewrite (with_set_same (complete E)). exact (flat_no_double E FL).
Qed.
Lemma built_no_local : local_on E = false -> forall m, value (nonintegrated E z m s) = 0.
Proof.
  intros L m. rewrite (ni_complete E ells B), <- (with_set_same (complete E)).
  apply (ni_off (complete E)); [reflexivity|]. rewrite (with_set_same (complete E)). exact L.
Qed.

Lemma flat_xi : forall m, xi E z s m = series (flat_series E z s) m.
Proof.
  intros m. rewrite xi_parts. unfold local_part, single_part, double_part.
  rewrite (flat_no_single E FL), (flat_no_double E FL).
  destruct (local_on E) eqn:L.
  - rewrite built_flat. ring.
  - rewrite <- built_flat, built_no_local by exact L. ring.
Qed.

Lemma zero_integrable : forall (f : R -> R) a b, (forall x, f x = 0) -> ex_RInt f a b /\ RInt f a b = 0.
Proof.
  intros f a b Z0. split.
  - apply (ex_RInt_ext (fun _ => 0)); [intros; symmetry; apply Z0|apply ex_RInt_const].
  - rewrite (RInt_ext f (fun _ => 0)) by (intros; apply Z0). apply zero_integral.
Qed.

Lemma flat_integrable : forall l, integrable E z s l.
Proof.
  intros l. constructor.
  - apply (ex_RInt_ext (fun m => legendre l m * series (flat_series E z s) m)).
    + intros m _. rewrite built_flat. reflexivity.
    + apply series_ex.
  - intros m _. apply zero_integrable. intros x. apply built_no_single.
  - apply zero_integrable. intros m. rewrite (proj2 (zero_integrable _ 0 1 (built_no_single m))). apply Rmult_0_r.
  - intros m x _ _. apply zero_integrable. intros y. apply built_no_double.
  - intros m _. apply zero_integrable. intros x. apply zero_integrable. intros y. apply built_no_double.
  - apply zero_integrable. intros m.
    rewrite (proj2 (zero_integrable _ 0 1 (fun x => proj2 (zero_integrable _ 0 1 (built_no_double m x))))).
    apply Rmult_0_r.
Qed.

Lemma flat_multipole : forall l, multipole E z s l = nth l (flat_series E z s) 0.
Proof.
  intros l. unfold multipole, signal. rewrite (run_local E z s l).
  unfold coffe_integrate. cbn [p_z p_sep p_l]. rewrite (flat_no_single E FL), (flat_no_double E FL). cbn [negb run].
  rewrite (projected_half l _ (local_ex E z s l (flat_integrable l))).
  rewrite !Rplus_0_r, <- (moment_series (local_part E z s) (flat_series E z s) l).
  - unfold moment, projection.
    match goal with |- ?a = ?b => change (@eq R a b) end. field.
  - intros m _. rewrite <- flat_xi, xi_parts. unfold single_part, double_part.
    rewrite (flat_no_single E FL), (flat_no_double E FL). ring.
Qed.

Lemma flat_pairs_plain : forall p, In p (enabled_pairs (con E) (sw E only_cross) 0) ->
  plain (fst p) = true /\ plain (snd p) = true /\
  (fst p = d1 -> snd p = d1 -> con E d1 = true /\ sw E only_cross = false).
Proof.
  intros [X Y] H. apply filter_In in H. destruct H as [_ H]. cbn [fst snd] in *.
  rewrite !andb_true_iff in H. destruct H as [_ [[H1 H2] H3]].
  repeat split; try (apply (fl_plain _ FL); assumption).
  - subst. exact H1.
  - intros. subst. cbn [contrib_beq] in H3. rewrite andb_true_r in H3. apply negb_true_iff. exact H3.
Qed.

(** The multipoles of the code are those of linear theory. *)
Lemma flat_linear : forall l,
  (l = 2%nat -> con E d1 = true -> sw E only_cross = true) ->
  multipole E z s l = sum_over (enabled_pairs (con E) (sw E only_cross) 0)
    (fun p => linear_theory E z s (fst p) (snd p) l).
Proof.
  intros l HL. rewrite flat_multipole. unfold flat_series. rewrite flat_series_nth.
  apply sum_ext_in. intros [X Y] HI. destruct (flat_pairs_plain _ HI) as (P1 & P2 & P3). cbn [fst snd] in *.
  apply coefficients_linear; [exact P1|exact P2|].
  intros -> -> ->. destruct (P3 eq_refl eq_refl) as [C1 C2]. rewrite (HL eq_refl C1) in C2. discriminate.
Qed.
End Built.
