(** * The integrated terms where the two lines of sight meet

    Continuity of the code of functions.c:89-4016 in the cosine and in the position along the
    line of sight.  Everything in this file is specification or proof. *)
From Coq Require Import Reals Lra Lia List ZArith Bool.
From Coquelicot Require Import Coquelicot.
From Coq Require Import List.
Import ListNotations.
From Verif Require Import Integrals CExpr Terms Signal TermsMeta TermsSum Additive SignalSum
  ExchangeSignal Weights Evolved.
Open Scope R_scope.

(** ** Limits along a filter *)
Section Tends.
Context {I : Type} (F : (I -> Prop) -> Prop) {FF : Filter F}.

(** Specification or proof only; nothing in the code. *)
Definition tends (f : I -> R) (l : R) : Prop :=
  forall e, 0 < e -> F (fun i => Rabs (f i - l) < e).

Lemma tends_filterlim : forall f l, tends f l <-> filterlim f F (locally l).
Proof.
  intros f l. split.
  - intros H. apply filterlim_locally. intros e. apply (H e (cond_pos e)).
  - intros H e He. apply (proj1 (filterlim_locally f l) H (mkposreal e He)).
Qed.

Lemma tends_ext_loc : forall f g l, F (fun i => f i = g i) -> tends g l -> tends f l.
Proof.
  intros f g l H T e He. specialize (T e He).
  generalize (filter_and _ _ H T). apply filter_imp. intros i [-> Hi]. exact Hi.
Qed.

Lemma tends_const : forall l, tends (fun _ => l) l.
Proof.
  intros l e He. apply (filter_imp (fun _ => True)).
  - intros _ _. unfold Rminus. rewrite Rplus_opp_r, Rabs_R0. exact He.
  - apply filter_true.
Qed.

Lemma tends_comp : forall f l (h : R -> R), tends f l -> continuous h l ->
  tends (fun i => h (f i)) (h l).
Proof.
  intros f l h T C. apply tends_filterlim.
  apply (filterlim_comp _ _ _ f h F (locally l) (locally (h l))).
  - apply tends_filterlim. exact T.
  - exact C.
Qed.

Lemma tends_comp2 : forall f l g k (h : R -> R -> R), tends f l -> tends g k ->
  filterlim (fun p => h (fst p) (snd p)) (filter_prod (locally l) (locally k)) (locally (h l k)) ->
  tends (fun i => h (f i) (g i)) (h l k).
Proof.
  intros f l g k h T1 T2 C. apply tends_filterlim.
  apply (filterlim_comp_2 (G := locally l) (H := locally k) (I := locally (h l k))).
  - apply tends_filterlim. exact T1.
  - apply tends_filterlim. exact T2.
  - exact C.
Qed.

Lemma tends_plus : forall f l g k, tends f l -> tends g k -> tends (fun i => f i + g i) (l + k).
Proof.
  intros f l g k T1 T2. apply tends_comp2; [exact T1|exact T2|].
  exact (filterlim_plus (V := R_NormedModule) l k).
Qed.
Lemma tends_opp : forall f l, tends f l -> tends (fun i => - f i) (- l).
Proof.
  intros f l T. apply (tends_comp f l Ropp T). exact (filterlim_opp (V := R_NormedModule) l).
Qed.
Lemma tends_minus : forall f l g k, tends f l -> tends g k -> tends (fun i => f i - g i) (l - k).
Proof. intros. apply tends_plus; [assumption|]. apply tends_opp. assumption. Qed.
Lemma tends_mult : forall f l g k, tends f l -> tends g k -> tends (fun i => f i * g i) (l * k).
Proof.
  intros f l g k T1 T2. apply tends_comp2; [exact T1|exact T2|].
  exact (filterlim_mult (K := R_AbsRing) l k).
Qed.
Lemma tends_pow : forall f l n, tends f l -> tends (fun i => f i ^ n) (l ^ n).
Proof.
  intros f l n T. induction n; simpl; [apply tends_const|]. apply tends_mult; assumption.
Qed.
Lemma tends_over : forall f l g k, tends f l -> tends g k -> k <> 0 ->
  tends (fun i => f i / g i) (l / k).
Proof.
  intros f l g k T1 T2 H. apply tends_mult; [exact T1|].
  apply (tends_comp g k Rinv T2). apply continuous_Rinv. exact H.
Qed.
Lemma tends_sqrt : forall f l, tends f l -> tends (fun i => sqrt (f i)) (sqrt l).
Proof. intros f l T. apply (tends_comp f l sqrt T). apply continuous_sqrt. Qed.
Lemma tends_Rabs : forall f l, tends f l -> tends (fun i => Rabs (f i)) (Rabs l).
Proof. intros f l T. apply (tends_comp f l Rabs T). apply continuous_Rabs. Qed.

Lemma tends_above : forall f l c, tends f l -> c < l -> F (fun i => c < f i).
Proof.
  intros f l c T H. generalize (T (l - c) ltac:(lra)). apply filter_imp.
  intros i Hi. apply Rabs_def2 in Hi. lra.
Qed.
Lemma tends_below : forall f l c, tends f l -> l < c -> F (fun i => f i < c).
Proof.
  intros f l c T H. generalize (T (c - l) ltac:(lra)). apply filter_imp.
  intros i Hi. apply Rabs_def2 in Hi. lra.
Qed.

(** A quotient whose numerator has a factor that vanishes and another of the order of the
    denominator. *)
Lemma tends_quotient : forall p p0 t t0 r r0 M,
  tends p p0 -> tends t t0 -> tends r r0 ->
  (r0 = 0 -> t0 = 0) ->
  F (fun i => 0 <= r i /\ Rabs (p i) <= M * r i /\ (r i = 0 -> t i = 0)) ->
  tends (fun i => p i * t i / r i) (p0 * t0 / r0).
Proof.
  intros p p0 t t0 r r0 M Tp Tt Tr Z B.
  destruct (Req_dec r0 0) as [E|E].
  2:{ apply tends_over; [apply tends_mult|..]; assumption. }
  rewrite (Z E) in *. replace (p0 * 0 / r0) with 0 by (unfold Rdiv; ring).
  intros e He.
  assert (MP : 0 < Rmax M 1) by (apply Rlt_le_trans with 1; [lra|apply Rmax_r]).
  generalize (filter_and _ _ B (Tt (e / Rmax M 1) ltac:(apply Rdiv_lt_0_compat; lra))).
  apply filter_imp. intros i [[Pi [Bi Zi]] Ti]. rewrite Rminus_0_r in *.
  destruct (Req_dec (r i) 0) as [R0|R0].
  - rewrite (Zi R0). replace (p i * 0 / r i) with 0 by (unfold Rdiv; ring). rewrite Rabs_R0. exact He.
  - assert (RP : 0 < Rabs (r i)) by (apply Rabs_pos_lt; exact R0).
    unfold Rdiv. rewrite !Rabs_mult, Rabs_inv.
    assert (Q : Rabs (p i) * / Rabs (r i) <= Rmax M 1).
    { apply Rmult_le_reg_r with (Rabs (r i)); [exact RP|].
      rewrite Rmult_assoc, Rinv_l by lra. rewrite Rmult_1_r.
      apply Rle_trans with (1 := Bi). apply Rle_trans with (Rmax M 1 * r i).
      - apply Rmult_le_compat_r; [assumption|apply Rmax_l].
      - apply Rmult_le_compat_l; [lra|apply Rle_abs]. }
    apply Rle_lt_trans with (Rmax M 1 * Rabs (t i)).
    + replace (Rabs (p i) * Rabs (t i) * / Rabs (r i)) with (Rabs (p i) * / Rabs (r i) * Rabs (t i)) by ring.
      apply Rmult_le_compat_r; [apply Rabs_pos|exact Q].
    + apply Rmult_lt_reg_r with (/ Rmax M 1); [apply Rinv_0_lt_compat; lra|].
      replace (Rmax M 1 * Rabs (t i) * / Rmax M 1) with (Rabs (t i)) by (field; lra). exact Ti.
Qed.
End Tends.

(** ** Smooth inputs *)

(** Linear theory on the full sky, with all integrals there; every function of the redshift or
    of the distance is continuous, the scale factor does not vanish; the tables are continuous,
    and those of order smaller than their degree vanish at separation zero.  The divergent table
    may diverge there, but what is left of it once the two points are renormalized is
    continuous.  Specification or proof only; nothing in the code. *)
Record smooth (E : env) : Prop := {
  sm_present : forall k, present E k = true;
  sm_linear : sw E pk_nonlinear = false;
  sm_full : sw E flatsky_local_nonlocal = false;
  sm_splines : forall f x, continuous (spl E f) x;
  sm_a : forall z, spl E bg_a z <> 0;
  sm_tables : forall k r, 0 <= r -> (k = K 4 0 false -> 0 < r) -> forall e, 0 < e ->
    exists d, 0 < d /\ forall q, 0 <= q -> Rabs (q - r) < d ->
      Rabs (tab1 E k result q - tab1 E k result r) < e;
  sm_vanish : forall n l, (n < l)%Z -> tab1 E (K n l false) result 0 = 0;
  sm_renorm : sw E divergent = true -> forall p q, 0 < p -> 0 < q ->
    filterlim (fun u => tab2 E (K 4 0 false) renormalization (fst u) (snd u))
      (filter_prod (locally p) (locally q))
      (locally (tab2 E (K 4 0 false) renormalization p q));
  sm_meet : sw E divergent = true -> forall p, 0 < p -> forall e, 0 < e ->
    exists d, 0 < d /\
      (forall q, Rabs (q - p) < d ->
        Rabs (tab1 E (K 4 0 false) renormalization_zero_separation q
              - tab1 E (K 4 0 false) renormalization_zero_separation p) < e) /\
      (forall q q' r, Rabs (q - p) < d -> Rabs (q' - p) < d -> 0 < r < d ->
        Rabs (tab1 E (K 4 0 false) result r - tab2 E (K 4 0 false) renormalization q q'
              - tab1 E (K 4 0 false) renormalization_zero_separation p) < e) }.

(** ** Expressions *)
Section Expr.
Context {I : Type} (F : (I -> Prop) -> Prop) {FF : Filter F}.
Variables (E : env) (st : I -> store) (s0 : store).
Hypothesis SM : smooth E.

(** Specification or proof only; nothing in the code. *)
Definition LIM (e : expr) : Prop := tends F (fun i => eval E (st i) e) (eval E s0 e).

Lemma L_num : forall n, LIM (Num n). Proof. intros. exact (tends_const F (eval E s0 (Num n))). Qed.
Lemma L_dec : forall n d, LIM (Dec n d). Proof. intros. exact (tends_const F (eval E s0 (Dec n d))). Qed.
Lemma L_h : LIM Par_h. Proof. exact (tends_const F (eval E s0 Par_h)). Qed.
Lemma L_cdm : LIM Omega0_cdm. Proof. exact (tends_const F (eval E s0 Omega0_cdm)). Qed.
Lemma L_baryon : LIM Omega0_baryon. Proof. exact (tends_const F (eval E s0 Omega0_baryon)). Qed.
Lemma L_H0 : LIM H0. Proof. exact (tends_const F (eval E s0 H0)). Qed.
Lemma L_pi : LIM Pi. Proof. exact (tends_const F (eval E s0 Pi)). Qed.
Lemma L_plus : forall a b, LIM a -> LIM b -> LIM (Plus a b).
Proof. intros. apply (tends_plus F); assumption. Qed.
Lemma L_minus : forall a b, LIM a -> LIM b -> LIM (Minus a b).
Proof. intros. apply (tends_minus F); assumption. Qed.
Lemma L_times : forall a b, LIM a -> LIM b -> LIM (Times a b).
Proof. intros. apply (tends_mult F); assumption. Qed.
Lemma L_over : forall a b, LIM a -> LIM b -> eval E s0 b <> 0 -> LIM (Over a b).
Proof. intros. apply (tends_over F); assumption. Qed.
Lemma L_neg : forall a, LIM a -> LIM (Neg a).
Proof. intros. apply (tends_opp F); assumption. Qed.
Lemma L_pow : forall a n, LIM a -> LIM (Pow a n).
Proof. intros. apply (tends_pow F); assumption. Qed.
Lemma L_fabs : forall a, LIM a -> LIM (Fabs a).
Proof. intros. apply (tends_Rabs F); assumption. Qed.
Lemma L_spl : forall f a, LIM a -> LIM (Spl f a).
Proof.
  intros f a H. apply (tends_comp F (fun i => eval E (st i) a) (eval E s0 a) (spl E f) H).
  apply (sm_splines _ SM).
Qed.
Lemma L_tab : forall k a, LIM a -> (k = K 4 0 false -> 0 < eval E s0 a) ->
  LIM (Tab1 k result (Sqrt a)).
Proof.
  intros k a H P e He.
  destruct (sm_tables _ SM k (sqrt (eval E s0 a)) (sqrt_pos _)) with (e := e) as (d & Hd & D).
  - intros Q. apply sqrt_lt_R0. apply P. exact Q.
  - exact He.
  - generalize (tends_sqrt F _ _ H d Hd). apply filter_imp. intros i Hi.
    apply D; [apply sqrt_pos|exact Hi].
Qed.
Lemma L_quot : forall p k r M, LIM p -> LIM (V r) ->
  (k = K 4 0 false -> 0 < s0 r) -> (s0 r = 0 -> tab1 E k result 0 = 0) ->
  F (fun i => 0 <= st i r /\ Rabs (eval E (st i) p) <= M * st i r
              /\ (st i r = 0 -> tab1 E k result 0 = 0)) ->
  LIM (Over (Times p (Tab1 k result (Sqrt (V r)))) (V r)).
Proof.
  intros p k r M Hp Hr HK HZ HF.
  apply (tends_quotient F) with (M := M).
  - exact Hp.
  - apply (L_tab k (V r)); assumption.
  - exact Hr.
  - cbn [eval]. intros Q. rewrite Q, sqrt_0. auto.
  - generalize HF. apply filter_imp. intros i (A & B & C). repeat split; try assumption.
    cbn [eval]. intros Q. rewrite Q, sqrt_0. auto.
Qed.
End Expr.

(** ** The code away from coinciding points *)
(** Specification or proof only; nothing in the code. *)
Fixpoint apart (c : cond) : cond :=
  match c with
  | Eq _ _ => Not Finite
  | Not c => Not (apart c)
  | And c d => And (apart c) (apart d)
  | Or c d => Or (apart c) (apart d)
  | c => c
  end.
Fixpoint apart1 (c : stmt) : stmt :=
  match c with
  | If c p q => If (apart c) (map apart1 p) (map apart1 q)
  | c => c
  end.

(** ** Geometry *)
Lemma square_distance : forall a l c, 0 < a -> 0 < l -> c <= 1 ->
  0 <= l * l + a * a - 2 * a * l * c.
Proof.
  intros. assert (0 <= a * l * (1 - c)) by (apply Rmult_le_pos; [nra|lra]).
  pose proof (Rle_0_sqr (a - l)) as Q. unfold Rsqr in Q. nra.
Qed.

Lemma meet : forall a l c, 0 < a -> 0 < l -> c <= 1 ->
  l * l + a * a - 2 * a * l * c = 0 -> l = a /\ c = 1.
Proof.
  intros a l c A L C H.
  assert (P : 0 <= a * l * (1 - c)) by (apply Rmult_le_pos; [nra|lra]).
  pose proof (Rle_0_sqr (a - l)) as Q. unfold Rsqr in Q.
  assert (Q0 : (a - l) * (a - l) = 0) by nra.
  assert (a - l = 0) by (apply Rsqr_0_uniq; exact Q0).
  split; [lra|].
  assert (P0 : a * l * (1 - c) = 0) by nra.
  apply Rmult_integral in P0. destruct P0; [nra|lra].
Qed.

(** The code's cosine. *)
Lemma cosine_bounds : forall chi s m, 0 < s < 2 * chi -> -1 <= m <= 1 ->
  let c := (2 * chi * chi - s * s + m * m * s * s / 2) / (2 * chi * chi - m * m * s * s / 2) in
  -1 <= c <= 1 /\ (c = 1 -> m * m = 1).
Proof.
  intros chi s m S M c.
  assert (MM : 0 <= m * m <= 1) by nra.
  assert (SS : 0 < s * s < 4 * (chi * chi)) by nra.
  assert (MS : 0 <= m * m * (s * s) <= s * s) by nra.
  assert (D : 0 < 2 * chi * chi - m * m * s * s / 2) by nra.
  assert (Q : c * (2 * chi * chi - m * m * s * s / 2) = 2 * chi * chi - s * s + m * m * s * s / 2)
    by (unfold c; field; lra).
  clearbody c. split; [split|].
  - nra.
  - nra.
  - intros ->. nra.
Qed.

(** ** One line of sight *)
Section Single.
Variable E : env.
Hypothesis SM : smooth E.
Variables z s m0 x0 : R.
Hypothesis Hs : 0 < s < 2 * spl E bg_comoving_distance z.
Hypothesis Hm0 : -1 <= m0 <= 1.
Hypothesis Hx0 : 0 < x0 < 1.

(** Specification or proof only; nothing in the code. *)
Definition around (P : R * R -> Prop) : Prop :=
  exists d, 0 < d /\ forall m x, -1 <= m <= 1 -> Rabs (m - m0) < d -> Rabs (x - x0) < d -> P (m, x).

#[local] Instance around_filter : Filter around.
Proof.
  constructor.
  - exists 1. split; [lra|]. trivial.
  - intros P Q (d & Hd & D) (e & He & D'). exists (Rmin d e).
    pose proof (Rmin_l d e). pose proof (Rmin_r d e).
    split; [apply Rmin_glb_lt; assumption|]. intros. split; [apply D|apply D']; lra.
  - intros P Q H (d & Hd & D). exists d. split; [exact Hd|]. auto.
Qed.

Let st (i : R * R) : store := si_s0 E z (fst i) s (snd i).
Let s0 : store := si_s0 E z m0 s x0.
Let chi := spl E bg_comoving_distance z.

Lemma keeps_var : forall v, keepsv v si_prelude = true -> forall i,
  st i v = upd (args z (fst i) s) x_ (snd i) v.
Proof. intros v H i. unfold st, si_s0. apply dens_keeps. exact H. Qed.

(** The local variables as functions of the cosine and the position. *)
Record geometry (t : store) (m x : R) : Prop := {
  ge_mu : t mu = m; ge_x : t x_ = x;
  ge_chi1 : t chi1 = chi - s * m / 2; ge_chi2 : t chi2 = chi + s * m / 2;
  ge_l1 : t lambda1 = t chi1 * x; ge_l2 : t lambda2 = t chi2 * x;
  ge_c : t costheta
    = (2 * chi * chi - s * s + m * m * s * s / 2) / (2 * chi * chi - m * m * s * s / 2);
  ge_r21 : t r21 = kept (t lambda2 * t lambda2 + t chi1 * t chi1 - 2 * t chi1 * t lambda2 * t costheta);
  ge_r22 : t r22 = kept (t lambda1 * t lambda1 + t chi2 * t chi2 - 2 * t chi2 * t lambda1 * t costheta) }.

Lemma geometry_ok : forall m x, geometry (si_s0 E z m s x) m x.
Proof.
  intros m x. unfold si_s0.
  pose proof (si_r2 E z m s x) as R2. cbv zeta in R2. fold chi in R2. destruct R2 as [R21 R22].
  set (t := dens E (upd (args z m s) x_ x) si_prelude) in *.
  assert (t sep = s) as K1 by (unfold t; rewrite dens_keeps by reflexivity; reflexivity).
  assert (t mu = m) as K2 by (unfold t; rewrite dens_keeps by reflexivity; reflexivity).
  assert (t z_mean = z) as K3 by (unfold t; rewrite dens_keeps by reflexivity; reflexivity).
  assert (t x_ = x) as K4 by (unfold t; rewrite dens_keeps by reflexivity; reflexivity).
  val t si_prelude chi_mean. rewrite K3 in V. fold chi in V.
  val t si_prelude chi1. rewrite V, K1, K2 in V0.
  val t si_prelude chi2. rewrite V, K1, K2 in V1.
  val t si_prelude costheta. rewrite V, K1, K2 in V2.
  val t si_prelude lambda1. rewrite K4 in V3.
  val t si_prelude lambda2. rewrite K4 in V4.
  constructor; try assumption.
  - rewrite R21, V4, V0, V1, V2. reflexivity.
  - rewrite R22, V3, V0, V1, V2. reflexivity.
Qed.

(** What is known of the local variables when the cosine is one of an angle. *)
Record placed (t : store) (m x : R) : Prop := {
  pl_geo : geometry t m x;
  pl_chi1 : 0 < t chi1 <= 2 * chi; pl_chi2 : 0 < t chi2 <= 2 * chi;
  pl_l1 : 0 < t lambda1 <= 2 * chi; pl_l2 : 0 < t lambda2 <= 2 * chi;
  pl_c : -1 <= t costheta <= 1;
  pl_r21 : t r21 = t lambda2 * t lambda2 + t chi1 * t chi1 - 2 * t chi1 * t lambda2 * t costheta;
  pl_r22 : t r22 = t lambda1 * t lambda1 + t chi2 * t chi2 - 2 * t chi2 * t lambda1 * t costheta;
  pl_pos1 : 0 <= t r21; pl_pos2 : 0 <= t r22;
  pl_meet1 : t r21 = 0 -> t lambda2 = t chi1 /\ t costheta = 1 /\ m * m = 1;
  pl_meet2 : t r22 = 0 -> t lambda1 = t chi2 /\ t costheta = 1 /\ m * m = 1 }.

Lemma kept_nonneg : forall r, 0 <= r -> kept r = r.
Proof. intros r H. unfold kept, Rltb. destruct (Rlt_dec r 0); [lra|reflexivity]. Qed.

Lemma placed_ok : forall m x, -1 <= m <= 1 -> 0 < x < 1 -> placed (si_s0 E z m s x) m x.
Proof.
  intros m x Hm Hx. pose proof (geometry_ok m x) as G. set (t := si_s0 E z m s x) in *. clearbody t.
  fold chi in Hs.
  destruct (cosine_bounds chi s m Hs Hm) as [CB C1]. rewrite <- (ge_c _ _ _ G) in CB, C1.
  assert (A1 : 0 < t chi1 <= 2 * chi) by (rewrite (ge_chi1 _ _ _ G); nra).
  assert (A2 : 0 < t chi2 <= 2 * chi) by (rewrite (ge_chi2 _ _ _ G); nra).
  assert (L1 : 0 < t lambda1 <= 2 * chi) by (rewrite (ge_l1 _ _ _ G); nra).
  assert (L2 : 0 < t lambda2 <= 2 * chi) by (rewrite (ge_l2 _ _ _ G); nra).
  pose proof (square_distance (t chi1) (t lambda2) (t costheta) ltac:(lra) ltac:(lra) ltac:(lra)) as P1.
  pose proof (square_distance (t chi2) (t lambda1) (t costheta) ltac:(lra) ltac:(lra) ltac:(lra)) as P2.
  pose proof (ge_r21 _ _ _ G) as R1. rewrite kept_nonneg in R1 by exact P1.
  pose proof (ge_r22 _ _ _ G) as R2. rewrite kept_nonneg in R2 by exact P2.
  constructor; try assumption; try (rewrite R1; exact P1); try (rewrite R2; exact P2).
  - rewrite R1. intros Q. pose proof (meet (t chi1) (t lambda2) (t costheta) ltac:(lra) ltac:(lra) ltac:(lra) Q) as [Q1 Q2]. auto.
  - rewrite R2. intros Q. pose proof (meet (t chi2) (t lambda1) (t costheta) ltac:(lra) ltac:(lra) ltac:(lra) Q) as [Q1 Q2]. auto.
Qed.

Lemma not_both : forall t m x, placed t m x -> 0 < x < 1 -> t r21 = 0 -> t r22 <> 0.
Proof.
  intros t m x P Hx H1 H2.
  destruct (pl_meet1 _ _ _ P H1) as [Q1 _]. destruct (pl_meet2 _ _ _ P H2) as [Q2 _].
  rewrite (ge_l2 _ _ _ (pl_geo _ _ _ P)) in Q1. rewrite (ge_l1 _ _ _ (pl_geo _ _ _ P)) in Q2.
  pose proof (pl_chi1 _ _ _ P). pose proof (pl_chi2 _ _ _ P).
  assert (t chi1 < t chi2) by (rewrite <- Q1; nra).
  assert (t chi2 < t chi1) by (rewrite <- Q2; nra). lra.
Qed.

Lemma around_placed : around (fun i => placed (st i) (fst i) (snd i) /\ 0 < snd i < 1).
Proof.
  exists (Rmin x0 (1 - x0)). split; [apply Rmin_glb_lt; lra|].
  intros m x Hm _ Hx. cbn [fst snd].
  pose proof (Rmin_l x0 (1 - x0)). pose proof (Rmin_r x0 (1 - x0)).
  apply Rabs_def2 in Hx. assert (X : 0 < x < 1) by lra.
  exact (conj (placed_ok m x Hm X) X).
Qed.

Lemma placed0 : placed s0 m0 x0.
Proof. exact (placed_ok m0 x0 Hm0 Hx0). Qed.

(** ** Limits of the local variables *)
Let lim e := LIM around E st s0 e.

Lemma by_assignment : forall k v e,
  nth_error si_prelude k = Some (Set_ v e) -> keepsv v (skipn (S k) si_prelude) = true ->
  clean_e (fun w => negb (keepsv w (skipn k si_prelude))) no_spline e = true ->
  lim e -> lim (V v).
Proof.
  intros k v e N KV C L. unfold lim, LIM. cbn [eval].
  replace (s0 v) with (eval E s0 e) by (symmetry; apply (assigned E si_prelude k); assumption).
  apply (tends_ext_loc around) with (2 := L).
  apply (filter_imp (fun _ => True)); [|apply filter_true].
  intros i _. apply (assigned E si_prelude k); assumption.
Qed.

Lemma lim_kept : forall v, keepsv v si_prelude = true -> v <> mu -> v <> x_ -> lim (V v).
Proof.
  intros v H N1 N2. unfold lim, LIM. cbn [eval].
  apply (tends_ext_loc around) with (g := fun _ => s0 v); [|apply (tends_const around)].
  apply (filter_imp (fun _ => True)); [|apply filter_true].
  intros i _. rewrite keeps_var by exact H. unfold s0, si_s0. rewrite dens_keeps by exact H.
  unfold upd. destruct v; try reflexivity; congruence.
Qed.
Lemma lim_mu : lim (V mu).
Proof.
  intros e He. exists e. split; [exact He|]. intros m x _ H _.
  change (Rabs (si_s0 E z m s x mu - si_s0 E z m0 s x0 mu) < e).
  rewrite (ge_mu _ _ _ (geometry_ok m x)), (ge_mu _ _ _ (geometry_ok m0 x0)). exact H.
Qed.
Lemma lim_x : lim (V x_).
Proof.
  intros e He. exists e. split; [exact He|]. intros m x _ _ H.
  change (Rabs (si_s0 E z m s x x_ - si_s0 E z m0 s x0 x_) < e).
  rewrite (ge_x _ _ _ (geometry_ok m x)), (ge_x _ _ _ (geometry_ok m0 x0)). exact H.
Qed.

Ltac step :=
  match goal with
  | |- LIM _ _ _ _ (Num _) => apply L_num
  | |- LIM _ _ _ _ (Dec _ _) => apply L_dec
  | |- LIM _ _ _ _ Par_h => apply L_h
  | |- LIM _ _ _ _ Omega0_cdm => apply L_cdm
  | |- LIM _ _ _ _ Omega0_baryon => apply L_baryon
  | |- LIM _ _ _ _ H0 => apply L_H0
  | |- LIM _ _ _ _ Pi => apply L_pi
  | |- LIM _ _ _ _ (Plus _ _) => apply L_plus
  | |- LIM _ _ _ _ (Minus _ _) => apply L_minus
  | |- LIM _ _ _ _ (Times _ _) => apply L_times
  | |- LIM _ _ _ _ (Neg _) => apply L_neg
  | |- LIM _ _ _ _ (Pow _ _) => apply L_pow
  | |- LIM _ _ _ _ (Fabs _) => apply L_fabs
  | |- LIM _ _ _ _ (Spl _ _) => apply L_spl
  | |- LIM _ _ _ _ (Over _ (Num _)) =>
      apply L_over; try exact _; [| |cbn [eval]; apply not_0_IZR; discriminate]
  | |- LIM _ _ _ _ (Over _ (Spl bg_a _)) => apply L_over; try exact _; [| |apply sm_a]
  | |- LIM _ _ _ _ (Tab1 _ _ (Sqrt _)) => apply L_tab; try exact _; try exact SM; [|discriminate]
  end; try exact _; try exact SM.

Lemma lim_chi_mean : lim (V chi_mean).
Proof.
  apply (by_assignment 1 _ _ eq_refl eq_refl eq_refl). unfold lim. repeat step.
  apply lim_kept; (reflexivity || discriminate).
Qed.
Lemma lim_sep : lim (V sep).
Proof. apply lim_kept; (reflexivity || discriminate). Qed.
Lemma lim_chi1 : lim (V chi1).
Proof.
  apply (by_assignment 2 _ _ eq_refl eq_refl eq_refl). unfold lim. repeat step.
  - apply lim_chi_mean. - apply lim_sep. - apply lim_mu.
Qed.
Lemma lim_chi2 : lim (V chi2).
Proof.
  apply (by_assignment 3 _ _ eq_refl eq_refl eq_refl). unfold lim. repeat step.
  - apply lim_chi_mean. - apply lim_sep. - apply lim_mu.
Qed.

Lemma lim_c : lim (V costheta).
Proof.
  apply (by_assignment 4 _ _ eq_refl eq_refl eq_refl). unfold lim.
  apply L_over; try exact _; repeat step; try apply lim_chi_mean; try apply lim_sep; try apply lim_mu.
  cbn [eval].
  assert (s0 chi_mean = chi) as ->
    by (unfold s0, si_s0; rewrite (assigned E si_prelude 1 _ _ _ eq_refl eq_refl eq_refl); cbn [eval];
        rewrite dens_keeps by reflexivity; reflexivity).
  assert (s0 mu = m0) as -> by apply (ge_mu _ _ _ (geometry_ok m0 x0)).
  assert (s0 sep = s) as -> by (unfold s0, si_s0; rewrite dens_keeps by reflexivity; reflexivity).
  fold chi in Hs.
  assert (MM : 0 <= m0 * m0 <= 1) by nra.
  assert (SS : 0 < s * s < 4 * (chi * chi)) by nra.
  assert (MS : 0 <= m0 * m0 * (s * s) <= s * s) by nra. nra.
Qed.
Lemma lim_l1 : lim (V lambda1).
Proof.
  apply (by_assignment 5 _ _ eq_refl eq_refl eq_refl). unfold lim. repeat step.
  - apply lim_chi1. - apply lim_x.
Qed.
Lemma lim_l2 : lim (V lambda2).
Proof.
  apply (by_assignment 6 _ _ eq_refl eq_refl eq_refl). unfold lim. repeat step.
  - apply lim_chi2. - apply lim_x.
Qed.
Lemma lim_r21 : lim (V r21).
Proof.
  assert (L : lim (lambda2 * lambda2 + chi1 * chi1 - #2 * chi1 * lambda2 * costheta)).
  { unfold lim. repeat step; first [apply lim_l2|apply lim_chi1|apply lim_c]. }
  unfold lim, LIM. cbn [eval]. rewrite (pl_r21 _ _ _ placed0).
  apply (tends_ext_loc around) with (2 := L).
  generalize around_placed. apply filter_imp. intros i [P _]. apply (pl_r21 _ _ _ P).
Qed.
Lemma lim_r22 : lim (V r22).
Proof.
  assert (L : lim (lambda1 * lambda1 + chi2 * chi2 - #2 * chi2 * lambda1 * costheta)).
  { unfold lim. repeat step; first [apply lim_l1|apply lim_chi2|apply lim_c]. }
  unfold lim, LIM. cbn [eval]. rewrite (pl_r22 _ _ _ placed0).
  apply (tends_ext_loc around) with (2 := L).
  generalize around_placed. apply filter_imp. intros i [P _]. apply (pl_r22 _ _ _ P).
Qed.
Lemma lim_z1_const : lim (V z1_const).
Proof. apply (by_assignment 11 _ _ eq_refl eq_refl eq_refl). unfold lim. step. apply lim_chi1. Qed.
Lemma lim_z2_const : lim (V z2_const).
Proof. apply (by_assignment 12 _ _ eq_refl eq_refl eq_refl). unfold lim. step. apply lim_chi2. Qed.
Lemma lim_z1 : lim (V z1).
Proof. apply (by_assignment 13 _ _ eq_refl eq_refl eq_refl). unfold lim. step. apply lim_l1. Qed.
Lemma lim_z2 : lim (V z2).
Proof. apply (by_assignment 14 _ _ eq_refl eq_refl eq_refl). unfold lim. step. apply lim_l2. Qed.

(** The renormalized integral. *)
Definition renormalized (r l a : R) : R :=
  if sw E divergent then
    if Reqb r 0 then tab1 E (K 4 0 false) renormalization_zero_separation l
    else tab1 E (K 4 0 false) result (sqrt r) - tab2 E (K 4 0 false) renormalization l a
  else 0.
Lemma ren_eq : forall t0, let t := dens E t0 si_prelude in
  t ren1 = renormalized (t r21) (t lambda2) (t chi1) /\
  t ren2 = renormalized (t r22) (t lambda1) (t chi2).
Proof.
  intros t0 t. subst t. unfold renormalized.
  change si_prelude with (firstn 23 si_prelude ++ firstn 2 (skipn 23 si_prelude) ++ skipn 25 si_prelude).
  rewrite !dens_app.
  set (u := dens E t0 (firstn 23 si_prelude)). clearbody u.
  set (w := dens E u (firstn 2 (skipn 23 si_prelude))).
  assert (w ren1 = 0 /\ w ren2 = 0) as [W1 W2] by (split; reflexivity).
  clearbody w.
  rewrite !(dens_keeps r21 E (skipn 25 si_prelude)), !(dens_keeps r22 E (skipn 25 si_prelude)),
    !(dens_keeps lambda1 E (skipn 25 si_prelude)), !(dens_keeps lambda2 E (skipn 25 si_prelude)),
    !(dens_keeps chi1 E (skipn 25 si_prelude)), !(dens_keeps chi2 E (skipn 25 si_prelude)) by reflexivity.
  cbn [skipn si_prelude dens]. rewrite den1_If. cbn [holds].
  destruct (sw E divergent); cbn [dens]; [|split; assumption].
  rewrite !den1_If. cbn [holds eval].
  destruct (Reqb (w r21) 0); cbn [dens den1];
  match goal with |- context [Reqb ?a 0] => change a with (w r22) end;
  destruct (Reqb (w r22) 0); cbn [dens den1]; split; reflexivity.
Qed.

Lemma tends_renormalized : forall r r0 l l0 a a0,
  tends around r r0 -> tends around l l0 -> tends around a a0 ->
  0 < l0 -> 0 < a0 -> 0 <= r0 -> (r0 = 0 -> l0 = a0) ->
  around (fun i => 0 <= r i /\ 0 < l i) ->
  tends around (fun i => renormalized (r i) (l i) (a i)) (renormalized r0 l0 a0).
Proof.
  intros r r0 l l0 a a0 Tr Tl Ta L0 A0 R0 Q0 P. unfold renormalized.
  destruct (sw E divergent) eqn:D; [|apply (tends_const around)].
  unfold Reqb. destruct (Req_EM_T r0 0) as [Z|Z].
  - specialize (Q0 Z). subst a0. subst r0.
    intros e He. destruct (sm_meet _ SM D l0 L0 e He) as (d & Hd & D1 & D2).
    pose proof (tends_sqrt around _ _ Tr d Hd) as Ts. rewrite sqrt_0 in Ts.
    generalize (filter_and _ _ P (filter_and _ _ (Tl d Hd) (filter_and _ _ (Ta d Hd) Ts))).
    apply filter_imp. intros i ((Ri & Li) & Hl & Ha & Hr).
    destruct (Req_EM_T (r i) 0) as [Zi|Zi].
    + apply D1. exact Hl.
    + apply D2; [exact Hl|exact Ha|]. rewrite Rminus_0_r in Hr. apply Rabs_def2 in Hr.
      split; [apply sqrt_lt_R0; lra|lra].
  - apply (tends_ext_loc around) with (g := fun i => tab1 E (K 4 0 false) result (sqrt (r i))
      - tab2 E (K 4 0 false) renormalization (l i) (a i)).
    + generalize (tends_above around r r0 0 Tr ltac:(lra)). apply filter_imp.
      intros i Hi. destruct (Req_EM_T (r i) 0); [lra|reflexivity].
    + apply (tends_minus around).
      * intros e He.
        destruct (sm_tables _ SM (K 4 0 false) (sqrt r0) (sqrt_pos _)) with (e := e) as (d & Hd & D1).
        { intros _. apply sqrt_lt_R0. lra. } { exact He. }
        generalize (tends_sqrt around _ _ Tr d Hd). apply filter_imp. intros i Hi.
        apply D1; [apply sqrt_pos|exact Hi].
      * apply (tends_comp2 around l l0 a a0 (tab2 E (K 4 0 false) renormalization)); try assumption.
        apply (sm_renorm _ SM D); assumption.
Qed.

Lemma lim_ren1 : lim (V ren1).
Proof.
  unfold lim, LIM. cbn [eval].
  replace (s0 ren1) with (renormalized (s0 r21) (s0 lambda2) (s0 chi1))
    by (symmetry; exact (proj1 (ren_eq (upd (args z m0 s) x_ x0)))).
  apply (tends_ext_loc around)
    with (g := fun i => renormalized (st i r21) (st i lambda2) (st i chi1)).
  - apply (filter_imp (fun _ => True)); [|apply filter_true]. intros i _.
    exact (proj1 (ren_eq (upd (args z (fst i) s) x_ (snd i)))).
  - pose proof placed0 as P0.
    apply (tends_renormalized (fun i => st i r21) (s0 r21) (fun i => st i lambda2) (s0 lambda2)
      (fun i => st i chi1) (s0 chi1)); [exact lim_r21|exact lim_l2|exact lim_chi1|..].
    + apply (pl_l2 _ _ _ P0). + apply (pl_chi1 _ _ _ P0). + apply (pl_pos1 _ _ _ P0).
    + intros Q. apply (pl_meet1 _ _ _ P0). exact Q.
    + generalize around_placed. apply filter_imp. intros i [P _].
      split; [apply (pl_pos1 _ _ _ P)|apply (pl_l2 _ _ _ P)].
Qed.
Lemma lim_ren2 : lim (V ren2).
Proof.
  unfold lim, LIM. cbn [eval].
  replace (s0 ren2) with (renormalized (s0 r22) (s0 lambda1) (s0 chi2))
    by (symmetry; exact (proj2 (ren_eq (upd (args z m0 s) x_ x0)))).
  apply (tends_ext_loc around)
    with (g := fun i => renormalized (st i r22) (st i lambda1) (st i chi2)).
  - apply (filter_imp (fun _ => True)); [|apply filter_true]. intros i _.
    exact (proj2 (ren_eq (upd (args z (fst i) s) x_ (snd i)))).
  - pose proof placed0 as P0.
    apply (tends_renormalized (fun i => st i r22) (s0 r22) (fun i => st i lambda1) (s0 lambda1)
      (fun i => st i chi2) (s0 chi2)); [exact lim_r22|exact lim_l1|exact lim_chi2|..].
    + apply (pl_l1 _ _ _ P0). + apply (pl_chi2 _ _ _ P0). + apply (pl_pos2 _ _ _ P0).
    + intros Q. apply (pl_meet2 _ _ _ P0). exact Q.
    + generalize around_placed. apply filter_imp. intros i [P _].
      split; [apply (pl_pos2 _ _ _ P)|apply (pl_l1 _ _ _ P)].
Qed.

Lemma lim_var : forall v, lim (V v).
Proof.
  destruct v;
  first [apply lim_kept; [reflexivity|discriminate|discriminate] | apply lim_mu | apply lim_x
    | apply lim_chi_mean | apply lim_chi1 | apply lim_chi2 | apply lim_c | apply lim_l1 | apply lim_l2
    | apply lim_r21 | apply lim_r22 | apply lim_z1 | apply lim_z2 | apply lim_z1_const
    | apply lim_z2_const | apply lim_ren1 | apply lim_ren2
    | match goal with |- lim (V ?v) =>
        let k := eval cbv in (assigned_at v si_prelude) in
        apply (by_assignment k _ _ eq_refl eq_refl eq_refl); unfold lim; repeat step;
        first [apply lim_z1_const | apply lim_z2_const
              | apply lim_kept; [reflexivity|discriminate|discriminate]]
      end ].
Qed.

(** ** At coinciding points the code continues the general formula *)
Lemma Reqb_true : forall a b, a = b -> Reqb a b = true.
Proof. intros. unfold Reqb. destruct (Req_EM_T a b); [reflexivity|contradiction]. Qed.
Lemma Reqb_false : forall a b, a <> b -> Reqb a b = false.
Proof. intros. unfold Reqb. destruct (Req_EM_T a b); [contradiction|reflexivity]. Qed.

Ltac choose_branch B1 B2 :=
  cbn [incr map]; unfold apart1; fold apart1;
  repeat (cbn [apart1 map]; rewrite ?incr1_If; cbn [holds apart eval];
          rewrite ?(sm_linear _ SM), ?(sm_full _ SM), ?B1, ?B2;
          cbn [andb orb negb]; cbn [incr]).

Ltac coincide P R1 meet_ :=
  let A := fresh in let B := fresh in let C := fresh in
  destruct (meet_ _ _ _ P R1) as (A & B & C);
  cbn [incr1 eval]; rewrite ?R1, ?sqrt_0, ?(sm_vanish _ SM 0 2 eq_refl),
    ?(sm_vanish _ SM 0 4 eq_refl), ?(sm_vanish _ SM 1 3 eq_refl), ?A, ?B.

Lemma den_len_apart : forall t m x, placed t m x -> 0 < x < 1 ->
  incr E t (body si_den_len) = incr E t (map apart1 (body si_den_len)).
Proof.
  intros t m x P Hx. unfold si_den_len. cbn [body map apart1].
  destruct (Req_dec (t r21) 0) as [R1|R1]; destruct (Req_dec (t r22) 0) as [R2|R2].
  - elim (not_both _ _ _ P Hx R1 R2).
  - choose_branch (Reqb_true _ _ R1) (Reqb_false _ _ R2).
    coincide P R1 pl_meet1. unfold Rdiv. ring.
  - choose_branch (Reqb_false _ _ R1) (Reqb_true _ _ R2).
    coincide P R2 pl_meet2. unfold Rdiv. ring.
  - choose_branch (Reqb_false _ _ R1) (Reqb_false _ _ R2). reflexivity.
Qed.

Lemma d1_len_apart : forall t m x, placed t m x -> 0 < x < 1 ->
  incr E t (body si_d1_len) = incr E t (map apart1 (body si_d1_len)).
Proof.
  intros t m x P Hx. unfold si_d1_len. cbn [body map apart1].
  destruct (Req_dec (t r21) 0) as [R1|R1]; destruct (Req_dec (t r22) 0) as [R2|R2].
  - elim (not_both _ _ _ P Hx R1 R2).
  - choose_branch (Reqb_true _ _ R1) (Reqb_false _ _ R2).
    coincide P R1 pl_meet1. unfold Rdiv. ring.
  - choose_branch (Reqb_false _ _ R1) (Reqb_true _ _ R2).
    coincide P R2 pl_meet2. unfold Rdiv. ring.
  - choose_branch (Reqb_false _ _ R1) (Reqb_false _ _ R2). reflexivity.
Qed.

Lemma aligned : forall t m x, placed t m x -> m * m = 1 ->
  Rltb (Rabs (t mu)) (999 / 1000) = false.
Proof.
  intros t m x P M. rewrite (ge_mu _ _ _ (pl_geo _ _ _ P)). unfold Rltb.
  destruct (Rlt_dec (Rabs m) (999 / 1000)) as [H|H]; [|reflexivity]. exfalso.
  apply Rabs_def2 in H. nra.
Qed.

Lemma rsd_len_apart : forall t m x, placed t m x -> 0 < x < 1 ->
  incr E t (body si_rsd_len) = incr E t (map apart1 (body si_rsd_len)).
Proof.
  intros t m x P Hx. unfold si_rsd_len. cbn [body map apart1].
  pose proof (pl_chi1 _ _ _ P) as C1. pose proof (pl_chi2 _ _ _ P) as C2.
  pose proof (pl_geo _ _ _ P) as G.
  destruct (Req_dec (t r21) 0) as [R1|R1]; destruct (Req_dec (t r22) 0) as [R2|R2].
  - elim (not_both _ _ _ P Hx R1 R2).
  - choose_branch (Reqb_true _ _ R1) (Reqb_false _ _ R2).
    destruct (pl_meet1 _ _ _ P R1) as (A & B & C).
    assert (X : t chi1 / t chi2 = t x_).
    { rewrite (ge_x _ _ _ G), <- A, (ge_l2 _ _ _ G). field. lra. }
    assert (Q : t r22 = (t lambda1 - t chi2) ^ 2) by (rewrite (pl_r22 _ _ _ P), B; ring).
    assert (N : t lambda1 - t chi2 <> 0) by (intros N; apply R2; rewrite Q, N; ring).
    rewrite (aligned _ _ _ P C). choose_branch (Reqb_true _ _ R1) (Reqb_false _ _ R2).
    cbn [incr1 eval].
    rewrite X, R1, sqrt_0, (sm_vanish _ SM 0 2 eq_refl), (sm_vanish _ SM 0 4 eq_refl), A, B.
    set (T0 := tab1 E (K 0 0 false) result (sqrt (t r22))).
    set (T2 := tab1 E (K 0 2 false) result (sqrt (t r22))).
    set (T4 := tab1 E (K 0 4 false) result (sqrt (t r22))).
    rewrite Q. clearbody T0 T2 T4. unfold Rdiv. generalize (/ 0). intro i0.
    field. repeat split; try exact N; apply (sm_a _ SM).
  - choose_branch (Reqb_false _ _ R1) (Reqb_true _ _ R2).
    destruct (pl_meet2 _ _ _ P R2) as (A & B & C).
    assert (X : t chi2 / t chi1 = t x_).
    { rewrite (ge_x _ _ _ G), <- A, (ge_l1 _ _ _ G). field. lra. }
    assert (Q : t r21 = (t lambda2 - t chi1) ^ 2) by (rewrite (pl_r21 _ _ _ P), B; ring).
    assert (N : t lambda2 - t chi1 <> 0) by (intros N; apply R1; rewrite Q, N; ring).
    rewrite (aligned _ _ _ P C). choose_branch (Reqb_false _ _ R1) (Reqb_true _ _ R2).
    cbn [incr1 eval].
    rewrite X, R2, sqrt_0, (sm_vanish _ SM 0 2 eq_refl), (sm_vanish _ SM 0 4 eq_refl), A, B.
    set (T0 := tab1 E (K 0 0 false) result (sqrt (t r21))).
    set (T2 := tab1 E (K 0 2 false) result (sqrt (t r21))).
    set (T4 := tab1 E (K 0 4 false) result (sqrt (t r21))).
    rewrite Q. clearbody T0 T2 T4. unfold Rdiv. generalize (/ 0). intro i0.
    field. repeat split; try exact N; apply (sm_a _ SM).
  - choose_branch (Reqb_false _ _ R1) (Reqb_false _ _ R2). reflexivity.
Qed.

Lemma blocks_apart : forall t m x b, placed t m x -> 0 < x < 1 -> In b si_blocks ->
  incr E t (body (snd b)) = incr E t (map apart1 (body (snd b))).
Proof.
  intros t m x b P Hx Hb. unfold si_blocks in Hb.
  repeat (destruct Hb as [<-|Hb]); try contradiction; cbn [snd];
  first [apply (den_len_apart t m x P Hx) | apply (rsd_len_apart t m x P Hx)
        | apply (d1_len_apart t m x P Hx) | reflexivity].
Qed.

(** ** The order of the numerators *)
Lemma order : forall r w u v U W, 0 <= w <= r -> Rabs u <= U -> Rabs v <= W ->
  Rabs (r * u + w * v) <= (U + W) * r.
Proof.
  intros r w u v U W H1 H2 H3.
  apply Rle_trans with (1 := Rabs_triang _ _). rewrite !Rabs_mult, (Rabs_pos_eq r), (Rabs_pos_eq w) by lra.
  pose proof (Rabs_pos u). pose proof (Rabs_pos v). nra.
Qed.

Section Order.
Variables a l c r B : R.
Hypothesis Ha : 0 < a <= B.
Hypothesis Hl : 0 < l <= B.
Hypothesis Hc : -1 <= c <= 1.
Hypothesis Hr : r = l * l + a * a - 2 * a * l * c.

Lemma sine : 0 <= 1 - c * c <= 1.
Proof. nra. Qed.
Lemma side_a : 0 <= (1 - c * c) * (a * a) <= r.
Proof.
  pose proof sine. split; [apply Rmult_le_pos; nra|].
  rewrite Hr. pose proof (Rle_0_sqr (l - a * c)) as Q. unfold Rsqr in Q. nra.
Qed.
Lemma side_l : 0 <= (1 - c * c) * (l * l) <= r.
Proof.
  pose proof sine. split; [apply Rmult_le_pos; nra|].
  rewrite Hr. pose proof (Rle_0_sqr (a - l * c)) as Q. unfold Rsqr in Q. nra.
Qed.

Lemma order_den : Rabs (a * a * l * (1 - c * c)) <= B * r.
Proof.
  pose proof side_a as S. replace (a * a * l * (1 - c * c)) with (r * 0 + (1 - c * c) * (a * a) * l) by ring.
  replace (B * r) with ((0 + B) * r) by ring. apply order; [exact S|rewrite Rabs_R0; lra|].
  rewrite Rabs_pos_eq; lra.
Qed.

Lemma product_le : forall u v U W, Rabs u <= U -> Rabs v <= W -> Rabs (u * v) <= U * W.
Proof.
  intros. rewrite Rabs_mult. apply Rmult_le_compat; try assumption; apply Rabs_pos.
Qed.
Lemma sum_le : forall u v U W, Rabs u <= U -> Rabs v <= W -> Rabs (u + v) <= U + W.
Proof. intros. apply Rle_trans with (1 := Rabs_triang _ _). lra. Qed.
Lemma bound_a : Rabs a <= B. Proof. rewrite Rabs_pos_eq; lra. Qed.
Lemma bound_l : Rabs l <= B. Proof. rewrite Rabs_pos_eq; lra. Qed.
Lemma bound_c : Rabs c <= 1. Proof. apply Rabs_le. lra. Qed.
Lemma bound_s : Rabs (1 - c * c) <= 1. Proof. pose proof sine. rewrite Rabs_pos_eq; lra. Qed.
Lemma bound_n : forall n, (0 <= n)%Z -> Rabs (IZR n) <= IZR n.
Proof. intros n H. rewrite Rabs_pos_eq; [lra|]. apply IZR_le. exact H. Qed.
Lemma bound_neg : forall u U, Rabs u <= U -> Rabs (- u) <= U.
Proof. intros. rewrite Rabs_Ropp. assumption. Qed.

Ltac bounds :=
  repeat match goal with
  | |- Rabs (1 - c * c) <= _ => apply bound_s
  | |- Rabs (_ - _) <= _ => unfold Rminus at 1
  | |- Rabs (_ + _) <= _ => apply sum_le
  | |- Rabs (- _) <= _ => apply bound_neg
  | |- Rabs (_ * _) <= _ => apply product_le
  | |- Rabs a <= _ => apply bound_a
  | |- Rabs l <= _ => apply bound_l
  | |- Rabs c <= _ => apply bound_c
  | |- Rabs (IZR _) <= _ => apply bound_n; discriminate
  end.

Lemma order_rsd : Rabs (6 * a * a * a * c - a * a * l * (9 * c * c + 11)
   + a * l * l * c * (3 * (2 * c * c - 1) + 19) - 2 * l * l * l * (3 * (2 * c * c - 1) + 1))
  <= 44 * B * r.
Proof.
  pose proof side_l as S.
  replace (6 * a * a * a * c - a * a * l * (9 * c * c + 11)
   + a * l * l * c * (3 * (2 * c * c - 1) + 19) - 2 * l * l * l * (3 * (2 * c * c - 1) + 1))
    with (r * (6 * c * a - (8 + 3 * (1 - c * c)) * l)
          + (1 - c * c) * (l * l) * (15 * l - 12 * a * c)) by (rewrite Hr; ring).
  eapply Rle_trans; [eapply order; [exact S|bounds|bounds]|]. right. ring.
Qed.

Lemma order_d1 : Rabs (4 * a ^ 4 * c - a ^ 3 * l * (c * c + 9) + a * a * l * l * c * (c * c + 5)
   - 2 * a * l ^ 3 * (2 * c * c - 1 - 2) - 2 * l ^ 4 * c) <= 90 * B * B * r.
Proof.
  pose proof side_l as S.
  replace (4 * a ^ 4 * c - a ^ 3 * l * (c * c + 9) + a * a * l * l * c * (c * c + 5)
   - 2 * a * l ^ 3 * (2 * c * c - 1 - 2) - 2 * l ^ 4 * c)
    with (r * (4 * c * a * a - (2 + 7 * (1 - c * c)) * l * a - (2 + 15 * (1 - c * c)) * c * l * l)
          + (1 - c * c) * (l * l) * (15 * l * (c * l - a + 2 * (1 - c * c) * a))) by (rewrite Hr; ring).
  eapply Rle_trans; [eapply order; [exact S|bounds|bounds]|]. right. ring.
Qed.
End Order.

(** ** Limits of statements *)
Definition slim (l : list stmt) : Prop :=
  tends around (fun i => incr E (st i) l) (incr E s0 l).

Lemma slim_nil : slim [].
Proof. exact (tends_const around 0). Qed.
Lemma slim_add : forall e l, lim e -> slim l -> slim (AddTo e :: l).
Proof. intros e l H1 H2. apply (tends_plus around); assumption. Qed.
Lemma slim_if_loc : forall c p q l b, holds E s0 c = b -> around (fun i => holds E (st i) c = b) ->
  slim (if b then p else q) -> slim l -> slim (If c p q :: l).
Proof.
  intros c p q l b Hb HF H1 H2. apply (tends_plus around); [|exact H2].
  rewrite incr1_If, Hb.
  apply (tends_ext_loc around) with (2 := H1).
  generalize HF. apply filter_imp. intros i Hi. rewrite incr1_If, Hi. reflexivity.
Qed.
Lemma slim_if : forall c p q l b, (forall t, holds E t c = b) ->
  slim (if b then p else q) -> slim l -> slim (If c p q :: l).
Proof.
  intros c p q l b H. apply slim_if_loc; [apply H|].
  apply (filter_imp (fun _ => True)); [|apply filter_true]. intros i _. apply H.
Qed.

Lemma quot21 : forall p k M, lim p -> k <> K 4 0 false -> tab1 E k result 0 = 0 ->
  (forall t m x, placed t m x -> Rabs (eval E t p) <= M * t r21) ->
  lim (Over (Times p (Tab1 k result (Sqrt (V r21)))) (V r21)).
Proof.
  intros p k M L N Z B. apply (L_quot around) with (M := M); try exact _; try exact SM.
  - exact L. - apply lim_var. - intros Q. contradiction. - intros _. exact Z.
  - generalize around_placed. apply filter_imp. intros i [P _].
    split; [apply (pl_pos1 _ _ _ P)|]. split; [apply (B _ _ _ P)|]. intros _. exact Z.
Qed.
Lemma quot22 : forall p k M, lim p -> k <> K 4 0 false -> tab1 E k result 0 = 0 ->
  (forall t m x, placed t m x -> Rabs (eval E t p) <= M * t r22) ->
  lim (Over (Times p (Tab1 k result (Sqrt (V r22)))) (V r22)).
Proof.
  intros p k M L N Z B. apply (L_quot around) with (M := M); try exact _; try exact SM.
  - exact L. - apply lim_var. - intros Q. contradiction. - intros _. exact Z.
  - generalize around_placed. apply filter_imp. intros i [P _].
    split; [apply (pl_pos2 _ _ _ P)|]. split; [apply (B _ _ _ P)|]. intros _. exact Z.
Qed.

Ltac ord1 L P :=
  cbn [eval]; apply L;
  first [exact (pl_chi1 _ _ _ P)|exact (pl_l2 _ _ _ P)|exact (pl_c _ _ _ P)|exact (pl_r21 _ _ _ P)].
Ltac ord2 L P :=
  cbn [eval]; apply L;
  first [exact (pl_chi2 _ _ _ P)|exact (pl_l1 _ _ _ P)|exact (pl_c _ _ _ P)|exact (pl_r22 _ _ _ P)].
Ltac var := match goal with |- LIM _ _ _ _ (V _) => apply lim_var end.
Ltac flags := intros; cbn [holds apart]; rewrite ?(sm_linear _ SM), ?(sm_full _ SM); cbn [andb orb negb]; reflexivity.

Ltac run :=
  repeat match goal with
  | |- slim [] => exact slim_nil
  | |- slim (If _ _ _ :: _) => eapply slim_if; [flags|cbv iota|]
  | |- slim (AddTo _ :: _) => apply slim_add
  end; unfold lim.
Ltac quots n l B L :=
  match goal with
  | |- LIM _ _ _ _ (Over (Times _ (Tab1 _ _ (Sqrt (V r21)))) (V r21)) =>
      apply (quot21 _ _ B); [unfold lim|discriminate|exact (sm_vanish _ SM n l eq_refl)|
        let P := fresh in intros ? ? ? P; ord1 L P]
  | |- LIM _ _ _ _ (Over (Times _ (Tab1 _ _ (Sqrt (V r22)))) (V r22)) =>
      apply (quot22 _ _ B); [unfold lim|discriminate|exact (sm_vanish _ SM n l eq_refl)|
        let P := fresh in intros ? ? ? P; ord2 L P]
  end.

Lemma den_len_lim : slim (map apart1 (body si_den_len)).
Proof.
  unfold si_den_len. cbn [body map apart1]. run.
  repeat first [var | step | quots 0%Z 2%Z (2 * chi) order_den].
Qed.

Lemma d1_len_lim : slim (map apart1 (body si_d1_len)).
Proof.
  unfold si_d1_len. cbn [body map apart1]. run.
  repeat first [var | step | quots 1%Z 3%Z (90 * (2 * chi) * (2 * chi)) order_d1].
Qed.

(** The code switches to another formula at |mu| = 0.999. *)
Lemma rsd_len_lim : Rabs m0 <> 999 / 1000 -> slim (map apart1 (body si_rsd_len)).
Proof.
  intros NM. unfold si_rsd_len. cbn [body map apart1]. run.
  - repeat first [var | step | quots 0%Z 2%Z (44 * (2 * chi)) order_rsd].
  - pose proof (tends_Rabs around _ _ lim_mu) as TM. cbn [eval] in TM.
    pose proof (ge_mu _ _ _ (pl_geo _ _ _ placed0)) as M0. rewrite M0 in TM.
    destruct (Rtotal_order (Rabs m0) (999 / 1000)) as [H|[H|H]]; [|contradiction|].
    + eapply (slim_if_loc _ _ _ _ true).
      * cbn [holds apart eval]. rewrite M0. unfold Rltb. destruct (Rlt_dec _ _); [reflexivity|contradiction].
      * generalize (tends_below around _ _ _ TM H). apply filter_imp. intros i Hi.
        cbn [holds apart eval]. unfold Rltb. destruct (Rlt_dec _ _); [reflexivity|contradiction].
      * assert (A : m0 * m0 < 1) by (apply Rabs_def2 in H; nra).
        assert (N1 : s0 r21 <> 0)
          by (intros Q; destruct (pl_meet1 _ _ _ placed0 Q) as (_ & _ & C); lra).
        assert (N2 : s0 r22 <> 0)
          by (intros Q; destruct (pl_meet2 _ _ _ placed0 Q) as (_ & _ & C); lra).
        run.
        repeat first [var | step | apply L_over; try exact _; [| |exact N1] | apply L_over; try exact _; [| |exact N2]].
      * run.
    + eapply (slim_if_loc _ _ _ _ false).
      * cbn [holds apart eval]. rewrite M0. unfold Rltb. destruct (Rlt_dec _ _); [lra|reflexivity].
      * generalize (tends_above around _ _ _ TM H). apply filter_imp. intros i Hi.
        cbn [holds apart eval]. unfold Rltb. destruct (Rlt_dec _ _); [lra|reflexivity].
      * run. repeat first [var | step].
      * run.
Qed.

Lemma blocks_lim : forall b, In b si_blocks ->
  (fst b = (rsd, len) -> Rabs m0 <> 999 / 1000) -> slim (map apart1 (body (snd b))).
Proof.
  intros b Hb HM. unfold si_blocks in Hb.
  repeat (destruct Hb as [<-|Hb]); try contradiction; cbn [snd];
  [exact den_len_lim|exact (rsd_len_lim (HM eq_refl))|exact d1_len_lim|..];
  match goal with |- slim (map apart1 (body ?l)) => unfold l end; cbn [body map apart1]; run;
  repeat first [var | step].
Qed.

Lemma tends_sum : forall A (l : list A) (f : A -> R * R -> R) (g : A -> R),
  (forall a, In a l -> tends around (f a) (g a)) ->
  tends around (fun i => sum_over l (fun a => f a i)) (sum_over l g).
Proof.
  unfold sum_over. induction l as [|a l IH]; intros f g H; cbn [map fold_right].
  - apply (tends_const around).
  - apply (tends_plus around).
    + apply H. left. reflexivity.
    + apply IH. intros b Hb. apply H. right. exact Hb.
Qed.

Lemma single_continuous : (con E rsd && con E len = true -> Rabs m0 <> 999 / 1000) ->
  tends around (fun i => value (single_integrated E z (fst i) s (snd i)))
    (value (single_integrated E z m0 s x0)).
Proof.
  intros HM. rewrite <- (with_set_same E), si_value by apply (sm_present _ SM).
  apply (tends_ext_loc around) with
    (g := fun i => sum_over si_blocks (fun b => picked E (st i) (con E) (sw E only_cross) b)).
  { apply (filter_imp (fun _ => True)); [|apply filter_true]. intros i _.
    rewrite si_value by apply (sm_present _ SM). reflexivity. }
  apply (tends_sum _ si_blocks (fun b i => picked E (st i) (con E) (sw E only_cross) b)).
  intros b Hb.
  assert (HG : guard (con E) (sw E only_cross) (fst (fst b)) (snd (fst b)) = true ->
               slim (map apart1 (body (snd b)))).
  { intros G. apply blocks_lim; [exact Hb|]. intros Q. rewrite Q in G. cbn [fst snd] in G.
    apply HM. unfold guard in G. cbn [contrib_beq] in G. exact G. }
  assert (Q0 : incr E s0 (body (snd b)) = incr E s0 (map apart1 (body (snd b))))
    by exact (blocks_apart s0 m0 x0 b placed0 Hx0 Hb).
  destruct b as [[p q] l]. cbn [fst snd] in *. unfold picked.
  destruct (guard (con E) (sw E only_cross) p q); [|apply (tends_const around)].
  specialize (HG eq_refl). change (si_s0 E z m0 s x0) with s0. rewrite Q0.
  apply (tends_ext_loc around) with (2 := HG).
  generalize around_placed. apply filter_imp. intros i [P X].
  exact (blocks_apart (st i) (fst i) (snd i) (p, q, l) P X Hb).
Qed.
End Single.

(** ** Two lines of sight *)
Section Double.
Variable E : env.
Hypothesis SM : smooth E.
Variables z s m0 x0 y0 : R.
Hypothesis Hs : 0 < s < 2 * spl E bg_comoving_distance z.
Hypothesis Hm0 : -1 <= m0 <= 1.
Hypothesis Hx0 : 0 < x0 < 1.
Hypothesis Hy0 : 0 < y0 < 1.

(** Specification or proof only; nothing in the code. *)
Definition around2 (P : R * R * R -> Prop) : Prop :=
  exists d, 0 < d /\ forall m x y, -1 <= m <= 1 ->
    Rabs (m - m0) < d -> Rabs (x - x0) < d -> Rabs (y - y0) < d -> P (m, x, y).

#[local] Instance around2_filter : Filter around2.
Proof.
  constructor.
  - exists 1. split; [lra|]. trivial.
  - intros P Q (d & Hd & D) (e & He & D'). exists (Rmin d e).
    pose proof (Rmin_l d e). pose proof (Rmin_r d e).
    split; [apply Rmin_glb_lt; assumption|]. intros. split; [apply D|apply D']; lra.
  - intros P Q H (d & Hd & D). exists d. split; [exact Hd|]. auto.
Qed.

Let st (i : R * R * R) : store := di_s0 E z (fst (fst i)) s (snd (fst i)) (snd i).
Let s0 : store := di_s0 E z m0 s x0 y0.
Let chi := spl E bg_comoving_distance z.

(** Specification or proof only; nothing in the code. *)
Record placed2 (t : store) (m x y : R) : Prop := {
  p2_mu : t mu = m; p2_x : t x_1 = x; p2_y : t x_2 = y;
  p2_l1 : 0 < t lambda1; p2_l2 : 0 < t lambda2; p2_c : -1 <= t costheta <= 1;
  p2_r2 : t r2 = t lambda1 * t lambda1 + t lambda2 * t lambda2 - 2 * t lambda1 * t lambda2 * t costheta;
  p2_meet : t r2 = 0 -> t costheta = 1 }.

Lemma placed2_ok : forall m x y, -1 <= m <= 1 -> 0 < x < 1 -> 0 < y < 1 ->
  placed2 (di_s0 E z m s x y) m x y.
Proof.
  intros m x y Hm Hx Hy. unfold di_s0.
  pose proof (di_r2 E z m s x y) as R2. unfold Evolved.distance2, Evolved.cosine in R2.
  cbv zeta in R2. fold chi in R2.
  set (t := dens E (upd (upd (args z m s) x_1 x) x_2 y) di_prelude) in *.
  assert (t sep = s) as K1 by (unfold t; rewrite dens_keeps by reflexivity; reflexivity).
  assert (t mu = m) as K2 by (unfold t; rewrite dens_keeps by reflexivity; reflexivity).
  assert (t z_mean = z) as K3 by (unfold t; rewrite dens_keeps by reflexivity; reflexivity).
  assert (t x_1 = x) as K4 by (unfold t; rewrite dens_keeps by reflexivity; reflexivity).
  assert (t x_2 = y) as K5 by (unfold t; rewrite dens_keeps by reflexivity; reflexivity).
  val t di_prelude chi_mean. rewrite K3 in V. fold chi in V.
  val t di_prelude chi1. rewrite V, K1, K2 in V0.
  val t di_prelude chi2. rewrite V, K1, K2 in V1.
  val t di_prelude costheta. rewrite V, K1, K2 in V2.
  val t di_prelude lambda1. rewrite K4, V0 in V3.
  val t di_prelude lambda2. rewrite K5, V1 in V4.
  clearbody t. fold chi in Hs.
  destruct (cosine_bounds chi s m Hs Hm) as [CB C1]. rewrite <- V2 in CB, C1, R2.
  rewrite <- V3, <- V4 in R2.
  assert (L1 : 0 < t lambda1) by (rewrite V3; apply Rmult_lt_0_compat; nra).
  assert (L2 : 0 < t lambda2) by (rewrite V4; apply Rmult_lt_0_compat; nra).
  pose proof (square_distance (t lambda2) (t lambda1) (t costheta) L2 L1 ltac:(lra)) as P1.
  rewrite kept_nonneg in R2 by lra.
  constructor; try assumption.
  rewrite R2. intros Q. apply (meet (t lambda2) (t lambda1) (t costheta)); lra.
Qed.

Lemma around2_placed : around2 (fun i => placed2 (st i) (fst (fst i)) (snd (fst i)) (snd i)).
Proof.
  exists (Rmin (Rmin x0 (1 - x0)) (Rmin y0 (1 - y0))). split; [repeat apply Rmin_glb_lt; lra|].
  intros m x y Hm _ Hx Hy. cbn [fst snd].
  pose proof (Rmin_l (Rmin x0 (1 - x0)) (Rmin y0 (1 - y0))).
  pose proof (Rmin_r (Rmin x0 (1 - x0)) (Rmin y0 (1 - y0))).
  pose proof (Rmin_l x0 (1 - x0)). pose proof (Rmin_r x0 (1 - x0)).
  pose proof (Rmin_l y0 (1 - y0)). pose proof (Rmin_r y0 (1 - y0)).
  apply Rabs_def2 in Hx. apply Rabs_def2 in Hy.
  assert (X : 0 < x < 1) by lra. assert (Y : 0 < y < 1) by lra.
  exact (placed2_ok m x y Hm X Y).
Qed.
Lemma placed20 : placed2 s0 m0 x0 y0.
Proof. exact (placed2_ok m0 x0 y0 Hm0 Hx0 Hy0). Qed.

Let lim e := LIM around2 E st s0 e.

Lemma by_assignment2 : forall k v e,
  nth_error di_prelude k = Some (Set_ v e) -> keepsv v (skipn (S k) di_prelude) = true ->
  clean_e (fun w => negb (keepsv w (skipn k di_prelude))) no_spline e = true ->
  lim e -> lim (V v).
Proof.
  intros k v e N KV C L. unfold lim, LIM. cbn [eval].
  replace (s0 v) with (eval E s0 e) by (symmetry; apply (assigned E di_prelude k); assumption).
  apply (tends_ext_loc around2) with (2 := L).
  apply (filter_imp (fun _ => True)); [|apply filter_true].
  intros i _. apply (assigned E di_prelude k); assumption.
Qed.

Lemma lim2_kept : forall v, keepsv v di_prelude = true -> v <> mu -> v <> x_1 -> v <> x_2 -> lim (V v).
Proof.
  intros v H N1 N2 N3. unfold lim, LIM. cbn [eval].
  apply (tends_ext_loc around2) with (g := fun _ => s0 v); [|apply (tends_const around2)].
  apply (filter_imp (fun _ => True)); [|apply filter_true].
  intros i _. unfold st, s0, di_s0. rewrite !dens_keeps by exact H.
  unfold upd. destruct v; try reflexivity; congruence.
Qed.
Lemma lim2_mu : lim (V mu).
Proof.
  unfold lim, LIM. cbn [eval]. rewrite (p2_mu _ _ _ _ placed20).
  apply (tends_ext_loc around2) with (g := fun i => fst (fst i)).
  - generalize around2_placed. apply filter_imp. intros i P. apply (p2_mu _ _ _ _ P).
  - intros e He. exists e. split; [exact He|]. intros m x y _ H _ _. exact H.
Qed.
Lemma lim2_x : lim (V x_1).
Proof.
  unfold lim, LIM. cbn [eval]. rewrite (p2_x _ _ _ _ placed20).
  apply (tends_ext_loc around2) with (g := fun i => snd (fst i)).
  - generalize around2_placed. apply filter_imp. intros i P. apply (p2_x _ _ _ _ P).
  - intros e He. exists e. split; [exact He|]. intros m x y _ _ H _. exact H.
Qed.
Lemma lim2_y : lim (V x_2).
Proof.
  unfold lim, LIM. cbn [eval]. rewrite (p2_y _ _ _ _ placed20).
  apply (tends_ext_loc around2) with (g := fun i => snd i).
  - generalize around2_placed. apply filter_imp. intros i P. apply (p2_y _ _ _ _ P).
  - intros e He. exists e. split; [exact He|]. intros m x y _ _ _ H. exact H.
Qed.

Ltac step :=
  match goal with
  | |- LIM _ _ _ _ (Num _) => apply L_num
  | |- LIM _ _ _ _ (Dec _ _) => apply L_dec
  | |- LIM _ _ _ _ Par_h => apply L_h
  | |- LIM _ _ _ _ Omega0_cdm => apply L_cdm
  | |- LIM _ _ _ _ Omega0_baryon => apply L_baryon
  | |- LIM _ _ _ _ H0 => apply L_H0
  | |- LIM _ _ _ _ Pi => apply L_pi
  | |- LIM _ _ _ _ (Plus _ _) => apply L_plus
  | |- LIM _ _ _ _ (Minus _ _) => apply L_minus
  | |- LIM _ _ _ _ (Times _ _) => apply L_times
  | |- LIM _ _ _ _ (Neg _) => apply L_neg
  | |- LIM _ _ _ _ (Pow _ _) => apply L_pow
  | |- LIM _ _ _ _ (Spl _ _) => apply L_spl
  | |- LIM _ _ _ _ (Over _ (Num _)) =>
      apply L_over; try exact _; [| |cbn [eval]; apply not_0_IZR; discriminate]
  | |- LIM _ _ _ _ (Over _ (Spl bg_a _)) => apply L_over; try exact _; [| |apply (sm_a _ SM)]
  | |- LIM _ _ _ _ (Over _ (V x_1)) =>
      apply L_over; try exact _; [| |cbn [eval]; rewrite (p2_x _ _ _ _ placed20); lra]
  | |- LIM _ _ _ _ (Over _ (V x_2)) =>
      apply L_over; try exact _; [| |cbn [eval]; rewrite (p2_y _ _ _ _ placed20); lra]
  | |- LIM _ _ _ _ (Tab1 _ _ (Sqrt _)) => apply L_tab; try exact _; try exact SM; [|discriminate]
  end; try exact _; try exact SM.

Lemma lim2_chi_mean : lim (V chi_mean).
Proof.
  apply (by_assignment2 1 _ _ eq_refl eq_refl eq_refl). unfold lim. repeat step.
  apply lim2_kept; (reflexivity || discriminate).
Qed.
Lemma lim2_sep : lim (V sep).
Proof. apply lim2_kept; (reflexivity || discriminate). Qed.
Lemma lim2_chi1 : lim (V chi1).
Proof.
  apply (by_assignment2 2 _ _ eq_refl eq_refl eq_refl). unfold lim. repeat step.
  - apply lim2_chi_mean. - apply lim2_sep. - apply lim2_mu.
Qed.
Lemma lim2_chi2 : lim (V chi2).
Proof.
  apply (by_assignment2 3 _ _ eq_refl eq_refl eq_refl). unfold lim. repeat step.
  - apply lim2_chi_mean. - apply lim2_sep. - apply lim2_mu.
Qed.
Lemma lim2_c : lim (V costheta).
Proof.
  apply (by_assignment2 4 _ _ eq_refl eq_refl eq_refl). unfold lim.
  apply L_over; try exact _; repeat step; try apply lim2_chi_mean; try apply lim2_sep; try apply lim2_mu.
  cbn [eval].
  assert (s0 chi_mean = chi) as ->
    by (unfold s0, di_s0; rewrite (assigned E di_prelude 1 _ _ _ eq_refl eq_refl eq_refl); cbn [eval];
        rewrite dens_keeps by reflexivity; reflexivity).
  assert (s0 mu = m0) as -> by apply (p2_mu _ _ _ _ placed20).
  assert (s0 sep = s) as -> by (unfold s0, di_s0; rewrite dens_keeps by reflexivity; reflexivity).
  fold chi in Hs.
  assert (MM : 0 <= m0 * m0 <= 1) by nra.
  assert (SS : 0 < s * s < 4 * (chi * chi)) by nra.
  assert (MS : 0 <= m0 * m0 * (s * s) <= s * s) by nra. nra.
Qed.
Lemma lim2_l1 : lim (V lambda1).
Proof.
  apply (by_assignment2 5 _ _ eq_refl eq_refl eq_refl). unfold lim. repeat step.
  - apply lim2_chi1. - apply lim2_x.
Qed.
Lemma lim2_l2 : lim (V lambda2).
Proof.
  apply (by_assignment2 6 _ _ eq_refl eq_refl eq_refl). unfold lim. repeat step.
  - apply lim2_chi2. - apply lim2_y.
Qed.
Lemma lim2_r2 : lim (V r2).
Proof.
  assert (L : lim (lambda1 * lambda1 + lambda2 * lambda2 - #2 * lambda1 * lambda2 * costheta)).
  { unfold lim. repeat step; first [apply lim2_l1|apply lim2_l2|apply lim2_c]. }
  unfold lim, LIM. cbn [eval]. rewrite (p2_r2 _ _ _ _ placed20).
  apply (tends_ext_loc around2) with (2 := L).
  generalize around2_placed. apply filter_imp. intros i P. apply (p2_r2 _ _ _ _ P).
Qed.
Lemma lim2_var : forall v, v <> ren -> lim (V v).
Proof.
  assert (Z1 : lim (V z1_const)).
  { apply (by_assignment2 9 _ _ eq_refl eq_refl eq_refl). unfold lim. step. apply lim2_chi1. }
  assert (Z2 : lim (V z2_const)).
  { apply (by_assignment2 10 _ _ eq_refl eq_refl eq_refl). unfold lim. step. apply lim2_chi2. }
  intros v N; destruct v; try (elim N; reflexivity);
  first [apply lim2_kept; [reflexivity|discriminate|discriminate|discriminate]
    | apply lim2_mu | apply lim2_x | apply lim2_y
    | apply lim2_chi_mean | apply lim2_chi1 | apply lim2_chi2 | apply lim2_c | apply lim2_l1
    | apply lim2_l2 | apply lim2_r2 | exact Z1 | exact Z2
    | match goal with |- lim (V ?v) =>
        let k := eval cbv in (assigned_at v di_prelude) in
        apply (by_assignment2 k _ _ eq_refl eq_refl eq_refl); unfold lim; repeat step;
        first [exact Z1 | exact Z2 | apply lim2_l1 | apply lim2_l2
              | apply lim2_kept; [reflexivity|discriminate|discriminate|discriminate]]
      end ].
Qed.

(** ** The pairs of the lensing term with the integrated potentials *)
Definition slim2 (l : list stmt) : Prop :=
  tends around2 (fun i => incr E (st i) l) (incr E s0 l).

Ltac choose_branch B :=
  repeat (cbn [apart1 map]; rewrite ?incr1_If; cbn [holds apart eval]; rewrite ?B;
          cbn [andb orb negb]; cbn [incr]).

Lemma len_apart : forall t m x y l, placed2 t m x y -> l = di_g4_len \/ l = di_g5_len ->
  incr E t (body l) = incr E t (map apart1 (body l)).
Proof.
  intros t m x y l P [-> | ->]; [unfold di_g4_len|unfold di_g5_len]; cbn [body map apart1];
  (destruct (Req_dec (t r2) 0) as [R1|R1];
  [ choose_branch (Reqb_true _ _ R1); pose proof (p2_meet _ _ _ _ P R1) as C;
    cbn [incr1 eval]; rewrite R1, sqrt_0, C; unfold Rdiv; ring
  | choose_branch (Reqb_false _ _ R1); reflexivity ]).
Qed.

Lemma len_lim : forall l, l = di_g4_len \/ l = di_g5_len -> slim2 (map apart1 (body l)).
Proof.
  intros l H.
  assert (X : exists e, lim e /\ forall t, incr E t (map apart1 (body l)) = eval E t e + 0 + 0).
  { destruct H as [-> | ->]; [unfold di_g4_len|unfold di_g5_len]; cbn [body map apart1]; eexists;
    (split; [|intros t; cbn [incr]; rewrite incr1_If; reflexivity]); unfold lim;
    repeat first [match goal with |- LIM _ _ _ _ (V _) => apply lim2_var; discriminate end | step]. }
  destruct X as (e & L & X). unfold slim2. rewrite X.
  apply (tends_ext_loc around2) with (g := fun i => eval E (st i) e + 0 + 0).
  - apply (filter_imp (fun _ => True)); [|apply filter_true]. intros i _. apply X.
  - apply (tends_plus around2); [|apply (tends_const around2)].
    apply (tends_plus around2); [exact L|apply (tends_const around2)].
Qed.

Lemma double_continuous : sw E only_cross = true -> con E g4 && con E g5 = false ->
  tends around2 (fun i => value (double_integrated E z (fst (fst i)) s (snd (fst i)) (snd i)))
    (value (double_integrated E z m0 s x0 y0)).
Proof.
  intros HC HG. rewrite <- (with_set_same E), di_value by apply (sm_present _ SM).
  apply (tends_ext_loc around2) with
    (g := fun i => sum_over di_blocks (fun b => picked E (st i) (con E) (sw E only_cross) b)
                   * (coffe_H0 * par_h E) ^ 4).
  { apply (filter_imp (fun _ => True)); [|apply filter_true]. intros i _.
    rewrite di_value by apply (sm_present _ SM). reflexivity. }
  apply (tends_mult around2); [|apply (tends_const around2)].
  change (di_s0 E z m0 s x0 y0) with s0.
  unfold sum_over, di_blocks. cbn [map fold_right picked].
  unfold guard. cbn [contrib_beq]. rewrite HC, HG, !andb_false_r.
  assert (B : forall l (g : bool), l = di_g4_len \/ l = di_g5_len ->
    tends around2 (fun i => if g then incr E (st i) (body l) else 0)
      (if g then incr E s0 (body l) else 0)).
  { intros l g Hl. destruct g; [|apply (tends_const around2)].
    rewrite (len_apart s0 m0 x0 y0 l placed20 Hl).
    apply (tends_ext_loc around2) with (2 := len_lim l Hl).
    generalize around2_placed. apply filter_imp. intros i P. exact (len_apart _ _ _ _ l P Hl). }
  repeat (apply (tends_plus around2); [first [apply (tends_const around2) | apply B; tauto]|]).
  apply (tends_const around2).
Qed.
End Double.
