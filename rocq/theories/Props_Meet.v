(** * Property C87: where the two lines of sight meet, nothing jumps

    The code treats the points where the local end of one line of sight lies on the other one
    (functions.c:1559-2999), or where two points along the lines of sight coincide
    (functions.c:3517-3965), in branches of their own.  The value there is the limit of the values
    around. *)
From Coq Require Import Reals Lra Lia List ZArith Bool.
From Coquelicot Require Import Coquelicot.
From Coq Require Import List.
Import ListNotations.
From Verif Require Import Integrals CExpr Terms Signal TermsMeta TermsSum Additive SignalSum
  ExchangeSignal Weights Evolved Meet.
Open Scope R_scope.
#[local] Opaque nonintegrated single_integrated double_integrated.

(** ** Specification *)

(** The integrand along one line of sight is continuous at the cosine [m0] and the position [x0]. *)
Definition joined (E : env) (z s m0 x0 : R) : Prop :=
  forall eps, 0 < eps -> exists delta, 0 < delta /\
  forall m x, -1 <= m <= 1 -> Rabs (m - m0) < delta -> Rabs (x - x0) < delta ->
    Rabs (value (single_integrated E z m s x) - value (single_integrated E z m0 s x0)) < eps.

(** The integrand along both lines of sight is continuous at the cosine [m0] and the positions
    [x0] and [y0]. *)
Definition joined2 (E : env) (z s m0 x0 y0 : R) : Prop :=
  forall eps, 0 < eps -> exists delta, 0 < delta /\
  forall m x y, -1 <= m <= 1 ->
    Rabs (m - m0) < delta -> Rabs (x - x0) < delta -> Rabs (y - y0) < delta ->
    Rabs (value (double_integrated E z m s x y) - value (double_integrated E z m0 s x0 y0)) < eps.

(** ** Theorems *)

(** For every smooth universe (Meet.v) and every set of contributions; at |mu| = 0.999 the code
    changes the formula of redshift-space distortions with lensing. *)
Theorem C87_single : forall E z s m0 x0, smooth E ->
  0 < s < 2 * spl E bg_comoving_distance z -> -1 <= m0 <= 1 -> 0 < x0 < 1 ->
  (con E rsd && con E len = true -> Rabs m0 <> 999 / 1000) ->
  joined E z s m0 x0.
Proof.
  intros E z s m0 x0 SM Hs Hm Hx HM eps He.
  destruct (single_continuous E SM z s m0 x0 Hs Hm Hx HM eps He) as (d & Hd & D).
  exists d. split; [exact Hd|]. intros m x H1 H2 H3. exact (D m x H1 H2 H3).
Qed.
Print Assumptions C87_single.

(** Lensing with one integrated potential term. *)
Theorem C87_double_partial : forall E z s m0 x0 y0, smooth E ->
  0 < s < 2 * spl E bg_comoving_distance z -> -1 <= m0 <= 1 -> 0 < x0 < 1 -> 0 < y0 < 1 ->
  sw E only_cross = true -> con E g4 && con E g5 = false ->
  joined2 E z s m0 x0 y0.
Proof.
  intros E z s m0 x0 y0 SM Hs Hm Hx Hy HC HG eps He.
  destruct (double_continuous E SM z s m0 x0 y0 Hs Hm Hx Hy HC HG eps He) as (d & Hd & D).
  exists d. split; [exact Hd|]. intros m x y H1 H2 H3 H4. exact (D m x y H1 H2 H3 H4).
Qed.
Print Assumptions C87_double_partial.

(** ** The hypotheses are met *)

(** Distances equal to redshifts, a divergent integral 5 - r with its renormalization, and powers
    of the separation for the other tables. *)
Definition round (S : contrib -> bool) (cross : bool) : env :=
  mkEnv S (fun f => match f with only_cross => cross | divergent => true | _ => false end)
        (fun f x => match f with
           | bg_comoving_distance | bg_z_as_chi => x
           | bg_D1 => 1 - x / 100
           | _ => 1 end)
        (fun k t r => match k, t with
           | K 4 0 false, result => 5 - r
           | K 4 0 false, renormalization_zero_separation => 2
           | K n l _, _ => r ^ Z.to_nat (l - n) end)
        (fun _ _ _ _ => 3) (fun _ => true) 1 (1 / 4) (1 / 20).

Lemma pow_continuous : forall n r, continuous (fun q : R => q ^ n) r.
Proof. intros n r. apply continuity_pt_filterlim. apply derivable_continuous_pt. apply derivable_pt_pow. Qed.

Lemma eps_delta : forall (f : R -> R) r, continuous f r -> forall e, 0 < e ->
  exists d, 0 < d /\ forall q, Rabs (q - r) < d -> Rabs (f q - f r) < e.
Proof.
  intros f r C e He. apply continuity_pt_filterlim in C.
  destruct (C e He) as (d & Hd & D). exists d. split; [exact Hd|].
  intros q Hq. destruct (Req_dec q r) as [->|N].
  - unfold Rminus. rewrite Rplus_opp_r, Rabs_R0. exact He.
  - apply D. split; [|exact Hq]. split; [exact I|]. intros Q. apply N. symmetry. exact Q.
Qed.

Lemma round_table : forall S c k r, exists f : R -> R,
  continuous f r /\ forall q, tab1 (round S c) k result q = f q.
Proof.
  intros S c k r. destruct k as [n l h].
  assert (X : (exists f : R -> R, continuous f r /\ forall q, q ^ Z.to_nat (l - n) = f q)
              /\ exists f : R -> R, continuous f r /\ forall q, 5 - q = f q).
  { split; [exists (fun q => q ^ Z.to_nat (l - n))|exists (fun q => 5 - q)];
    (split; [|reflexivity]); [apply pow_continuous|].
    apply (continuous_minus (fun _ => 5) (fun q => q)); [apply continuous_const|apply continuous_id]. }
  destruct X as [X Y]. cbn [tab1 round].
  repeat match goal with |- context [match ?u with _ => _ end] => destruct u end;
  try exact X; try exact Y.
Qed.

Lemma smooth_round : forall S c, smooth (round S c).
Proof.
  intros S c. constructor.
  - reflexivity.
  - reflexivity.
  - reflexivity.
  - intros f x. destruct f; cbn [spl round]; try apply continuous_const; try apply continuous_id.
    apply (continuous_minus (fun _ => 1) (fun q => q / 100)); [apply continuous_const|].
    apply (continuous_mult (fun q => q) (fun _ => / 100)); [apply continuous_id|apply continuous_const].
  - intros z. cbn [spl round]. lra.
  - intros k r _ _ e He. destruct (round_table S c k r) as (f & C & Q).
    destruct (eps_delta f r C e He) as (d & Hd & D). exists d. split; [exact Hd|].
    intros q _ Hq. rewrite !Q. apply D. exact Hq.
  - intros n l H. cbn [tab1 round].
    assert (X : 0 ^ Z.to_nat (l - n) = 0) by (apply pow_i; lia).
    repeat match goal with |- context [match ?u with _ => _ end] => destruct u end; try exact X; lia.
  - intros _ p q _ _. cbn [tab2 round]. apply filterlim_const.
  - intros _ p _ e He. exists e. split; [exact He|]. cbn [tab1 tab2 round]. split.
    + intros. replace (2 - 2) with 0 by ring. rewrite Rabs_R0. exact He.
    + intros q q' r _ _ Hr. apply Rabs_def1; lra.
Qed.

(** At the cosine 1 the nearer galaxy lies on the line of sight of the farther one, at 3/5 of it. *)
Example C87_single_nonvacuous :
  joined (round (fun _ => true) true) 2 1 1 (3 / 5) /\
  near (round (fun _ => true) true) 2 1 1 = 3 / 5 * far (round (fun _ => true) true) 2 1 1.
Proof.
  split.
  - apply C87_single; [apply smooth_round|cbn [spl round]; lra|lra|lra|].
    intros _. rewrite Rabs_R1. lra.
  - unfold near, far. cbn [spl round]. lra.
Qed.

Example C87_double_nonvacuous :
  let E := round (pair_set len g4) true in
  joined2 E 2 1 1 (1 / 2) (3 / 10) /\
  1 / 2 * near E 2 1 1 = 3 / 10 * far E 2 1 1.
Proof.
  split.
  - apply C87_double_partial; [apply smooth_round|cbn [spl round]; lra|lra|lra|lra|reflexivity|reflexivity].
  - unfold near, far. cbn [spl round]. lra.
Qed.

(** ** Lensing with itself *)

(** A universe without perturbations: all tables vanish. *)
Definition still : env :=
  mkEnv (single len) (fun _ => false)
        (fun f x => match f with bg_comoving_distance | bg_z_as_chi => x | _ => 1 end)
        (fun _ _ _ => 0) (fun _ _ _ _ => 0) (fun _ => true) 1 (1 / 4) (1 / 4).

Lemma smooth_still : smooth still.
Proof.
  constructor; try reflexivity; try discriminate.
  - intros f x. destruct f; cbn [spl still]; try apply continuous_const; apply continuous_id.
  - intros z. cbn [spl still]. lra.
  - intros k r _ _ e He. exists 1. split; [lra|]. intros. cbn [tab1 still].
    rewrite Rminus_0_r, Rabs_R0. exact He.
Qed.

Lemma still_value : forall x y, 0 < x < 1 -> 0 < y < 1 ->
  value (double_integrated still 2 1 1 x y)
  = (if Rltb (1 / 100000000000000000000) ((3 / 2 * x - 5 / 2 * y) ^ 2) then 0
     else 1215 / 16 * ((1 - x) * (1 - y))) * (coffe_H0 * 1) ^ 4.
Proof.
  intros x y Hx Hy.
  rewrite <- (with_set_same still), di_value by reflexivity.
  change (par_h still) with 1. f_equal.
  unfold sum_over, di_blocks. cbn [map fold_right picked].
  unfold guard. cbn [contrib_beq con still single sw andb negb].
  rewrite !Rplus_0_r.
  pose proof (placed2_ok still 2 1 ltac:(cbn [spl still]; lra) 1 x y ltac:(lra) Hx Hy) as P.
  unfold di_s0 in *.
  set (t := dens still (upd (upd (args 2 1 1) x_1 x) x_2 y) di_prelude) in *.
  assert (t sep = 1) as K1 by (unfold t; rewrite dens_keeps by reflexivity; reflexivity).
  assert (t z_mean = 2) as K3 by (unfold t; rewrite dens_keeps by reflexivity; reflexivity).
  pose proof (p2_mu _ _ _ _ P) as K2. pose proof (p2_x _ _ _ _ P) as K4. pose proof (p2_y _ _ _ _ P) as K5.
  pose proof (p2_r2 _ _ _ _ P) as R2.
  val t di_prelude chi_mean. rewrite K3 in V. change (t chi_mean = 2) in V.
  val t di_prelude chi1. rewrite V, K1, K2 in V0.
  val t di_prelude chi2. rewrite V, K1, K2 in V1.
  val t di_prelude costheta. rewrite V, K1, K2 in V2.
  val t di_prelude lambda1. rewrite K4, V0 in V3.
  val t di_prelude lambda2. rewrite K5, V1 in V4.
  val t di_prelude s1. change (t s1 = 1) in V5.
  val t di_prelude s2. change (t s2 = 1) in V6.
  clearbody t. clear P.
  assert (C : t costheta = 1) by (rewrite V2; field).
  rewrite C in R2.
  assert (Q : t r2 = (3 / 2 * x - 5 / 2 * y) ^ 2) by (rewrite R2, V3, V4; field).
  unfold di_len_len. cbn [body incr].
  repeat (rewrite ?incr1_If; cbn [holds sw still andb negb]; cbn [incr]).
  cbn [eval]. rewrite Q. unfold Rltb.
  destruct (Rlt_dec (1 / 100000000000000000000) ((3 / 2 * x - 5 / 2 * y) ^ 2));
  repeat (rewrite ?incr1_If; cbn [holds sw still andb negb]; cbn [incr]);
  cbn [incr1 eval]; cbn [still omega_cdm omega_baryon spl tab1];
  rewrite ?V0, ?V1, ?V5, ?V6, ?K4, ?K5.
  - unfold Rdiv. ring.
  - field.
Qed.

Lemma H0_pos : 0 < coffe_H0.
Proof. unfold coffe_H0. lra. Qed.

(** The value of the branch for coinciding points is not the limit of the other one (finding F8):
    without any perturbations, lensing is correlated with itself where the two points are closer
    than 10^-10, and only there. *)
Theorem C87_len_len_refuted : exists E z s m0 x0 y0,
  smooth E /\ (forall k t r, tab1 E k t r = 0) /\
  0 < s < 2 * spl E bg_comoving_distance z /\ -1 <= m0 <= 1 /\ 0 < x0 < 1 /\ 0 < y0 < 1 /\
  ~ joined2 E z s m0 x0 y0.
Proof.
  set (y0 := 3 / 10 - 4 / 100000000000).
  exists still, 2, 1, 1, (1 / 2), y0.
  split; [exact smooth_still|]. split; [reflexivity|].
  split; [cbn [spl still]; lra|]. split; [lra|]. split; [lra|]. split; [unfold y0; lra|].
  intros J. pose proof H0_pos as HP.
  assert (HP4 : 0 < (coffe_H0 * 1) ^ 4) by (apply pow_lt; lra).
  destruct (J ((coffe_H0 * 1) ^ 4) HP4) as (d & Hd & D).
  assert (M1 := Rmin_l (d / 2) (1 / 10)). assert (M2 := Rmin_r (d / 2) (1 / 10)).
  assert (M3 : 0 < Rmin (d / 2) (1 / 10)) by (apply Rmin_glb_lt; lra).
  set (h := Rmin (d / 2) (1 / 10)) in *. clearbody h.
  specialize (D 1 (1 / 2) (y0 - h) ltac:(lra)).
  rewrite !still_value in D by (unfold y0; lra).
  replace (Rltb (1 / 100000000000000000000) ((3 / 2 * (1 / 2) - 5 / 2 * (y0 - h)) ^ 2)) with true in D.
  2:{ unfold Rltb. destruct (Rlt_dec _ _) as [|N]; [reflexivity|]. elim N. unfold y0.
      replace (3 / 2 * (1 / 2) - 5 / 2 * (3 / 10 - 4 / 100000000000 - h))
        with (1 / 10000000000 + 5 / 2 * h) by lra. nra. }
  replace (Rltb (1 / 100000000000000000000) ((3 / 2 * (1 / 2) - 5 / 2 * y0) ^ 2)) with false in D.
  2:{ unfold Rltb. destruct (Rlt_dec _ _) as [N|]; [|reflexivity]. exfalso. unfold y0 in N.
      replace (3 / 2 * (1 / 2) - 5 / 2 * (3 / 10 - 4 / 100000000000))
        with (1 / 10000000000) in N by lra. lra. }
  assert (Z : forall u, Rabs (u - u) < d) by (intros u; unfold Rminus; rewrite Rplus_opp_r, Rabs_R0; exact Hd).
  specialize (D (Z _) (Z _)).
  assert (W : Rabs (y0 - h - y0) < d).
  { replace (y0 - h - y0) with (- h) by ring. rewrite Rabs_Ropp, Rabs_pos_eq; lra. }
  specialize (D W). rewrite Rmult_0_l in D. unfold Rminus in D. rewrite Rplus_0_l, Rabs_Ropp in D.
  apply Rlt_not_le in D. apply D.
  apply Rle_trans with (1215 / 16 * ((1 + - (1 / 2)) * (1 + - y0)) * (coffe_H0 * 1) ^ 4); [|apply Rle_abs].
  rewrite <- (Rmult_1_l ((coffe_H0 * 1) ^ 4)) at 1. apply Rmult_le_compat_r; [lra|]. unfold y0. lra.
Qed.
Print Assumptions C87_len_len_refuted.

(** ** A nonlinear spectrum *)

(** The same universe with the tables of a linear spectrum. *)
Definition linearized (E : env) : env :=
  mkEnv (con E) (fun f => match f with pk_nonlinear => false | f => sw E f end)
        (spl E) (tab1 E) (tab2 E) (present E) (par_h E) (omega_cdm E) (omega_baryon E).

(** A nonlinear universe in which one table, of order and degree 1, is 1 and the others vanish. *)
Definition bent : env :=
  mkEnv (pair_set den len) (fun f => match f with pk_nonlinear | midpoint => true | _ => false end)
        (fun f x => match f with bg_comoving_distance | bg_z_as_chi => x | _ => 1 end)
        (fun _ _ _ => 0)
        (fun k t _ _ => match k, t with K 1 1 false, result2d => 1 | _, _ => 0 end)
        (fun _ => true) 1 (1 / 4) (1 / 4).

Lemma smooth_bent : smooth (linearized bent).
Proof.
  constructor; try reflexivity; try discriminate.
  - intros f x. destruct f; cbn [spl linearized bent]; try apply continuous_const; apply continuous_id.
  - intros z. cbn [spl linearized bent]. lra.
  - intros k r _ _ e He. exists 1. split; [lra|]. intros. cbn [tab1 linearized bent].
    rewrite Rminus_0_r, Rabs_R0. exact He.
Qed.

Lemma bent_value : forall x, 0 < x < 1 ->
  value (single_integrated bent 2 (-1) 1 x)
  = 135 / 8 * (1 - x) * (coffe_H0 * 1) ^ 2 * (if Req_EM_T x (3 / 5) then 1 else 2).
Proof.
  intros x Hx.
  rewrite <- (with_set_same bent), si_value by reflexivity.
  unfold sum_over, si_blocks. cbn [map fold_right picked].
  unfold guard. cbn [contrib_beq con bent pair_set orb sw andb negb].
  rewrite !Rplus_0_r.
  pose proof (placed_ok bent 2 1 ltac:(cbn [spl bent]; lra) (-1) x ltac:(lra) Hx) as P.
  pose proof (pl_geo _ _ _ _ _ _ P) as G.
  unfold si_s0 in *.
  set (t := dens bent (upd (args 2 (-1) 1) x_ x) si_prelude) in *.
  pose proof (ge_x _ _ _ _ _ _ G) as K4.
  pose proof (pl_r21 _ _ _ _ _ _ P) as R1. pose proof (pl_r22 _ _ _ _ _ _ P) as R2.
  pose proof (ge_chi1 _ _ _ _ _ _ G) as V0. cbn [spl bent] in V0.
  pose proof (ge_chi2 _ _ _ _ _ _ G) as V1. cbn [spl bent] in V1.
  pose proof (ge_c _ _ _ _ _ _ G) as V2. cbn [spl bent] in V2.
  pose proof (ge_l1 _ _ _ _ _ _ G) as V3. rewrite V0 in V3.
  pose proof (ge_l2 _ _ _ _ _ _ G) as V4. rewrite V1 in V4.
  val t si_prelude s1. change (t s1 = 1) in V.
  val t si_prelude s2. change (t s2 = 1) in V5.
  val t si_prelude b1. change (t b1 = 1) in V6.
  val t si_prelude b2. change (t b2 = 1) in V7.
  clearbody t. clear P G.
  assert (C : t costheta = 1) by (rewrite V2; field).
  rewrite C in R1, R2.
  assert (Q1 : t r21 <> 0) by (rewrite R1, V0, V4; nra).
  assert (Q2 : t r22 = (5 / 2 * x - 3 / 2) ^ 2) by (rewrite R2, V1, V3; field).
  assert (Q3 : Reqb (t r22) 0 = if Req_EM_T x (3 / 5) then true else false).
  { destruct (Req_EM_T x (3 / 5)) as [->|N].
    - apply Reqb_true. rewrite Q2. field.
    - apply Reqb_false. rewrite Q2. apply pow_nonzero. lra. }
  unfold si_den_len. cbn [body incr].
  repeat (rewrite ?incr1_If; cbn [holds sw bent andb negb]; cbn [incr]).
  cbn [eval]. rewrite Q3, (Reqb_false _ _ Q1). cbn [negb andb].
  destruct (Req_EM_T x (3 / 5));
  repeat (rewrite ?incr1_If; cbn [holds sw bent andb negb]; cbn [incr]; cbn [eval];
          rewrite ?Q3, ?(Reqb_false _ _ Q1); cbn [negb andb]);
  cbn [incr1 eval]; cbn [bent omega_cdm omega_baryon par_h spl tab2];
  rewrite ?V0, ?V1, ?V, ?V5, ?V6, ?V7, ?K4, ?C; unfold Rdiv; ring_simplify; field.
Qed.

(** With a nonlinear spectrum the branch for coinciding points of density with lensing reads the
    table of degree 2 and order 0 instead of the one of degree and order 1 (functions.c:1926-1937). *)
Theorem C87_nonlinear_refuted : exists E z s m0 x0,
  smooth (linearized E) /\
  (forall k t u v u' v', tab2 E k t u v = tab2 E k t u' v') /\
  (forall n l t u v, (n < l)%Z -> tab2 E (K n l false) t u v = 0) /\
  0 < s < 2 * spl E bg_comoving_distance z /\ -1 <= m0 <= 1 /\ 0 < x0 < 1 /\ Rabs m0 <> 999 / 1000 /\
  ~ joined E z s m0 x0.
Proof.
  exists bent, 2, 1, (-1), (3 / 5).
  split; [exact smooth_bent|].
  split; [reflexivity|].
  split.
  { intros n l t u v H. cbn [tab2 bent].
    repeat match goal with |- context [match ?u with _ => _ end] => destruct u end; reflexivity || lia. }
  split; [cbn [spl bent]; lra|]. split; [lra|]. split; [lra|].
  split; [rewrite Rabs_left; lra|].
  intros J. pose proof H0_pos as HP.
  assert (HP2 : 0 < (coffe_H0 * 1) ^ 2) by (apply pow_lt; lra).
  destruct (J ((coffe_H0 * 1) ^ 2) HP2) as (d & Hd & D).
  assert (M1 := Rmin_l (d / 2) (1 / 10)). assert (M2 := Rmin_r (d / 2) (1 / 10)).
  assert (M3 : 0 < Rmin (d / 2) (1 / 10)) by (apply Rmin_glb_lt; lra).
  set (h := Rmin (d / 2) (1 / 10)) in *. clearbody h.
  specialize (D (-1) (3 / 5 + h) ltac:(lra)).
  rewrite !bent_value in D by lra.
  destruct (Req_EM_T (3 / 5 + h) (3 / 5)) as [X|_]; [lra|].
  destruct (Req_EM_T (3 / 5) (3 / 5)) as [_|X]; [|elim X; reflexivity].
  assert (Z : Rabs (-1 - -1) < d) by (unfold Rminus; rewrite Rplus_opp_r, Rabs_R0; exact Hd).
  assert (W : Rabs (3 / 5 + h - 3 / 5) < d).
  { replace (3 / 5 + h - 3 / 5) with h by ring. rewrite Rabs_pos_eq; lra. }
  specialize (D Z W). apply Rlt_not_le in D. apply D.
  match goal with |- _ <= Rabs ?u => apply Rle_trans with u; [|apply Rle_abs] end.
  match goal with |- ?p <= _ => rewrite <- (Rmult_1_l p) at 1 end.
  match goal with |- 1 * ?p <= ?u => replace u with ((135 / 8 * (2 * (1 - (3 / 5 + h)) - (1 - 3 / 5))) * p) by ring end.
  apply Rmult_le_compat_r; lra.
Qed.
Print Assumptions C87_nonlinear_refuted.

(** ** The cosine 0.999 *)

(** A universe in which one table, of degree 4 and order 0, is the fourth power of the distance
    and the others vanish. *)
Definition cut : env :=
  mkEnv (pair_set rsd len) (fun _ => false)
        (fun f x => match f with bg_comoving_distance | bg_z_as_chi => x | _ => 1 end)
        (fun k t r => match k, t with K 0 4 false, result => r ^ 4 | _, _ => 0 end)
        (fun _ _ _ _ => 0) (fun _ => true) 1 (1 / 4) (1 / 4).

Lemma smooth_cut : smooth cut.
Proof.
  constructor; try reflexivity; try discriminate.
  - intros f x. destruct f; cbn [spl cut]; try apply continuous_const; apply continuous_id.
  - intros z. cbn [spl cut]. lra.
  - intros k r _ _ e He.
    assert (X : exists d, 0 < d /\ forall q, 0 <= q -> Rabs (q - r) < d -> Rabs (q ^ 4 - r ^ 4) < e).
    { destruct (eps_delta _ r (pow_continuous 4 r) e He) as (d & Hd & D).
      exists d. split; [exact Hd|]. intros q _ Hq. exact (D q Hq). }
    assert (Y : exists d, 0 < d /\ forall q, 0 <= q -> Rabs (q - r) < d -> Rabs (0 - 0) < e).
    { exists 1. split; [lra|]. intros. rewrite Rminus_0_r, Rabs_R0. exact He. }
    destruct k as [n l h]. cbn [tab1 cut].
    repeat match goal with |- context [match ?u with _ => _ end] => destruct u end;
    first [exact X|exact Y].
  - intros n l H. cbn [tab1 cut].
    repeat match goal with |- context [match ?u with _ => _ end] => destruct u end; ring.
Qed.

Definition wide (c d l : R) : R :=
  - (- 4 * d ^ 5 * c - d ^ 3 * l ^ 2 * c * (2 * c * c - 1 + 7)
     + d ^ 2 * l ^ 3 * (c ^ 4 + 12 * c * c - 21) - 3 * d * l ^ 4 * c * (2 * c * c - 1 - 5)
     - l ^ 5 * (3 * (2 * c * c - 1) + 1) + 12 * d ^ 4 * l).

Definition narrow (c d l : R) : R := 4 * (l + d) * (l * l + d * d - 2 * d * l * c) ^ 2.

Lemma cut_value : forall m, 99 / 100 < m < 1 ->
  let c := (7 + m * m / 2) / (8 - m * m / 2) in
  let d1 := 2 - m / 2 in
  let d2 := 2 + m / 2 in
  let k := if Rltb m (999 / 1000) then wide else narrow in
  value (single_integrated cut 2 m 1 (1 / 2))
  = (coffe_H0 * 1) ^ 2 * (- 9 / 280) * (d2 * k c d1 (d2 / 2) + d1 * k c d2 (d1 / 2)).
Proof.
  intros m Hm c d1 d2 k.
  rewrite <- (with_set_same cut), si_value by reflexivity.
  unfold sum_over, si_blocks. cbn [map fold_right picked].
  unfold guard. cbn [contrib_beq con cut pair_set orb sw andb negb].
  rewrite !Rplus_0_r, ?Rplus_0_l.
  pose proof (placed_ok cut 2 1 ltac:(cbn [spl cut]; lra) m (1 / 2) ltac:(lra) ltac:(lra)) as P.
  pose proof (pl_geo _ _ _ _ _ _ P) as G.
  unfold si_s0 in *.
  set (t := dens cut (upd (args 2 m 1) x_ (1 / 2)) si_prelude) in *.
  pose proof (ge_x _ _ _ _ _ _ G) as K4.
  pose proof (pl_r21 _ _ _ _ _ _ P) as R1. pose proof (pl_r22 _ _ _ _ _ _ P) as R2.
  pose proof (ge_chi1 _ _ _ _ _ _ G) as V0. cbn [spl cut] in V0.
  pose proof (ge_chi2 _ _ _ _ _ _ G) as V1. cbn [spl cut] in V1.
  pose proof (ge_c _ _ _ _ _ _ G) as V2. cbn [spl cut] in V2.
  pose proof (ge_l1 _ _ _ _ _ _ G) as V3. rewrite V0 in V3.
  pose proof (ge_l2 _ _ _ _ _ _ G) as V4. rewrite V1 in V4.
  val t si_prelude s1. change (t s1 = 1) in V.
  val t si_prelude s2. change (t s2 = 1) in V5.
  assert (M : t mu = m) by (unfold t; rewrite dens_keeps by reflexivity; reflexivity).
  clearbody t. clear P G.
  assert (C : t costheta = c) by (rewrite V2; unfold c; field; nra).
  assert (A0 : t chi1 = d1) by (rewrite V0; unfold d1; field).
  assert (A1 : t chi2 = d2) by (rewrite V1; unfold d2; field).
  assert (A3 : t lambda1 = d1 / 2) by (rewrite V3; unfold d1; field).
  assert (A4 : t lambda2 = d2 / 2) by (rewrite V4; unfold d2; field).
  clear V0 V1 V2 V3 V4.
  assert (D1 : 3 / 2 < d1 < 151 / 100) by (unfold d1; lra).
  assert (D2 : 249 / 100 < d2 < 5 / 2) by (unfold d2; lra).
  assert (CC : c < 1).
  { unfold c. apply (Rmult_lt_reg_r (8 - m * m / 2)); [nra|].
    unfold Rdiv at 1. rewrite Rmult_assoc, Rinv_l by nra. nra. }
  assert (Q1 : 0 < t r21).
  { rewrite R1, A0, A4, C.
    replace (d2 / 2 * (d2 / 2) + d1 * d1 - 2 * d1 * (d2 / 2) * c)
      with ((d2 / 2 - d1) ^ 2 + d1 * d2 * (1 - c)) by field.
    assert (0 < d1 * d2 * (1 - c)) by (repeat apply Rmult_lt_0_compat; lra).
    pose proof (pow2_ge_0 (d2 / 2 - d1)). lra. }
  assert (Q2 : 0 < t r22).
  { rewrite R2, A1, A3, C.
    replace (d1 / 2 * (d1 / 2) + d2 * d2 - 2 * d2 * (d1 / 2) * c)
      with ((d1 / 2 - d2) ^ 2 + d1 * d2 * (1 - c)) by field.
    assert (0 < d1 * d2 * (1 - c)) by (repeat apply Rmult_lt_0_compat; lra).
    pose proof (pow2_ge_0 (d1 / 2 - d2)). lra. }
  unfold si_rsd_len. cbn [body incr].
  repeat (rewrite ?incr1_If; cbn [holds sw cut andb negb]; cbn [incr]).
  cbn [eval]. rewrite (Reqb_false (t r21) 0), (Reqb_false (t r22) 0) by lra. cbn [negb andb].
  assert (F1 : sqrt (t r21) ^ 4 = t r21 ^ 2).
  { replace (sqrt (t r21) ^ 4) with ((sqrt (t r21) * sqrt (t r21)) ^ 2) by ring.
    rewrite sqrt_sqrt by lra. reflexivity. }
  assert (F2 : sqrt (t r22) ^ 4 = t r22 ^ 2).
  { replace (sqrt (t r22) ^ 4) with ((sqrt (t r22) * sqrt (t r22)) ^ 2) by ring.
    rewrite sqrt_sqrt by lra. reflexivity. }
  repeat (rewrite ?incr1_If; cbn [holds sw cut andb negb]; cbn [incr]).
  cbn [eval]. rewrite M, (Rabs_pos_eq m) by lra.
  unfold k. destruct (Rltb m (999 / 1000)).
  all: repeat (rewrite ?incr1_If; cbn [holds sw cut andb negb]; cbn [incr]).
  all: cbn [incr1 eval]; cbn [cut omega_cdm omega_baryon par_h spl tab1].
  all: rewrite ?F1, ?F2, A0, A1, A3, A4, C, V, V5, K4.
  - unfold wide. field. lra.
  - unfold narrow. rewrite R1, R2, A0, A1, A3, A4, C in *. field. lra.
Qed.

(** At |mu| = 0.999 the coefficient of the table of degree 4 changes from its formula to the value
    for mu = 1 (functions.c:2199-2391), so the integrand of redshift-space distortions with
    lensing jumps. *)
Theorem C87_threshold_refuted : exists E z s m0 x0,
  smooth E /\ 0 < s < 2 * spl E bg_comoving_distance z /\ -1 <= m0 <= 1 /\ 0 < x0 < 1 /\
  ~ joined E z s m0 x0.
Proof.
  exists cut, 2, 1, (999 / 1000), (1 / 2).
  split; [exact smooth_cut|]. split; [cbn [spl cut]; lra|]. split; [lra|]. split; [lra|].
  intros J. pose proof H0_pos as HP.
  assert (HP2 : 0 < (coffe_H0 * 1) ^ 2) by (apply pow_lt; lra).
  set (c := fun m => (7 + m * m / 2) / (8 - m * m / 2)).
  set (g := fun m => (2 + m / 2) * wide (c m) (2 - m / 2) ((2 + m / 2) / 2)
                     + (2 - m / 2) * wide (c m) (2 + m / 2) ((2 - m / 2) / 2)).
  assert (CG : continuous g (999 / 1000)).
  { apply (ex_derive_continuous (K := R_AbsRing) (V := R_NormedModule) g).
    unfold g, wide, c. auto_derive. repeat split; lra. }
  set (v := (2 + 999 / 1000 / 2) * narrow (c (999 / 1000)) (2 - 999 / 1000 / 2) ((2 + 999 / 1000 / 2) / 2)
            + (2 - 999 / 1000 / 2) * narrow (c (999 / 1000)) (2 + 999 / 1000 / 2) ((2 - 999 / 1000 / 2) / 2)).
  assert (W : g (999 / 1000) + 1 / 10 < v).
  { assert (CV : c (999 / 1000) = 14998001 / 15001999) by (unfold c; field).
    unfold v, g. rewrite CV. unfold wide, narrow. lra. }
  assert (A : forall m, 99 / 100 < m < 999 / 1000 ->
    value (single_integrated cut 2 m 1 (1 / 2)) = (coffe_H0 * 1) ^ 2 * (- 9 / 280) * g m).
  { intros m Hm. rewrite cut_value by lra. unfold Rltb.
    destruct (Rlt_dec m (999 / 1000)) as [_|X]; [reflexivity|lra]. }
  assert (B : value (single_integrated cut 2 (999 / 1000) 1 (1 / 2)) = (coffe_H0 * 1) ^ 2 * (- 9 / 280) * v).
  { rewrite cut_value by lra. unfold Rltb.
    destruct (Rlt_dec (999 / 1000) (999 / 1000)) as [X|_]; [lra|reflexivity]. }
  destruct (J ((coffe_H0 * 1) ^ 2 * (9 / 280 * (1 / 20)))) as (d & Hd & D); [nra|].
  destruct (eps_delta g _ CG (1 / 20) ltac:(lra)) as (d' & Hd' & D').
  assert (M1 := Rmin_l d d'). assert (M2 := Rmin_r d d').
  assert (M3 : 0 < Rmin d d') by (apply Rmin_glb_lt; lra).
  set (u := Rmin d d') in *. clearbody u.
  assert (M4 := Rmin_l (u / 2) (1 / 1000)). assert (M5 := Rmin_r (u / 2) (1 / 1000)).
  assert (M6 : 0 < Rmin (u / 2) (1 / 1000)) by (apply Rmin_glb_lt; lra).
  set (h := Rmin (u / 2) (1 / 1000)) in *. clearbody h.
  assert (N : Rabs (999 / 1000 - h - 999 / 1000) < u).
  { replace (999 / 1000 - h - 999 / 1000) with (- h) by ring. rewrite Rabs_Ropp, Rabs_pos_eq; lra. }
  specialize (D' (999 / 1000 - h) ltac:(lra)).
  assert (Z : Rabs (1 / 2 - 1 / 2) < d) by (unfold Rminus; rewrite Rplus_opp_r, Rabs_R0; exact Hd).
  specialize (D (999 / 1000 - h) (1 / 2) ltac:(lra) ltac:(lra) Z).
  rewrite A, B in D by lra. clearbody v g.
  apply Rabs_def2 in D'. destruct D' as [D1 D2].
  replace ((coffe_H0 * 1) ^ 2 * (-9 / 280) * g (999 / 1000 - h) - (coffe_H0 * 1) ^ 2 * (-9 / 280) * v)
    with ((coffe_H0 * 1) ^ 2 * (9 / 280 * (v - g (999 / 1000 - h)))) in D by field.
  apply Rlt_not_le in D. apply D.
  match goal with |- _ <= Rabs ?w => apply Rle_trans with w; [|apply Rle_abs] end.
  apply Rmult_le_compat_l; lra.
Qed.
Print Assumptions C87_threshold_refuted.
