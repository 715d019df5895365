(** * Exchanging the two populations: the computed quantities *)
From Coq Require Import Reals ZArith Bool List Lia Lra FunctionalExtensionality.
Import ListNotations.
From Verif Require Import Integrals CExpr Terms Signal TermsMeta TermsSum Additive SignalSum Exchange.
Open Scope R_scope.
#[local] Arguments upd : simpl never.

(** ** Specification *)

(** Specification or proof only; nothing in the code. *)
Definition interior (x : R) : Prop := 0 < x < 1.

(** Replace one coordinate, exchange two coordinates.  Specification or proof only; nothing in the code. *)
Fixpoint set_nth (i : nat) (y : R) (v : list R) {struct v} : list R :=
  match v, i with
  | [], _ => []
  | _ :: v, O => y :: v
  | a :: v, S i => a :: set_nth i y v
  end.
Definition flip (i : nat) (v : list R) : list R := set_nth i (1 - coord v i) v.
Definition transpose (i j : nat) (v : list R) : list R :=
  set_nth i (coord v j) (set_nth j (coord v i) v).

(** What the exact integrals over the unit cubes satisfy: they depend on the
    values inside the cube only and are invariant under its symmetries.
    Specification or proof only; nothing in the code. *)
Record invariant (Q : quadrature) : Prop := {
  in_same1 : forall f g, (forall x, interior x -> f x = g x) -> q1 Q f = q1 Q g;
  in_flip1 : forall f, q1 Q (fun x => f (1 - x)) = q1 Q f;
  in_mul1 : forall c f, q1 Q (fun x => c * f x) = c * q1 Q f;
  in_samen : forall d f g,
    (forall v, length v = d -> Forall interior v -> f v = g v) -> qn Q d f = qn Q d g;
  in_flipn : forall d i f, (i < d)%nat -> qn Q d (fun v => f (flip i v)) = qn Q d f;
  in_transn : forall d i j f, (i < d)%nat -> (j < d)%nat ->
    qn Q d (fun v => f (transpose i j v)) = qn Q d f;
  in_muln : forall d c f, qn Q d (fun v => c * f v) = c * qn Q d f }.

(** The observer is further away than half the separation.  Specification or proof only; nothing in the code. *)
Definition observer_outside (E : env) (p : point) : Prop :=
  0 < p_sep p /\
  p_sep p < 2 * spl E bg_comoving_distance (p_z p) /\
  forall u, interior u -> p_sep p < 2 * spl E bg_comoving_distance (av_z E p u).

(** The same point seen with the two galaxies exchanged.  Specification or proof only; nothing in the code. *)
Definition reversed (p : point) : point :=
  mkPoint (p_z p) (p_zmin p) (p_zmax p) (p_sep p) (- p_mu p) (p_l p).

(** ** Pointwise *)
Lemma mirror_args : forall zm m s, mirror (args zm m s) = args zm (- m) s.
Proof.
  intros. apply functional_extensionality. intros []; unfold mirror, args, upd;
    cbn [var_beq]; try reflexivity.
Qed.
Lemma mirror_args1 : forall zm m s x,
  mirror (upd (args zm m s) x_ x) = upd (args zm (- m) s) x_ x.
Proof.
  intros. apply functional_extensionality. intros []; unfold mirror, args, upd;
    cbn [var_beq]; try reflexivity.
Qed.
Lemma mirror_args2 : forall zm m s x y,
  mirror (upd (upd (args zm m s) x_1 x) x_2 y) = upd (upd (args zm (- m) s) x_1 y) x_2 x.
Proof.
  intros. apply functional_extensionality. intros []; unfold mirror, args, upd;
    cbn [var_beq]; try reflexivity.
Qed.

Lemma total_sym : forall E s bs, Forall (fun b => sym E s (snd b)) bs ->
  total (exchange E) (mirror s) bs = total E s bs.
Proof.
  unfold total. intros E s bs H. induction H as [|b bs Hb _ IH]; [reflexivity|].
  cbn [map fold_right]. rewrite IH. f_equal. exact Hb.
Qed.

Section Point.
Variable E : env.
Hypothesis pE : forall k, present E k = true.
Hypothesis no_deriv : no_derivatives E.
Hypothesis sym_ren : symmetric_renormalization E.

Lemma all_there : forall E', (forall k, present E' k = true) -> forall l,
  forallb (present E') l = true.
Proof. intros E' H l. apply forallb_forall. intros. apply H. Qed.

Lemma ni_exchange : forall zm m s,
  value (nonintegrated (exchange E) zm (- m) s) = value (nonintegrated E zm m s).
Proof.
  intros. rewrite !nonintegrated_spec, !all_there by (exact pE). cbn [value].
  rewrite <- mirror_args, ni_prelude_respects.
  generalize (dens E (args zm m s) ni_prelude). intros s0.
  apply f_equal2; [apply total_sym, ni_sym; assumption|].
  unfold ni_factor. cbn [exchange sw spl mirror].
  destruct (sw E pk_nonlinear && sw E midpoint); [reflexivity|].
  destruct (sw E b_derivative || sw E f_derivative); [reflexivity|].
  destruct (sw E b_tilde_derivative || sw E f_tilde_derivative); [reflexivity|].
  destruct (sw E flatsky_local); [reflexivity|]. apply Rmult_comm.
Qed.

Lemma si_exchange : forall zm m s x,
  con E d1 && con E len = false ->
  (sw E pk_nonlinear = false \/ sep_nonzero (dens E (upd (args zm m s) x_ x) si_prelude)) ->
  value (single_integrated (exchange E) zm (- m) s x) = value (single_integrated E zm m s x).
Proof.
  intros zm m s x N H. rewrite !single_integrated_spec, !all_there by (exact pE). cbn [value].
  rewrite <- mirror_args1, si_prelude_respects.
  apply total_sym. set (s0 := dens _ _ _) in *. clearbody s0.
  assert (Forall (fun b => fst b = (d1, len) \/ sym E s0 (snd b)) si_blocks) as F.
  { destruct H; [apply si_sym_linear|apply si_sym_apart]; assumption. }
  rewrite Forall_forall in *. intros b Hb. destruct (F b Hb) as [X|X]; [|exact X].
  assert (b = (d1, len, si_d1_len)) as ->.
  { clear - Hb X. unfold si_blocks in Hb. cbn [In] in Hb.
    repeat (destruct Hb as [<-|Hb]; [try discriminate X; try reflexivity|]). destruct Hb. }
  cbn [snd]. unfold si_d1_len.
  apply sym_if; [reflexivity|intros G|intros; apply sym_nil].
  exfalso. cbn [holds] in G. rewrite N in G. discriminate.
Qed.

Lemma di_exchange_apart : forall zm m s x y, not_flat E ->
  apart E (dens E (upd (upd (args zm m s) x_1 x) x_2 y) di_prelude) ->
  value (double_integrated (exchange E) zm (- m) s y x) = value (double_integrated E zm m s x y).
Proof.
  intros zm m s x y NF A. rewrite !double_integrated_spec, !all_there by (exact pE). cbn [value].
  rewrite <- mirror_args2, di_prelude_respects by assumption.
  generalize (dens E (upd (upd (args zm m s) x_1 x) x_2 y) di_prelude). intros s0.
  apply f_equal2; [apply total_sym, di_sym; assumption|reflexivity].
Qed.

(** Specification or proof only; nothing in the code. *)
Definition is_ren (v : var) : bool := match v with ren => true | _ => false end.

(** Where no two integrated potential terms are correlated the divergent integral is not used.
    Specification or proof only; nothing in the code. *)
Definition one_potential (E : env) : Prop :=
  con E g4 && con E g5 = false /\ (con E g4 || con E g5) && negb (sw E only_cross) = false.

Lemma di_exchange_lensing : forall zm m s x y, not_flat E -> one_potential E ->
  value (double_integrated (exchange E) zm (- m) s y x) = value (double_integrated E zm m s x y).
Proof.
  intros zm m s x y NF [N1 N2].
  assert (N4 : con E g4 && negb (sw E only_cross) = false)
    by (destruct (con E g4), (con E g5), (sw E only_cross); try reflexivity; discriminate).
  assert (N5 : con E g5 && negb (sw E only_cross) = false)
    by (destruct (con E g4), (con E g5), (sw E only_cross); try reflexivity; discriminate).
  rewrite !double_integrated_spec, !all_there by (exact pE). cbn [value].
  rewrite <- mirror_args2.
  set (a := upd (upd (args zm m s) x_1 x) x_2 y). clearbody a.
  assert (forall E' s', con E' g4 && negb (sw E' only_cross) = false -> con E' g5 && negb (sw E' only_cross) = false ->
            con E' g4 && con E' g5 = false ->
            total E' s' di_blocks = incr E' s' di_len_len + (incr E' s' di_g4_len + incr E' s' di_g5_len)) as T.
  { intros E' s' M4 M5 M45. unfold total, di_blocks. cbn [map fold_right snd].
    assert (forall c p, holds E' s' c = false -> incr E' s' [If c p []] = 0) as W.
    { intros c p H. cbn [incr]. rewrite incr1_If, H. cbn [incr]. ring. }
    unfold di_g4_g4, di_g5_g5, di_g4_g5.
    rewrite (W (And (Con g4) (Not (Flag only_cross)))), (W (And (Con g5) (Not (Flag only_cross)))),
      (W (And (Con g4) (Con g5))) by (cbn [holds]; assumption).
    ring. }
  rewrite !T by assumption.
  change (par_h (exchange E)) with (par_h E). f_equal.
  assert (forall E' s', dens E' s' di_prelude =
            dens E' (dens E' s' (firstn 18 di_prelude)) (skipn 18 di_prelude)) as D.
  { intros. rewrite <- dens_app. reflexivity. }
  assert (forall E' s', agree is_ren no_spline E' E'
            (dens E' s' di_prelude) (dens E' s' (firstn 17 di_prelude))) as AG.
  { intros E' s'. constructor; try reflexivity. intros v Hv.
    rewrite dens_app_17. apply dens_keeps. destruct v; try reflexivity. discriminate Hv. }
  rewrite !(incr_agree _ _ _ _ _ _ (AG (exchange E) (mirror a))) by reflexivity.
  rewrite !(incr_agree _ _ _ _ _ _ (AG E a)) by reflexivity.
  rewrite di_first_respects.
  pose proof (di_sym E (dens E a (firstn 17 di_prelude)) NF) as S.
  rewrite Forall_forall in S.
  apply f_equal2; [|apply f_equal2].
  - exact (S (len, len, di_len_len) ltac:(cbn; tauto)).
  - exact (S (g4, len, di_g4_len) ltac:(cbn; tauto)).
  - exact (S (g5, len, di_g5_len) ltac:(cbn; tauto)).
Qed.
End Point.

(** ** Geometry *)
(** Specification or proof only; nothing in the code. *)
Definition kept (r : R) : R := if Rltb r 0 then 0 else r.

Lemma clamp2 : forall E t,
  let t' := dens E t (firstn 2 (skipn 9 si_prelude)) in
  t' r21 = kept (t r21) /\ t' r22 = kept (t r22).
Proof.
  intros E t t'. subst t'. cbn [firstn skipn si_prelude dens]. rewrite !den1_when. cbn [holds eval].
  unfold kept. unfold upd. cbn [var_beq]. split; reflexivity.
Qed.

Lemma si_r2 : forall E zm m s x,
  let chi := spl E bg_comoving_distance zm in
  let c1 := chi - s * m / 2 in
  let c2 := chi + s * m / 2 in
  let c := (2 * chi * chi - s * s + m * m * s * s / 2)
           / (2 * chi * chi - m * m * s * s / 2) in
  let t := dens E (upd (args zm m s) x_ x) si_prelude in
  t r21 = kept (c2 * x * (c2 * x) + c1 * c1 - 2 * c1 * (c2 * x) * c) /\
  t r22 = kept (c1 * x * (c1 * x) + c2 * c2 - 2 * c2 * (c1 * x) * c).
Proof.
  intros. subst t.
  change si_prelude with (firstn 2 si_prelude ++ firstn 2 (skipn 2 si_prelude)
    ++ firstn 1 (skipn 4 si_prelude) ++ firstn 2 (skipn 5 si_prelude)
    ++ firstn 2 (skipn 7 si_prelude)
    ++ firstn 2 (skipn 9 si_prelude) ++ skipn 11 si_prelude).
  rewrite !dens_app.
  rewrite !(dens_keeps r21 E (skipn 11 si_prelude)), !(dens_keeps r22 E (skipn 11 si_prelude)) by reflexivity.
  rewrite !(proj1 (clamp2 _ _)), !(proj2 (clamp2 _ _)).
  cbn [firstn skipn si_prelude dens den1].
  set (t1 := upd (upd (upd (args zm m s) x_ x) res _) chi_mean _).
  assert (t1 chi_mean = chi /\ t1 mu = m /\ t1 sep = s /\ t1 x_ = x) as (K1 & K2 & K3 & K4)
    by (repeat split).
  clearbody t1.
  set (t2 := upd (upd t1 chi1 _) chi2 _).
  assert (t2 chi1 = c1 /\ t2 chi2 = c2 /\ t2 chi_mean = chi /\ t2 mu = m /\ t2 sep = s /\ t2 x_ = x)
    as (L1 & L2 & L3 & L4 & L5 & L6).
  { subst t2. unfold upd. cbn [var_beq eval]. rewrite K1, K2, K3. repeat split; assumption || reflexivity. }
  clearbody t2. clear t1 K1 K2 K3 K4.
  set (t3 := upd t2 costheta _).
  assert (t3 chi1 = c1 /\ t3 chi2 = c2 /\ t3 costheta = c /\ t3 x_ = x) as (K1 & K2 & K3 & K4).
  { subst t3. unfold upd. cbn [var_beq eval]. rewrite L3, L4, L5. repeat split; assumption || reflexivity. }
  clearbody t3. clear t2 L1 L2 L3 L4 L5 L6.
  set (t4 := upd (upd t3 lambda1 _) lambda2 _).
  assert (t4 chi1 = c1 /\ t4 chi2 = c2 /\ t4 costheta = c /\ t4 lambda1 = c1 * x /\ t4 lambda2 = c2 * x)
    as (L1 & L2 & L3 & L4 & L5).
  { subst t4. unfold upd. cbn [var_beq eval]. rewrite K1, K2, K3, K4. repeat split; assumption || reflexivity. }
  clearbody t4. clear t3 K1 K2 K3 K4.
  set (t5 := upd (upd t4 r21 _) r22 _).
  assert (t5 r21 = c2 * x * (c2 * x) + c1 * c1 - 2 * c1 * (c2 * x) * c /\
          t5 r22 = c1 * x * (c1 * x) + c2 * c2 - 2 * c2 * (c1 * x) * c) as (<- & <-).
  { subst t5. unfold upd. cbn [var_beq eval]. rewrite L1, L2, L3, L4, L5. repeat split; assumption || reflexivity. }
  clearbody t5. clear t4 L1 L2 L3 L4 L5.
  split; reflexivity.
Qed.

Lemma kept_nonzero : forall r, 0 < r -> Reqb (kept r) 0 = false.
Proof.
  intros r H. unfold kept, Rltb, Reqb. destruct (Rlt_dec r 0); [lra|].
  destruct (Req_EM_T r 0); [lra|reflexivity].
Qed.

Lemma separated : forall a b c, 0 < a -> 0 < b -> c < 1 ->
  0 < b * b + a * a - 2 * a * b * c.
Proof.
  intros a b c Ha Hb Hc.
  assert (0 < a * b) by (apply Rmult_lt_0_compat; assumption).
  assert (0 < a * b * (1 - c)) by (apply Rmult_lt_0_compat; lra).
  assert (0 <= (b - a) * (b - a)) by (apply Rle_0_sqr). nra.
Qed.

Lemma si_nonzero : forall E zm m s x,
  0 < s < 2 * spl E bg_comoving_distance zm -> -1 < m < 1 -> interior x ->
  sep_nonzero (dens E (upd (args zm m s) x_ x) si_prelude).
Proof.
  intros E zm m s x [Hs Hc] Hm [Hx _]. destruct (si_r2 E zm m s x) as [A B].
  unfold sep_nonzero. rewrite A, B. clear A B.
  set (chi := spl E bg_comoving_distance zm) in *. clearbody chi.
  assert (0 < chi - s * m / 2) as P1 by nra.
  assert (0 < chi + s * m / 2) as P2 by nra.
  assert (0 < 2 * chi * chi - m * m * s * s / 2) as PD.
  { replace (2 * chi * chi - m * m * s * s / 2)
      with (2 * ((chi - s * m / 2) * (chi + s * m / 2))) by field.
    apply Rmult_lt_0_compat; [lra|]. apply Rmult_lt_0_compat; assumption. }
  assert ((2 * chi * chi - s * s + m * m * s * s / 2) / (2 * chi * chi - m * m * s * s / 2) < 1) as C.
  { apply Rmult_lt_reg_r with (1 := PD). unfold Rdiv at 1. rewrite Rmult_assoc, Rinv_l by lra.
    assert (0 < s * s) by nra. assert (m * m < 1) by nra.
    assert (m * m * s * s < s * s) by nra. lra. }
  split; apply kept_nonzero; apply separated; try assumption; apply Rmult_lt_0_compat; assumption.
Qed.

(** ** Legendre polynomials *)
Lemma legendre_SS : forall n u, legendre (S (S n)) u =
  ((2 * INR (S n) + 1) * u * legendre (S n) u - INR (S n) * legendre n u) / INR (S (S n)).
Proof. reflexivity. Qed.
Lemma legendre_parity2 : forall n u,
  legendre n (- u) = (-1) ^ n * legendre n u /\
  legendre (S n) (- u) = (-1) ^ (S n) * legendre (S n) u.
Proof.
  induction n as [|n IH]; intros u.
  - split; cbn; ring.
  - destruct (IH u) as [A B]. split; [exact B|].
    rewrite !legendre_SS, A, B. generalize (legendre n u), (legendre (S n) u). intros a b.
    generalize (INR (S (S n))), (INR (S n)). intros i j. cbn [pow]. unfold Rdiv. ring.
Qed.
Lemma legendre_parity : forall n u, legendre n (- u) = (-1) ^ n * legendre n u.
Proof. intros. apply legendre_parity2. Qed.

Lemma leg_factor_parity : forall l m, leg_factor l (- m) = (-1) ^ l * leg_factor l m.
Proof.
  intros. unfold leg_factor. destruct (Nat.eqb l 0) eqn:L.
  - apply Nat.eqb_eq in L. subst. cbn. ring.
  - apply legendre_parity.
Qed.

(** Specification or proof only; nothing in the code. *)
Definition sgn (l : nat) : R := (-1) ^ l.
Lemma sgn_even : forall l, Nat.even l = true -> sgn l = 1.
Proof.
  intros l H. apply Nat.even_spec in H. destruct H as [k ->]. unfold sgn. apply pow_1_even.
Qed.

Lemma flat_den_len_exchange : forall E zm s l,
  value (flat_den_len (exchange E) zm s l) = sgn l * value (flat_den_len E zm s l).
Proof.
  intros. unfold flat_den_len. cbv zeta. cbn [exchange sw spl tab1 tab2 present par_h omega_cdm omega_baryon].
  destruct (Nat.even l) eqn:EV.
  - rewrite sgn_even by exact EV. rewrite Rmult_1_l.
    destruct (forallb _ _); [|reflexivity]. cbn [value].
    rewrite (Rplus_comm (_ * spl E par_galaxy_bias1 zm)). reflexivity.
  - cbn [value]. unfold Rdiv. ring.
Qed.
Lemma flat_len_len_exchange : forall E zm s l x,
  value (flat_len_len (exchange E) zm s l x) = value (flat_len_len E zm s l x).
Proof.
  intros. unfold flat_len_len. cbv zeta. cbn [exchange sw spl tab1 tab2 present par_h omega_cdm omega_baryon].
  destruct (present E _); [|reflexivity]. cbn [value].
  assert (forall a b c, a * b * c = a * c * b) as W by (intros; ring).
  rewrite (W _ (2 - 5 * spl E par_magnification_bias2 zm)). reflexivity.
Qed.

(** ** Quadratures *)
#[local] Opaque nonintegrated single_integrated double_integrated flat_den_len flat_len_len.

(** Specification or proof only; nothing in the code. *)
Record exchangeable (E : env) : Prop := {
  xc_present : forall k, present E k = true;
  xc_deriv : no_derivatives E;
  xc_ren : symmetric_renormalization E;
  xc_d1_len : con E d1 && con E len = false;
  xc_one : one_potential E }.

Lemma coord_flip : forall v i, (i < length v)%nat -> coord (flip i v) i = 1 - coord v i.
Proof.
  intros v i H. unfold flip. generalize (1 - coord v i). intros y. unfold coord.
  revert i H. induction v as [|a v IH]; intros i H; cbn in *; [lia|].
  destruct i; [reflexivity|]. apply IH. lia.
Qed.
Lemma coord_set_other : forall v i j y, i <> j -> coord (set_nth i y v) j = coord v j.
Proof.
  unfold coord. induction v as [|a v IH]; intros i j y H; [reflexivity|].
  destruct i, j; cbn; try reflexivity; try lia. apply IH. lia.
Qed.
Lemma coord_set_same : forall v i y, (i < length v)%nat -> coord (set_nth i y v) i = y.
Proof.
  unfold coord. induction v as [|a v IH]; intros i y H; cbn in *; [lia|].
  destruct i; [reflexivity|]. apply IH. lia.
Qed.
Lemma length_set : forall v i y, length (set_nth i y v) = length v.
Proof. induction v; intros [|i] y; cbn; auto. Qed.
Lemma coord_transpose_l : forall v i j, (i < length v)%nat -> coord (transpose i j v) i = coord v j.
Proof. intros. unfold transpose. apply coord_set_same. rewrite length_set. assumption. Qed.
Lemma coord_transpose_r : forall v i j, i <> j -> (j < length v)%nat -> coord (transpose i j v) j = coord v i.
Proof.
  intros. unfold transpose. rewrite coord_set_other by assumption. apply coord_set_same. assumption.
Qed.
Lemma coord_transpose_o : forall v i j k, i <> k -> j <> k -> coord (transpose i j v) k = coord v k.
Proof. intros. unfold transpose. rewrite !coord_set_other by assumption. reflexivity. Qed.

Lemma coord_interior : forall v i, Forall interior v -> (i < length v)%nat -> interior (coord v i).
Proof.
  intros v i F H. unfold coord. rewrite Forall_forall in F. apply F. apply nth_In. exact H.
Qed.

Section Signal.
Variable Q : quadrature.
Hypothesis HQ : invariant Q.
Variable E : env.
Hypothesis X : exchangeable E.
Variable p : point.
Hypothesis P : sw E pk_nonlinear = false \/ observer_outside E p.


Lemma q1_flip : forall k f g c, (forall x, interior x -> value (f (1 - x)) = c * value (g x)) ->
  run Q (Quad1 k f) = c * run Q (Quad1 k g).
Proof.
  intros k f g c H. cbn [run].
  rewrite <- (in_flip1 Q HQ), (in_same1 Q HQ _ (fun x => c * value (g x)) H), (in_mul1 Q HQ). ring.
Qed.
Lemma qn_flip : forall d i k f g c, (i < d)%nat ->
  (forall v, length v = d -> Forall interior v -> value (f (flip i v)) = c * value (g v)) ->
  run Q (QuadN d k f) = c * run Q (QuadN d k g).
Proof.
  intros d i k f g c L H. cbn [run].
  rewrite <- (in_flipn Q HQ d i) by exact L.
  rewrite (in_samen Q HQ d _ (fun x => c * value (g x)) H), (in_muln Q HQ). ring.
Qed.
Lemma qn_flip_transpose : forall d i a b k f g c, (i < d)%nat -> (a < d)%nat -> (b < d)%nat ->
  (forall v, length v = d -> Forall interior v ->
     value (f (flip i (transpose a b v))) = c * value (g v)) ->
  run Q (QuadN d k f) = c * run Q (QuadN d k g).
Proof.
  intros d i a b k f g c L La Lb H. cbn [run].
  rewrite <- (in_flipn Q HQ d i) by exact L.
  rewrite <- (in_transn Q HQ d a b) by assumption.
  rewrite (in_samen Q HQ d _ (fun x => c * value (g x)) H), (in_muln Q HQ). ring.
Qed.

Lemma opp_mu : forall x, 2 * (1 - x) - 1 = - (2 * x - 1).
Proof. intros. ring. Qed.
Lemma mu_in : forall x, interior x -> -1 < 2 * x - 1 < 1.
Proof. unfold interior. intros. lra. Qed.

Lemma av_z_exchange : forall u, av_z (exchange E) p u = av_z E p u.
Proof. reflexivity. Qed.
Lemma av_weight_exchange : forall z, av_weight (exchange E) z = av_weight E z.
Proof. reflexivity. Qed.

Lemma ni_run_exchange : forall l, p_l p = l ->
  run Q (coffe_integrate (exchange E) p NonIntegrated Multipoles)
  = sgn l * run Q (coffe_integrate E p NonIntegrated Multipoles) /\
  run Q (coffe_integrate (exchange E) p NonIntegrated AverageMultipoles)
  = sgn l * run Q (coffe_integrate E p NonIntegrated AverageMultipoles).
Proof.
  intros l <-. unfold coffe_integrate. change (local_on (exchange E)) with (local_on E).
  destruct (negb (local_on E)); [cbn [run]; rewrite Rmult_0_r; split; reflexivity|].
  split.
  - apply q1_flip. intros x Hx. cbv zeta. rewrite !value_times_legendre, opp_mu, leg_factor_parity.
    rewrite ni_exchange by apply X. unfold sgn. ring.
  - apply (qn_flip 2 1); [lia|]. intros v L F. cbv zeta.
    rewrite !value_scale, !value_times_legendre, coord_flip, opp_mu, leg_factor_parity by lia.
    unfold flip. rewrite (coord_set_other v 1 0) by lia.
    rewrite ni_exchange by apply X.
    rewrite av_z_exchange, av_weight_exchange. unfold sgn. ring.
Qed.

Lemma si_point : forall z m x, interior x -> -1 < m < 1 ->
  (z = p_z p \/ exists u, interior u /\ z = av_z E p u) ->
  value (single_integrated (exchange E) z (- m) (p_sep p) x)
  = value (single_integrated E z m (p_sep p) x).
Proof.
  intros z m x Hx Hm Hz. apply si_exchange; try apply X.
  destruct P as [P'|(P0 & P1 & P2)]; [left; exact P'|right].
  apply si_nonzero; try assumption. split; [assumption|].
  destruct Hz as [->|(u & Hu & ->)]; auto.
Qed.

Lemma si_run_exchange : forall l, p_l p = l ->
  run Q (coffe_integrate (exchange E) p SingleIntegrated Multipoles)
  = sgn l * run Q (coffe_integrate E p SingleIntegrated Multipoles) /\
  run Q (coffe_integrate (exchange E) p SingleIntegrated AverageMultipoles)
  = sgn l * run Q (coffe_integrate E p SingleIntegrated AverageMultipoles).
Proof.
  intros l <-. unfold coffe_integrate. change (single_on (exchange E)) with (single_on E).
  change (single_full_on (exchange E)) with (single_full_on E).
  destruct (negb (single_on E)); [cbn [run]; rewrite Rmult_0_r; split; reflexivity|].
  split.
  - cbn [run]. rewrite Rmult_plus_distr_l. apply f_equal2.
    + change (con (exchange E)) with (con E). change (sw (exchange E)) with (sw E).
      destruct (_ && _ && _); [|cbn [run]; ring]. destruct (con E den); [|cbn [run]; ring].
      cbn [run]. rewrite flat_den_len_exchange. ring.
    + destruct (single_full_on E); [|cbn [run]; ring].
      apply (qn_flip 2 0); [lia|]. intros v L F. cbv zeta.
      rewrite !value_times_legendre, coord_flip, opp_mu, leg_factor_parity by lia.
      unfold flip. rewrite (coord_set_other v 0 1) by lia.
      rewrite si_point; [unfold sgn; ring| | |left; reflexivity].
      * apply coord_interior; [assumption|lia].
      * apply mu_in. apply coord_interior; [assumption|lia].
  - apply (qn_flip 3 1); [lia|]. intros v L F. cbv zeta.
    rewrite !value_scale, !value_times_legendre, coord_flip, opp_mu, leg_factor_parity by lia.
    unfold flip. rewrite (coord_set_other v 1 0), (coord_set_other v 1 2) by lia.
    rewrite av_z_exchange, av_weight_exchange.
    rewrite si_point; [unfold sgn; ring| | |right; exists (coord v 0); split; [|reflexivity]].
    + apply coord_interior; [assumption|lia].
    + apply mu_in. apply coord_interior; [assumption|lia].
    + apply coord_interior; [assumption|lia].
Qed.

Lemma di_point : not_flat E -> forall z m s x y,
  value (double_integrated (exchange E) z (- m) s y x)
  = value (double_integrated E z m s x y).
Proof. intros N z m s x y. apply di_exchange_lensing; try assumption; apply X. Qed.

Lemma di_run_exchange : not_flat E -> forall l, p_l p = l ->
  (sw E output_multipoles = true ->
  run Q (coffe_integrate (exchange E) p DoubleIntegrated Multipoles)
  = sgn l * run Q (coffe_integrate E p DoubleIntegrated Multipoles)) /\
  run Q (coffe_integrate (exchange E) p DoubleIntegrated AverageMultipoles)
  = sgn l * run Q (coffe_integrate E p DoubleIntegrated AverageMultipoles).
Proof.
  intros N l <-. unfold coffe_integrate. change (integrated_on (exchange E)) with (integrated_on E).
  destruct (negb (integrated_on E)); [cbn [run]; rewrite Rmult_0_r; split; reflexivity|].
  split.
  - intros OM. cbn [run]. rewrite Rmult_plus_distr_l. apply f_equal2.
    + change (con (exchange E)) with (con E). change (sw (exchange E)) with (sw E).
      destruct (Nat.even (p_l p)) eqn:EV; [|rewrite andb_false_r; cbn [run]; ring].
      destruct (_ && true); [|cbn [run]; ring].
      cbn [run]. rewrite sgn_even by exact EV.
      rewrite (in_same1 Q HQ _ _ (fun x _ => flat_len_len_exchange E (p_z p) (p_sep p) (p_l p) x)). ring.
    + change (con (exchange E)) with (con E). change (sw (exchange E)) with (sw E).
      destruct (_ || _); [|cbn [run]; ring].
      apply (qn_flip_transpose 3 0 1 2); [lia..|]. intros v L F. cbv zeta.
      assert (length (transpose 1 2 v) = 3%nat) as L' by (unfold transpose; rewrite !length_set; assumption).
      rewrite !value_times_legendre, coord_flip by lia.
      rewrite (coord_transpose_o v 1 2 0), opp_mu, leg_factor_parity by lia.
      unfold flip. rewrite (coord_set_other _ 0 1), (coord_set_other _ 0 2) by lia.
      rewrite coord_transpose_l, coord_transpose_r by lia.
      rewrite (di_point N). unfold sgn. ring.
  - apply (qn_flip_transpose 4 1 2 3); [lia..|]. intros v L F. cbv zeta.
    assert (length (transpose 2 3 v) = 4%nat) as L' by (unfold transpose; rewrite !length_set; assumption).
    rewrite !value_scale, !value_times_legendre, coord_flip by lia.
    rewrite (coord_transpose_o v 2 3 1), opp_mu, leg_factor_parity by lia.
    unfold flip. rewrite !(coord_set_other _ 1 0), (coord_set_other _ 1 2), (coord_set_other _ 1 3) by lia.
    rewrite coord_transpose_l, coord_transpose_r, (coord_transpose_o v 2 3 0) by lia.
    rewrite (di_point N), av_z_exchange, av_weight_exchange. unfold sgn. ring.
Qed.

Lemma signal_exchange_multipoles : sw E output_multipoles = true ->
  signal Q (exchange E) p Multipoles = (-1) ^ p_l p * signal Q E p Multipoles.
Proof.
  intros OM. unfold signal.
  rewrite (proj1 (ni_run_exchange _ eq_refl)), (proj1 (si_run_exchange _ eq_refl)).
  rewrite (proj1 (di_run_exchange (or_intror OM) _ eq_refl) OM). unfold sgn. ring.
Qed.
Lemma signal_exchange_average : not_flat E ->
  signal Q (exchange E) p AverageMultipoles = (-1) ^ p_l p * signal Q E p AverageMultipoles.
Proof.
  intros N. unfold signal.
  rewrite (proj2 (ni_run_exchange _ eq_refl)), (proj2 (si_run_exchange _ eq_refl)).
  rewrite (proj2 (di_run_exchange N _ eq_refl)). unfold sgn. ring.
Qed.

Lemma signal_exchange_corrfunc : not_flat E -> -1 < p_mu p < 1 ->
  signal Q (exchange E) (reversed p) Corrfunc = signal Q E p Corrfunc.
Proof.
  intros N M. unfold signal, coffe_integrate.
  change (local_on (exchange E)) with (local_on E).
  change (single_on (exchange E)) with (single_on E).
  change (integrated_on (exchange E)) with (integrated_on E).
  cbn [reversed p_z p_mu p_sep].
  apply f_equal2; [apply f_equal2|].
  - destruct (negb (local_on E)); [reflexivity|]. cbn [run]. rewrite ni_exchange by apply X. reflexivity.
  - destruct (negb (single_on E)); [reflexivity|]. cbn [run]. apply f_equal.
    apply (in_same1 Q HQ). intros x Hx. apply si_point; auto.
  - destruct (negb (integrated_on E)); [reflexivity|]. cbn [run]. apply f_equal.
    rewrite <- (in_transn Q HQ 2 0 1) by lia. apply (in_samen Q HQ). intros v L F.
    rewrite coord_transpose_l, coord_transpose_r by lia. apply di_point. exact N.
Qed.
End Signal.
