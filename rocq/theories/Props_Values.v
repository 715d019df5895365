(** * C77: the tables hold the integrals they stand for *)
From Coq Require Import ZArith QArith Qreals Reals List Lia Lra Bool Arith.
From Coquelicot Require Import Coquelicot.
From Coq Require Import List.
From Verif Require Import Arrays Numeric Props_Numeric Fft Props_Fft Background Tables Props_Tables.
Import ListNotations.
Open Scope R_scope.

(** ** Specification *)

(** Poisson's integrals of the Bessel functions (DLMF 10.54.1 and 10.9.4). *)
Definition poisson (p : nat) (x : R) : R := RInt (fun t => cos (x * cos t) * sin t ^ p) 0 PI.
Definition spherical_bessel (l : nat) (x : R) : R :=
  x ^ l / (2 ^ (l + 1) * INR (fact l)) * poisson (2 * l + 1) x.
Definition odd_factorial (m : nat) : R := INR (fact (2 * m)) / (2 ^ m * INR (fact m)).
Definition cylindrical_bessel (m : nat) (x : R) : R := x ^ m / (odd_factorial m * PI) * poisson (2 * m) x.

(** An order is an integer [l >= 0] or a half-integer [l/2] with [l >= -1] odd; the
    spherical Bessel function of half-integer order is
    [sqrt(pi/(2x)) J_{order+1/2}(x)]. *)
Definition order (s : istate) (l : Z) : R := match s with Integer => IZR l | HalfInteger => IZR l / 2 end.
Definition bessel_order (s : istate) (l : Z) : Prop :=
  match s with Integer => (0 <= l)%Z | HalfInteger => Z.Odd l /\ (-1 <= l)%Z end.
Definition bessel (s : istate) (l : Z) (x : R) : R :=
  match s with
  | Integer => spherical_bessel (Z.to_nat l) x
  | HalfInteger => sqrt (PI / (2 * x)) * cylindrical_bessel (Z.to_nat ((l + 1) / 2)) x
  end.

(** [I^n_l(r)], over the wavenumbers between [a] and [b], and what a table holds:
    [r^(n-l) I^n_l(r)] if [l <= n], else [I^n_l(r)]. *)
Definition integral (P : R -> R) (s : istate) (n l : Z) (a b r : R) : R :=
  RInt (fun k => k ^ 2 * P k * bessel s l (k * r) / Rpower (k * r) (order s n)) a b / (2 * PI ^ 2).
Definition tabulated (P : R -> R) (s : istate) (n l : Z) (a b r : R) : R :=
  if (l <=? n)%Z then Rpower r (order s n - order s l) * integral P s n l a b r
  else integral P s n l a b r.

(** A quadrature that is exact for continuous functions, and GSL's special
    functions at the points where the tables need them. *)
Definition exact_ext (E : tab_ext) : Prop :=
  (forall f a b, a <= b -> (forall x, a <= x <= b -> continuous f x) -> t_quad E f a b = RInt f a b) /\
  (forall l x, 0 < x -> t_jl E (Z.of_nat l) x = spherical_bessel l x) /\
  (forall m x, 0 < x -> t_Jn E (Z.of_nat m) x = cylindrical_bessel m x) /\
  (forall m, t_gamma E (INR m + 1) = INR (fact m)) /\
  (forall m, t_gamma E (INR m + 1 / 2) = sqrt PI * INR (fact (2 * m)) / (4 ^ m * INR (fact m))) /\
  (forall x, t_j0 E x = if Req_EM_T x 0 then 1 else sin x / x).

(** ** The Bessel functions *)
Ltac asR := match goal with |- ?a = ?b => change (@eq R a b) end.

Lemma poisson_cont : forall p x t, continuous (fun t => cos (x * cos t) * sin t ^ p) t.
Proof.
  intros p x t. apply (ex_derive_continuous (K := R_AbsRing) (V := R_NormedModule)). auto_derive. exact I.
Qed.
Lemma poisson_ex : forall p x, ex_RInt (fun t => cos (x * cos t) * sin t ^ p) 0 PI.
Proof. intros. apply (ex_RInt_continuous (V := R_CompleteNormedModule)). intros. apply poisson_cont. Qed.
Definition poisson_sin (p : nat) (x : R) : R := RInt (fun t => sin (x * cos t) * cos t * sin t ^ p) 0 PI.
Lemma poisson_sin_ex : forall p x, ex_RInt (fun t => sin (x * cos t) * cos t * sin t ^ p) 0 PI.
Proof.
  intros. apply (ex_RInt_continuous (V := R_CompleteNormedModule)). intros.
  apply (ex_derive_continuous (K := R_AbsRing) (V := R_NormedModule)). auto_derive. exact I.
Qed.

Lemma ends : forall (f df : R -> R), (forall t, is_derive f t (df t)) -> (forall t, continuous df t) ->
  f 0 = 0 -> f PI = 0 -> RInt df 0 PI = 0.
Proof.
  intros f df D C A B. apply is_RInt_unique.
  assert (H : is_RInt df 0 PI (minus (f PI) (f 0))).
  { apply (is_RInt_derive (V := R_CompleteNormedModule)); intros; auto. }
  rewrite A, B in H. unfold minus, plus, opp in H. cbn in H. replace (0 + - 0) with 0 in H by lra. exact H.
Qed.

Lemma lin2 : forall (f g : R -> R) a b, ex_RInt f 0 PI -> ex_RInt g 0 PI ->
  RInt (fun t => a * f t + b * g t) 0 PI = a * RInt f 0 PI + b * RInt g 0 PI.
Proof.
  intros f g a b F G. apply is_RInt_unique.
  apply (is_RInt_plus (V := R_CompleteNormedModule) (fun t => a * f t) (fun t => b * g t)).
  - apply (is_RInt_scal (V := R_CompleteNormedModule)), (RInt_correct (V := R_CompleteNormedModule)), F.
  - apply (is_RInt_scal (V := R_CompleteNormedModule)), (RInt_correct (V := R_CompleteNormedModule)), G.
Qed.

Lemma by_parts_1 : forall q x, x * poisson (q + 2) x = INR (S q) * poisson_sin q x.
Proof.
  intros q x.
  assert (H : RInt (fun t => - x * (cos (x * cos t) * sin t ^ (q + 2)) + INR (S q) * (sin (x * cos t) * cos t * sin t ^ q)) 0 PI = 0).
  { apply (ends (fun t => sin (x * cos t) * sin t ^ (S q))).
    - intros t. auto_derive; [exact I|].
      replace (q + 2)%nat with (S (S q)) by lia. cbn [pred pow].
      change (match q with 0%nat => 1 | S _ => INR q + 1 end) with (INR (S q)). ring.
    - intros t. apply (ex_derive_continuous (K := R_AbsRing) (V := R_NormedModule)). auto_derive. exact I.
    - rewrite sin_0, pow_ne_zero by lia. ring.
    - rewrite sin_PI, pow_ne_zero by lia. ring. }
  pose proof (lin2 _ _ (- x) (INR (S q)) (poisson_ex (q + 2) x) (poisson_sin_ex q x)) as L. cbv beta in L.
  rewrite L in H. unfold poisson, poisson_sin. lra.
Qed.

Lemma by_parts_2 : forall q x, x * poisson_sin (q + 2) x = INR (q + 2) * poisson (q + 2) x - INR (S q) * poisson q x.
Proof.
  intros q x.
  assert (H : RInt (fun t => 1 * (x * (sin (x * cos t) * cos t * sin t ^ (q + 2)) + - INR (q + 2) * (cos (x * cos t) * sin t ^ (q + 2)))
                             + INR (S q) * (cos (x * cos t) * sin t ^ q)) 0 PI = 0).
  { apply (ends (fun t => cos (x * cos t) * cos t * sin t ^ (S q))).
    - intros t. auto_derive; [exact I|].
      assert (C : cos t ^ 2 = 1 - sin t ^ 2) by (pose proof (sin2_cos2 t) as Q; unfold Rsqr in Q; nra).
      replace (q + 2)%nat with (S (S q)) by lia. cbn [pred].
      change (match q with 0%nat => 1 | S _ => INR q + 1 end) with (INR (S q)). rewrite !S_INR.
      set (P1 := sin t ^ S (S q)). set (P0 := sin t ^ q).
      assert (E1 : P1 = sin t ^ 2 * P0) by (unfold P1, P0; cbn [pow]; ring).
      replace (sin t ^ S q) with (sin t * P0) by (unfold P0; cbn [pow]; ring).
      match goal with |- ?l = ?r => replace l with (x * (sin (x * cos t) * cos t * (sin t ^ 2 * P0)) - cos (x * cos t) * (sin t ^ 2 * P0)
        + cos (x * cos t) * (cos t ^ 2) * (INR q + 1) * P0) by (cbn [pow]; ring) end.
      rewrite C, E1. ring.
    - intros t. apply (ex_derive_continuous (K := R_AbsRing) (V := R_NormedModule)). auto_derive. exact I.
    - rewrite sin_0, pow_ne_zero by lia. ring.
    - rewrite sin_PI, pow_ne_zero by lia. ring. }
  assert (X : ex_RInt (fun t => x * (sin (x * cos t) * cos t * sin t ^ (q + 2)) + - INR (q + 2) * (cos (x * cos t) * sin t ^ (q + 2))) 0 PI).
  { apply (ex_RInt_continuous (V := R_CompleteNormedModule)). intros t _.
    apply (ex_derive_continuous (K := R_AbsRing) (V := R_NormedModule)). auto_derive. exact I. }
  pose proof (lin2 _ _ 1 (INR (S q)) X (poisson_ex q x)) as L. cbv beta in L. rewrite L in H. clear L.
  pose proof (lin2 _ _ x (- INR (q + 2)) (poisson_sin_ex (q + 2) x) (poisson_ex (q + 2) x)) as L. cbv beta in L.
  rewrite L in H. unfold poisson, poisson_sin. lra.
Qed.

(** The first spherical Bessel function and the recurrence of the textbooks. *)
Lemma spherical_bessel_0 : forall x, x <> 0 -> spherical_bessel 0 x = sin x / x.
Proof.
  intros x N. unfold spherical_bessel, poisson. cbn [Nat.mul Nat.add].
  assert (H : is_RInt (fun t => cos (x * cos t) * sin t ^ 1) 0 PI (minus (- sin (x * cos PI) / x) (- sin (x * cos 0) / x))).
  { apply (is_RInt_derive (V := R_CompleteNormedModule) (fun t => - sin (x * cos t) / x)).
    - intros t _. auto_derive; [exact I|]. field. exact N.
    - intros t _. apply poisson_cont. }
  apply (is_RInt_unique (V := R_CompleteNormedModule)) in H. unfold minus, plus, opp in H. cbn -[pow] in H.
  etransitivity; [apply f_equal; exact H|]. rewrite cos_PI, cos_0. replace (x * -1) with (- x) by ring.
  rewrite sin_neg. replace (x * 1) with x by ring. cbn. field. exact N.
Qed.
Lemma spherical_bessel_rec : forall l x, x <> 0 ->
  spherical_bessel (S (S l)) x = INR (2 * l + 3) / x * spherical_bessel (S l) x - spherical_bessel l x.
Proof.
  intros l x N. unfold spherical_bessel.
  replace (2 * S (S l) + 1)%nat with ((2 * l + 3) + 2)%nat by lia.
  replace (2 * S l + 1)%nat with (2 * l + 1 + 2)%nat by lia.
  pose proof (by_parts_1 (2 * l + 3) x) as A. pose proof (by_parts_2 (2 * l + 1) x) as B.
  replace (2 * l + 1 + 2)%nat with (2 * l + 3)%nat in * by lia.
  set (a := poisson (2 * l + 3 + 2) x) in *. set (b := poisson (2 * l + 3) x) in *.
  set (c := poisson (2 * l + 1) x) in *. set (d := poisson_sin (2 * l + 3) x) in *.
  replace (S (2 * l + 3)) with (2 * (l + 2))%nat in A by lia. replace (S (2 * l + 1)) with (2 * (l + 1))%nat in B by lia.
  rewrite !mult_INR, !plus_INR in A. rewrite !plus_INR, !mult_INR in B. rewrite !plus_INR, !mult_INR.
  change (fact (S (S l))) with (S (S l) * fact (S l))%nat. change (fact (S l)) with (S l * fact l)%nat.
  rewrite !mult_INR, !S_INR. replace (INR 2) with 2 in * by (cbn; ring). replace (INR 3) with 3 in * by (cbn; ring).
  replace (INR 1) with 1 in * by reflexivity. rewrite !plus_INR in B. replace (INR 1) with 1 in * by reflexivity.
  pose proof (pos_INR l) as Pl. pose proof (INR_fact_neq_0 l) as Pf. pose proof (pow_nonzero 2 l ltac:(lra)) as P2.
  replace (2 ^ (S (S l) + 1)) with (8 * 2 ^ l) by (rewrite pow_add; cbn; ring).
  replace (2 ^ (S l + 1)) with (4 * 2 ^ l) by (rewrite pow_add; cbn; ring).
  replace (2 ^ (l + 1)) with (2 * 2 ^ l) by (rewrite pow_add; cbn; ring).
  cbn [pow].
  assert (A2 : x * (x * a) = 2 * (INR l + 2) * ((2 * INR l + 3) * b - 2 * (INR l + 1) * c)) by (rewrite A, <- B; ring).
  assert (G : forall u v, x * x * u = x * x * v -> u = v).
  { intros u v Q. apply (Rmult_eq_reg_l (x * x)); [exact Q|]. apply Rmult_integral_contrapositive_currified; exact N. }
  replace (x * (x * x ^ l) / (8 * 2 ^ l * ((INR l + 1 + 1) * ((INR l + 1) * INR (fact l)))) * a)
    with (x ^ l / (8 * 2 ^ l * ((INR l + 1 + 1) * ((INR l + 1) * INR (fact l)))) * (x * (x * a)))
    by (field; repeat split; lra).
  rewrite A2. change (INR 0) with 0. field. repeat split; lra.
Qed.

Lemma cos_lip : forall u v, Rabs (cos u - cos v) <= Rabs (u - v).
Proof.
  intros u v. destruct (MVT_gen cos v u (fun t => - sin t)) as (c & _ & E).
  - intros t _. auto_derive; [exact I|ring].
  - intros t _. apply continuity_cos.
  - rewrite E, Rabs_mult, Rabs_Ropp. pose proof (SIN_bound c) as B. rewrite <- (Rmult_1_l (Rabs (u - v))) at 2.
    apply Rmult_le_compat_r; [apply Rabs_pos|]. apply Rabs_le. lra.
Qed.
Lemma poisson_lip : forall p x y, Rabs (poisson p x - poisson p y) <= PI * Rabs (x - y).
Proof.
  intros p x y. pose proof PI_RGT_0 as Pp.
  pose proof (lin2 _ _ 1 (-1) (poisson_ex p x) (poisson_ex p y)) as L. cbv beta in L. fold (poisson p x) (poisson p y) in L.
  replace (poisson p x - poisson p y) with (1 * poisson p x + -1 * poisson p y) by ring. rewrite <- L.
  replace (PI * Rabs (x - y)) with ((PI - 0) * Rabs (x - y)) by ring.
  apply abs_RInt_le_const; [lra| |].
  - apply (ex_RInt_continuous (V := R_CompleteNormedModule)). intros t _.
    apply (ex_derive_continuous (K := R_AbsRing) (V := R_NormedModule)). auto_derive. exact I.
  - intros t _. replace (1 * (cos (x * cos t) * sin t ^ p) + -1 * (cos (y * cos t) * sin t ^ p))
      with ((cos (x * cos t) - cos (y * cos t)) * sin t ^ p) by ring.
    rewrite Rabs_mult. rewrite <- (Rmult_1_r (Rabs (x - y))). apply Rmult_le_compat; try apply Rabs_pos.
    + eapply Rle_trans; [apply cos_lip|]. replace (x * cos t - y * cos t) with ((x - y) * cos t) by ring.
      rewrite Rabs_mult. rewrite <- (Rmult_1_r (Rabs (x - y))) at 2. apply Rmult_le_compat_l; [apply Rabs_pos|].
      pose proof (COS_bound t). apply Rabs_le. lra.
    + rewrite <- RPow_abs. rewrite <- (pow1 p). apply pow_incr. split; [apply Rabs_pos|].
      pose proof (SIN_bound t). apply Rabs_le. lra.
Qed.

Lemma poisson_00 : poisson 0 0 = PI.
Proof.
  unfold poisson. rewrite (RInt_ext _ (fun _ => 1)).
  - rewrite RInt_const. unfold scal. cbn. unfold mult. cbn. ring.
  - intros t _. rewrite Rmult_0_l, cos_0. cbn. ring.
Qed.
Lemma poisson_10 : poisson 1 0 = 2.
Proof.
  unfold poisson.
  assert (H : is_RInt (fun t => cos (0 * cos t) * sin t ^ 1) 0 PI (minus (- cos PI) (- cos 0))).
  { apply (is_RInt_derive (V := R_CompleteNormedModule) (fun t => - cos t)).
    - intros t _. auto_derive; [exact I|]. rewrite Rmult_0_l, cos_0. ring.
    - intros t _. apply poisson_cont. }
  rewrite cos_PI, cos_0 in H. unfold minus, plus, opp in H. cbn -[pow] in H.
  replace 2 with (- -1 + - -1) by ring. apply (is_RInt_unique (V := R_CompleteNormedModule)). exact H.
Qed.
Lemma wallis : forall q, INR (q + 2) * poisson (q + 2) 0 = INR (S q) * poisson q 0.
Proof. intros q. pose proof (by_parts_2 q 0) as H. rewrite Rmult_0_l in H. lra. Qed.

Lemma fact_2 : forall m, INR (fact (2 * S m)) = (2 * INR m + 2) * (2 * INR m + 1) * INR (fact (2 * m)).
Proof.
  intros m. replace (2 * S m)%nat with (S (S (2 * m))) by lia.
  change (fact (S (S (2 * m)))) with (S (S (2 * m)) * (S (2 * m) * fact (2 * m)))%nat.
  rewrite !mult_INR, !S_INR, !mult_INR. replace (INR 2) with 2 by (cbn; ring). ring.
Qed.
Lemma fact_1 : forall m, INR (fact (S m)) = (INR m + 1) * INR (fact m).
Proof. intros m. change (fact (S m)) with (S m * fact m)%nat. rewrite mult_INR, S_INR. reflexivity. Qed.
Lemma wallis_even : forall m, poisson (2 * m) 0 = PI * INR (fact (2 * m)) / (4 ^ m * (INR (fact m)) ^ 2).
Proof.
  induction m as [|m IH].
  - change (2 * 0)%nat with 0%nat. rewrite poisson_00. cbn. field.
  - pose proof (wallis (2 * m)) as W. replace (2 * m + 2)%nat with (2 * S m)%nat in W by lia. rewrite IH in W.
    rewrite fact_2, fact_1. rewrite !mult_INR in W. rewrite S_INR in W. rewrite !S_INR, !mult_INR in W.
    replace (INR 0) with 0 in W by reflexivity. replace (INR 2) with 2 in W by (cbn; ring).
    pose proof (pos_INR m). pose proof (INR_fact_neq_0 m). pose proof (pow_nonzero 4 m ltac:(lra)).
    apply (Rmult_eq_reg_l (2 * (INR m + 1))); [|lra].
    replace (2 * (INR m + 1)) with ((0 + 1 + 1) * (INR m + 1)) at 1 by ring. rewrite W. cbn [pow]. field. repeat split; lra.
Qed.
Lemma wallis_odd : forall l, poisson (2 * l + 1) 0 * INR (fact (2 * l + 1)) = 2 * 4 ^ l * (INR (fact l)) ^ 2.
Proof.
  induction l as [|l IH].
  - change (2 * 0 + 1)%nat with 1%nat. rewrite poisson_10. cbn. ring.
  - pose proof (wallis (2 * l + 1)) as W. replace (2 * l + 1 + 2)%nat with (2 * S l + 1)%nat in W by lia.
    replace (fact (2 * S l + 1)) with (S (S (S (2 * l))) * (S (S (2 * l)) * fact (2 * l + 1)))%nat
      by (replace (2 * S l + 1)%nat with (S (S (2 * l + 1))) by lia; replace (S (S (2 * l))) with (S (2 * l + 1)) by lia; reflexivity).
    replace (2 * S l + 1)%nat with (S (S (S (2 * l)))) in * by lia. replace (S (2 * l + 1)) with (S (S (2 * l))) in W by lia.
    rewrite !mult_INR, fact_1. cbn [pow] in *.
    replace (poisson (S (S (S (2 * l)))) 0 * (INR (S (S (S (2 * l)))) * (INR (S (S (2 * l))) * INR (fact (2 * l + 1)))))
      with (INR (S (S (S (2 * l)))) * poisson (S (S (S (2 * l)))) 0 * (INR (S (S (2 * l))) * INR (fact (2 * l + 1)))) by ring.
    rewrite W. replace (INR (S (S (2 * l))) * poisson (2 * l + 1) 0 * (INR (S (S (2 * l))) * INR (fact (2 * l + 1))))
      with (INR (S (S (2 * l))) * INR (S (S (2 * l))) * (poisson (2 * l + 1) 0 * INR (fact (2 * l + 1)))) by ring.
    rewrite IH. rewrite !S_INR, mult_INR. replace (INR 2) with 2 by (cbn; ring). ring.
Qed.

(** ** The regular part of the Bessel functions *)
Definition sindex (l : Z) : nat := Z.to_nat l.
Definition cindex (l : Z) : nat := Z.to_nat ((l + 1) / 2).
Definition reg (s : istate) (l : Z) (x : R) : R :=
  match s with
  | Integer => poisson (2 * sindex l + 1) x / (2 ^ (sindex l + 1) * INR (fact (sindex l)))
  | HalfInteger => sqrt (PI / 2) * (poisson (2 * cindex l) x / (odd_factorial (cindex l) * PI))
  end.

Lemma odd_factorial_pos : forall m, 0 < odd_factorial m.
Proof.
  intros m. unfold odd_factorial. apply Rdiv_lt_0_compat; [apply INR_fact_lt_0|].
  apply Rmult_lt_0_compat; [apply pow_lt; lra|apply INR_fact_lt_0].
Qed.
Lemma half_odd : forall l, bessel_order HalfInteger l -> INR (cindex l) = IZR l / 2 + 1 / 2.
Proof.
  intros l [[j ->] G]. unfold cindex. replace (2 * j + 1 + 1)%Z with ((j + 1) * 2)%Z by lia. rewrite Z.div_mul by lia.
  rewrite INR_IZR_INZ, Z2Nat.id by lia. rewrite !plus_IZR, mult_IZR. lra.
Qed.
Lemma whole : forall l, bessel_order Integer l -> INR (sindex l) = IZR l.
Proof. intros l G. cbn in G. unfold sindex. rewrite INR_IZR_INZ, Z2Nat.id by lia. reflexivity. Qed.
Lemma sqrt_quot : forall x, 0 < x -> sqrt (PI / (2 * x)) = sqrt (PI / 2) / Rpower x (1 / 2).
Proof.
  intros x P. replace (PI / (2 * x)) with (PI / 2 * / x) by (field; lra). pose proof PI_RGT_0.
  rewrite sqrt_mult by (try lra; left; apply Rinv_0_lt_compat; lra).
  rewrite <- Rpower_sqrt with (x := / x) by (apply Rinv_0_lt_compat; lra).
  replace (Rpower (/ x) (/ 2)) with (/ Rpower x (1 / 2)); [reflexivity|].
  unfold Rpower. rewrite ln_Rinv by exact P. rewrite <- exp_Ropp. apply f_equal. field.
Qed.
Lemma bessel_reg : forall s l x, bessel_order s l -> 0 < x -> bessel s l x = Rpower x (order s l) * reg s l x.
Proof.
  intros [|] l x F P; cbn [bessel order reg].
  - rewrite <- (whole l F). unfold spherical_bessel. fold (sindex l). rewrite Rpower_pow by exact P.
    pose proof (INR_fact_neq_0 (sindex l)). pose proof (pow_nonzero 2 (sindex l + 1) ltac:(lra)).
    field. split; assumption.
  - unfold cylindrical_bessel. fold (cindex l). rewrite sqrt_quot by exact P. pose proof (odd_factorial_pos (cindex l)). pose proof PI_RGT_0.
    rewrite <- (Rpower_pow _ x) by exact P. rewrite (half_odd l F), Rpower_plus.
    assert (Rpower x (1 / 2) <> 0) by (apply Rgt_not_eq, exp_pos). field. repeat split; lra.
Qed.
Lemma reg_lip : forall s l, exists L, 0 <= L /\ forall x y, Rabs (reg s l x - reg s l y) <= L * Rabs (x - y).
Proof.
  intros [|] z.
  - set (l := sindex z). assert (D : 0 < 2 ^ (l + 1) * INR (fact l)) by (apply Rmult_lt_0_compat; [apply pow_lt; lra|apply INR_fact_lt_0]).
    pose proof PI_RGT_0 as Pp. exists (PI / (2 ^ (l + 1) * INR (fact l))). split; [left; apply Rdiv_lt_0_compat; lra|].
    intros x y. cbn [reg]. fold l. set (d := 2 ^ (l + 1) * INR (fact l)) in *.
    replace (poisson (2 * l + 1) x / d - poisson (2 * l + 1) y / d) with ((poisson (2 * l + 1) x - poisson (2 * l + 1) y) * / d) by (field; lra).
    rewrite Rabs_mult, (Rabs_pos_eq (/ d)) by (left; apply Rinv_0_lt_compat; exact D).
    replace (PI / d * Rabs (x - y)) with (PI * Rabs (x - y) * / d) by (field; lra).
    apply Rmult_le_compat_r; [left; apply Rinv_0_lt_compat; exact D|apply poisson_lip].
  - set (m := cindex z). pose proof PI_RGT_0 as Pp.
    set (d := sqrt (PI / 2) * / (odd_factorial m * PI)).
    assert (D : 0 <= d).
    { apply Rmult_le_pos; [apply sqrt_pos|]. left. apply Rinv_0_lt_compat. apply Rmult_lt_0_compat; [apply odd_factorial_pos|exact Pp]. }
    exists (PI * d). split; [apply Rmult_le_pos; [lra|exact D]|].
    intros x y. cbn [reg]. fold m. unfold Rdiv at 2 4.
    replace (sqrt (PI / 2) * (poisson (2 * m) x * / (odd_factorial m * PI)) - sqrt (PI / 2) * (poisson (2 * m) y * / (odd_factorial m * PI)))
      with ((poisson (2 * m) x - poisson (2 * m) y) * d) by (unfold d; ring).
    rewrite Rabs_mult, (Rabs_pos_eq d D). replace (PI * d * Rabs (x - y)) with (PI * Rabs (x - y) * d) by ring.
    apply Rmult_le_compat_r; [exact D|apply poisson_lip].
Qed.
Lemma reg_cont : forall s l x, continuous (reg s l) x.
Proof.
  intros s l x. destruct (reg_lip s l) as (L & L0 & H). apply continuity_pt_filterlim.
  intros eps Pe. exists (eps / (L + 1)). split; [apply Rdiv_lt_0_compat; lra|].
  intros y [_ Hy]. unfold dist in *. cbn in *. unfold R_dist in *. eapply Rle_lt_trans; [apply H|].
  apply Rle_lt_trans with (L * (eps / (L + 1))); [apply Rmult_le_compat_l; lra|].
  apply (Rmult_lt_reg_r (L + 1)); [lra|]. replace (L * (eps / (L + 1)) * (L + 1)) with (L * eps) by (field; lra). nra.
Qed.

(** ** The coefficient at zero separation *)
Lemma coefficient_ok : forall E s l, exact_ext E -> bessel_order s l ->
  (match s with Integer => 1 | HalfInteger => sqrt (PI / 2) end) * coefficient E l s = reg s l 0.
Proof.
  intros E s z Ex F. unfold exact_ext in Ex. destruct Ex as (_ & _ & _ & G1 & G2 & _). pose proof PI_RGT_0 as Pp. destruct s; cbn [coefficient reg].
  - rewrite <- (whole z F). set (l := sindex z). replace (INR l + 3 / 2) with (INR (S l) + 1 / 2) by (rewrite S_INR; lra). rewrite G2, fact_1.
    rewrite Rpower_plus, Rpower_pow by lra. replace (1 / 2) with (/ 2) by lra. rewrite Rpower_sqrt by lra.
    rewrite sqrt_div_alt by lra.
    pose proof (wallis_odd l) as W.
    replace (fact (2 * S l)) with ((2 * S l) * fact (2 * l + 1))%nat
      by (replace (2 * S l)%nat with (S (2 * l + 1)) by lia; reflexivity).
    rewrite !mult_INR. replace (INR 2) with 2 by (cbn; ring). rewrite S_INR.
    pose proof (INR_fact_neq_0 l). pose proof (INR_fact_neq_0 (2 * l + 1)). pose proof (pos_INR l).
    assert (4 ^ l = 2 ^ l * 2 ^ l) by (rewrite <- Rpow_mult_distr; f_equal; lra).
    assert (P2 : 2 ^ l <> 0) by (apply pow_nonzero; lra).
    assert (Sp : sqrt PI <> 0) by (apply Rgt_not_eq, sqrt_lt_R0; exact Pp).
    assert (S2 : sqrt 2 <> 0) by (apply Rgt_not_eq, sqrt_lt_R0; lra).
    assert (Ss : sqrt 2 * sqrt 2 = 2) by (apply sqrt_sqrt; lra).
    apply (Rmult_eq_reg_r (2 ^ (l + 1) * INR (fact l) * INR (fact (2 * l + 1)))).
    2:{ repeat apply Rmult_integral_contrapositive_currified; try assumption. apply pow_nonzero; lra. }
    replace (poisson (2 * l + 1) 0 / (2 ^ (l + 1) * INR (fact l)) * (2 ^ (l + 1) * INR (fact l) * INR (fact (2 * l + 1))))
      with (poisson (2 * l + 1) 0 * INR (fact (2 * l + 1))) by (field; split; [assumption|apply pow_nonzero; lra]).
    rewrite W. replace (2 ^ (l + 1)) with (2 * 2 ^ l) by (rewrite pow_add; cbn; ring). cbn [pow].
    rewrite H2. set (p := 2 ^ l) in *. set (f := INR (fact l)) in *. set (g := INR (fact (2 * l + 1))) in *.
    set (q := sqrt 2) in *. set (sp := sqrt PI) in *. set (il := INR l) in *.
    transitivity (4 * p * p * f * f / (q * q)).
    + field. repeat split; try assumption; lra.
    + rewrite Ss. field.
  - f_equal. replace (IZR z / 2 + 3 / 2) with (INR (cindex z) + 1) by (rewrite (half_odd z F); lra).
    rewrite G1. rewrite <- (half_odd z F). set (m := cindex z). rewrite Rpower_pow by lra.
    rewrite wallis_even. unfold odd_factorial. pose proof (INR_fact_neq_0 m). pose proof (INR_fact_neq_0 (2 * m)).
    assert (4 ^ m = 2 ^ m * 2 ^ m) by (rewrite <- Rpow_mult_distr; f_equal; lra).
    assert (P2 : 2 ^ m <> 0) by (apply pow_nonzero; lra). rewrite H1. field. repeat split; try assumption; lra.
Qed.

(** ** The integrals *)
Lemma order_le : forall s l n, (l <= n)%Z <-> order s l <= order s n.
Proof.
  intros s l n. split; intros H; destruct s; cbn [order] in *; try (apply IZR_le in H; lra).
  - apply le_IZR. exact H.
  - apply le_IZR. lra.
Qed.
Section Values.
Variables (P : R -> R) (s : istate) (n l : Z) (a b : R).
Hypotheses (Fl : bessel_order s l) (Pa : 0 < a) (Pab : a <= b) (Pc : forall k, a <= k <= b -> continuous P k).
Let e := order s l - order s n.
Definition weight (k : R) : R := Rpower k (2 + e) * P k.

Lemma weight_cont : forall k, a <= k <= b -> continuous weight k.
Proof.
  intros k K. unfold weight. apply (continuous_mult (K := R_AbsRing)); [|apply Pc; exact K].
  unfold Rpower. apply (ex_derive_continuous (K := R_AbsRing) (V := R_NormedModule)). auto_derive. lra.
Qed.
Lemma reg_scaled_cont : forall r k, continuous (fun k => reg s l (k * r)) k.
Proof.
  intros r k. apply (continuous_comp (fun k => k * r) (reg s l)); [|apply reg_cont].
  apply (ex_derive_continuous (K := R_AbsRing) (V := R_NormedModule)). auto_derive. exact I.
Qed.
Lemma part_cont : forall r k, a <= k <= b -> continuous (fun k => weight k * reg s l (k * r)) k.
Proof. intros r k K. apply (continuous_mult (K := R_AbsRing)); [apply weight_cont; exact K|apply reg_scaled_cont]. Qed.
Lemma part_ex : forall r, ex_RInt (fun k => weight k * reg s l (k * r)) a b.
Proof.
  intros r. apply (ex_RInt_continuous (V := R_CompleteNormedModule)). intros k K.
  rewrite Rmin_left, Rmax_right in K by exact Pab. apply part_cont. exact K.
Qed.
Definition part (r : R) : R := RInt (fun k => weight k * reg s l (k * r)) a b.

Lemma integrand_reg : forall r k, 0 < r -> 0 < k ->
  k ^ 2 * P k * bessel s l (k * r) / Rpower (k * r) (order s n) = Rpower r e * (weight k * reg s l (k * r)).
Proof.
  intros r k R0 K0. assert (0 < k * r) by (apply Rmult_lt_0_compat; assumption).
  rewrite bessel_reg by assumption. unfold weight, e.
  rewrite <- (Rpower_pow 2 k) by exact K0. replace (INR 2) with 2 by (cbn; ring).
  rewrite <- !Rpower_mult_distr by assumption.
  replace (2 + (order s l - order s n)) with (2 + (order s l + - order s n)) by ring.
  replace (order s l - order s n) with (order s l + - order s n) by ring. rewrite !Rpower_plus, !Rpower_Ropp.
  assert (Rpower k (order s n) <> 0) by (apply Rgt_not_eq, exp_pos).
  assert (Rpower r (order s n) <> 0) by (apply Rgt_not_eq, exp_pos). field. split; assumption.
Qed.
Lemma integral_part : forall r, 0 < r -> integral P s n l a b r = Rpower r e * part r / (2 * PI ^ 2).
Proof.
  intros r R0. unfold integral. f_equal. unfold part.
  rewrite (RInt_ext _ (fun k => scal (Rpower r e) (weight k * reg s l (k * r)))).
  - apply (RInt_scal (V := R_CompleteNormedModule)). apply part_ex.
  - intros k K. rewrite Rmin_left, Rmax_right in K by exact Pab. apply integrand_reg; [exact R0|lra].
Qed.

Lemma part_limit : exists K, 0 <= K /\ forall r, 0 < r -> Rabs (part r - part 0) <= K * r.
Proof.
  destruct (reg_lip s l) as (L & L0 & H).
  assert (C : forall k, a <= k <= b -> continuous (fun k => Rabs (weight k) * (L * k)) k).
  { intros k K. apply (continuous_mult (K := R_AbsRing)).
    - apply (continuous_comp weight Rabs); [apply weight_cont; exact K|apply (continuous_Rabs (weight k))].
    - apply (ex_derive_continuous (K := R_AbsRing) (V := R_NormedModule)). auto_derive. exact I. }
  assert (X : ex_RInt (fun k => Rabs (weight k) * (L * k)) a b).
  { apply (ex_RInt_continuous (V := R_CompleteNormedModule)). intros k K.
    rewrite Rmin_left, Rmax_right in K by exact Pab. apply C. exact K. }
  exists (RInt (fun k => Rabs (weight k) * (L * k)) a b). split.
  - apply RInt_ge_0; [exact Pab|exact X|]. intros k K. apply Rmult_le_pos; [apply Rabs_pos|apply Rmult_le_pos; lra].
  - intros r R0. unfold part.
    assert (Em : RInt (fun k => weight k * reg s l (k * r)) a b - RInt (fun k => weight k * reg s l (k * 0)) a b
                 = RInt (fun k => weight k * reg s l (k * r) - weight k * reg s l (k * 0)) a b).
    { symmetry. apply (RInt_minus (V := R_CompleteNormedModule)); apply part_ex. }
    rewrite Em. rewrite Rmult_comm.
    assert (Es : r * RInt (fun k => Rabs (weight k) * (L * k)) a b = RInt (fun k => r * (Rabs (weight k) * (L * k))) a b).
    { symmetry. apply (RInt_scal (V := R_CompleteNormedModule)). exact X. }
    rewrite Es. eapply Rle_trans; [apply abs_RInt_le; [exact Pab|]|].
    + apply (ex_RInt_minus (V := R_CompleteNormedModule)); apply part_ex.
    + apply RInt_le; [exact Pab| | |].
      * apply (ex_RInt_norm (fun k => weight k * reg s l (k * r) - weight k * reg s l (k * 0))). apply (ex_RInt_minus (V := R_CompleteNormedModule)); apply part_ex.
      * apply (ex_RInt_scal (V := R_CompleteNormedModule)). exact X.
      * intros k K. replace (weight k * reg s l (k * r) - weight k * reg s l (k * 0))
          with (weight k * (reg s l (k * r) - reg s l (k * 0))) by ring.
        rewrite Rabs_mult. specialize (H (k * r) (k * 0)).
        replace (k * r - k * 0) with (k * r) in H by ring.
        rewrite (Rabs_pos_eq (k * r)) in H by (apply Rmult_le_pos; lra).
        replace (r * (Rabs (weight k) * (L * k))) with (Rabs (weight k) * (L * (k * r))) by ring.
        apply Rmult_le_compat_l; [apply Rabs_pos|exact H].
Qed.

Lemma small_power : forall q eps, 0 < q -> 0 < eps -> exists d, 0 < d /\ forall r, 0 < r < d -> Rpower r q < eps.
Proof.
  intros q eps Q Ep. exists (Rpower eps (/ q)). split; [apply exp_pos|]. intros r [R0 R1].
  apply Rlt_le_trans with (Rpower (Rpower eps (/ q)) q).
  - unfold Rpower. apply exp_increasing. apply Rmult_lt_compat_l; [exact Q|].
    apply ln_increasing; [exact R0|]. exact R1.
  - rewrite Rpower_mult. replace (/ q * q) with 1 by (field; lra). rewrite Rpower_1 by exact Ep. lra.
Qed.
(** The limit of what the table should hold, at zero separation. *)
Lemma tabulated_limit : forall y,
  y = (if (l <=? n)%Z then part 0 / (2 * PI ^ 2) else 0) ->
  forall eps, 0 < eps -> exists d, 0 < d /\ forall r, 0 < r < d -> Rabs (tabulated P s n l a b r - y) < eps.
Proof.
  intros y -> eps Ep. destruct part_limit as (K & K0 & HK). pose proof PI_RGT_0 as Pp.
  assert (D : 1 <= 2 * PI ^ 2) by (pose proof PI2_3_2; nra).
  assert (Q : forall x, Rabs (x / (2 * PI ^ 2)) <= Rabs x).
  { intros x. unfold Rdiv. rewrite Rabs_mult. rewrite <- (Rmult_1_r (Rabs x)) at 2. apply Rmult_le_compat_l; [apply Rabs_pos|].
    rewrite Rabs_pos_eq by (left; apply Rinv_0_lt_compat; lra). rewrite <- Rinv_1. apply Rinv_le_contravar; lra. }
  unfold tabulated. destruct (Z.leb_spec l n) as [Le|Gt].
  - exists (eps / (K + 1)). split; [apply Rdiv_lt_0_compat; lra|]. intros r [R0 R1].
    rewrite integral_part by exact R0.
    replace (Rpower r (order s n - order s l) * (Rpower r e * part r / (2 * PI ^ 2))) with (part r / (2 * PI ^ 2)).
    2:{ transitivity (Rpower r (order s n - order s l + e) * (part r / (2 * PI ^ 2))).
        - unfold e. replace (order s n - order s l + (order s l - order s n)) with 0 by ring. rewrite Rpower_O by exact R0. ring.
        - rewrite Rpower_plus. field. lra. }
    replace (part r / (2 * PI ^ 2) - part 0 / (2 * PI ^ 2)) with ((part r - part 0) / (2 * PI ^ 2)) by (field; lra).
    eapply Rle_lt_trans; [apply Q|]. eapply Rle_lt_trans; [apply HK; exact R0|].
    apply Rle_lt_trans with (K * (eps / (K + 1))); [apply Rmult_le_compat_l; lra|].
    apply (Rmult_lt_reg_r (K + 1)); [lra|]. replace (K * (eps / (K + 1)) * (K + 1)) with (K * eps) by (field; lra). nra.
  - assert (E0 : 0 < e). { unfold e. assert (~ order s l <= order s n) by (intros C; apply order_le in C; lia). lra. }
    set (M := Rabs (part 0) + K + 1). assert (M0 : 0 < M) by (unfold M; pose proof (Rabs_pos (part 0)); lra).
    destruct (small_power e (eps / M) E0) as (d & D0 & Hd); [apply Rdiv_lt_0_compat; lra|].
    exists (Rmin 1 d). split; [apply Rmin_glb_lt; lra|]. intros r [R0 R1].
    pose proof (Rmin_l 1 d). pose proof (Rmin_r 1 d).
    rewrite Rminus_0_r, integral_part by exact R0. eapply Rle_lt_trans; [apply Q|].
    rewrite Rabs_mult, (Rabs_pos_eq (Rpower r e)) by (left; apply exp_pos).
    assert (B : Rabs (part r) <= M).
    { specialize (HK r R0). replace (part r) with (part 0 + (part r - part 0)) by ring.
      eapply Rle_trans; [apply Rabs_triang|]. unfold M. nra. }
    apply Rle_lt_trans with (Rpower r e * M); [apply Rmult_le_compat_l; [left; apply exp_pos|exact B]|].
    specialize (Hd r ltac:(lra)). apply (Rmult_lt_compat_r M) in Hd; [|exact M0].
    replace (eps / M * M) with eps in Hd by (field; lra). exact Hd.
Qed.
End Values.

(** ** One entry *)
Lemma entry_ok : forall E s n l a b r, let P := x_spline (t_fft E) in
  exact_ext E -> bessel_order s l -> 0 < a -> a <= b -> (forall k, a <= k <= b -> continuous P k) -> 0 < r ->
  t_quad E (bessel_integrand E P n l s s r) a b * Rpower r (if (l <=? n)%Z then local s n - local s l else 0) / 2 / PI / PI
  = tabulated P s n l a b r.
Proof.
  intros E s n l kmin kmax r P Ex Fl P1 P2 Pc Rr. pose proof Ex as (Q & J & Jn & _). pose proof PI_RGT_0 as Pp.
  assert (Ol : local s l = order s l) by reflexivity.
  assert (On : local s n = order s n) by reflexivity.
  assert (Eq : forall k, 0 < k -> bessel_integrand E P n l s s r k
                 = k ^ 2 * P k * bessel s l (k * r) / Rpower (k * r) (order s n)).
  { intros k K. assert (Kr : 0 < k * r) by (apply Rmult_lt_0_compat; lra).
    unfold bessel_integrand. rewrite On. destruct s; cbn [bessel order].
    - rewrite <- (Z2Nat.id l) at 1 by exact Fl. rewrite J by exact Kr. unfold Rdiv. ring.
    - unfold half_order. destruct Fl as [_ G]. replace (Z.quot (l + 1) 2) with (Z.of_nat (Z.to_nat ((l + 1) / 2))).
      2:{ rewrite Z2Nat.id by (apply Z.div_pos; lia). rewrite Z.quot_div_nonneg by lia. reflexivity. }
      rewrite Jn by exact Kr. rewrite sqrt_quot by exact Kr. rewrite Rpower_plus.
      assert (Rpower (k * r) (IZR n / 2) <> 0) by (apply Rgt_not_eq, exp_pos).
      assert (Rpower (k * r) (1 / 2) <> 0) by (apply Rgt_not_eq, exp_pos). field. split; assumption. }
  rewrite Q.
  + rewrite (RInt_ext _ (fun k => k ^ 2 * P k * bessel s l (k * r) / Rpower (k * r) (order s n))).
    2:{ intros k K. rewrite Rmin_left in K by lra. apply Eq. lra. }
    unfold tabulated, integral. rewrite Ol, On.
    set (W := RInt _ kmin kmax). destruct (l <=? n)%Z.
    * field. lra.
    * rewrite Rpower_O by lra. field. lra.
  + lra.
  + intros k K. apply (continuous_ext_loc (T := R_UniformSpace) (U := R_UniformSpace) _ (fun k => Rpower r (order s l - order s n) * (weight P s n l k * reg s l (k * r)))).
    * exists (mkposreal k ltac:(lra)). intros k' B. unfold ball in B. cbn in B. unfold AbsRing_ball, abs, minus, plus, opp in B. cbn in B.
      apply Rabs_def2 in B. rewrite Eq by lra. symmetry. apply integrand_reg; [exact Fl|lra|lra].
    * apply (continuous_mult (K := R_AbsRing)); [apply continuous_const|]. apply (part_cont P s n l kmin kmax); auto; lra.
Qed.

(** ** The theorem *)

(** What [renormalizable] tabulates, with exact externals, for both kinds of
    order: below 1 Mpc every entry is the integral at that separation, and the
    entry at zero separation is the limit of the integral.  (The entries above
    1 Mpc are those of the FFTLog transform, C41 and C65-C68.) *)
Theorem C77_values : forall E N s n l kmin kmax xs ys,
  exact_ext E -> bessel_order s l ->
  (5 <= N)%nat -> (Z.of_nat N < 2 ^ 64)%Z -> 0 < kmin -> kmin < kmax ->
  92 / 100 <= INR (N - 1) / INR N * ln (kmax / kmin) ->
  (forall i, (i < N)%nat -> INR i / INR N * ln (kmax / kmin) <> 46 / 100) ->
  (forall t a, exists v, x_mql (t_fft E) t (select_q (order s l) (order s n)) (order s l) a = Done v) ->
  (forall k, kmin <= k <= kmax -> continuous (x_spline (t_fft E)) k) ->
  renormalizable E N n l s s kmin kmax = Done (map Some xs, map Some ys) ->
  (forall i, (1 <= i <= 42)%nat -> 0 < nth i xs 0 < 1 /\
     nth i ys 0 = tabulated (x_spline (t_fft E)) s n l kmin kmax (nth i xs 0)) /\
  nth 0 xs 1 = 0 /\
  (forall eps, 0 < eps -> exists d, 0 < d /\ forall r, 0 < r < d ->
     Rabs (tabulated (x_spline (t_fft E)) s n l kmin kmax r - nth 0 ys 0) < eps).
Proof.
  intros E N s n l kmin kmax xs ys Ex Fl HN Hz P1 P2 Hr He Hm Pc Hy.
  assert (Ol : local s l = order s l) by reflexivity.
  assert (On : local s n = order s n) by reflexivity.
  set (P := x_spline (t_fft E)) in *. pose proof PI_RGT_0 as Pp.
  destruct (C18_tables_partial E N n l s s kmin kmax 0 HN Hz P1 P2 Hr He) as (xs' & ys' & ff & T & Lx & Ly & X0 & SI & _ & CC & V & _).
  { rewrite Ol. exact Hm. }
  rewrite T in Hy. injection Hy as Ex' Ey'.
  assert (Ix : forall u v : list R, map Some u = map Some v -> u = v).
  { induction u as [|x u IH]; intros [|y v] Q; try discriminate; [reflexivity|]. injection Q as -> Q. f_equal. apply IH. exact Q. }
  apply Ix in Ex', Ey'. subst xs' ys'.
  assert (Le : rle (local s l) (local s n) = (l <=? n)%Z).
  { rewrite Ol, On. destruct (Z.leb_spec l n) as [H|H].
    - apply rle_true. apply order_le. exact H.
    - apply rle_false. apply Rnot_le_lt. intros C. apply order_le in C. lia. }
  pose proof Ex as (Q & J & Jn & _).
  split; [|split].
  - intros i Hi. rewrite CC by lia. rewrite V by lia. destruct i as [|i]; [lia|]. unfold table_y.
    set (r := table_x (kmax / kmin) N (S i)).
    assert (Lt : Nat.ltb i min_sep_len = true) by (apply Nat.ltb_lt; unfold min_sep_len; lia).
    assert (Rr : 0 < r < 1).
    { unfold r. cbn [table_x]. rewrite Lt. apply min_sep_range. apply nth_In. rewrite min_sep_length.
      apply Nat.ltb_lt. exact Lt. }
    split; [exact Rr|]. rewrite Lt, Le. fold P. unfold P.
    apply (entry_ok E s n l kmin kmax r Ex Fl); auto; lra.
  - rewrite <- X0. destruct xs as [|x xs]; [cbn in Lx; lia|reflexivity].
  - apply (tabulated_limit P s n l kmin kmax); auto; [lra|].
    rewrite V by lia. unfold table_y. rewrite Le. destruct (l <=? n)%Z; [|reflexivity].
    fold P. rewrite Q.
    + pose proof (coefficient_ok E s l Ex Fl) as Co.
      assert (X : RInt (prefactor P n l s s) kmin kmax
                  = match s with Integer => 1 | HalfInteger => sqrt (PI / 2) end * RInt (weight P s n l) kmin kmax).
      { transitivity (RInt (fun k => scal (match s with Integer => 1 | HalfInteger => sqrt (PI / 2) end) (weight P s n l k)) kmin kmax).
        - apply RInt_ext. intros k K. unfold prefactor, weight, scal. cbn. unfold mult. cbn. rewrite Ol, On.
          replace (2 + (order s l - order s n)) with (2 + order s l - order s n) by ring. destruct s; cbn [order]; asR; ring.
        - apply (RInt_scal (V := R_CompleteNormedModule)). apply (ex_RInt_continuous (V := R_CompleteNormedModule)). intros k K.
          rewrite Rmin_left, Rmax_right in K by lra. apply (weight_cont P s n l kmin kmax); auto; lra. }
      rewrite X. unfold part.
      assert (Y : RInt (fun k => weight P s n l k * reg s l (k * 0)) kmin kmax = reg s l 0 * RInt (weight P s n l) kmin kmax).
      { transitivity (RInt (fun k => scal (reg s l 0) (weight P s n l k)) kmin kmax).
        - apply RInt_ext. intros k K. unfold scal. cbn. unfold mult. cbn. rewrite Rmult_0_r. ring.
        - apply (RInt_scal (V := R_CompleteNormedModule)). apply (ex_RInt_continuous (V := R_CompleteNormedModule)). intros k K.
          rewrite Rmin_left, Rmax_right in K by lra. apply (weight_cont P s n l kmin kmax); auto; lra. }
      rewrite Y, <- Co. field. lra.
    + lra.
    + intros k K. apply (continuous_ext (fun k => match s with Integer => 1 | HalfInteger => sqrt (PI / 2) end * weight P s n l k)).
      * intros k'. unfold prefactor, weight. rewrite Ol, On.
        replace (2 + (order s l - order s n)) with (2 + order s l - order s n) by ring. destruct s; cbn [order]; asR; ring.
      * apply (continuous_mult (K := R_AbsRing)); [apply continuous_const|]. apply (weight_cont P s n l kmin kmax); auto; lra.
Qed.
Print Assumptions C77_values.

(** ** The flat-sky table *)
Lemma map_some_inj : forall A (u v : list A), map Some u = map Some v -> u = v.
Proof.
  induction u as [|x u IH]; intros [|y v] Q; try discriminate; [reflexivity|]. injection Q as -> Q. f_equal. apply IH. exact Q.
Qed.
Lemma rescale_ok : forall ys f, rescale (map Some ys) (List.length ys) f = Done (map Some (map (fun y => y * f) ys)).
Proof.
  intros ys f. unfold rescale. rewrite (Props_Fft.fill R (List.length ys) _ (fun i => nth i ys 0 * f)).
  - do 2 f_equal. apply nth_ext with (d := 0 * f) (d' := 0 * f); [rewrite !map_length, seq_length; reflexivity|].
    intros i Hi. rewrite map_length, seq_length in Hi. rewrite nth_mapseq by exact Hi. rewrite (map_nth (fun y => y * f)). reflexivity.
  - apply map_length.
  - intros i b Hi Lb Hb. unfold load. destruct (Z.ltb_spec (Z.of_nat i) 0); [lia|]. rewrite Nat2Z.id.
    unfold rd. rewrite Hb by lia. rewrite nth_error_map, (nth_error_nth' ys 0 Hi). reflexivity.
Qed.

(** The integral the flat-sky density-lensing terms are written with. *)
Definition flat_integral (P : R -> R) (a b r : R) : R := RInt (fun k => k * P k * cylindrical_bessel 0 (k * r)) a b.

Lemma flat_tabulated : forall P a b r, 0 < a -> a <= b -> (forall k, a <= k <= b -> continuous P k) -> 0 < r ->
  tabulated P HalfInteger 1 (-1) a b r * (sqrt (2 / PI) * 2 * PI * PI) = flat_integral P a b r.
Proof.
  intros P a b r A AB C R0. pose proof PI_RGT_0 as Pp. unfold tabulated, flat_integral. cbn [Z.leb Z.compare].
  assert (B : bessel_order HalfInteger (-1)) by (split; [exists (-1)%Z; reflexivity|lia]).
  rewrite (integral_part P HalfInteger 1 (-1) a b B A AB C r R0). unfold part.
  cbn [order]. replace (1 / 2 - -1 / 2) with 1 by lra. replace (-1 / 2 - 1 / 2) with (- (1)) by lra.
  rewrite Rpower_Ropp, Rpower_1 by exact R0.
  assert (S1 : sqrt (2 / PI) * sqrt (PI / 2) = 1).
  { rewrite <- sqrt_mult by (left; apply Rdiv_lt_0_compat; lra). replace (2 / PI * (PI / 2)) with 1 by (field; lra). apply sqrt_1. }
  assert (S0 : sqrt (PI / 2) <> 0) by (intros Z; rewrite Z in S1; lra).
  assert (X : RInt (fun k => weight P HalfInteger 1 (-1) k * reg HalfInteger (-1) (k * r)) a b
              = sqrt (PI / 2) * RInt (fun k => k * P k * cylindrical_bessel 0 (k * r)) a b).
  { transitivity (RInt (fun k => scal (sqrt (PI / 2)) (k * P k * cylindrical_bessel 0 (k * r))) a b).
    - apply RInt_ext. intros k K. rewrite Rmin_left in K by exact AB. unfold scal. cbn [reg]. change (cindex (-1)) with 0%nat.
      unfold weight, cylindrical_bessel. cbn [order]. replace (2 + (-1 / 2 - 1 / 2)) with 1 by lra. rewrite Rpower_1 by lra.
      cbn -[poisson]. unfold mult. cbn -[poisson]. unfold odd_factorial. cbn -[poisson]. asR. field. lra.
    - apply (RInt_scal (V := R_CompleteNormedModule)).
      apply (ex_RInt_ext (fun k => scal (/ sqrt (PI / 2)) (weight P HalfInteger 1 (-1) k * reg HalfInteger (-1) (k * r)))).
      + intros k K. rewrite Rmin_left in K by exact AB. unfold scal. cbn [reg]. change (cindex (-1)) with 0%nat.
        unfold weight, cylindrical_bessel. cbn [order]. replace (2 + (-1 / 2 - 1 / 2)) with 1 by lra. rewrite Rpower_1 by lra.
        cbn -[poisson]. unfold mult. cbn -[poisson]. unfold odd_factorial. cbn -[poisson]. asR. field. lra.
      + apply (ex_RInt_scal (V := R_CompleteNormedModule)). apply (part_ex P HalfInteger 1 (-1) a b A AB C). }
  rewrite X. set (W := RInt _ a b). transitivity (sqrt (2 / PI) * sqrt (PI / 2) * W); [field; lra|]. rewrite S1. ring.
Qed.

(** After the rescaling the table holds [int k P(k) J_0(kr) dk]. *)
Theorem C77_flat : forall E N kmin kmax xs ys,
  exact_ext E -> (5 <= N)%nat -> (Z.of_nat N < 2 ^ 64)%Z -> 0 < kmin -> kmin < kmax ->
  92 / 100 <= INR (N - 1) / INR N * ln (kmax / kmin) ->
  (forall i, (i < N)%nat -> INR i / INR N * ln (kmax / kmin) <> 46 / 100) ->
  (forall t a, exists v, x_mql (t_fft E) t (select_q (-1 / 2) (1 / 2)) (-1 / 2) a = Done v) ->
  (forall k, kmin <= k <= kmax -> continuous (x_spline (t_fft E)) k) ->
  flat_table E N kmin kmax = Done (map Some xs, map Some ys) ->
  (forall i, (1 <= i <= 42)%nat -> 0 < nth i xs 0 < 1 /\
     nth i ys 0 = flat_integral (x_spline (t_fft E)) kmin kmax (nth i xs 0)) /\
  nth 0 xs 1 = 0 /\
  (forall eps, 0 < eps -> exists d, 0 < d /\ forall r, 0 < r < d ->
     Rabs (flat_integral (x_spline (t_fft E)) kmin kmax r - nth 0 ys 0) < eps).
Proof.
  intros E N kmin kmax xs ys Ex HN Hz P1 P2 Hr He Hm Pc Hy. pose proof PI_RGT_0 as Pp.
  assert (B : bessel_order HalfInteger (-1)) by (split; [exists (-1)%Z; reflexivity|lia]).
  destruct (C18_tables_partial E N 1 (-1) HalfInteger HalfInteger kmin kmax 0 HN Hz P1 P2 Hr He Hm) as (us & vs & ff & T & Lx & Ly & _).
  unfold flat_table in Hy. rewrite T in Hy. cbn [rbind fst snd] in Hy.
  replace (N + min_sep_len + 1)%nat with (List.length vs) in Hy by (rewrite Ly; unfold min_sep_len; lia).
  rewrite rescale_ok in Hy. cbn [rbind] in Hy. injection Hy as Hx Hy. apply map_some_inj in Hx, Hy. subst us ys.
  destruct (C77_values E N HalfInteger 1 (-1) kmin kmax xs vs Ex B HN Hz P1 P2 Hr He Hm Pc T) as (V & X0 & L).
  set (F := sqrt (2 / PI) * 2 * PI * PI) in *.
  assert (Fp : 0 < F). { unfold F. apply Rmult_lt_0_compat; [apply Rmult_lt_0_compat; [apply Rmult_lt_0_compat; [apply sqrt_lt_R0, Rdiv_lt_0_compat|]|]|]; lra. }
  assert (G : forall i, (i < N + 43)%nat -> nth i (map (fun y => y * F) vs) 0 = nth i vs 0 * F).
  { intros i Hi. rewrite (nth_indep _ 0 (0 * F)) by (rewrite map_length; lia). apply (map_nth (fun y => y * F)). }
  split; [|split; [exact X0|]].
  - intros i Hi. destruct (V i Hi) as [Rr Ev]. split; [exact Rr|]. rewrite G by lia. rewrite Ev.
    apply flat_tabulated; auto; lra.
  - intros eps Pe. destruct (L (eps / F)) as (d & D0 & H); [apply Rdiv_lt_0_compat; assumption|].
    exists d. split; [exact D0|]. intros r Hr'. specialize (H r Hr'). rewrite G by lia.
    rewrite <- (flat_tabulated (x_spline (t_fft E)) kmin kmax r) by (auto; lra). fold F.
    rewrite <- Rmult_minus_distr_r, Rabs_mult, (Rabs_pos_eq F) by lra.
    apply (Rmult_lt_compat_r F) in H; [|exact Fp]. replace (eps / F * F) with eps in H by (field; lra). exact H.
Qed.
Print Assumptions C77_flat.

(** ** C78: the divergent integral *)

(** The spherical Bessel function of order 0. *)
Definition sinc (x : R) : R := if Req_EM_T x 0 then 1 else sin x / x.
(** What the potential terms need: the integral, and the renormalisation that
    makes the difference finite when the smallest wavenumber goes to 0. *)
Definition divergent_integral (P : R -> R) (a b r : R) : R := RInt (fun k => P k * sinc (k * r) / k ^ 2) a b / (2 * PI ^ 2).
Definition renormalisation (P : R -> R) (a b x y : R) : R :=
  RInt (fun k => P k * sinc (k * x) * sinc (k * y) / k ^ 2) a b / (2 * PI ^ 2).

Lemma sinc_reg : forall x, sinc x = reg Integer 0 x.
Proof.
  intros x. unfold sinc. cbn [reg]. change (sindex 0) with 0%nat. destruct (Req_EM_T x 0) as [->|N].
  - change (2 * 0 + 1)%nat with 1%nat. rewrite poisson_10. cbn. field.
  - rewrite <- spherical_bessel_0 by exact N. unfold spherical_bessel. cbn -[poisson]. field.
Qed.
Lemma sinc_cont : forall r k, continuous (fun k => sinc (k * r)) k.
Proof.
  intros r k. apply (continuous_ext (fun k => reg Integer 0 (k * r))); [intros y; symmetry; apply sinc_reg|].
  apply reg_scaled_cont.
Qed.
Lemma sinc_lt : forall x, 0 < x -> -1 < sinc x < 1.
Proof.
  intros x P. unfold sinc. destruct (Req_EM_T x 0) as [|_]; [lra|].
  pose proof (sin_lt_x x P) as U.
  assert (L : - x < sin x).
  { destruct (Rlt_le_dec 1 x) as [G|G]; [pose proof (SIN_bound x); lra|].
    assert (0 < sin x); [|lra]. apply sin_gt_0; [exact P|]. pose proof PI2_3_2. lra. }
  split.
  - apply (Rmult_lt_reg_r x); [exact P|]. unfold Rdiv. rewrite Rmult_assoc, Rinv_l by lra. lra.
  - apply (Rmult_lt_reg_r x); [exact P|]. unfold Rdiv. rewrite Rmult_assoc, Rinv_l by lra. lra.
Qed.

Section Divergent.
Variable E : tab_ext.
Variables a b : R.
Let P := x_spline (t_fft E).
Hypotheses (Ex : exact_ext E) (Pa : 0 < a) (Pab : a < b) (Pc : forall k, a <= k <= b -> continuous P k).

Lemma B0 : bessel_order Integer 0.
Proof. cbn. lia. Qed.
Lemma weight_40 : forall k, 0 < k -> weight P Integer 4 0 k = P k / k ^ 2.
Proof.
  intros k K. unfold weight. cbn [order]. replace (2 + (0 - 4)) with (- (2)) by lra.
  rewrite Rpower_Ropp. replace 2 with (INR 2) at 1 by (cbn; ring). rewrite Rpower_pow by exact K. field. lra.
Qed.
Lemma tabulated_40 : forall r, 0 < r -> tabulated P Integer 4 0 a b r = divergent_integral P a b r.
Proof.
  intros r R0. unfold tabulated, divergent_integral. cbn [Z.leb Z.compare].
  rewrite (integral_part P Integer 4 0 a b B0 Pa (Rlt_le _ _ Pab) Pc r R0). unfold part. cbn [order].
  replace (0 - 4) with (- (4 - 0)) by ring. rewrite Rpower_Ropp.
  rewrite (RInt_ext _ (fun k => P k * sinc (k * r) / k ^ 2)).
  - assert (Rpower r (4 - 0) <> 0) by (apply Rgt_not_eq, exp_pos). pose proof PI_RGT_0. field. split; lra.
  - intros k K. rewrite Rmin_left in K by lra. rewrite weight_40 by lra. rewrite sinc_reg. asR. field. lra.
Qed.
Lemma inv2_cont : forall k, a <= k <= b -> continuous (fun k => / k ^ 2) k.
Proof.
  intros k K. apply (ex_derive_continuous (K := R_AbsRing) (V := R_NormedModule)). auto_derive.
  cbn. rewrite Rmult_1_r. apply Rmult_integral_contrapositive_currified; lra.
Qed.

(** The three tables, entry by entry. *)
Theorem C78_divergent : forall r, 0 < r -> divergent_entry E r a b = divergent_integral P a b r.
Proof.
  intros r R0. rewrite <- tabulated_40 by exact R0. unfold divergent_entry, integrate_function.
  assert (C1 : rle (local Integer 0) (local Integer 4) = true) by (apply rle_true; cbn; lra).
  assert (C2 : rlt 0 r = true) by (apply rlt_true; exact R0). rewrite C1, C2. cbn [andb].
  apply (entry_ok E Integer 4 0 a b r Ex B0 Pa (Rlt_le _ _ Pab) Pc R0).
Qed.
Theorem C78_renormalisation : forall x y,
  renormalization_entry E x y a b = renormalisation P a b x y /\
  renormalization_entry E x y a b = renormalization_entry E y x a b.
Proof.
  assert (G : forall x y, renormalization_entry E x y a b = renormalisation P a b x y).
  { intros x y. unfold renormalization_entry, renormalisation, renormalization_integrand. fold P.
    pose proof Ex as (Q & _ & _ & _ & _ & J0). pose proof PI_RGT_0. rewrite Q.
    - rewrite (RInt_ext _ (fun k => P k * sinc (k * x) * sinc (k * y) / k ^ 2)); [field; lra|].
      intros k K. rewrite Rmin_left in K by lra. rewrite !J0. fold (sinc (k * x)) (sinc (k * y)). asR. field. lra.
    - lra.
    - intros k K. apply (continuous_ext (fun k => P k * sinc (k * x) * sinc (k * y) * / k * / k)).
      + intros t. rewrite !J0. reflexivity.
      + repeat match goal with |- continuous (fun t => _ * _) _ => apply (continuous_mult (K := R_AbsRing)) end;
          try apply sinc_cont; try (apply Pc; exact K);
          apply (ex_derive_continuous (K := R_AbsRing) (V := R_NormedModule)); auto_derive; lra. }
  intros x y. split; [apply G|]. rewrite !G. unfold renormalisation. f_equal. apply RInt_ext. intros k _. asR. unfold Rdiv. ring.
Qed.

(** The limit of the renormalised integral when the two points come together at
    the distance [x]. *)
Definition coincidence (x : R) : R := RInt (fun k => P k * (1 - sinc (k * x) ^ 2) / k ^ 2) a b / (2 * PI ^ 2).
Lemma coincidence_limit : forall x eps, 0 < eps -> exists d, 0 < d /\ forall r, 0 < r < d ->
  Rabs (divergent_integral P a b r - renormalisation P a b x x - coincidence x) < eps.
Proof.
  intros x eps Pe. pose proof PI_RGT_0 as Pp.
  destruct (tabulated_limit P Integer 4 0 a b B0 Pa (Rlt_le _ _ Pab) Pc _ eq_refl eps Pe) as (d & D0 & H).
  exists d. split; [exact D0|]. intros r Hr. specialize (H r Hr). rewrite tabulated_40 in H by lra.
  cbn [Z.leb Z.compare] in H.
  replace (divergent_integral P a b r - renormalisation P a b x x - coincidence x)
    with (divergent_integral P a b r - part P Integer 4 0 a b 0 / (2 * PI ^ 2)); [exact H|].
  assert (S : part P Integer 4 0 a b 0 = RInt (fun k => P k * sinc (k * x) * sinc (k * x) / k ^ 2) a b
                + RInt (fun k => P k * (1 - sinc (k * x) ^ 2) / k ^ 2) a b).
  { unfold part.
    transitivity (RInt (fun k => plus (P k * sinc (k * x) * sinc (k * x) / k ^ 2) (P k * (1 - sinc (k * x) ^ 2) / k ^ 2)) a b).
    - apply RInt_ext. intros k K. rewrite Rmin_left in K by lra. rewrite weight_40 by lra.
      rewrite Rmult_0_r, <- sinc_reg. unfold sinc at 1. destruct (Req_EM_T 0 0); [|congruence].
      unfold plus. cbn. asR. field. lra.
    - apply (RInt_plus (V := R_CompleteNormedModule)); apply (ex_RInt_continuous (V := R_CompleteNormedModule));
        intros k K; rewrite Rmin_left, Rmax_right in K by lra.
      + repeat match goal with |- continuous (fun t => _ * _) _ => apply (continuous_mult (K := R_AbsRing)) | |- continuous (fun t => _ / _) _ => apply (continuous_mult (K := R_AbsRing)) end;
          try apply sinc_cont; try (apply Pc; exact K). apply inv2_cont. exact K.
      + apply (continuous_mult (K := R_AbsRing)); [|apply inv2_cont; exact K].
        apply (continuous_mult (K := R_AbsRing)); [apply Pc; exact K|].
        apply (continuous_minus (V := R_NormedModule)); [apply continuous_const|].
        apply (continuous_ext (fun k => sinc (k * x) * sinc (k * x))); [intros t; cbn; asR; ring|].
        apply (continuous_mult (K := R_AbsRing)); apply sinc_cont. }
  rewrite S. unfold renormalisation, coincidence. field. lra.
Qed.

(** The table that stands for this limit holds [x^4] times it. *)
Lemma coincidence_entry : forall x, 0 < x -> zero_separation_entry E x a b = x ^ 4 * coincidence x.
Proof.
  intros x X0. unfold zero_separation_entry, integrate_function.
  assert (C1 : rle (local Integer 0) (local Integer 4) = true) by (apply rle_true; cbn; lra).
  assert (C2 : rlt 0 x = true) by (apply rlt_true; exact X0). rewrite C1, C2. cbn [andb local].
  replace (4 - 0) with (INR 4) by (cbn; ring). rewrite Rpower_pow by exact X0.
  pose proof Ex as (Q & _ & _ & _ & _ & J0). pose proof PI_RGT_0. fold P. unfold coincidence. rewrite Q.
  - rewrite (RInt_ext _ (fun k => P k * (1 - sinc (k * x) ^ 2) / k ^ 2)); [field; lra|].
    intros k K. rewrite Rmin_left in K by lra. unfold renormalization0_integrand. rewrite J0. fold (sinc (k * x)). asR. field. lra.
  - lra.
  - intros k K. unfold renormalization0_integrand.
    apply (continuous_ext (fun k => P k * (1 - sinc (k * x) * sinc (k * x)) * / k * / k)).
    + intros t. rewrite !J0. fold (sinc (t * x)). asR. unfold Rdiv. cbn. ring.
    + apply (continuous_mult (K := R_AbsRing)); [|apply (ex_derive_continuous (K := R_AbsRing) (V := R_NormedModule)); auto_derive; lra].
      apply (continuous_mult (K := R_AbsRing)); [|apply (ex_derive_continuous (K := R_AbsRing) (V := R_NormedModule)); auto_derive; lra].
      apply (continuous_mult (K := R_AbsRing)); [apply Pc; exact K|].
      apply (continuous_minus (V := R_NormedModule)); [apply continuous_const|].
      apply (continuous_mult (K := R_AbsRing)); apply sinc_cont.
Qed.
Lemma coincidence_pos : forall x, 0 < x -> (forall k, a <= k <= b -> 0 < P k) -> 0 < coincidence x.
Proof.
  intros x X0 Pos. unfold coincidence. pose proof PI_RGT_0. apply Rdiv_lt_0_compat; [|nra].
  apply RInt_gt_0; [exact Pab| |].
  - intros k K. apply Rdiv_lt_0_compat; [|nra]. apply Rmult_lt_0_compat; [apply Pos; lra|].
    pose proof (sinc_lt (k * x) ltac:(nra)). nra.
  - intros k K. apply (continuous_mult (K := R_AbsRing)); [|apply inv2_cont; exact K].
    apply (continuous_mult (K := R_AbsRing)); [apply Pc; exact K|].
    apply (continuous_minus (V := R_NormedModule)); [apply continuous_const|].
    apply (continuous_ext (fun k => sinc (k * x) * sinc (k * x))); [intros t; cbn; asR; ring|].
    apply (continuous_mult (K := R_AbsRing)); apply sinc_cont.
Qed.

(** For every positive spectrum: the value read when the two points coincide, at
    any distance [x] other than 1, is not the limit of the values read when they
    are apart; it is [x^4] times it. *)
Theorem C78_coincidence_refuted : forall x, 0 < x -> x <> 1 -> (forall k, a <= k <= b -> 0 < P k) ->
  exists L, 0 < L /\
    (forall eps, 0 < eps -> exists d, 0 < d /\ forall r, 0 < r < d ->
       Rabs (divergent_entry E r a b - renormalization_entry E x x a b - L) < eps) /\
    zero_separation_entry E x a b = x ^ 4 * L /\ zero_separation_entry E x a b <> L.
Proof.
  intros x X0 X1 Pos. exists (coincidence x). pose proof (coincidence_pos x X0 Pos) as L0. split; [exact L0|]. split; [|split].
  - intros eps Pe. destruct (coincidence_limit x eps Pe) as (d & D0 & H). exists d. split; [exact D0|]. intros r Hr.
    rewrite C78_divergent by lra. rewrite (proj1 (C78_renormalisation x x)). apply H. exact Hr.
  - apply coincidence_entry. exact X0.
  - rewrite coincidence_entry by exact X0. intros F.
    assert (x ^ 4 = 1) by (apply (Rmult_eq_reg_r (coincidence x)); lra).
    destruct (Rlt_le_dec x 1) as [L|L].
    + assert (x * x < 1) by nra. assert (x ^ 4 = (x * x) * (x * x)) by (cbn; ring). nra.
    + assert (1 < x) by lra. assert (1 < x * x) by nra. assert (x ^ 4 = (x * x) * (x * x)) by (cbn; ring). nra.
Qed.

(** The two lists of values: each belongs to the separation at the same position,
    and the second starts with 0 at separation 0. *)
Theorem C78_tables : forall i, (i < List.length divergent_seps)%nat ->
  nth i (divergent_values E a b) 0 = divergent_integral P a b (nth i divergent_seps 0) /\
  nth i (zero_separation_values E a b) 0
    = (if (i =? 0)%nat then 0 else nth i divergent_seps 0 ^ 4 * coincidence (nth i divergent_seps 0)) /\
  nth i zero_separation_seps 0 = (if (i =? 0)%nat then 0 else nth i divergent_seps 0).
Proof.
  intros i Hi. assert (Rp : 0 < nth i divergent_seps 0).
  { destruct C18_divergent as (_ & _ & _ & _ & H). apply (H (nth i divergent_seps 0)). apply nth_In. exact Hi. }
  unfold divergent_seps in *. split; [|split].
  - unfold divergent_values. rewrite (nth_indep _ 0 (divergent_entry E 0 a b)) by (rewrite map_length; exact Hi).
    rewrite (map_nth (fun r => divergent_entry E r a b)). apply C78_divergent. exact Rp.
  - unfold zero_separation_values. destruct i as [|i]; [reflexivity|]. cbn [Nat.eqb nth].
    rewrite <- coincidence_entry by exact Rp. destruct coffe_sep as [|x l]; [cbn in Hi; lia|]. cbn [map tl nth].
    cbn in Hi. rewrite (nth_indep _ 0 (zero_separation_entry E 0 a b)) by (rewrite map_length; lia).
    apply (map_nth (fun r => zero_separation_entry E r a b)).
  - unfold zero_separation_seps. destruct i as [|i]; [reflexivity|]. cbn [Nat.eqb nth].
    destruct coffe_sep as [|x l]; [cbn in Hi; lia|]. reflexivity.
Qed.
End Divergent.
Print Assumptions C78_tables.
Print Assumptions C78_divergent.
Print Assumptions C78_renormalisation.
Print Assumptions C78_coincidence_refuted.

(** ** C79: the tables in redshift and separation *)
Lemma scatter : forall A n k (body : nat -> list (option A) -> res (list (option A))) (pos : nat -> nat) (v : nat -> A) a,
  (forall i j, pos i = pos j -> i = j) -> (forall j, (k <= j < k + n)%nat -> (pos j < List.length a)%nat) ->
  (forall j c, (k <= j < k + n)%nat -> List.length c = List.length a -> body j c = store c (Z.of_nat (pos j)) (v j)) ->
  exists c, rfor k n body a = Done c /\ List.length c = List.length a
    /\ (forall j, (k <= j < k + n)%nat -> nth_error c (pos j) = Some (Some (v j)))
    /\ (forall q, (forall j, (k <= j < k + n)%nat -> q <> pos j) -> nth_error c q = nth_error a q).
Proof.
  intros A n. induction n as [|n IH]; intros k body pos v a I R B.
  - exists a. split; [reflexivity|]. split; [reflexivity|]. split; [intros; lia|intros; reflexivity].
  - cbn [rfor]. rewrite B by lia. destruct (store_ok _ a (pos k) (v k) ltac:(apply R; lia)) as (a' & E1 & L1 & W1 & O1).
    rewrite E1. cbn [rbind]. destruct (IH (S k) body pos v a') as (c & E2 & L2 & W2 & O2).
    + exact I.
    + intros j Hj. rewrite L1. apply R. lia.
    + intros j c Hj Lc. apply B; lia.
    + exists c. split; [exact E2|]. split; [lia|]. split.
      * intros j Hj. destruct (Nat.eq_dec j k) as [->|N]; [|apply W2; lia].
        rewrite O2; [exact W1|]. intros i Hi F. apply I in F. lia.
      * intros q Hq. rewrite O2 by (intros j Hj; apply Hq; lia). apply O1. apply Hq. lia.
Qed.

(** Position [j * 100 + i] belongs to the [i]-th redshift and [j]-th separation,
    and holds what the one-dimensional table of the spectrum at that redshift
    holds there. *)
Theorem C79_evolved : forall E Pz N n l sn sl kmin kmax (col : nat -> list R),
  (forall i, (i < 100)%nat -> List.length (col i) = (N + 43)%nat /\
     exists xs, renormalizable (with_spectrum E (Pz i)) N n l sn sl kmin kmax = Done (xs, map Some (col i))) ->
  exists t, evolved_table E Pz N n l sn sl kmin kmax = Done (map Some t) /\
    List.length t = (100 * (N + 43))%nat /\
    (forall i j, (i < 100)%nat -> (j < N + 43)%nat -> nth (j * 100 + i) t 0 = nth j (col i) 0).
Proof.
  intros E Pz N n l sn sl kmin kmax col H. unfold evolved_table.
  replace (N + min_sep_len + 1)%nat with (N + 43)%nat by (unfold min_sep_len; lia). change z_size with 100%nat.
  match goal with |- context [rfor 0 100 ?b _] => set (body := b) end.
  assert (Lp : forall m k a, (k + m <= 100)%nat -> List.length a = (100 * (N + 43))%nat ->
    exists c, rfor k m body a = Done c /\ List.length c = List.length a
      /\ (forall i j, (k <= i < k + m)%nat -> (j < N + 43)%nat -> nth_error c (j * 100 + i) = Some (Some (nth j (col i) 0)))
      /\ (forall i j, (i < k \/ k + m <= i)%nat -> (i < 100)%nat -> (j < N + 43)%nat -> nth_error c (j * 100 + i) = nth_error a (j * 100 + i))).
  { induction m as [|m IH]; intros k a Hk La.
    - exists a. split; [reflexivity|]. split; [reflexivity|]. split; [intros; lia|intros; reflexivity].
    - cbn [rfor]. unfold body at 1. destruct (H k ltac:(lia)) as (Lc & xs & Ek). rewrite Ek. cbn [rbind snd].
      match goal with |- context [rfor 0 (N + 43) ?b a] => set (inner := b) end.
      destruct (scatter R (N + 43) 0 inner (fun j => j * 100 + k)%nat (fun j => nth j (col k) 0) a) as (a' & E1 & L1 & W1 & O1).
      + intros i j F. lia.
      + intros j Hj. rewrite La. lia.
      + intros j c Hj Lj. unfold inner. rewrite (load_ok R (col k) j 0) by lia. reflexivity.
      + rewrite E1. cbn [rbind]. destruct (IH (S k) a') as (c & E2 & L2 & W2 & O2); [lia|lia|].
        exists c. split; [exact E2|]. split; [lia|]. split.
        * intros i j Hi Hj. destruct (Nat.eq_dec i k) as [->|Ne]; [|apply W2; lia].
          rewrite O2 by lia. apply W1. lia.
        * intros i j Hi Hi' Hj. rewrite O2 by lia. apply O1. intros j' Hj' F. lia. }
  destruct (Lp 100%nat 0%nat (fresh (100 * (N + 43))) ltac:(lia) ltac:(apply fresh_length)) as (c & Ec & Lc & W & _).
  rewrite fresh_length in Lc. rewrite Ec.
  exists (map (fun q => nth (q / 100) (col (q mod 100)%nat) 0) (seq 0 (100 * (N + 43)))). split; [|split].
  - f_equal. apply all_some; [exact Lc|]. intros q Hq.
    assert (Q : q = (q / 100 * 100 + q mod 100)%nat) by (rewrite (Nat.div_mod q 100) at 1 by lia; lia).
    pose proof (Nat.mod_upper_bound q 100 ltac:(lia)). rewrite Q at 1. apply W; [lia|].
    apply Nat.div_lt_upper_bound; lia.
  - rewrite map_length, seq_length. reflexivity.
  - intros i j Hi Hj. rewrite nth_mapseq by lia.
    rewrite Nat.div_add_l by lia. rewrite (Nat.div_small i 100), Nat.add_0_r by exact Hi.
    replace ((j * 100 + i) mod 100)%nat with i; [reflexivity|].
    rewrite Nat.add_comm, Nat.mod_add by lia. symmetry. apply Nat.mod_small. exact Hi.
Qed.

Lemma same_spectrum : forall E, with_spectrum E (x_spline (t_fft E)) = E.
Proof. intros [[? ?] ? ? ? ? ?]. reflexivity. Qed.

(** The same spectrum at every redshift (growth 1): the two-dimensional table
    repeats the one-dimensional one. *)
Theorem C79_same : forall E N n l sn sl kmin kmax xs ys,
  List.length ys = (N + 43)%nat ->
  renormalizable E N n l sn sl kmin kmax = Done (xs, map Some ys) ->
  exists t, evolved_table E (fun _ => x_spline (t_fft E)) N n l sn sl kmin kmax = Done (map Some t) /\
    (forall i j, (i < 100)%nat -> (j < N + 43)%nat -> nth (j * 100 + i) t 0 = nth j ys 0).
Proof.
  intros E N n l sn sl kmin kmax xs ys L H.
  destruct (C79_evolved E (fun _ => x_spline (t_fft E)) N n l sn sl kmin kmax (fun _ => ys)) as (t & T & _ & V).
  - intros i Hi. split; [exact L|]. exists xs. rewrite same_spectrum. exact H.
  - exists t. split; [exact T|exact V].
Qed.

(** Except for the flat-sky density-lensing table: it is not rescaled, although
    the terms multiply both tables by the same factor (functions.c:1571-1618), so
    that the same spectrum gives results more than 12 times smaller. *)
Theorem C79_flat_refuted : forall E N kmin kmax us vs,
  List.length vs = (N + 43)%nat ->
  renormalizable E N 1 (-1) HalfInteger HalfInteger kmin kmax = Done (us, map Some vs) ->
  exists ys t, flat_table E N kmin kmax = Done (us, map Some ys) /\
    evolved_table E (fun _ => x_spline (t_fft E)) N 1 (-1) HalfInteger HalfInteger kmin kmax = Done (map Some t) /\
    (forall i j, (i < 100)%nat -> (j < N + 43)%nat ->
       nth j ys 0 = sqrt (2 / PI) * (2 * PI ^ 2) * nth (j * 100 + i) t 0) /\
    12 < sqrt (2 / PI) * (2 * PI ^ 2).
Proof.
  intros E N kmin kmax us vs L H. set (F := sqrt (2 / PI) * 2 * PI * PI). exists (map (fun y => y * F) vs).
  destruct (C79_same E N 1 (-1) HalfInteger HalfInteger kmin kmax us vs L H) as (t & T & V). exists t.
  split; [|split; [exact T|split]].
  - unfold flat_table. rewrite H. cbn [rbind fst snd].
    replace (N + min_sep_len + 1)%nat with (List.length vs) by (rewrite L; unfold min_sep_len; lia).
    fold F. rewrite rescale_ok. reflexivity.
  - intros i j Hi Hj. rewrite V by assumption. rewrite (nth_indep _ 0 (0 * F)) by (rewrite map_length; lia).
    rewrite (map_nth (fun y => y * F)). unfold F. ring.
  - pose proof PI_RGT_0 as Pp. pose proof PI_4 as P4. pose proof PI2_3_2 as P3.
    assert (S : 7 / 10 <= sqrt (2 / PI)).
    { rewrite <- (sqrt_square (7 / 10)) by lra. apply sqrt_le_1_alt. apply (Rmult_le_reg_r PI); [exact Pp|].
      unfold Rdiv. rewrite (Rmult_assoc 2), Rinv_l by lra. lra. }
    assert (18 <= 2 * PI ^ 2) by (cbn; nra). nra.
Qed.

(** The redshifts are 0, 0.03, ..., 2.97: a run at a redshift above 2.97 is
    outside every table. *)
Theorem C79_redshifts_refuted :
  List.length z_array = 100%nat /\ (forall i, (i < 100)%nat -> nth i z_array 1 = INR i * (3 / 100)) /\
  forall z, 297 / 100 < z -> forall x, In x z_array -> x < z.
Proof.
  split; [unfold z_array; rewrite map_length, seq_length; reflexivity|]. split.
  - intros i Hi. unfold z_array. rewrite nth_mapseq by exact Hi. lra.
  - intros z Hz x Hx. unfold z_array in Hx. apply in_map_iff in Hx. destruct Hx as (i & <- & Hi). apply in_seq in Hi.
    assert (INR i <= 99) by (replace 99 with (INR 99) by (rewrite INR_IZR_INZ; reflexivity); apply le_INR; lia). lra.
Qed.
Print Assumptions C79_evolved.
Print Assumptions C79_flat_refuted.
Print Assumptions C79_redshifts_refuted.

(** Exact externals exist. *)
Definition half_gamma (x : R) : R :=
  let k := Z.to_nat (up (2 * x) - 1) in
  if Nat.even k then INR (fact (k / 2 - 1))
  else sqrt PI * INR (fact (2 * (k / 2))) / (4 ^ (k / 2) * INR (fact (k / 2))).
Definition some_ext : tab_ext :=
  {| t_fft := {| x_spline := fun k => / (1 + k); x_mql := fun _ _ _ _ => Done (RtoC 0) |};
     t_quad := fun f a b => RInt f a b; t_jl := fun l x => spherical_bessel (Z.to_nat l) x;
     t_Jn := fun m x => cylindrical_bessel (Z.to_nat m) x; t_gamma := half_gamma;
     t_j0 := fun x => if Req_EM_T x 0 then 1 else sin x / x |}.
Lemma half_gamma_at : forall k x, 2 * x = INR k -> Z.to_nat (up (2 * x) - 1) = k.
Proof.
  intros k x H. rewrite H. rewrite <- (up_tech (INR k) (Z.of_nat k)); [lia| |].
  - rewrite <- INR_IZR_INZ. lra.
  - rewrite plus_IZR, <- INR_IZR_INZ. lra.
Qed.
Example C77_exact_met : exact_ext some_ext.
Proof.
  unfold exact_ext. cbn [t_quad t_jl t_Jn t_gamma t_j0 some_ext]. repeat split.
  - intros l x _. rewrite Nat2Z.id. reflexivity.
  - intros m x _. rewrite Nat2Z.id. reflexivity.
  - intros m. unfold half_gamma. rewrite (half_gamma_at (2 * (m + 1))%nat).
    + rewrite Nat.even_mul. cbn [Nat.even orb]. rewrite Nat.mul_comm, Nat.div_mul by lia. do 2 f_equal. lia.
    + rewrite mult_INR, plus_INR. cbn. lra.
  - intros m. unfold half_gamma. rewrite (half_gamma_at (1 + 2 * m)%nat).
    + rewrite Nat.even_add_mul_2. cbn [Nat.even]. replace ((1 + 2 * m) / 2)%nat with m; [reflexivity|].
      replace (1 + 2 * m)%nat with (m * 2 + 1)%nat by lia. rewrite Nat.div_add_l by lia. cbn. lia.
    + rewrite plus_INR, mult_INR. cbn. lra.
Qed.
Example C77_met :
  let P := x_spline (t_fft some_ext) in
  (forall k, 1 <= k <= exp 4 -> 0 < P k /\ continuous P k) /\
  (exists xs ys, renormalizable some_ext 8 2 0 Integer Integer 1 (exp 4) = Done (map Some xs, map Some ys)) /\
  (exists xs ys, flat_table some_ext 8 1 (exp 4) = Done (map Some xs, map Some ys)) /\
  bessel_order Integer 0 /\ bessel_order HalfInteger (-1) /\ 0 < 1 < exp 4.
Proof.
  pose proof C18_nonvacuous as (_ & _ & A & B & C & _).
  assert (T : forall n l s, exists xs ys, renormalizable some_ext 8 n l s s 1 (exp 4) = Done (map Some xs, map Some ys) /\ List.length ys = 51%nat).
  { intros n l s. destruct (C18_tables_partial some_ext 8 n l s s 1 (exp 4) 0) as (xs & ys & ff & T & _ & L & _);
      [lia|reflexivity|lra|exact A|exact B|exact C|intros; eexists; reflexivity|]. exists xs, ys. split; [exact T|exact L]. }
  split; [|split; [|split]].
  - intros k K. cbn. split; [apply Rinv_0_lt_compat; lra|].
    apply (ex_derive_continuous (K := R_AbsRing) (V := R_NormedModule)). auto_derive. lra.
  - destruct (T 2%Z 0%Z Integer) as (xs & ys & H & _). exists xs, ys. exact H.
  - destruct (T 1%Z (-1)%Z HalfInteger) as (xs & ys & H & L).
    destruct (C79_flat_refuted some_ext 8 1 (exp 4) (map Some xs) ys L H) as (zs & _ & G & _). exists xs, zs. exact G.
  - split; [cbn; lia|]. split; [split; [exists (-1)%Z; reflexivity|lia]|lra].
Qed.
