(** * Integrals of Bessel functions over the cosine

    Sonine's and Gegenbauer's finite integrals, by comparing power series with explicit
    bounds on their remainders. *)
From Coq Require Import Reals Lra Lia Arith ZArith.
From Coquelicot Require Import Coquelicot.
From Verif Require Import CExpr Legendre Tables Props_Values.
Open Scope R_scope.
Ltac asR := match goal with |- ?a = ?b => change (@eq R a b) end.

(** ** Finite sums *)
(** Specification or proof only; nothing in the code. *)
Fixpoint psum (c : nat -> R) (n : nat) : R := match n with O => 0 | S n => psum c n + c n end.
Lemma psum_ext : forall c d n, (forall k, (k < n)%nat -> c k = d k) -> psum c n = psum d n.
Proof. intros c d. induction n; intros H; cbn [psum]; [reflexivity|]. rewrite IHn, H by (intros; try apply H; lia). reflexivity. Qed.
Lemma psum_scal : forall k c n, psum (fun i => k * c i) n = k * psum c n.
Proof. intros. induction n; cbn [psum]; [ring|]. rewrite IHn. ring. Qed.
Lemma psum_shift : forall c h n, psum c (h + n) = psum c h + psum (fun j => c (h + j)%nat) n.
Proof. intros. induction n; [rewrite Nat.add_0_r; cbn; ring|]. rewrite Nat.add_succ_r. cbn [psum]. rewrite IHn. ring. Qed.
Lemma psum_zero : forall c n, (forall k, (k < n)%nat -> c k = 0) -> psum c n = 0.
Proof. intros c. induction n; intros H; cbn [psum]; [reflexivity|]. rewrite IHn, H by (intros; try apply H; lia). ring. Qed.

(** ** The remainder of the cosine *)
Lemma grow : forall (f df : R -> R) n, f 0 = 0 -> (forall t, is_derive f t (df t)) -> (forall t, continuous df t) ->
  (forall t, 0 <= t -> Rabs (df t) <= t ^ n / INR (fact n)) ->
  forall y, 0 <= y -> Rabs (f y) <= y ^ S n / INR (fact (S n)).
Proof.
  intros f df n F0 D C B y Y.
  assert (I : is_RInt df 0 y (f y)).
  { replace (f y) with (minus (f y) (f 0)) by (rewrite F0; unfold minus, plus, opp; cbn; ring).
    apply (is_RInt_derive (V := R_CompleteNormedModule)); intros; auto. }
  assert (J : is_RInt (fun t => t ^ n / INR (fact n)) 0 y (y ^ S n / INR (fact (S n)))).
  { replace (y ^ S n / INR (fact (S n))) with (minus (y ^ S n / INR (fact (S n))) (0 ^ S n / INR (fact (S n))))
      by (unfold minus, plus, opp; cbn [pow]; cbn; unfold Rdiv; ring).
    apply (is_RInt_derive (V := R_CompleteNormedModule) (fun t => t ^ S n / INR (fact (S n)))).
    - intros t _. rewrite fact_1. pose proof (pos_INR n). pose proof (INR_fact_neq_0 n).
      auto_derive; [exact Logic.I|]. cbn [pred]. change (match n with 0%nat => 1 | S _ => INR n + 1 end) with (INR (S n)).
      rewrite S_INR. field. split; lra.
    - intros t _. apply (ex_derive_continuous (K := R_AbsRing) (V := R_NormedModule)). auto_derive. exact Logic.I. }
  rewrite <- (is_RInt_unique _ _ _ _ I), <- (is_RInt_unique _ _ _ _ J).
  eapply Rle_trans; [apply abs_RInt_le; [exact Y|exists (f y); exact I]|].
  apply RInt_le; [exact Y| |exists (y ^ S n / INR (fact (S n))); exact J|].
  - apply (ex_RInt_norm df). exists (f y). exact I.
  - intros t T. apply B. lra.
Qed.

(** Specification or proof only; nothing in the code. *)
Definition cos_term (y : R) (k : nat) : R := (-1) ^ k * y ^ (2 * k) / INR (fact (2 * k)).
Definition sin_term (y : R) (k : nat) : R := (-1) ^ k * y ^ (2 * k + 1) / INR (fact (2 * k + 1)).
Lemma cos_term_S : forall k y, is_derive (fun y => cos_term y (S k)) y (- sin_term y k).
Proof.
  intros k y. unfold cos_term, sin_term. rewrite fact_2.
  replace (fact (2 * k + 1)) with (S (2 * k) * fact (2 * k))%nat by (rewrite Nat.add_1_r; reflexivity).
  rewrite mult_INR, S_INR, mult_INR. replace (INR 2) with 2 by (cbn; ring).
  replace (2 * S k)%nat with (S (S (2 * k))) by lia. rewrite Nat.add_1_r.
  pose proof (pos_INR k). pose proof (INR_fact_neq_0 (2 * k)).
  auto_derive; [exact Logic.I|]. cbn [pred].
  change (match (k + (k + 0))%nat with 0%nat => 1 | S _ => INR (k + (k + 0)) + 1 end) with (INR (S (2 * k))).
  replace (INR (S (2 * k)) + 1) with (2 * INR k + 2) by (rewrite S_INR, mult_INR; cbn; ring).
  change (k + (k + 0))%nat with (2 * k)%nat. change (y ^ S (2 * k)) with (y * y ^ (2 * k)). cbn [pow].
  change (k + (k + 0))%nat with (2 * k)%nat. set (f := INR (fact (2 * k))) in *. set (q := y ^ (2 * k)).
  asR. field. repeat split; lra.
Qed.
Lemma sin_term_d : forall k y, is_derive (fun y => sin_term y k) y (cos_term y k).
Proof.
  intros k y. unfold cos_term, sin_term.
  replace (fact (2 * k + 1)) with (S (2 * k) * fact (2 * k))%nat by (rewrite Nat.add_1_r; reflexivity).
  rewrite mult_INR, Nat.add_1_r. pose proof (INR_fact_neq_0 (2 * k)). pose proof (INR_S_pos (2 * k)).
  auto_derive; [exact Logic.I|]. cbn [pred].
  change (match (k + (k + 0))%nat with 0%nat => 1 | S _ => INR (k + (k + 0)) + 1 end) with (INR (S (2 * k))).
  change (k + (k + 0))%nat with (2 * k)%nat. field. repeat split; lra.
Qed.
Lemma cos_sum_d : forall n y, is_derive (fun y => psum (cos_term y) (S n)) y (- psum (sin_term y) n).
Proof.
  induction n as [|n IH]; intros y.
  - cbn [psum]. apply (is_derive_ext (fun _ => 1)); [intros t; unfold cos_term; cbn; field|].
    rewrite Ropp_0. apply (is_derive_const (K := R_AbsRing) (V := R_NormedModule) 1 y).
  - apply (is_derive_ext (fun y => psum (cos_term y) (S n) + cos_term y (S n))); [reflexivity|].
    cbn [psum]. rewrite Ropp_plus_distr. apply (is_derive_plus (K := R_AbsRing) (V := R_NormedModule)); [apply IH|apply cos_term_S].
Qed.
Lemma sin_sum_d : forall n y, is_derive (fun y => psum (sin_term y) n) y (psum (cos_term y) n).
Proof.
  induction n as [|n IH]; intros y.
  - cbn [psum]. apply (is_derive_const (K := R_AbsRing) (V := R_NormedModule) 0 y).
  - cbn [psum]. apply (is_derive_plus (K := R_AbsRing) (V := R_NormedModule)); [apply IH|apply sin_term_d].
Qed.
Lemma cos_sum_0 : forall n, psum (cos_term 0) (S n) = 1.
Proof.
  induction n as [|n IH]; [cbn [psum]; unfold cos_term; cbn; field|]. cbn [psum] in *. rewrite IH.
  unfold cos_term. rewrite pow_ne_zero by lia. unfold Rdiv. ring.
Qed.
Lemma sin_sum_0 : forall n, psum (sin_term 0) n = 0.
Proof. intros n. apply psum_zero. intros k _. unfold sin_term. rewrite pow_ne_zero by lia. unfold Rdiv. ring. Qed.

Lemma remainders : forall n,
  (forall y, 0 <= y -> Rabs (cos y - psum (cos_term y) n) <= y ^ (2 * n) / INR (fact (2 * n))) /\
  (forall y, 0 <= y -> Rabs (sin y - psum (sin_term y) n) <= y ^ (2 * n + 1) / INR (fact (2 * n + 1))).
Proof.
  assert (SS : forall n, (forall y, 0 <= y -> Rabs (cos y - psum (cos_term y) n) <= y ^ (2 * n) / INR (fact (2 * n))) ->
    (forall y, 0 <= y -> Rabs (sin y - psum (sin_term y) n) <= y ^ (2 * n + 1) / INR (fact (2 * n + 1)))).
  { intros n H. rewrite Nat.add_1_r. apply (grow (fun y => sin y - psum (sin_term y) n) (fun y => cos y - psum (cos_term y) n)); [| | |exact H].
    - rewrite sin_0, sin_sum_0. ring.
    - intros t. apply (is_derive_minus (K := R_AbsRing) (V := R_NormedModule)); [apply is_derive_sin|apply sin_sum_d].
    - intros t. apply (continuous_minus (V := R_NormedModule)).
      + apply (ex_derive_continuous (K := R_AbsRing) (V := R_NormedModule)). auto_derive. exact Logic.I.
      + destruct n; [apply continuous_const|].
        apply (ex_derive_continuous (K := R_AbsRing) (V := R_NormedModule)). exists (- psum (sin_term t) n). apply cos_sum_d. }
  induction n as [|n [_ IH]].
  - assert (H0 : forall y, 0 <= y -> Rabs (cos y - psum (cos_term y) 0) <= y ^ (2 * 0) / INR (fact (2 * 0))).
    { intros y _. cbn. rewrite Rminus_0_r. pose proof (COS_bound y). apply Rabs_le. lra. }
    split; [exact H0|]. exact (SS 0%nat H0).
  - assert (H0 : forall y, 0 <= y -> Rabs (cos y - psum (cos_term y) (S n)) <= y ^ (2 * S n) / INR (fact (2 * S n))).
    { replace (2 * S n)%nat with (S (2 * n + 1)) by lia.
      apply (grow (fun y => cos y - psum (cos_term y) (S n)) (fun y => - sin y - - psum (sin_term y) n)).
      - rewrite cos_0, cos_sum_0. ring.
      - intros t. apply (is_derive_minus (K := R_AbsRing) (V := R_NormedModule)); [apply is_derive_cos|apply cos_sum_d].
      - intros t. apply (continuous_minus (V := R_NormedModule)).
        + apply (ex_derive_continuous (K := R_AbsRing) (V := R_NormedModule)). auto_derive. exact Logic.I.
        + apply (continuous_opp (V := R_NormedModule)).
          apply (ex_derive_continuous (K := R_AbsRing) (V := R_NormedModule)). exists (psum (cos_term t) n). apply sin_sum_d.
      - intros t T. replace (- sin t - - psum (sin_term t) n) with (- (sin t - psum (sin_term t) n)) by ring.
        rewrite Rabs_Ropp. apply IH. exact T. }
    split; [exact H0|]. exact (SS (S n) H0).
Qed.
Lemma cos_remainder : forall n y, Rabs (cos y - psum (cos_term y) n) <= (Rabs y) ^ (2 * n) / INR (fact (2 * n)).
Proof.
  intros n y. destruct (Rle_or_lt 0 y) as [Y|Y].
  - rewrite (Rabs_pos_eq y Y). apply remainders. exact Y.
  - pose proof (proj1 (remainders n) (- y) ltac:(lra)) as H. rewrite cos_neg in H.
    rewrite (Rabs_left y Y). replace (psum (cos_term y) n) with (psum (cos_term (- y)) n); [exact H|].
    apply psum_ext. intros k _. unfold cos_term. rewrite !pow_mult. replace ((- y) ^ 2) with (y ^ 2) by ring. reflexivity.
Qed.

(** ** Functions with a power series of this kind *)
(** Specification or proof only; nothing in the code. *)
Definition expands (f : R -> R) (c : nat -> R) : Prop :=
  exists B K, 0 <= B /\ 0 <= K /\
  forall n r, Rabs (f r - psum (fun j => c j * r ^ (2 * j)) n) <= B * ((K * Rabs r) ^ (2 * n) / INR (fact (2 * n))).

Lemma small : forall A eps, 0 < eps -> exists N, forall n, (N <= n)%nat -> Rabs A ^ (2 * n) / INR (fact (2 * n)) < eps.
Proof.
  intros A eps Ep. destruct (cv_speed_pow_fact (Rabs A) eps Ep) as (N & H). exists N. intros n L.
  specialize (H (2 * n)%nat ltac:(lia)). unfold R_dist in H. rewrite Rminus_0_r in H.
  rewrite Rabs_pos_eq in H; [exact H|]. apply Rmult_le_pos; [apply pow_le, Rabs_pos|]. left. apply Rinv_0_lt_compat, INR_fact_lt_0.
Qed.
Lemma small_bound : forall B K r eps, 0 <= B -> 0 <= K -> 0 < eps ->
  exists N, forall n x, (N <= n)%nat -> Rabs x <= Rabs r -> B * ((K * Rabs x) ^ (2 * n) / INR (fact (2 * n))) < eps.
Proof.
  intros B K r eps B0 K0 Ep. destruct (small (K * Rabs r) (eps / (B + 1))) as (N & H); [apply Rdiv_lt_0_compat; lra|].
  exists N. intros n x L X. specialize (H n L).
  rewrite (Rabs_pos_eq (K * Rabs r)) in H by (apply Rmult_le_pos; [exact K0|apply Rabs_pos]).
  assert (I : (K * Rabs x) ^ (2 * n) / INR (fact (2 * n)) <= (K * Rabs r) ^ (2 * n) / INR (fact (2 * n))).
  { apply Rmult_le_compat_r; [left; apply Rinv_0_lt_compat, INR_fact_lt_0|]. apply pow_incr.
    split; [apply Rmult_le_pos; [exact K0|apply Rabs_pos]|]. apply Rmult_le_compat_l; assumption. }
  apply Rle_lt_trans with (B * (eps / (B + 1))); [apply Rmult_le_compat_l; lra|].
  apply (Rmult_lt_reg_r (B + 1)); [lra|]. replace (B * (eps / (B + 1)) * (B + 1)) with (B * eps) by (field; lra). nra.
Qed.

(** Such a function is determined by its coefficients, up to a shift. *)
Lemma expands_shift : forall f g c d h, expands f c -> expands g d ->
  (forall j, (j < h)%nat -> c j = 0) -> (forall j, c (h + j)%nat = d j) ->
  forall r, f r = r ^ (2 * h) * g r.
Proof.
  intros f g c d h (B & K & B0 & K0 & F) (B' & K' & B0' & K0' & G) Z S r.
  apply Rminus_diag_uniq. apply Rabs_eq_0. apply Rle_antisym; [|apply Rabs_pos].
  apply le_epsilon. intros eps Ep. rewrite Rplus_0_l.
  set (P := Rabs (r ^ (2 * h))). assert (P0 : 0 <= P) by apply Rabs_pos.
  destruct (small_bound B K r (eps / 2)) as (N1 & H1); [assumption..|lra|].
  destruct (small_bound (P * B') K' r (eps / 2)) as (N2 & H2); [apply Rmult_le_pos; assumption|assumption|lra|].
  set (n := (N1 + N2)%nat). specialize (F (h + n)%nat r). specialize (G n r).
  specialize (H1 (h + n)%nat r ltac:(lia) (Rle_refl _)). specialize (H2 n r ltac:(lia) (Rle_refl _)).
  rewrite psum_shift, psum_zero, Rplus_0_l in F by (intros; rewrite Z by assumption; ring).
  rewrite (psum_ext _ (fun j => r ^ (2 * h) * (d j * r ^ (2 * j)))) in F.
  2:{ intros j _. rewrite S. replace (2 * (h + j))%nat with (2 * h + 2 * j)%nat by lia. rewrite pow_add. ring. }
  rewrite psum_scal in F. set (Q := psum (fun j => d j * r ^ (2 * j)) n) in *.
  replace (f r - r ^ (2 * h) * g r) with ((f r - r ^ (2 * h) * Q) - r ^ (2 * h) * (g r - Q)) by ring.
  eapply Rle_trans; [apply Rabs_triang|]. rewrite Rabs_Ropp, Rabs_mult. fold P.
  assert (P * Rabs (g r - Q) <= P * B' * ((K' * Rabs r) ^ (2 * n) / INR (fact (2 * n)))).
  { rewrite Rmult_assoc. apply Rmult_le_compat_l; assumption. }
  lra.
Qed.
Lemma poly_cont : forall c n x, continuous (fun r => psum (fun j => c j * r ^ (2 * j)) n) x.
Proof.
  intros c n x. induction n as [|n IH]; [apply continuous_const|]. cbn [psum].
  apply (continuous_plus (V := R_NormedModule)); [exact IH|].
  apply (ex_derive_continuous (K := R_AbsRing) (V := R_NormedModule)). auto_derive. exact Logic.I.
Qed.
Lemma expands_cont : forall f c x, expands f c -> continuous f x.
Proof.
  intros f c x (B & K & B0 & K0 & F). apply continuity_pt_filterlim. intros eps Ep.
  destruct (small_bound B K (Rabs x + 1) (eps / 3)) as (N & H); [assumption..|lra|].
  pose proof (poly_cont c N x) as C. apply continuity_pt_filterlim in C. destruct (C (eps / 3) ltac:(lra)) as (d & D0 & D).
  exists (Rmin d 1). split; [apply Rmin_glb_lt; lra|]. intros y [Ny Hy]. unfold dist in *. cbn [R_met Base] in *. unfold R_dist in *.
  pose proof (Rmin_l d 1). pose proof (Rmin_r d 1). pose proof (Rabs_pos x).
  specialize (D y (conj Ny (Rlt_le_trans _ _ _ Hy (Rmin_l d 1)))).
  assert (Yb : Rabs y <= Rabs (Rabs x + 1)).
  { rewrite (Rabs_pos_eq (Rabs x + 1)) by lra. replace y with (x + (y - x)) by ring. eapply Rle_trans; [apply Rabs_triang|]. lra. }
  assert (Xb : Rabs x <= Rabs (Rabs x + 1)) by (rewrite (Rabs_pos_eq (Rabs x + 1)) by lra; lra).
  pose proof (F N y) as F1. pose proof (F N x) as F2. pose proof (H N y (le_n _) Yb). pose proof (H N x (le_n _) Xb).
  set (py := psum (fun j => c j * y ^ (2 * j)) N) in *. set (px := psum (fun j => c j * x ^ (2 * j)) N) in *.
  replace (f y - f x) with ((f y - py) + ((py - px) - (f x - px))) by ring.
  eapply Rle_lt_trans; [apply Rabs_triang|]. pose proof (Rabs_triang (py - px) (- (f x - px))) as T. rewrite Rabs_Ropp in T.
  unfold Rminus in *. lra.
Qed.

Lemma psum_integral : forall (c : nat -> R) (w : nat -> R -> R) a b n, (forall j, ex_RInt (w j) a b) ->
  is_RInt (fun u => psum (fun j => c j * w j u) n) a b (psum (fun j => c j * RInt (w j) a b) n).
Proof.
  intros c w a b n X. induction n as [|n IH]; cbn [psum].
  - pose proof (is_RInt_const a b 0) as H. change (is_RInt (fun _ : R => 0) a b ((b - a) * 0)) in H. rewrite Rmult_0_r in H. exact H.
  - apply (is_RInt_plus (V := R_CompleteNormedModule)); [exact IH|].
    apply (is_RInt_scal (V := R_CompleteNormedModule)), (RInt_correct (V := R_CompleteNormedModule)), X.
Qed.

(** Superpositions. *)
Lemma expands_superposition : forall f c w g a b W G, expands f c -> a <= b -> 0 <= G ->
  (forall u, a <= u <= b -> continuous w u) -> (forall u, a <= u <= b -> continuous g u) ->
  (forall u, a <= u <= b -> Rabs (w u) <= W) -> (forall u, a <= u <= b -> Rabs (g u) <= G) ->
  expands (fun r => RInt (fun u => w u * f (r * g u)) a b)
          (fun j => c j * RInt (fun u => w u * g u ^ (2 * j)) a b).
Proof.
  intros f c w g a b W G Hf L G0 Cw Cg Bw Bg. pose proof (fun x => expands_cont f c x Hf) as Cf.
  destruct Hf as (B & K & B0 & K0 & F).
  assert (W0 : 0 <= W) by (eapply Rle_trans; [apply Rabs_pos|apply (Bw a); lra]).
  assert (X1 : forall r, ex_RInt (fun u => w u * f (r * g u)) a b).
  { intros r. apply (ex_RInt_continuous (V := R_CompleteNormedModule)). intros u U. rewrite Rmin_left, Rmax_right in U by exact L.
    apply (continuous_mult (K := R_AbsRing)); [apply Cw; exact U|].
    apply (continuous_comp (fun u => r * g u) f); [|apply Cf].
    apply (continuous_mult (K := R_AbsRing) (fun _ => r) g); [apply continuous_const|apply Cg; exact U]. }
  assert (X2 : forall j, ex_RInt (fun u => w u * g u ^ (2 * j)) a b).
  { intros j. apply (ex_RInt_continuous (V := R_CompleteNormedModule)). intros u U. rewrite Rmin_left, Rmax_right in U by exact L.
    apply (continuous_mult (K := R_AbsRing)); [apply Cw; exact U|].
    apply (continuous_comp g (fun x => x ^ (2 * j))); [apply Cg; exact U|].
    apply (ex_derive_continuous (K := R_AbsRing) (V := R_NormedModule)). auto_derive. exact Logic.I. }
  exists (W * B * (b - a)), (K * G). repeat split; [repeat apply Rmult_le_pos; lra|apply Rmult_le_pos; lra|].
  intros n r.
  pose proof (psum_integral (fun j => c j * r ^ (2 * j)) (fun j u => w u * g u ^ (2 * j)) a b n X2) as J. cbv beta in J.
  rewrite (psum_ext (fun j => c j * RInt (fun u => w u * g u ^ (2 * j)) a b * r ^ (2 * j))
             (fun j => c j * r ^ (2 * j) * RInt (fun u => w u * g u ^ (2 * j)) a b)) by (intros; ring).
  rewrite <- (is_RInt_unique _ _ _ _ J).
  assert (M : RInt (fun u => w u * f (r * g u)) a b - RInt (fun u => psum (fun j => c j * r ^ (2 * j) * (w u * g u ^ (2 * j))) n) a b
            = RInt (fun u => w u * f (r * g u) - psum (fun j => c j * r ^ (2 * j) * (w u * g u ^ (2 * j))) n) a b).
  { symmetry. apply (RInt_minus (V := R_CompleteNormedModule)); [apply X1|eexists; exact J]. }
  rewrite M.
  replace (W * B * (b - a) * ((K * G * Rabs r) ^ (2 * n) / INR (fact (2 * n))))
    with ((b - a) * (W * (B * ((K * G * Rabs r) ^ (2 * n) / INR (fact (2 * n)))))) by ring.
  apply abs_RInt_le_const; [exact L| |].
  - apply (ex_RInt_minus (V := R_CompleteNormedModule)); [apply X1|eexists; exact J].
  - intros u U.
    replace (psum (fun j => c j * r ^ (2 * j) * (w u * g u ^ (2 * j))) n) with (w u * psum (fun j => c j * (r * g u) ^ (2 * j)) n).
    2:{ rewrite <- psum_scal. apply psum_ext. intros j _. rewrite Rpow_mult_distr. ring. }
    rewrite <- Rmult_minus_distr_l, Rabs_mult. apply Rmult_le_compat; try apply Rabs_pos; [apply Bw; exact U|].
    eapply Rle_trans; [apply F|]. apply Rmult_le_compat_l; [exact B0|].
    apply Rmult_le_compat_r; [left; apply Rinv_0_lt_compat, INR_fact_lt_0|]. apply pow_incr.
    rewrite Rabs_mult. split; [apply Rmult_le_pos; [exact K0|apply Rmult_le_pos; apply Rabs_pos]|].
    replace (K * G * Rabs r) with (K * (Rabs r * G)) by ring.
    apply Rmult_le_compat_l; [exact K0|]. apply Rmult_le_compat_l; [apply Rabs_pos|]. apply Bg. exact U.
Qed.
Lemma expands_ext : forall f g c d, (forall r, f r = g r) -> (forall j, c j = d j) -> expands f c -> expands g d.
Proof.
  intros f g c d E E' (B & K & B0 & K0 & F). exists B, K. repeat split; try assumption. intros n r. rewrite <- E.
  rewrite (psum_ext _ (fun j => c j * r ^ (2 * j))) by (intros; rewrite E'; reflexivity). apply F.
Qed.
Lemma expands_scal : forall f c k, expands f c -> expands (fun r => k * f r) (fun j => k * c j).
Proof.
  intros f c k (B & K & B0 & K0 & F). exists (Rabs k * B), K.
  repeat split; [apply Rmult_le_pos; [apply Rabs_pos|exact B0]|exact K0|]. intros n r.
  rewrite (psum_ext _ (fun j => k * (c j * r ^ (2 * j)))) by (intros; ring). rewrite psum_scal, <- Rmult_minus_distr_l, Rabs_mult, Rmult_assoc.
  apply Rmult_le_compat_l; [apply Rabs_pos|apply F].
Qed.

Lemma cos_expands : expands cos (fun j => (-1) ^ j / INR (fact (2 * j))).
Proof.
  exists 1, 1. repeat split; try lra. intros n r. rewrite !Rmult_1_l.
  rewrite (psum_ext _ (cos_term r)); [apply cos_remainder|]. intros j _. unfold cos_term, Rdiv. ring.
Qed.

(** ** Poisson's integral *)
(** Specification or proof only; nothing in the code. *)
Definition beta (j p : nat) : R := RInt (fun t => sin t ^ p * cos t ^ (2 * j)) 0 PI.
Lemma beta_ex : forall j p, ex_RInt (fun t => sin t ^ p * cos t ^ (2 * j)) 0 PI.
Proof.
  intros. apply (ex_RInt_continuous (V := R_CompleteNormedModule)). intros t _.
  apply (ex_derive_continuous (K := R_AbsRing) (V := R_NormedModule)). auto_derive. exact Logic.I.
Qed.
Lemma poisson_expands : forall p, expands (poisson p) (fun j => (-1) ^ j / INR (fact (2 * j)) * beta j p).
Proof.
  intros p. pose proof PI_RGT_0 as Pp.
  apply (expands_ext (fun r => RInt (fun t => sin t ^ p * cos (r * cos t)) 0 PI) _ (fun j => (-1) ^ j / INR (fact (2 * j)) * RInt (fun t => sin t ^ p * cos t ^ (2 * j)) 0 PI)).
  - intros r. unfold poisson. apply RInt_ext. intros t _. apply Rmult_comm.
  - reflexivity.
  - apply (expands_superposition cos _ (fun t => sin t ^ p) cos 0 PI 1 1 cos_expands); try lra.
    + intros t _. apply (ex_derive_continuous (K := R_AbsRing) (V := R_NormedModule)). auto_derive. exact Logic.I.
    + intros t _. apply (ex_derive_continuous (K := R_AbsRing) (V := R_NormedModule)). auto_derive. exact Logic.I.
    + intros t _. rewrite <- RPow_abs. rewrite <- (pow1 p). apply pow_incr. split; [apply Rabs_pos|].
      pose proof (SIN_bound t). apply Rabs_le. lra.
    + intros t _. pose proof (COS_bound t). apply Rabs_le. lra.
Qed.
Lemma beta_step : forall j p, INR (2 * j + p + 2) * beta (S j) p = INR (2 * j + 1) * beta j p.
Proof.
  intros j p.
  assert (H : RInt (fun t => - INR (2 * j + 1) * (sin t ^ (p + 2) * cos t ^ (2 * j)) + INR (p + 1) * (sin t ^ p * cos t ^ (2 * S j))) 0 PI = 0).
  { apply (ends (fun t => cos t ^ (2 * j + 1) * sin t ^ (p + 1))).
    - intros t. rewrite !Nat.add_1_r. auto_derive; [exact Logic.I|].
      change (match (j + (j + 0))%nat with 0%nat => 1 | S _ => INR (j + (j + 0)) + 1 end) with (INR (S (2 * j))).
      change (match p with 0%nat => 1 | S _ => INR p + 1 end) with (INR (S p)). cbn [pred].
      replace (p + 2)%nat with (S (S p)) by lia. replace (2 * S j)%nat with (S (S (2 * j))) by lia.
      change (j + (j + 0))%nat with (2 * j)%nat. cbn [pow]. ring.
    - intros t. apply (ex_derive_continuous (K := R_AbsRing) (V := R_NormedModule)). auto_derive. exact Logic.I.
    - rewrite sin_0, (pow_ne_zero (p + 1)) by lia. ring.
    - rewrite sin_PI, (pow_ne_zero (p + 1)) by lia. ring. }
  pose proof (lin2 _ _ (- INR (2 * j + 1)) (INR (p + 1)) (beta_ex j (p + 2)) (beta_ex (S j) p)) as L. cbv beta in L. rewrite L in H. clear L.
  assert (T : beta j (p + 2) = beta j p - beta (S j) p).
  { unfold beta. pose proof (lin2 _ _ 1 (-1) (beta_ex j p) (beta_ex (S j) p)) as L. cbv beta in L.
    transitivity (1 * RInt (fun t => sin t ^ p * cos t ^ (2 * j)) 0 PI + -1 * RInt (fun t => sin t ^ p * cos t ^ (2 * S j)) 0 PI); [|ring].
    rewrite <- L. apply RInt_ext. intros t _. pose proof (sin2_cos2 t) as Q. unfold Rsqr in Q.
    replace (p + 2)%nat with (S (S p)) by lia. replace (2 * S j)%nat with (S (S (2 * j))) by lia. cbn [pow].
    replace (sin t * (sin t * sin t ^ p) * cos t ^ (2 * j)) with (sin t * sin t * (sin t ^ p * cos t ^ (2 * j))) by ring.
    replace (sin t * sin t) with (1 - cos t * cos t) by lra. asR. ring. }
  fold (beta j (p + 2)) (beta (S j) p) in H. rewrite T in H.
  replace (INR (2 * j + p + 2)) with (INR (2 * j + 1) + INR (p + 1)) by (rewrite <- plus_INR; f_equal; lia). lra.
Qed.
Lemma beta_0 : forall p, beta 0 p = poisson p 0.
Proof.
  intros p. unfold beta, poisson. apply RInt_ext. intros t _. rewrite Rmult_0_l, cos_0. change (2 * 0)%nat with 0%nat. rewrite pow_O. asR. ring.
Qed.

(** ** Legendre polynomials against powers of the squared sine *)
(** Specification or proof only; nothing in the code. *)
Definition against (l k : nat) : R := RInt (fun m => legendre l m * (1 - m * m) ^ k) (-1) 1.
Lemma against_cont : forall l k m, continuous (fun m => legendre l m * (1 - m * m) ^ k) m.
Proof.
  intros l k m. apply (continuous_mult (K := R_AbsRing)); [apply legendre_continuous|].
  apply (ex_derive_continuous (K := R_AbsRing) (V := R_NormedModule)). auto_derive. exact Logic.I.
Qed.
Lemma against_ex : forall l k, ex_RInt (fun m => legendre l m * (1 - m * m) ^ k) (-1) 1.
Proof. intros. apply (ex_RInt_continuous (V := R_CompleteNormedModule)). intros. apply against_cont. Qed.
Lemma lin2' : forall (f g : R -> R) a b lo hi, ex_RInt f lo hi -> ex_RInt g lo hi ->
  RInt (fun t => a * f t + b * g t) lo hi = a * RInt f lo hi + b * RInt g lo hi.
Proof.
  intros f g a b lo hi F G. apply is_RInt_unique.
  apply (is_RInt_plus (V := R_CompleteNormedModule) (fun t => a * f t) (fun t => b * g t)).
  - apply (is_RInt_scal (V := R_CompleteNormedModule)), (RInt_correct (V := R_CompleteNormedModule)), F.
  - apply (is_RInt_scal (V := R_CompleteNormedModule)), (RInt_correct (V := R_CompleteNormedModule)), G.
Qed.
Lemma arc_derive : forall k m, is_derive (fun m => (1 - m * m) ^ S k) m (- (2 * INR (S k)) * m * (1 - m * m) ^ k).
Proof.
  intros k m. auto_derive; [exact Logic.I|]. cbn [pred].
  change (match k with 0%nat => 1 | S _ => INR k + 1 end) with (INR (S k)).
  change (1 + - (m * m)) with (1 - m * m). set (q := (1 - m * m) ^ k). asR. ring.
Qed.
Lemma against_step : forall l k,
  (2 * INR (S k) * (2 * INR (S k) + 1) - INR l * (INR l + 1)) * against l (S k) = 4 * INR (S k) ^ 2 * against l k.
Proof.
  intros l k. set (c := INR (S k)).
  assert (D : forall m, is_derive (fun m => flux l m * (1 - m * m) ^ S k + 2 * c * (legendre l m * (m * (1 - m * m) ^ S k))) m
    ((2 * c * (2 * c + 1) - INR l * (INR l + 1)) * (legendre l m * (1 - m * m) ^ S k) + - (4 * c ^ 2) * (legendre l m * (1 - m * m) ^ k))).
  { intros m.
    pose proof (arc_derive k m) as A.
    pose proof (is_derive_mult (flux l) (fun m => (1 - m * m) ^ S k) m _ _ (flux_derive l m) A Rmult_comm) as D1.
    pose proof (is_derive_mult (fun m : R => m) (fun m => (1 - m * m) ^ S k) m _ _ (is_derive_id (K := R_AbsRing) m) A Rmult_comm) as D2.
    pose proof (is_derive_mult (legendre l) _ m _ _ (legendre_derive l m) D2 Rmult_comm) as D3.
    pose proof (is_derive_scal _ m (2 * c) _ D3) as D4.
    pose proof (is_derive_plus (K := R_AbsRing) (V := R_NormedModule) _ _ m _ _ D1 D4) as D5.
    match type of D5 with is_derive _ _ ?v => match goal with |- is_derive _ _ ?w => replace w with v end end; [exact D5|].
    unfold plus, mult, scal, one. cbn -[pow legendre dlegendre INR]. unfold mult. cbn -[pow legendre dlegendre INR]. unfold flux. fold c. cbn [pow]. ring. }
  assert (C : forall m, continuous (fun m => (2 * c * (2 * c + 1) - INR l * (INR l + 1)) * (legendre l m * (1 - m * m) ^ S k) + - (4 * c ^ 2) * (legendre l m * (1 - m * m) ^ k)) m).
  { intros m. apply (continuous_plus (V := R_NormedModule) (fun m => (2 * c * (2 * c + 1) - INR l * (INR l + 1)) * (legendre l m * (1 - m * m) ^ S k)) (fun m => - (4 * c ^ 2) * (legendre l m * (1 - m * m) ^ k))).
    - apply (continuous_mult (K := R_AbsRing) (fun _ => (2 * c * (2 * c + 1) - INR l * (INR l + 1))) (fun m => legendre l m * (1 - m * m) ^ S k)); [apply continuous_const|apply against_cont].
    - apply (continuous_mult (K := R_AbsRing) (fun _ => - (4 * c ^ 2)) (fun m => legendre l m * (1 - m * m) ^ k)); [apply continuous_const|apply against_cont]. }
  pose proof (is_RInt_deriv_ends _ _ (-1) 1 D C) as I.
  apply (is_RInt_unique (V := R_CompleteNormedModule)) in I.
  pose proof (lin2' _ _ (2 * c * (2 * c + 1) - INR l * (INR l + 1)) (- (4 * c ^ 2)) (-1) 1 (against_ex l (S k)) (against_ex l k)) as L.
  pose proof (eq_trans (eq_sym L) I) as I2. clear I L. rename I2 into I. fold (against l (S k)) (against l k) in I.
  replace (1 - 1 * 1) with 0 in I by ring. replace (1 - -1 * -1) with 0 in I by ring.
  rewrite (pow_ne_zero (S k)) in I by lia. lra.
Qed.
Lemma against_0 : forall l, (0 < l)%nat -> against l 0 = 0.
Proof.
  intros l L. unfold against.
  assert (H : is_RInt (fun u => legendre l u * legendre 0 u) (-1) 1 0) by (apply legendre_orthogonal; lia).
  apply (is_RInt_unique (V := R_CompleteNormedModule)) in H. etransitivity; [|exact H]. apply RInt_ext. reflexivity.
Qed.
Lemma against_low : forall l k, (2 * k < l)%nat -> against l k = 0.
Proof.
  intros l. induction k as [|k IH]; intros L; [apply against_0; lia|].
  pose proof (against_step l k) as H. rewrite IH in H by lia. rewrite Rmult_0_r in H.
  apply Rmult_integral in H. destruct H as [H|H]; [|exact H]. exfalso.
  assert (LT : 2 * INR (S k) + 1 <= INR l).
  { apply le_INR in L. rewrite S_INR, mult_INR in L. replace (INR 2) with 2 in L by (cbn; ring). exact L. }
  pose proof (pos_INR (S k)). nra.
Qed.
(** The first that does not vanish. *)
Lemma cross_value : forall l h, INR (2 * h + l + 3) * RInt (fun m => m * legendre (S l) m * (1 - m * m) ^ h) (-1) 1
  = INR (S l) * against l h.
Proof.
  intros l h. set (n := INR (S h)).
  assert (Cx : forall m, continuous (fun m => m * legendre (S l) m * (1 - m * m) ^ h) m).
  { intros m. apply (continuous_mult (K := R_AbsRing)); [|apply (ex_derive_continuous (K := R_AbsRing) (V := R_NormedModule)); auto_derive; exact Logic.I].
    apply (continuous_mult (K := R_AbsRing)); [apply continuous_id|apply legendre_continuous]. }
  assert (Xx : ex_RInt (fun m => m * legendre (S l) m * (1 - m * m) ^ h) (-1) 1)
    by (apply (ex_RInt_continuous (V := R_CompleteNormedModule)); intros; apply Cx).
  assert (D : forall m, is_derive (fun m => legendre (S l) m * (1 - m * m) ^ S h) m
    (- (2 * n + INR (S l)) * (m * legendre (S l) m * (1 - m * m) ^ h) + INR (S l) * (legendre l m * (1 - m * m) ^ h))).
  { intros m. pose proof (is_derive_mult (legendre (S l)) _ m _ _ (legendre_derive (S l) m) (arc_derive h m) Rmult_comm) as D1.
    match type of D1 with is_derive _ _ ?v => match goal with |- is_derive _ _ ?w => replace w with v end end; [exact D1|].
    unfold plus, mult. cbn -[pow legendre dlegendre INR]. fold n. pose proof (flux_S l m) as F. unfold flux in F. cbn [pow].
    replace (dlegendre (S l) m * ((1 - m * m) * (1 - m * m) ^ h)) with ((1 - m * m) * dlegendre (S l) m * (1 - m * m) ^ h) by ring.
    rewrite F. ring. }
  assert (C : forall m, continuous (fun m => - (2 * n + INR (S l)) * (m * legendre (S l) m * (1 - m * m) ^ h) + INR (S l) * (legendre l m * (1 - m * m) ^ h)) m).
  { intros m. apply (continuous_plus (V := R_NormedModule) (fun m => - (2 * n + INR (S l)) * (m * legendre (S l) m * (1 - m * m) ^ h)) (fun m => INR (S l) * (legendre l m * (1 - m * m) ^ h))).
    - apply (continuous_mult (K := R_AbsRing) (fun _ => - (2 * n + INR (S l))) (fun m => m * legendre (S l) m * (1 - m * m) ^ h)); [apply continuous_const|apply Cx].
    - apply (continuous_mult (K := R_AbsRing) (fun _ => INR (S l)) (fun m => legendre l m * (1 - m * m) ^ h)); [apply continuous_const|apply against_cont]. }
  pose proof (is_RInt_deriv_ends _ _ (-1) 1 D C) as I.
  apply (is_RInt_unique (V := R_CompleteNormedModule)) in I.
  pose proof (lin2' _ _ (- (2 * n + INR (S l))) (INR (S l)) (-1) 1 Xx (against_ex l h)) as L. pose proof (eq_trans (eq_sym L) I) as I2. clear I L. rename I2 into I.
  fold (against l h) in I. replace (1 - 1 * 1) with 0 in I by ring. replace (1 - -1 * -1) with 0 in I by ring.
  rewrite (pow_ne_zero (S h)) in I by lia.
  replace (INR (2 * h + l + 3)) with (2 * n + INR (S l)); [lra|].
  unfold n. replace (2 * h + l + 3)%nat with (2 * S h + S l)%nat by lia. rewrite plus_INR, mult_INR.
  replace (INR 2) with 2 by (cbn; ring). reflexivity.
Qed.
Lemma against_next : forall l k, INR (S (S l)) * against (S (S l)) k
  = (2 * INR (S l) + 1) * RInt (fun m => m * legendre (S l) m * (1 - m * m) ^ k) (-1) 1 - INR (S l) * against l k.
Proof.
  intros l k.
  assert (Xx : ex_RInt (fun m => m * legendre (S l) m * (1 - m * m) ^ k) (-1) 1).
  { apply (ex_RInt_continuous (V := R_CompleteNormedModule)). intros m _.
    apply (continuous_mult (K := R_AbsRing)); [|apply (ex_derive_continuous (K := R_AbsRing) (V := R_NormedModule)); auto_derive; exact Logic.I].
    apply (continuous_mult (K := R_AbsRing)); [apply continuous_id|apply legendre_continuous]. }
  pose proof (lin2' _ _ (2 * INR (S l) + 1) (- INR (S l)) (-1) 1 Xx (against_ex l k)) as L. cbv beta in L.
  unfold against at 2. etransitivity; [|etransitivity; [exact L|asR; ring]].
  pose proof (lin2' _ _ (INR (S (S l))) 0 (-1) 1 (against_ex (S (S l)) k) (against_ex l k)) as L2. cbv beta in L2.
  unfold against. etransitivity; [|etransitivity; [symmetry; exact L2|]]; [asR; ring|].
  apply RInt_ext. intros m _. rewrite legendre_SS. pose proof (INR_S_pos (S l)). asR. field. assumption.
Qed.
Lemma fact_4 : forall h, INR (fact (4 * S h + 1)) = (4 * INR h + 5) * (4 * INR h + 4) * (4 * INR h + 3) * (4 * INR h + 2) * INR (fact (4 * h + 1)).
Proof.
  intros h. replace (4 * S h + 1)%nat with (S (S (S (S (4 * h + 1))))) by lia.
  rewrite !fact_1, !S_INR. replace (INR (4 * h + 1)) with (4 * INR h + 1).
  - ring.
  - rewrite plus_INR, mult_INR. replace (INR 4) with 4 by (cbn; ring). reflexivity.
Qed.
Lemma against_first : forall h, against (2 * h) h * INR (fact (4 * h + 1)) = (-1) ^ h * (2 * 4 ^ h) * INR (fact (2 * h)) ^ 2.
Proof.
  induction h as [|h IH].
  - change (2 * 0)%nat with 0%nat. change (fact (4 * 0 + 1)) with 1%nat. change (fact 0) with 1%nat.
    replace (against 0 0) with 2; [cbn; ring|]. unfold against. rewrite (RInt_ext _ (fun _ => 1)).
    + rewrite RInt_const. unfold scal. cbn. unfold mult. cbn. ring.
    + intros m _. cbn. ring.
  - replace (2 * S h)%nat with (S (S (2 * h))) at 1 by lia.
    pose proof (against_next (2 * h) (S h)) as N. pose proof (cross_value (2 * h) (S h)) as X.
    pose proof (against_step (2 * h) h) as St.
    set (x := RInt _ _ _) in N. fold x in X.
    set (a2 := against (S (S (2 * h))) (S h)) in *. set (a1 := against (2 * h) (S h)) in *. set (a0 := against (2 * h) h) in *.
    rewrite fact_4, fact_2. replace (2 * S h + 2 * h + 3)%nat with (4 * h + 5)%nat in X by lia.
    rewrite (S_INR (S (2 * h))), !(S_INR (2 * h)) in N. rewrite !S_INR in St, X. rewrite !plus_INR, !mult_INR in X. rewrite !mult_INR in N, St.
    replace (INR 2) with 2 in * by (cbn; ring). replace (INR 4) with 4 in * by (cbn; ring). replace (INR 5) with 5 in * by (cbn; ring).
    pose proof (pos_INR h) as Ph. set (n := INR h) in *.
    assert (A1 : a1 = 2 * (n + 1) ^ 2 / (4 * n + 3) * a0).
    { apply (Rmult_eq_reg_l (8 * n + 6)); [|lra].
      replace ((8 * n + 6) * a1) with ((2 * (n + 1) * (2 * (n + 1) + 1) - 2 * n * (2 * n + 1)) * a1) by ring. rewrite St. field. lra. }
    assert (X1 : x = (2 * n + 1) / (4 * n + 5) * a1).
    { apply (Rmult_eq_reg_l (4 * n + 5)); [|lra]. rewrite X. field. lra. }
    assert (A2 : a2 = - (2 * (2 * n + 1) * (n + 1) / ((4 * n + 5) * (4 * n + 3))) * a0).
    { apply (Rmult_eq_reg_l (2 * n + 1 + 1)); [|lra]. rewrite N, X1, A1. field. lra. }
    rewrite A2.
    replace (- (2 * (2 * n + 1) * (n + 1) / ((4 * n + 5) * (4 * n + 3))) * a0 *
      ((4 * n + 5) * (4 * n + 4) * (4 * n + 3) * (4 * n + 2) * INR (fact (4 * h + 1))))
      with (- (2 * (2 * n + 1) * (n + 1) * (4 * n + 4) * (4 * n + 2)) * (a0 * INR (fact (4 * h + 1)))) by (field; lra).
    rewrite IH. cbn [pow]. ring.
Qed.

(** ** Continuous weights *)
Lemma bounded : forall (w : R -> R) a b, a <= b -> (forall u, a <= u <= b -> continuous w u) ->
  exists W, forall u, a <= u <= b -> Rabs (w u) <= W.
Proof.
  intros w a b L C. destruct (continuity_ab_maj (fun u => Rabs (w u)) a b L) as (M & H & _).
  - intros c I. apply continuity_pt_filterlim. apply (continuous_comp w Rabs); [apply C; exact I|apply (continuous_Rabs (w c))].
  - exists (Rabs (w M)). exact H.
Qed.
Lemma superposition : forall f c w g a b, expands f c -> a <= b ->
  (forall u, a <= u <= b -> continuous w u) -> (forall u, a <= u <= b -> continuous g u) ->
  expands (fun r => RInt (fun u => w u * f (r * g u)) a b)
          (fun j => c j * RInt (fun u => w u * g u ^ (2 * j)) a b).
Proof.
  intros f c w g a b F L Cw Cg. destruct (bounded w a b L Cw) as (W & HW). destruct (bounded g a b L Cg) as (G & HG).
  apply (expands_superposition f c w g a b W G); try assumption.
  eapply Rle_trans; [apply Rabs_pos|apply (HG a); lra].
Qed.
Lemma zero_expands : expands (fun _ => 0) (fun _ => 0).
Proof.
  exists 0, 0. repeat split; try lra. intros n r. rewrite psum_zero by (intros; ring). rewrite Rminus_0_r, Rabs_R0, Rmult_0_l. lra.
Qed.

(** The coefficients of Poisson's integral.  Specification or proof only; nothing in the code. *)
Definition pc (p j : nat) : R := (-1) ^ j / INR (fact (2 * j)) * beta j p.
Lemma pc_step : forall p j, (2 * INR j + 2) * (2 * INR j + INR p + 2) * pc p (S j) = - pc p j.
Proof.
  intros p j. unfold pc. pose proof (beta_step j p) as B. rewrite fact_2.
  rewrite !plus_INR, mult_INR in B. replace (INR 2) with 2 in B by (cbn; ring). replace (INR 1) with 1 in B by reflexivity.
  pose proof (pos_INR j). pose proof (INR_fact_neq_0 (2 * j)). cbn [pow]. set (f := INR (fact (2 * j))) in *.
  replace ((2 * INR j + 2) * (2 * INR j + INR p + 2) * (-1 * (-1) ^ j / ((2 * INR j + 2) * (2 * INR j + 1) * f) * beta (S j) p))
    with (- (-1) ^ j / (2 * INR j + 1) / f * ((2 * INR j + INR p + 2) * beta (S j) p)) by (field; repeat split; lra).
  rewrite B. field. split; lra.
Qed.
Lemma pc_0 : forall p, pc p 0 = poisson p 0.
Proof. intros p. unfold pc. rewrite beta_0. cbn -[poisson]. field. Qed.

Section Spectrum.
Variables (P : R -> R) (a b : R).
Hypotheses (Pa : 0 < a) (Pab : a <= b) (Pc : forall k, a <= k <= b -> continuous P k).

Lemma power_cont : forall n k, a <= k <= b -> continuous (fun k => k ^ n * P k) k.
Proof.
  intros n k K. apply (continuous_mult (K := R_AbsRing)); [|apply Pc; exact K].
  apply (ex_derive_continuous (K := R_AbsRing) (V := R_NormedModule)). auto_derive. exact Logic.I.
Qed.
Definition spectral (n : nat) : R := RInt (fun k => k ^ n * P k) a b.
Definition wave (p n : nat) (r : R) : R := RInt (fun k => k ^ n * P k * poisson p (k * r)) a b.
Lemma wave_ex : forall p n r, ex_RInt (fun k => k ^ n * P k * poisson p (k * r)) a b.
Proof.
  intros p n r. apply (ex_RInt_continuous (V := R_CompleteNormedModule)). intros k K. rewrite Rmin_left, Rmax_right in K by exact Pab.
  apply (continuous_mult (K := R_AbsRing) (fun k => k ^ n * P k)); [apply power_cont; exact K|].
  apply (continuous_comp (fun k => k * r) (poisson p)).
  - apply (ex_derive_continuous (K := R_AbsRing) (V := R_NormedModule)). auto_derive. exact Logic.I.
  - apply (expands_cont _ _ (k * r) (poisson_expands p)).
Qed.
Lemma wave_expands : forall p n, expands (wave p n) (fun j => pc p j * spectral (n + 2 * j)).
Proof.
  intros p n.
  eapply expands_ext; [| |apply (superposition (poisson p) _ (fun k => k ^ n * P k) (fun k => k) a b (poisson_expands p) Pab (power_cont n))].
  - intros r. unfold wave. apply RInt_ext. intros k _. rewrite (Rmult_comm r k). reflexivity.
  - intros j. cbv beta. fold (pc p j). f_equal. unfold spectral. apply RInt_ext. intros k _. rewrite pow_add. asR. ring.
  - intros k _. apply continuous_id.
Qed.
Lemma flat_integral_wave : forall r, flat_integral P a b r = / PI * wave 0 1 r.
Proof.
  intros r. unfold flat_integral, wave. pose proof PI_RGT_0.
  transitivity (RInt (fun k => scal (/ PI) (k ^ 1 * P k * poisson 0 (k * r))) a b).
  - apply RInt_ext. intros k _. unfold cylindrical_bessel, scal. cbn -[poisson]. unfold mult, odd_factorial. cbn -[poisson]. asR. field. lra.
  - apply (RInt_scal (V := R_CompleteNormedModule)). apply wave_ex.
Qed.
Lemma flat_expands : expands (flat_integral P a b) (fun j => / PI * (pc 0 j * spectral (1 + 2 * j))).
Proof.
  apply (expands_ext (fun r => / PI * wave 0 1 r) _ (fun j => / PI * (pc 0 j * spectral (1 + 2 * j)))).
  - intros r. symmetry. apply flat_integral_wave.
  - reflexivity.
  - apply (expands_scal _ _ (/ PI) (wave_expands 0 1)).
Qed.

Lemma sine_cont : forall m, continuous (fun m => sqrt (1 - m * m)) m.
Proof.
  intros m. apply continuous_sqrt_comp. apply (ex_derive_continuous (K := R_AbsRing) (V := R_NormedModule)). auto_derive. exact Logic.I.
Qed.
Lemma sine_even : forall m j, -1 <= m <= 1 -> sqrt (1 - m * m) ^ (2 * j) = (1 - m * m) ^ j.
Proof. intros m j M. rewrite pow_mult. f_equal. cbn [pow]. rewrite Rmult_1_r. apply sqrt_sqrt. nra. Qed.

(** Projections of the flat-sky integral over the cosine.  Specification or proof only; nothing in the code. *)
Definition projected_flat (l : nat) (s : R) : R :=
  RInt (fun m => legendre l m * flat_integral P a b (s * sqrt (1 - m * m))) (-1) 1.
Lemma projected_flat_expands : forall l,
  expands (projected_flat l) (fun j => / PI * (pc 0 j * spectral (1 + 2 * j)) * against l j).
Proof.
  intros l.
  eapply expands_ext; [| |apply (superposition (flat_integral P a b) _ (legendre l) (fun m => sqrt (1 - m * m)) (-1) 1 flat_expands)].
  - reflexivity.
  - intros j. cbv beta. apply f_equal. unfold against. apply RInt_ext. intros m M. rewrite Rmin_left, Rmax_right in M by lra.
    rewrite sine_even by lra. reflexivity.
  - lra.
  - intros m _. apply legendre_continuous.
  - intros m _. apply sine_cont.
Qed.

Definition central (h : nat) : R := INR (fact (2 * h)) / (2 ^ (2 * h) * INR (fact h) ^ 2).
Lemma gegenbauer_coefficients : forall h j,
  / PI * pc 0 (h + j) * against (2 * h) (h + j)
  = 2 * central h / (2 ^ (2 * h + 1) * INR (fact (2 * h))) * pc (2 * (2 * h) + 1) j.
Proof.
  intros h. pose proof PI_RGT_0 as Pp. induction j as [|j IH].
  - rewrite Nat.add_0_r, pc_0.
    pose proof (wallis_odd (2 * h)) as W. pose proof (against_first h) as A. replace (2 * (2 * h) + 1)%nat with (4 * h + 1)%nat in * by lia.
    assert (B : pc 0 h = (-1) ^ h * PI / (4 ^ h * INR (fact h) ^ 2)).
    { clear. pose proof PI_RGT_0. induction h as [|h IH].
      - rewrite pc_0, poisson_00. cbn. field.
      - pose proof (pc_step 0 h) as S. rewrite IH in S. pose proof (pos_INR h). pose proof (INR_fact_neq_0 h). pose proof (pow_nonzero 4 h ltac:(lra)).
        apply (Rmult_eq_reg_l ((2 * INR h + 2) * (2 * INR h + INR 0 + 2))); [|apply Rmult_integral_contrapositive_currified; cbn; lra].
        rewrite S. rewrite fact_1. replace (INR 0) with 0 by reflexivity. cbn [pow]. field. repeat split; lra. }
    rewrite B. unfold central. pose proof (INR_fact_neq_0 h). pose proof (INR_fact_neq_0 (2 * h)). pose proof (INR_fact_neq_0 (4 * h + 1)).
    pose proof (pow_nonzero 4 h ltac:(lra)) as Q4. assert (E2 : 2 ^ (2 * h) = 4 ^ h) by (rewrite pow_mult; f_equal; ring).
    rewrite pow_add, E2. rewrite !pow_mult in W. replace (4 ^ 2) with 16 in W by ring.
    assert (E16 : 16 ^ h = 4 ^ h * 4 ^ h) by (rewrite <- Rpow_mult_distr; f_equal; ring). rewrite E16 in W.
    apply (Rmult_eq_reg_r (INR (fact (4 * h + 1)))); [|assumption].
    set (x := against (2 * h) h) in *. set (y := poisson (4 * h + 1) 0) in *. set (F := INR (fact (4 * h + 1))) in *.
    set (f2 := INR (fact (2 * h))) in *. set (f1 := INR (fact h)) in *. set (q := 4 ^ h) in *. set (e := (-1) ^ h) in *.
    assert (EE : e * e = 1). { unfold e. rewrite <- Rpow_mult_distr. replace (-1 * -1) with 1 by ring. apply pow1. }
    replace (/ PI * (e * PI / (q * f1 ^ 2)) * x * F) with (e / (q * f1 ^ 2) * (x * F)) by (field; repeat split; lra).
    replace (2 * (f2 / (q * f1 ^ 2)) / (q * 2 ^ 1 * f2) * y * F) with (/ (q * f1 ^ 2) / q * (y * F)) by (field; repeat split; lra).
    rewrite A, W.
    replace (e / (q * f1 ^ 2) * (e * (2 * q) * f2 ^ 2)) with (e * e * (2 * f2 ^ 2 / f1 ^ 2)) by (field; repeat split; lra).
    rewrite EE. field. repeat split; lra.
  - rewrite Nat.add_succ_r. set (k := (h + j)%nat) in *.
    pose proof (pc_step 0 k) as S1. pose proof (pc_step (2 * (2 * h) + 1) j) as S2. pose proof (against_step (2 * h) k) as S3.
    set (K := 2 * central h / (2 ^ (2 * h + 1) * INR (fact (2 * h)))) in *.
    assert (Ek : INR k = INR h + INR j) by apply plus_INR. pose proof (pos_INR h). pose proof (pos_INR j).
    rewrite S_INR in S3. rewrite mult_INR in S3. rewrite plus_INR, !mult_INR in S2. replace (INR 2) with 2 in * by (cbn; ring).
    replace (INR 0) with 0 in S1 by reflexivity. replace (INR 1) with 1 in S2 by reflexivity.
    set (u := INR h) in *. set (v := INR j) in *.
    assert (D : (2 * v + 2) * (2 * v + (2 * (2 * u) + 1) + 2) <> 0) by (apply Rmult_integral_contrapositive_currified; lra).
    assert (D2 : 4 * (u + v + 1) ^ 2 <> 0) by (apply Rmult_integral_contrapositive_currified; [lra|apply pow_nonzero; lra]).
    apply (Rmult_eq_reg_l _ _ _ ) with (2 := D).
    replace ((2 * v + 2) * (2 * v + (2 * (2 * u) + 1) + 2) * (K * pc (2 * (2 * h) + 1) (S j)))
      with (K * ((2 * v + 2) * (2 * v + (2 * (2 * u) + 1) + 2) * pc (2 * (2 * h) + 1) (S j))) by ring.
    rewrite S2. replace (K * - pc (2 * (2 * h) + 1) j) with (- (K * pc (2 * (2 * h) + 1) j)) by ring. rewrite <- IH.
    rewrite Ek in S1, S3.
    apply (Rmult_eq_reg_l (4 * (u + v + 1) ^ 2)); [|exact D2].
    replace (4 * (u + v + 1) ^ 2 * ((2 * v + 2) * (2 * v + (2 * (2 * u) + 1) + 2) * (/ PI * pc 0 (S k) * against (2 * h) (S k))))
      with (/ PI * ((2 * (u + v) + 2) * (2 * (u + v) + 0 + 2) * pc 0 (S k)) * ((2 * (u + v + 1) * (2 * (u + v + 1) + 1) - 2 * u * (2 * u + 1)) * against (2 * h) (S k))) by ring.
    rewrite S1, S3. ring.
Qed.

(** Gegenbauer: the multipoles of the flat-sky integral. *)
Theorem gegenbauer_even : forall h s,
  projected_flat (2 * h) s = 2 * central h * RInt (fun k => k * P k * spherical_bessel (2 * h) (k * s)) a b.
Proof.
  intros h s. set (kap := 2 * central h / (2 ^ (2 * h + 1) * INR (fact (2 * h)))).
  assert (G : expands (fun r => kap * wave (2 * (2 * h) + 1) (2 * h + 1) r) (fun j => kap * (pc (2 * (2 * h) + 1) j * spectral (2 * h + 1 + 2 * j))))
    by (apply (expands_scal _ _ kap (wave_expands (2 * (2 * h) + 1) (2 * h + 1)))).
  rewrite (expands_shift _ _ _ _ h (projected_flat_expands (2 * h)) G).
  - unfold wave. pose proof (wave_ex (2 * (2 * h) + 1) (2 * h + 1) s) as X.
    assert (E : RInt (fun k => k * P k * spherical_bessel (2 * h) (k * s)) a b
      = s ^ (2 * h) / (2 ^ (2 * h + 1) * INR (fact (2 * h))) * RInt (fun k => k ^ (2 * h + 1) * P k * poisson (2 * (2 * h) + 1) (k * s)) a b).
    { transitivity (RInt (fun k => scal (s ^ (2 * h) / (2 ^ (2 * h + 1) * INR (fact (2 * h)))) (k ^ (2 * h + 1) * P k * poisson (2 * (2 * h) + 1) (k * s))) a b).
      - apply RInt_ext. intros k _. unfold spherical_bessel, scal. cbn -[pow poisson fact Nat.mul Nat.add INR]. unfold mult.
        cbn -[pow poisson fact Nat.mul Nat.add INR]. rewrite Rpow_mult_distr, (pow_add k (2 * h) 1), pow_1. asR. unfold Rdiv. ring.
      - apply (RInt_scal (V := R_CompleteNormedModule)). exact X. }
    rewrite E. unfold kap, Rdiv. asR. ring.
  - intros j J. rewrite against_low by lia. ring.
  - intros j. unfold kap. replace (1 + 2 * (h + j))%nat with (2 * h + 1 + 2 * j)%nat by lia.
    pose proof (gegenbauer_coefficients h j) as C.
    transitivity (/ PI * pc 0 (h + j) * against (2 * h) (h + j) * spectral (2 * h + 1 + 2 * j)); [ring|]. rewrite C. ring.
Qed.
Theorem gegenbauer_odd : forall l s, Nat.odd l = true -> projected_flat l s = 0.
Proof.
  intros l s O.
  assert (Z : forall k, against l k = 0).
  { apply Nat.odd_spec in O. destruct O as [q ->]. induction k as [|k IH]; [apply against_0; lia|].
    pose proof (against_step (2 * q + 1) k) as H. rewrite IH, Rmult_0_r in H. apply Rmult_integral in H. destruct H as [H|H]; [|exact H].
    exfalso. assert (N : 2 * INR (S k) <> INR (2 * q + 1)).
    { intros E. assert (INR (2 * S k) = INR (2 * q + 1)) as E2 by (rewrite mult_INR, <- E; cbn; ring). apply INR_eq in E2. lia. }
    pose proof (pos_INR (S k)). pose proof (pos_INR (2 * q + 1)). apply N.
    assert (F : (2 * INR (S k) - INR (2 * q + 1)) * (2 * INR (S k) + INR (2 * q + 1) + 1) = 0) by lra.
    apply Rmult_integral in F. lra. }
  rewrite (expands_shift _ _ _ _ 0 (projected_flat_expands l) zero_expands); [ring|intros; lia|].
  intros j. rewrite Nat.add_0_l, Z. ring.
Qed.

(** ** Sonine's first integral *)
(** Specification or proof only; nothing in the code. *)
Definition sonine (n k : nat) : R := RInt (fun m => m ^ (2 * n + 1) * (1 - m * m) ^ k) 0 1.
Lemma sonine_ex : forall n k, ex_RInt (fun m => m ^ (2 * n + 1) * (1 - m * m) ^ k) 0 1.
Proof.
  intros. apply (ex_RInt_continuous (V := R_CompleteNormedModule)). intros m _.
  apply (ex_derive_continuous (K := R_AbsRing) (V := R_NormedModule)). auto_derive. exact Logic.I.
Qed.
Lemma sonine_step : forall n k, (INR n + INR k + 2) * sonine n (S k) = (INR k + 1) * sonine n k.
Proof.
  intros n k.
  assert (D : forall m, is_derive (fun m => m ^ (2 * n + 2) * (1 - m * m) ^ S k) m
    (2 * (INR n + INR k + 2) * (m ^ (2 * n + 1) * (1 - m * m) ^ S k) + - (2 * (INR k + 1)) * (m ^ (2 * n + 1) * (1 - m * m) ^ k))).
  { intros m. assert (A : is_derive (fun m => m ^ (2 * n + 2)) m (INR (2 * n + 2) * m ^ (2 * n + 1))).
    { auto_derive; [exact Logic.I|]. replace (pred (n + (n + 0) + 2)) with (2 * n + 1)%nat by lia. replace (n + (n + 0) + 2)%nat with (2 * n + 2)%nat by lia. asR. ring. }
    pose proof (is_derive_mult _ _ m _ _ A (arc_derive k m) Rmult_comm) as D1.
    match type of D1 with is_derive _ _ ?v => match goal with |- is_derive _ _ ?w => replace w with v end end; [exact D1|].
    unfold plus, mult. cbn -[pow INR Nat.mul Nat.add]. replace (INR (2 * n + 2)) with (2 * INR n + 2) by (rewrite plus_INR, mult_INR; cbn; ring).
    rewrite S_INR. replace (2 * n + 2)%nat with (S (2 * n + 1)) by lia. cbn [pow]. set (q := (1 - m * m) ^ k). set (p := m ^ (2 * n + 1)). ring. }
  assert (C : forall m, continuous (fun m => 2 * (INR n + INR k + 2) * (m ^ (2 * n + 1) * (1 - m * m) ^ S k) + - (2 * (INR k + 1)) * (m ^ (2 * n + 1) * (1 - m * m) ^ k)) m).
  { intros m. apply (ex_derive_continuous (K := R_AbsRing) (V := R_NormedModule)). auto_derive. repeat split. }
  pose proof (is_RInt_deriv_ends _ _ 0 1 D C) as I. apply (is_RInt_unique (V := R_CompleteNormedModule)) in I.
  pose proof (lin2' _ _ (2 * (INR n + INR k + 2)) (- (2 * (INR k + 1))) 0 1 (sonine_ex n (S k)) (sonine_ex n k)) as L.
  pose proof (eq_trans (eq_sym L) I) as I2. clear I L. rename I2 into I. fold (sonine n (S k)) (sonine n k) in I.
  rewrite (pow_ne_zero (2 * n + 2)) in I by lia. replace (1 - 1 * 1) with 0 in I by ring. rewrite (pow_ne_zero (S k)) in I by lia. lra.
Qed.
Lemma sonine_0 : forall n, sonine n 0 = / (2 * (INR n + 1)).
Proof.
  intros n. unfold sonine. pose proof (pos_INR n).
  assert (D : forall m, is_derive (fun m => m ^ (2 * n + 2) / (2 * (INR n + 1))) m (m ^ (2 * n + 1) * (1 - m * m) ^ 0)).
  { intros m. auto_derive; [exact Logic.I|]. replace (pred (n + (n + 0) + 2)) with (2 * n + 1)%nat by lia. replace (n + (n + 0) + 2)%nat with (2 * n + 2)%nat by lia.
    replace (INR (2 * n + 2)) with (2 * INR n + 2) by (rewrite plus_INR, mult_INR; cbn; ring). asR. cbn [pow Nat.mul]. field. lra. }
  assert (C : forall m, continuous (fun m => m ^ (2 * n + 1) * (1 - m * m) ^ 0) m).
  { intros m. apply (ex_derive_continuous (K := R_AbsRing) (V := R_NormedModule)). auto_derive. exact Logic.I. }
  pose proof (is_RInt_deriv_ends _ _ 0 1 D C) as I. apply (is_RInt_unique (V := R_CompleteNormedModule)) in I.
  etransitivity; [exact I|]. rewrite (pow_ne_zero (2 * n + 2)), pow1 by lia. asR. field. lra.
Qed.
Lemma sonine_coefficients : forall n j,
  / PI * pc 0 j * sonine n j = 2 ^ n * INR (fact n) / (odd_factorial (n + 1) * PI) * pc (2 * (n + 1)) j.
Proof.
  intros n. pose proof PI_RGT_0 as Pp. pose proof (pos_INR n) as Pn. induction j as [|j IH].
  - rewrite !pc_0, sonine_0, poisson_00, wallis_even. unfold odd_factorial. rewrite Nat.add_1_r, fact_1.
    pose proof (INR_fact_neq_0 n). pose proof (INR_fact_neq_0 (2 * S n)). pose proof (pow_nonzero 2 n ltac:(lra)).
    replace (4 ^ S n) with (2 ^ S n * 2 ^ S n) by (rewrite <- Rpow_mult_distr; f_equal; ring). cbn [pow]. field. repeat split; lra.
  - pose proof (pc_step 0 j) as S1. pose proof (pc_step (2 * (n + 1)) j) as S2. pose proof (sonine_step n j) as S3.
    rewrite mult_INR, plus_INR in S2. replace (INR 2) with 2 in S2 by (cbn; ring). replace (INR 1) with 1 in S2 by reflexivity.
    replace (INR 0) with 0 in S1 by reflexivity. pose proof (pos_INR j).
    set (K := 2 ^ n * INR (fact n) / (odd_factorial (n + 1) * PI)) in *.
    assert (D : (2 * INR j + 2) * (2 * INR j + 2 * (INR n + 1) + 2) <> 0) by (apply Rmult_integral_contrapositive_currified; lra).
    apply (Rmult_eq_reg_l _ _ _ ) with (2 := D).
    replace ((2 * INR j + 2) * (2 * INR j + 2 * (INR n + 1) + 2) * (K * pc (2 * (n + 1)) (S j)))
      with (K * ((2 * INR j + 2) * (2 * INR j + 2 * (INR n + 1) + 2) * pc (2 * (n + 1)) (S j))) by ring.
    rewrite S2. replace (K * - pc (2 * (n + 1)) j) with (- (K * pc (2 * (n + 1)) j)) by ring. rewrite <- IH.
    apply (Rmult_eq_reg_l (INR j + 1)); [|lra].
    replace ((INR j + 1) * ((2 * INR j + 2) * (2 * INR j + 2 * (INR n + 1) + 2) * (/ PI * pc 0 (S j) * sonine n (S j))))
      with (/ PI * ((2 * INR j + 2) * (2 * INR j + 0 + 2) * pc 0 (S j)) * ((INR n + INR j + 2) * sonine n (S j))) by ring.
    rewrite S1, S3. ring.
Qed.
Theorem sonine_flat : forall n s,
  RInt (fun m => m ^ (2 * n + 1) * flat_integral P a b (s * sqrt (1 - m * m))) 0 1
  = 2 ^ n * INR (fact n) / (odd_factorial (n + 1) * PI) * wave (2 * (n + 1)) 1 s.
Proof.
  intros n s. set (kap := 2 ^ n * INR (fact n) / (odd_factorial (n + 1) * PI)).
  assert (G : expands (fun r => kap * wave (2 * (n + 1)) 1 r) (fun j => kap * (pc (2 * (n + 1)) j * spectral (1 + 2 * j))))
    by (apply (expands_scal _ _ kap (wave_expands (2 * (n + 1)) 1))).
  assert (F : expands (fun s => RInt (fun m => m ^ (2 * n + 1) * flat_integral P a b (s * sqrt (1 - m * m))) 0 1)
                (fun j => / PI * (pc 0 j * spectral (1 + 2 * j)) * sonine n j)).
  { eapply expands_ext; [| |apply (superposition (flat_integral P a b) _ (fun m => m ^ (2 * n + 1)) (fun m => sqrt (1 - m * m)) 0 1 flat_expands)].
    - reflexivity.
    - intros j. cbv beta. apply f_equal. unfold sonine. apply RInt_ext. intros m M. rewrite Rmin_left, Rmax_right in M by lra.
      rewrite sine_even by lra. reflexivity.
    - lra.
    - intros m _. apply (ex_derive_continuous (K := R_AbsRing) (V := R_NormedModule)). auto_derive. exact Logic.I.
    - intros m _. apply sine_cont. }
  pose proof (expands_shift _ _ _ _ 0 F G) as E. cbv beta in E. rewrite E; [rewrite Rmult_1_l; reflexivity|intros; lia|].
  intros j. cbn [Nat.add]. pose proof (sonine_coefficients n j) as C. fold kap in C.
  transitivity (/ PI * pc 0 j * sonine n j * spectral (1 + 2 * j)); [cbn [Nat.add Nat.mul]; ring|]. rewrite C. cbn [Nat.add Nat.mul]. ring.
Qed.
End Spectrum.

(** ** The powers in a Legendre polynomial *)
(** Specification or proof only; nothing in the code. *)
Definition power_coefficient (l k : nat) : R :=
  if (2 * k <=? l)%nat then (-1) ^ k * Binomial.C l k * Binomial.C (2 * l - 2 * k) l / 2 ^ l else 0.

Lemma pcoef : forall k d, power_coefficient (2 * k + d) k
  = (-1) ^ k * INR (fact (2 * (k + d))) / (2 ^ (2 * k + d) * INR (fact k) * INR (fact (k + d)) * INR (fact d)).
Proof.
  intros k d. unfold power_coefficient. rewrite (proj2 (Nat.leb_le (2 * k) (2 * k + d))) by lia. unfold Binomial.C.
  replace (2 * (2 * k + d) - 2 * k)%nat with (2 * (k + d))%nat by lia. replace (2 * k + d - k)%nat with (k + d)%nat by lia.
  replace (2 * (k + d) - (2 * k + d))%nat with d by lia.
  pose proof (INR_fact_neq_0 k). pose proof (INR_fact_neq_0 d). pose proof (INR_fact_neq_0 (k + d)). pose proof (INR_fact_neq_0 (2 * k + d)).
  pose proof (pow_nonzero 2 (2 * k + d) ltac:(lra)). field. repeat split; assumption.
Qed.
Lemma pcoef_0 : forall l k, (l < 2 * k)%nat -> power_coefficient l k = 0.
Proof. intros l k H. unfold power_coefficient. rewrite (proj2 (Nat.leb_gt (2 * k) l)) by exact H. reflexivity. Qed.

Lemma pcoef_first : forall l, (INR l + 2) * power_coefficient (S (S l)) 0 = (2 * INR l + 3) * power_coefficient (S l) 0.
Proof.
  intros l. pose proof (pcoef 0 (S (S l))) as A. pose proof (pcoef 0 (S l)) as B.
  change (2 * 0 + S (S l))%nat with (S (S l)) in A. change (0 + S (S l))%nat with (S (S l)) in A.
  change (2 * 0 + S l)%nat with (S l) in B. change (0 + S l)%nat with (S l) in B. rewrite A, B. clear A B.
  rewrite fact_2, (fact_1 (S l)). rewrite S_INR. pose proof (INR_fact_neq_0 (S l)). pose proof (INR_fact_neq_0 (2 * S l)). pose proof (pos_INR l).
  pose proof (pow_nonzero 2 (S l) ltac:(lra)). replace (2 ^ S (S l)) with (2 * 2 ^ S l) by reflexivity. rewrite pow_O.
  replace (INR (fact 0)) with 1 by reflexivity. field. repeat split; lra.
Qed.
Lemma pcoef_next : forall l k, (INR l + 2) * power_coefficient (S (S l)) (S k)
  = (2 * INR l + 3) * power_coefficient (S l) (S k) - (INR l + 1) * power_coefficient l k.
Proof.
  intros l k. destruct (Nat.lt_ge_cases l (2 * k)) as [H|H].
  { rewrite !pcoef_0 by lia. ring. }
  assert (exists d, l = 2 * k + d)%nat as [d ->] by (exists (l - 2 * k)%nat; lia). clear H.
  rewrite pcoef. replace (S (S (2 * k + d))) with (2 * S k + d)%nat by lia. rewrite pcoef.
  pose proof (INR_fact_neq_0 k). pose proof (INR_fact_neq_0 (k + d)). pose proof (INR_fact_neq_0 (2 * (k + d))). pose proof (pos_INR k). pose proof (pos_INR d).
  pose proof (pow_nonzero 2 (2 * k + d) ltac:(lra)).
  replace (S k + d)%nat with (S (k + d)) by lia. replace (2 ^ (2 * S k + d)) with (4 * 2 ^ (2 * k + d)) by (replace (2 * S k + d)%nat with (2 + (2 * k + d))%nat by lia; rewrite (pow_add 2 2); ring).
  rewrite fact_2, (fact_1 k), (fact_1 (k + d)). replace (INR (2 * k + d)) with (2 * INR k + INR d) by (rewrite plus_INR, mult_INR; reflexivity).
  rewrite (plus_INR k d). cbn [pow].
  destruct d as [|d].
  - rewrite pcoef_0 by lia. rewrite !Nat.add_0_r in *. replace (INR 0) with 0 by reflexivity. replace (INR (fact 0)) with 1 by reflexivity. field. repeat split; lra.
  - replace (S (2 * k + S d)) with (2 * S k + d)%nat by lia. rewrite pcoef. replace (S k + d)%nat with (k + S d)%nat by lia.
    replace (2 ^ (2 * S k + d)) with (2 * 2 ^ (2 * k + S d)) by (replace (2 * S k + d)%nat with (S (2 * k + S d)) by lia; reflexivity).
    rewrite (fact_1 k), (fact_1 d), S_INR. pose proof (INR_fact_neq_0 d). pose proof (pos_INR d). cbn [pow].
    set (F2 := INR (fact (2 * (k + S d)))) in *. set (F1 := INR (fact (k + S d))) in *. set (Fk := INR (fact k)) in *. set (Fd := INR (fact d)) in *.
    set (q := 2 ^ (2 * k + S d)) in *. set (e := (-1) ^ k). field. repeat split; lra.
Qed.
Lemma legendre_powers : forall l N m, (l < 2 * N)%nat ->
  legendre l m = psum (fun k => power_coefficient l k * m ^ (l - 2 * k)) N.
Proof.
  intros l N m. revert N. revert l.
  assert (Z : forall l M N, (l < 2 * M)%nat -> (l < 2 * N)%nat ->
    psum (fun k => power_coefficient l k * m ^ (l - 2 * k)) M = psum (fun k => power_coefficient l k * m ^ (l - 2 * k)) N).
  { assert (W : forall l M j, (l < 2 * M)%nat -> psum (fun k => power_coefficient l k * m ^ (l - 2 * k)) (M + j) = psum (fun k => power_coefficient l k * m ^ (l - 2 * k)) M).
    { intros l M j H. rewrite psum_shift, (psum_zero _ j); [ring|]. intros k _. rewrite pcoef_0 by lia. ring. }
    intros l M N HM HN. destruct (Nat.le_ge_cases M N) as [L|L].
    - replace N with (M + (N - M))%nat by lia. symmetry. apply W. exact HM.
    - replace M with (N + (M - N))%nat by lia. apply W. exact HN. }
  apply (two_step (fun l => forall N, (l < 2 * N)%nat -> legendre l m = psum (fun k => power_coefficient l k * m ^ (l - 2 * k)) N)).
  - intros N H. rewrite (Z _ N 1%nat) by lia. cbn. unfold power_coefficient, Binomial.C. cbn. field.
  - intros N H. rewrite (Z _ N 1%nat) by lia. cbn. unfold power_coefficient, Binomial.C. cbn. field.
  - intros l A B N H. destruct N as [|N]; [lia|]. rewrite legendre_SS, (A N), (B (S N)) by lia.
    pose proof (pos_INR l) as Pl. apply (Rmult_eq_reg_l (INR l + 2)); [|lra].
    change (S N) with (1 + N)%nat. rewrite !psum_shift. cbn [psum Nat.add]. rewrite !Rplus_0_l.
    match goal with |- _ = (INR l + 2) * (?u + ?v) => transitivity ((INR l + 2) * u + (INR l + 2) * v); [|ring] end.
    rewrite <- (psum_scal (INR l + 2)).
    rewrite (psum_ext (fun i => (INR l + 2) * (power_coefficient (S (S l)) (S i) * m ^ (S (S l) - 2 * S i))) (fun j => (2 * INR l + 3) * m * (power_coefficient (S l) (S j) * m ^ (S l - 2 * S j)) + - (INR l + 1) * (power_coefficient l j * m ^ (l - 2 * j)))).
    2:{ intros j _. cbv beta. replace (S (S l) - 2 * S j)%nat with (l - 2 * j)%nat by lia.
        destruct (Nat.lt_ge_cases l (2 * j + 1)) as [J|J].
        - pose proof (pcoef_next l j) as E. rewrite (pcoef_0 (S l) (S j)) in * by lia. rewrite <- Rmult_assoc, E. ring.
        - replace (m ^ (l - 2 * j)) with (m * m ^ (S l - 2 * S j)) by (replace (l - 2 * j)%nat with (S (S l - 2 * S j)) by lia; reflexivity).
          rewrite <- !Rmult_assoc, pcoef_next. ring. }
    assert (PP : forall f g n, psum (fun j => f j + g j) n = psum f n + psum g n) by (intros f g; induction n as [|n IH]; cbn [psum]; [ring|rewrite IH; ring]).
    rewrite PP, !psum_scal. rewrite <- (Rmult_assoc (INR l + 2) (power_coefficient _ 0)), pcoef_first.
    replace (S (S l) - 2 * 0)%nat with (S (S l)) by lia. replace (S l - 2 * 0)%nat with (S l) by lia. cbn [pow].
    rewrite !S_INR. field. lra.
Qed.
