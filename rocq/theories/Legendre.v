(** * Legendre polynomials: derivative, equation, orthogonality

    About [legendre] of CExpr.v, which stands for gsl_sf_legendre_Pl. *)
From Coq Require Import Reals Lra Lia Arith.
From Coquelicot Require Import Coquelicot.
From Verif Require Import CExpr.
Open Scope R_scope.

Lemma two_step (P : nat -> Prop) : P 0%nat -> P 1%nat -> (forall n, P n -> P (S n) -> P (S (S n))) -> forall n, P n.
Proof. intros H0 H1 HS n. assert (P n /\ P (S n)) as [H _]; [|exact H]. induction n as [|n [A B]]; auto. Qed.

Lemma legendre_SS : forall n u,
  legendre (S (S n)) u = ((2 * INR (S n) + 1) * u * legendre (S n) u - INR (S n) * legendre n u) / INR (S (S n)).
Proof. reflexivity. Qed.

(** The derivative.  Specification or proof only; nothing in the code. *)
Fixpoint dlegendre (n : nat) (u : R) : R :=
  match n with
  | O => 0
  | S m =>
      match m with
      | O => 1
      | S m' => ((2 * INR m + 1) * (legendre m u + u * dlegendre m u) - INR m * dlegendre m' u) / INR n
      end
  end.
Lemma dlegendre_SS : forall n u,
  dlegendre (S (S n)) u =
  ((2 * INR (S n) + 1) * (legendre (S n) u + u * dlegendre (S n) u) - INR (S n) * dlegendre n u) / INR (S (S n)).
Proof. reflexivity. Qed.

Lemma INR_S_pos : forall n, INR (S n) <> 0.
Proof. intros n. apply not_0_INR. lia. Qed.

Lemma legendre_derive : forall n u, is_derive (legendre n) u (dlegendre n u).
Proof.
  intros n u. revert n. apply two_step.
  - apply (is_derive_const 1 u).
  - apply (is_derive_id u).
  - intros n A B. rewrite dlegendre_SS.
    apply (is_derive_ext (fun v => / INR (S (S n)) * ((2 * INR (S n) + 1) * (v * legendre (S n) v) - INR (S n) * legendre n v))).
    { intros t. rewrite legendre_SS. unfold Rdiv. match goal with |- ?a = ?b => change (@eq R a b) end. ring. }
    replace (((2 * INR (S n) + 1) * (legendre (S n) u + u * dlegendre (S n) u) - INR (S n) * dlegendre n u) / INR (S (S n)))
      with (/ INR (S (S n)) * ((2 * INR (S n) + 1) * (1 * legendre (S n) u + u * dlegendre (S n) u) - INR (S n) * dlegendre n u))
      by (unfold Rdiv; ring).
    apply is_derive_scal. apply @is_derive_minus; apply is_derive_scal; [|exact A].
    apply (is_derive_mult (fun v : R => v) (legendre (S n)) u 1 (dlegendre (S n) u)); [apply @is_derive_id|exact B|].
    intros x y. apply Rmult_comm.
Qed.

Lemma legendre_continuous : forall n u, continuous (legendre n) u.
Proof. intros n u. apply (ex_derive_continuous (legendre n)). exists (dlegendre n u). apply legendre_derive. Qed.

(** x P'_n - P'_(n-1) = n P_n and P'_n - x P'_(n-1) = n P_(n-1). *)
Lemma dlegendre_relations : forall n u,
  u * dlegendre (S n) u - dlegendre n u = INR (S n) * legendre (S n) u
  /\ dlegendre (S n) u - u * dlegendre n u = INR (S n) * legendre n u.
Proof.
  intros n u. induction n as [|n [A B]]; [cbn; lra|].
  assert (N : INR (S (S n)) <> 0) by apply INR_S_pos.
  assert (E : INR (S (S n)) = INR (S n) + 1) by (rewrite (S_INR (S n)); reflexivity).
  assert (D : dlegendre (S (S n)) u - u * dlegendre (S n) u = INR (S (S n)) * legendre (S n) u).
  { rewrite dlegendre_SS. apply (Rmult_eq_reg_r (INR (S (S n)))); [|exact N].
    replace ((((2 * INR (S n) + 1) * (legendre (S n) u + u * dlegendre (S n) u) - INR (S n) * dlegendre n u) / INR (S (S n)) - u * dlegendre (S n) u) * INR (S (S n)))
      with (((2 * INR (S n) + 1) * (legendre (S n) u + u * dlegendre (S n) u) - INR (S n) * dlegendre n u) - u * dlegendre (S n) u * INR (S (S n)))
      by (field; exact N).
    rewrite E. replace (dlegendre n u) with (u * dlegendre (S n) u - INR (S n) * legendre (S n) u) by lra. ring. }
  split; [|exact D].
  replace (dlegendre (S (S n)) u) with (u * dlegendre (S n) u + INR (S (S n)) * legendre (S n) u) by lra.
  rewrite legendre_SS.
  replace (INR (S (S n)) * (((2 * INR (S n) + 1) * u * legendre (S n) u - INR (S n) * legendre n u) / INR (S (S n))))
    with ((2 * INR (S n) + 1) * u * legendre (S n) u - INR (S n) * legendre n u) by (field; exact N).
  rewrite E.
  assert (F : dlegendre (S n) u = u * (u * dlegendre (S n) u - INR (S n) * legendre (S n) u) + INR (S n) * legendre n u).
  { replace (u * dlegendre (S n) u - INR (S n) * legendre (S n) u) with (dlegendre n u) by lra. lra. }
  lra.
Qed.

(** [(1 - u^2) P'_n] and its derivative: Legendre's equation.  Specification or proof only; nothing in the code. *)
Definition flux (n : nat) (u : R) : R := (1 - u * u) * dlegendre n u.
Lemma flux_S : forall n u, flux (S n) u = INR (S n) * (legendre n u - u * legendre (S n) u).
Proof.
  intros n u. unfold flux. destruct (dlegendre_relations n u) as [A B].
  replace ((1 - u * u) * dlegendre (S n) u) with (dlegendre (S n) u - u * (u * dlegendre (S n) u)) by ring.
  replace (u * dlegendre (S n) u) with (dlegendre n u + INR (S n) * legendre (S n) u) at 1 by lra. lra.
Qed.
Lemma flux_derive : forall n u, is_derive (flux n) u (- (INR n * (INR n + 1)) * legendre n u).
Proof.
  intros [|n] u.
  - apply (is_derive_ext (fun _ => 0)); [intros t; unfold flux; cbn; ring|].
    replace (- (INR 0 * (INR 0 + 1)) * legendre 0 u) with 0 by (cbn; ring). apply @is_derive_const.
  - apply (is_derive_ext (fun v => INR (S n) * (legendre n v - v * legendre (S n) v))); [intros t; symmetry; apply flux_S|].
    destruct (dlegendre_relations n u) as [A B].
    replace (- (INR (S n) * (INR (S n) + 1)) * legendre (S n) u)
      with (INR (S n) * (dlegendre n u - (1 * legendre (S n) u + u * dlegendre (S n) u))).
    2:{ replace (dlegendre n u) with (u * dlegendre (S n) u - INR (S n) * legendre (S n) u) by lra. ring. }
    apply is_derive_scal. apply @is_derive_minus; [apply legendre_derive|].
    apply (is_derive_mult (fun v : R => v) (legendre (S n)) u 1 (dlegendre (S n) u)); [apply @is_derive_id|apply legendre_derive|].
    intros x y. apply Rmult_comm.
Qed.
Lemma flux_ends : forall n, flux n 1 = 0 /\ flux n (-1) = 0.
Proof. intros n. unfold flux. split; ring. Qed.

(** Values at the ends. *)
Lemma legendre_one : forall n, legendre n 1 = 1.
Proof.
  apply two_step; [reflexivity..|]. intros n A B. rewrite legendre_SS, A, B.
  assert (N : INR (S (S n)) <> 0) by apply INR_S_pos. rewrite (S_INR (S n)) in *. field. exact N.
Qed.
Lemma legendre_opp : forall n u, legendre n (- u) = (-1) ^ n * legendre n u.
Proof.
  intros n u. revert n. apply two_step; [cbn; ring..|]. intros n A B. rewrite !legendre_SS, A, B. cbn [pow]. unfold Rdiv. ring.
Qed.

Lemma is_RInt_deriv_ends : forall (f df : R -> R) a b,
  (forall x, is_derive f x (df x)) -> (forall x, continuous df x) -> is_RInt df a b (f b - f a).
Proof. intros f df a b D C. apply (is_RInt_derive f df a b); intros; auto. Qed.

(** Orthogonality: Legendre's equation twice.  Specification or proof only; nothing in the code. *)
Definition wronskian (n m : nat) (u : R) : R := flux n u * legendre m u - flux m u * legendre n u.
Lemma wronskian_derive : forall n m u, is_derive (wronskian n m) u
  ((INR m * (INR m + 1) - INR n * (INR n + 1)) * (legendre n u * legendre m u)).
Proof.
  intros n m u. unfold wronskian.
  replace ((INR m * (INR m + 1) - INR n * (INR n + 1)) * (legendre n u * legendre m u))
    with ((- (INR n * (INR n + 1)) * legendre n u * legendre m u + flux n u * dlegendre m u)
          - (- (INR m * (INR m + 1)) * legendre m u * legendre n u + flux m u * dlegendre n u))
    by (unfold flux; ring).
  apply @is_derive_minus.
  - apply (is_derive_mult (flux n) (legendre m) u _ _ (flux_derive n u) (legendre_derive m u)). intros; apply Rmult_comm.
  - apply (is_derive_mult (flux m) (legendre n) u _ _ (flux_derive m u) (legendre_derive n u)). intros; apply Rmult_comm.
Qed.
Lemma continuous_prod : forall n m u, continuous (fun v => legendre n v * legendre m v) u.
Proof. intros n m u. apply (continuous_mult (legendre n) (legendre m)); apply legendre_continuous. Qed.

Theorem legendre_orthogonal : forall n m, n <> m -> is_RInt (fun u => legendre n u * legendre m u) (-1) 1 0.
Proof.
  intros n m NM. set (c := INR m * (INR m + 1) - INR n * (INR n + 1)).
  assert (C : c <> 0).
  { unfold c. replace (INR m * (INR m + 1) - INR n * (INR n + 1)) with ((INR m - INR n) * (INR m + INR n + 1)) by ring.
    pose proof (pos_INR m). pose proof (pos_INR n). apply Rmult_integral_contrapositive_currified; [|lra].
    intros E. apply NM. apply INR_eq. lra. }
  pose proof (is_RInt_deriv_ends (wronskian n m) (fun u => c * (legendre n u * legendre m u)) (-1) 1 (wronskian_derive n m)) as H.
  destruct (flux_ends n) as [A1 A2]. destruct (flux_ends m) as [B1 B2].
  replace (wronskian n m 1 - wronskian n m (-1)) with (c * 0) in H by (unfold wronskian; rewrite A1, A2, B1, B2; ring).
  apply (is_RInt_ext (fun u => scal (/ c) (c * (legendre n u * legendre m u)))).
  { intros u _. change (/ c * (c * (legendre n u * legendre m u)) = legendre n u * legendre m u). field. exact C. }
  replace 0 with (scal (/ c) (c * 0)) by (change (/ c * (c * 0) = 0); ring).
  apply (is_RInt_scal (fun u => c * (legendre n u * legendre m u)) (-1) 1 (/ c)). apply H.
  intros u. apply (continuous_scal_r c (fun v => legendre n v * legendre m v)). apply continuous_prod.
Qed.

(** The norm. *)
Lemma dlegendre_step : forall n u, dlegendre (S (S n)) u = dlegendre n u + (2 * INR (S n) + 1) * legendre (S n) u.
Proof.
  intros n u. destruct (dlegendre_relations n u) as [A _]. destruct (dlegendre_relations (S n) u) as [_ B].
  rewrite (S_INR (S n)) in B. lra.
Qed.
Lemma legendre_dlegendre : forall n k, (k <= n)%nat -> is_RInt (fun u => legendre n u * dlegendre k u) (-1) 1 0.
Proof.
  intros n. apply (two_step (fun k => (k <= n)%nat -> is_RInt (fun u => legendre n u * dlegendre k u) (-1) 1 0)).
  - intros _. apply (is_RInt_ext (fun _ => 0)); [intros; cbn; ring|].
    pose proof (is_RInt_const (-1) 1 0) as H. change (is_RInt (fun _ : R => 0) (-1) 1 ((1 - -1) * 0)) in H. rewrite Rmult_0_r in H. exact H.
  - intros L. apply (is_RInt_ext (fun u => legendre n u * legendre 0 u)); [intros; cbn; ring|]. apply legendre_orthogonal. lia.
  - intros k A _ L. apply (is_RInt_ext (fun u => plus (legendre n u * dlegendre k u) (scal (2 * INR (S k) + 1) (legendre n u * legendre (S k) u)))).
    { intros u _. rewrite dlegendre_step. change (legendre n u * dlegendre k u + (2 * INR (S k) + 1) * (legendre n u * legendre (S k) u)
        = legendre n u * (dlegendre k u + (2 * INR (S k) + 1) * legendre (S k) u)). ring. }
    replace 0 with (plus 0 (scal (2 * INR (S k) + 1) 0)) by (change (0 + (2 * INR (S k) + 1) * 0 = 0); ring).
    apply @is_RInt_plus; [apply A; lia|]. apply @is_RInt_scal. apply legendre_orthogonal. lia.
Qed.
Theorem legendre_norm : forall n, is_RInt (fun u => legendre n u * legendre n u) (-1) 1 (2 / (2 * INR n + 1)).
Proof.
  intros n. pose proof (pos_INR n) as Pn.
  destruct n as [|n].
  { apply (is_RInt_ext (fun _ => 1)); [intros; cbn; ring|].
    pose proof (is_RInt_const (-1) 1 1) as H. change (is_RInt (fun _ : R => 1) (-1) 1 ((1 - -1) * 1)) in H.
    replace (2 / (2 * INR 0 + 1)) with ((1 - -1) * 1) by (cbn; field). exact H. }
  set (P := legendre (S n)). set (dP := dlegendre (S n)).
  assert (D : is_RInt (fun u => P u * P u + u * (2 * (P u * dP u))) (-1) 1 2).
  { assert (X : 1 * (P 1 * P 1) - -1 * (P (-1) * P (-1)) = 2).
    { unfold P. pose proof (legendre_opp (S n) 1) as O. replace (- (1)) with (-1) in O by ring. rewrite O, legendre_one.
        replace ((-1) ^ S n * 1 * ((-1) ^ S n * 1)) with (((-1) * (-1)) ^ S n) by (rewrite Rpow_mult_distr; ring).
        replace (-1 * -1) with 1 by ring. rewrite pow1. ring. }
    cut (is_RInt (fun u => P u * P u + u * (2 * (P u * dP u))) (-1) 1 (1 * (P 1 * P 1) - -1 * (P (-1) * P (-1)))).
    { rewrite X. exact (fun h => h). }
    apply (is_RInt_deriv_ends (fun u => u * (P u * P u)) (fun u => P u * P u + u * (2 * (P u * dP u)))).
    - intros u. replace (P u * P u + u * (2 * (P u * dP u))) with (1 * (P u * P u) + u * (dP u * P u + P u * dP u)) by ring.
      apply (is_derive_mult (fun v : R => v) (fun v => P v * P v) u 1 _); [apply @is_derive_id| |intros; apply Rmult_comm].
      apply (is_derive_mult P P u _ _ (legendre_derive (S n) u) (legendre_derive (S n) u)). intros; apply Rmult_comm.
    - intros u. apply (continuous_ext (fun v => plus (P v * P v) (mult 2 (P v * (INR (S n) * P v + dlegendre n v))))).
      { intros v. destruct (dlegendre_relations n v) as [A _]. change (P v * P v + 2 * (P v * (INR (S n) * P v + dlegendre n v)) = P v * P v + v * (2 * (P v * dP v))).
        unfold P, dP. replace (INR (S n) * legendre (S n) v + dlegendre n v) with (v * dlegendre (S n) v) by lra. ring. }
      assert (CP : continuous P u) by apply legendre_continuous.
      assert (CD : continuous (dlegendre n) u).
      { apply (continuous_ext (fun v => dlegendre n v)); [reflexivity|]. clear -n. revert n. apply two_step.
        - apply @continuous_const.
        - apply @continuous_const.
        - intros k A _. apply (continuous_ext (fun v => plus (dlegendre k v) (scal (2 * INR (S k) + 1) (legendre (S k) v)))).
          { intros v. symmetry. apply dlegendre_step. }
          apply @continuous_plus; [exact A|]. apply (continuous_scal_r (2 * INR (S k) + 1) (legendre (S k))). apply legendre_continuous. }
      apply @continuous_plus; [apply (continuous_mult P P u CP CP)|].
      apply (continuous_mult (fun _ => 2) (fun v => P v * (INR (S n) * P v + dlegendre n v)) u); [apply @continuous_const|].
      apply (continuous_mult P (fun v => INR (S n) * P v + dlegendre n v) u CP).
      apply (continuous_plus (fun v => INR (S n) * P v) (dlegendre n) u); [|exact CD].
      apply (continuous_scal_r (INR (S n)) P u CP). }
  pose proof (legendre_dlegendre (S n) n (Nat.le_succ_diag_r n)) as Z.
  pose proof (is_RInt_minus _ _ _ _ _ _ D (is_RInt_scal _ _ _ 2 _ Z)) as M.
  change (is_RInt (fun u => P u * P u + u * (2 * (P u * dP u)) - 2 * (P u * dlegendre n u)) (-1) 1 (2 - 2 * 0)) in M.
  set (k := 2 * INR (S n) + 1) in *. assert (K : k <> 0) by (unfold k; lra).
  apply (is_RInt_ext (fun u => scal (/ k) (P u * P u + u * (2 * (P u * dP u)) - 2 * (P u * dlegendre n u)))).
  { intros u _. destruct (dlegendre_relations n u) as [A _]. fold (P u) in A. fold (dP u) in A. fold (P u).
    change (/ k * (P u * P u + u * (2 * (P u * dP u)) - 2 * (P u * dlegendre n u)) = P u * P u).
    replace (dlegendre n u) with (u * dP u - INR (S n) * P u) by lra.
    replace (P u * P u + u * (2 * (P u * dP u)) - 2 * (P u * (u * dP u - INR (S n) * P u))) with (k * (P u * P u)) by (unfold k; ring).
    field. exact K. }
  replace (2 / k) with (scal (/ k) (2 - 2 * 0)) by (change (/ k * (2 - 2 * 0) = 2 / k); unfold Rdiv; ring).
  apply @is_RInt_scal. exact M.
Qed.
