(** * Lemmas about the double-exponential quadrature *)
From Coq Require Import QArith Qreals Reals List Lra Lia Psatz Bool.
From Verif Require Import Tanhsinh.
Import ListNotations.
Open Scope R_scope.

(** ** The tables *)

(** Specification or proof only; nothing in the code. *)
Definition node_ok (q : Q) : bool := Qle_bool 0 q && negb (Qle_bool 1 q).

Lemma nodes_ok : forallb node_ok nodes = true.
Proof. vm_compute. reflexivity. Qed.

Lemma weights_ok : forallb (fun q => negb (Qle_bool q 0)) weights = true.
Proof. vm_compute. reflexivity. Qed.

Lemma nodes_length : length nodes = 193%nat.
Proof. vm_compute. reflexivity. Qed.

Lemma weights_length : length weights = 193%nat.
Proof. vm_compute. reflexivity. Qed.

Lemma Q2R_0 : Q2R 0 = 0.
Proof. unfold Q2R. simpl. lra. Qed.

Lemma Q2R_1 : Q2R 1 = 1.
Proof. unfold Q2R. simpl. lra. Qed.

Lemma node_range : forall i, (i < 193)%nat -> 0 <= node i < 1.
Proof.
  intros i H. unfold node.
  assert (I : In (nth i nodes 0%Q) nodes) by (apply nth_In; rewrite nodes_length; exact H).
  pose proof (proj1 (forallb_forall _ _) nodes_ok _ I) as K.
  unfold node_ok in K. apply andb_true_iff in K. destruct K as [K1 K2].
  apply Qle_bool_iff in K1. apply Qle_Rle in K1. rewrite Q2R_0 in K1.
  split; [exact K1|].
  apply negb_true_iff in K2.
  destruct (Qlt_le_dec (nth i nodes 0%Q) 1) as [L|L].
  - apply Qlt_Rlt in L. rewrite Q2R_1 in L. exact L.
  - apply Qle_bool_iff in L. rewrite L in K2. discriminate.
Qed.

Lemma weight_pos : forall i, (i < 193)%nat -> 0 < weight i.
Proof.
  intros i H. unfold weight.
  assert (I : In (nth i weights 0%Q) weights) by (apply nth_In; rewrite weights_length; exact H).
  pose proof (proj1 (forallb_forall _ _) weights_ok _ I) as K.
  apply negb_true_iff in K.
  destruct (Qlt_le_dec 0 (nth i weights 0%Q)) as [L|L].
  - apply Qlt_Rlt in L. rewrite Q2R_0 in L. exact L.
  - apply Qle_bool_iff in L. rewrite L in K. discriminate.
Qed.

Lemma node_0 : node 0 = 0.
Proof. unfold node, Q2R. simpl. lra. Qed.

Lemma offset_le : forall l m, (l <= m <= 7)%nat -> (offset l <= offset m)%nat.
Proof.
  intros l m H.
  do 8 (destruct l as [|l]; [do 8 (destruct m as [|m]; [try lia; cbn; lia|]); lia|]). lia.
Qed.

Lemma offset_7 : offset 7 = 193%nat.
Proof. reflexivity. Qed.

(** ** Sums over the table *)

(** Specification or proof only; nothing in the code. *)
Definition total (h : nat -> R) (l : list nat) : R := fold_right (fun i s => h i + s) 0 l.

Lemma total_app : forall h l m, total h (l ++ m) = total h l + total h m.
Proof.
  intros h l m. induction l as [|i l IH]; simpl; [lra|rewrite IH; lra].
Qed.

Lemma total_scale : forall k h l, total (fun i => k * h i) l = k * total h l.
Proof.
  intros k h l. induction l as [|i l IH]; simpl; [lra|rewrite IH; lra].
Qed.

Lemma total_plus : forall g h l, total (fun i => g i + h i) l = total g l + total h l.
Proof.
  intros g h l. induction l as [|i l IH]; simpl; [lra|rewrite IH; lra].
Qed.

Lemma total_ext : forall g h l, (forall i, In i l -> g i = h i) -> total g l = total h l.
Proof.
  intros g h l H. induction l as [|i l IH]; simpl; [reflexivity|].
  rewrite H by (left; reflexivity). rewrite IH; [reflexivity|].
  intros j J. apply H. right. exact J.
Qed.

Lemma total_zero : forall h l, (forall i, In i l -> h i = 0) -> total h l = 0.
Proof.
  intros h l H. induction l as [|i l IH]; simpl; [reflexivity|].
  rewrite H by (left; reflexivity). rewrite IH; [lra|].
  intros j J. apply H. right. exact J.
Qed.

Lemma total_nonneg : forall h l, (forall i, In i l -> 0 <= h i) -> 0 <= total h l.
Proof.
  intros h l H. induction l as [|i l IH]; simpl; [lra|].
  assert (0 <= h i) by (apply H; left; reflexivity).
  assert (0 <= total h l) by (apply IH; intros j J; apply H; right; exact J). lra.
Qed.

Lemma total_abs : forall h g l, (forall i, In i l -> Rabs (h i) <= g i) ->
  Rabs (total h l) <= total g l.
Proof.
  intros h g l H. induction l as [|i l IH]; simpl; [rewrite Rabs_R0; lra|].
  pose proof (Rabs_triang (h i) (total h l)).
  assert (Rabs (h i) <= g i) by (apply H; left; reflexivity).
  assert (Rabs (total h l) <= total g l) by (apply IH; intros j J; apply H; right; exact J). lra.
Qed.

Lemma add_pairs_total : forall f c d lo hi acc,
  add_pairs f c d lo hi acc = acc + total (pair f c d) (seq lo (hi - lo)).
Proof.
  intros f c d lo hi. unfold add_pairs. generalize (seq lo (hi - lo)).
  induction l as [|i l IH]; intros acc; simpl; [lra|rewrite IH; lra].
Qed.

(** The sum of the rule over the first [n] nodes.  Specification or proof only; nothing in the code. *)
Definition partial_sum (f : R -> R) (c d : R) (n : nat) : R :=
  f (c * node 0 + d) * weight 0 + total (pair f c d) (seq 1 (n - 1)).

Lemma partial_sum_split : forall f c d m n, (1 <= m <= n)%nat ->
  partial_sum f c d n = partial_sum f c d m + total (pair f c d) (seq m (n - m)).
Proof.
  intros f c d m n H. unfold partial_sum.
  replace (n - 1)%nat with ((m - 1) + (n - m))%nat by lia.
  rewrite seq_app, total_app. replace (1 + (m - 1))%nat with m by lia. lra.
Qed.

(** ** What the loop returns *)

(** Specification or proof only; nothing in the code. *)
Definition stopped (f : R -> R) (c d : R) (L : nat) (r : R * R * nat) : Prop :=
  fst (fst r) = / 2 ^ L * partial_sum f c d (offset (S L)) /\ snd r = offset (S L).

Lemma pow2_half : forall n, / 2 ^ n * (1 / 2) = / 2 ^ S n.
Proof.
  intros n. simpl. field. apply pow_nonzero. lra.
Qed.

Lemma sweep_stops : forall f c d tol left level dx delta est integral,
  (left + level = 7)%nat -> (1 <= level)%nat ->
  dx = / 2 ^ (level - 1) ->
  integral = / 2 ^ (level - 1) * partial_sum f c d (offset level) ->
  exists L, (2 <= L <= 6)%nat /\ (level - 1 <= L)%nat /\ (left <> 0%nat -> level <= L)%nat /\
    stopped f c d L (sweep f c d tol left level dx delta est integral).
Proof.
  intros f c d tol left. induction left as [|left IH];
    intros level dx delta est integral E P D I.
  - assert (level = 7)%nat by lia. subst level. exists 6%nat.
    repeat split; try lia. simpl fst. exact I.
  - set (new := add_pairs f c d (offset level) (offset (S level)) 0 * (dx * (1 / 2))).
    assert (D' : dx * (1 / 2) = / 2 ^ (S level - 1)).
    { rewrite D, pow2_half. f_equal. f_equal. lia. }
    assert (I' : 1 / 2 * integral + new = / 2 ^ (S level - 1) * partial_sum f c d (offset (S level))).
    { unfold new. rewrite D', I, add_pairs_total.
      rewrite (partial_sum_split f c d (offset level) (offset (S level))).
      - replace (S level - 1)%nat with (S (level - 1)) by lia. simpl pow.
        field. apply pow_nonzero. lra.
      - split; [|apply offset_le; lia].
        change 1%nat with (offset 0). apply offset_le. lia. }
    simpl sweep. fold new.
    destruct (Nat.eqb level 1) eqn:L1.
    + destruct (IH (S level) (dx * (1 / 2)) (Rabs (1 / 2 * integral - new)) est
                  (1 / 2 * integral + new)) as [L [A [B [C F]]]];
        try lia; try assumption.
      exists L. repeat split; try lia; apply F.
    + apply Nat.eqb_neq in L1.
      assert (S' : forall e, stopped f c d level (1 / 2 * integral + new, e, offset (S level))).
      { intros e. split; [simpl fst|reflexivity].
        rewrite I'. replace (S level - 1)%nat with level by lia. reflexivity. }
      destruct (Req_EM_T (Rabs (1 / 2 * integral - new)) 0).
      * exists level. repeat split; try lia; apply S'.
      * match goal with |- context [Rlt_dec ?x ?y] => destruct (Rlt_dec x y) end.
        -- exists level. repeat split; try lia; apply S'.
        -- match goal with |- context [sweep f c d tol left (S level) ?x ?y ?z ?t] =>
             destruct (IH (S level) x y z t) as [L [A [B [C F]]]]; try lia; try assumption end.
           exists L. repeat split; try lia; apply F.
Qed.

Lemma first_sum : forall f c d,
  add_pairs f c d (offset 0) (offset 1) (f (c * node 0 + d) * weight 0)
  = / 2 ^ (1 - 1) * partial_sum f c d (offset 1).
Proof.
  intros f c d. rewrite add_pairs_total. unfold partial_sum.
  change (offset 0) with 1%nat. change (offset 1) with 4%nat.
  change (4 - 1)%nat with 3%nat. change (1 - 1)%nat with 0%nat. simpl pow. rewrite Rinv_1. lra.
Qed.

Lemma integrate_stops : forall f c d e, exists L, (2 <= L <= 6)%nat /\
  value (integrate f c d e) = c * (/ 2 ^ L * partial_sum f c d (offset (S L))) /\
  num_eval (integrate f c d e) = (2 * offset (S L) - 1)%nat.
Proof.
  intros f c d e. unfold integrate.
  destruct (sweep_stops f c d (e / c) (num_levels - 1) 1 1 dbl_max dbl_max
              (add_pairs f c d (offset 0) (offset 1) (f (c * node 0 + d) * weight 0)))
    as [L [A [_ [_ [B C]]]]];
    [reflexivity|lia| |apply first_sum|].
  - change (1 - 1)%nat with 0%nat. simpl pow. rewrite Rinv_1. reflexivity.
  - destruct (sweep _ _ _ _ _ _ _ _ _ _) as [[v s] i]. simpl in B, C.
    exists L. split; [exact A|]. split; simpl; [rewrite B; reflexivity|rewrite C; lia].
Qed.

(** ** Which values of the integrand matter *)

Lemma sweep_reaches : forall f c d tol left level dx delta est integral,
  (left + level = 7)%nat ->
  (offset level <= snd (sweep f c d tol left level dx delta est integral))%nat /\
  (left <> 0%nat ->
   offset (S level) <= snd (sweep f c d tol left level dx delta est integral))%nat.
Proof.
  intros f c d tol left. induction left as [|left IH]; intros level dx delta est integral E.
  - simpl. split; [lia|intros H; lia].
  - simpl sweep.
    assert (G : (offset level <= offset (S level))%nat) by (apply offset_le; lia).
    destruct (Nat.eqb level 1).
    + match goal with |- context [sweep f c d tol left (S level) ?x ?y ?z ?t] =>
        destruct (IH (S level) x y z t) as [A _]; [lia|] end. split; [lia|intros _; exact A].
    + destruct (Req_EM_T _ 0); [simpl; split; [exact G|intros _; lia]|].
      match goal with |- context [Rlt_dec ?x ?y] => destruct (Rlt_dec x y) end.
      * simpl; split; [exact G|intros _; lia].
      * match goal with |- context [sweep f c d tol left (S level) ?x ?y ?z ?t] =>
          destruct (IH (S level) x y z t) as [A _]; [lia|] end. split; [lia|intros _; exact A].
Qed.

Lemma sweep_local : forall f g c d tol left level dx delta est integral,
  (left + level = 7)%nat ->
  (forall k, (1 <= k < snd (sweep f c d tol left level dx delta est integral))%nat ->
     pair g c d k = pair f c d k) ->
  (1 <= level)%nat ->
  sweep g c d tol left level dx delta est integral
  = sweep f c d tol left level dx delta est integral.
Proof.
  intros f g c d tol left. induction left as [|left IH];
    intros level dx delta est integral E H P; [reflexivity|].
  assert (N : add_pairs g c d (offset level) (offset (S level)) 0
              = add_pairs f c d (offset level) (offset (S level)) 0).
  { rewrite !add_pairs_total. f_equal. apply total_ext. intros k K. apply in_seq in K.
    apply H.
    destruct (sweep_reaches f c d tol (S left) level dx delta est integral E) as [_ R].
    specialize (R (Nat.neq_succ_0 left)).
    assert (1 <= offset level)%nat by (change 1%nat with (offset 0); apply offset_le; lia).
    lia. }
  simpl sweep in *. rewrite N.
  destruct (Nat.eqb level 1).
  - apply IH; [lia|exact H|lia].
  - destruct (Req_EM_T _ 0); [reflexivity|].
    match goal with |- context [Rlt_dec ?x ?y] => destruct (Rlt_dec x y) end; [reflexivity|].
    apply IH; [lia|exact H|lia].
Qed.

(** The points at which the rule with the first [i] nodes evaluates.
    Specification or proof only; nothing in the code. *)
Definition points (c d : R) (i : nat) : list R :=
  (c * node 0 + d) :: flat_map (fun k => [c * node k + d; - c * node k + d]) (seq 1 (i - 1)).

Lemma points_length : forall c d i, (1 <= i)%nat -> length (points c d i) = (2 * i - 1)%nat.
Proof.
  intros c d i H. unfold points. simpl length.
  assert (G : forall l, length (flat_map (fun k => [c * node k + d; - c * node k + d]) l)
                        = (2 * length l)%nat).
  { induction l as [|k l IH]; [reflexivity|]. simpl. rewrite IH. lia. }
  rewrite G, seq_length. lia.
Qed.

Lemma integrate_local : forall f c d e, exists i, (1 <= i <= 193)%nat /\
  num_eval (integrate f c d e) = (2 * i - 1)%nat /\
  forall g, (forall x, In x (points c d i) -> g x = f x) ->
    integrate g c d e = integrate f c d e.
Proof.
  intros f c d e.
  set (s := fun h => sweep h c d (e / c) (num_levels - 1) 1 1 dbl_max dbl_max
              (add_pairs f c d (offset 0) (offset 1) (f (c * node 0 + d) * weight 0))).
  exists (snd (s f)).
  assert (I : exists L, (2 <= L <= 6)%nat /\ snd (s f) = offset (S L)).
  { destruct (sweep_stops f c d (e / c) (num_levels - 1) 1 1 dbl_max dbl_max
              (add_pairs f c d (offset 0) (offset 1) (f (c * node 0 + d) * weight 0)))
    as [L [A [_ [_ [B C]]]]];
    [reflexivity|lia| |apply first_sum|].
    - change (1 - 1)%nat with 0%nat. simpl pow. rewrite Rinv_1. reflexivity.
    - exists L. split; [exact A|exact C]. }
  destruct I as [L [HL SL]].
  assert (HB : (offset 1 <= offset (S L) <= 193)%nat).
  { rewrite <- offset_7. split; apply offset_le; lia. }
  split; [rewrite SL; change (offset 1) with 4%nat in HB; lia|].
  split.
  { unfold integrate. fold (s f). destruct (s f) as [[v q] i]. reflexivity. }
  intros g G.
  assert (P : forall k, (1 <= k < snd (s f))%nat -> pair g c d k = pair f c d k).
  { intros k K. unfold pair.
    assert (In k (seq 1 (snd (s f) - 1))) as J by (apply in_seq; lia).
    rewrite (G (c * node k + d)), (G (- c * node k + d)); [reflexivity| |];
      right; apply in_flat_map; exists k; split; try exact J; simpl; auto. }
  assert (Q : sweep g c d (e / c) (num_levels - 1) 1 1 dbl_max dbl_max
              (add_pairs g c d (offset 0) (offset 1) (g (c * node 0 + d) * weight 0)) = s f).
  { rewrite (G (c * node 0 + d)) by (left; reflexivity).
    replace (add_pairs g c d (offset 0) (offset 1) (f (c * node 0 + d) * weight 0))
      with (add_pairs f c d (offset 0) (offset 1) (f (c * node 0 + d) * weight 0)).
    - apply sweep_local; [reflexivity|exact P|lia].
    - rewrite !add_pairs_total. f_equal. apply total_ext. intros k K. apply in_seq in K.
      symmetry. apply P. rewrite SL. change (offset 1) with 4%nat in *.
      change (offset 0) with 1%nat in K. lia. }
  unfold integrate. rewrite Q. reflexivity.
Qed.

(** ** Without a tolerance the value only depends on the sums *)

Lemma sweep_scaled : forall f g c d c' d' k left level dx delta est delta' est' integral integral',
  k <> 0 ->
  (forall i, pair g c' d' i = k * pair f c d i) ->
  integral' = k * integral ->
  fst (fst (sweep g c' d' 0 left level dx delta' est' integral'))
  = k * fst (fst (sweep f c d 0 left level dx delta est integral)).
Proof.
  intros f g c d c' d' k left.
  induction left as [|left IH]; intros level dx delta est delta' est' integral integral' K P I;
    [exact I|].
  assert (N : add_pairs g c' d' (offset level) (offset (S level)) 0
              = k * add_pairs f c d (offset level) (offset (S level)) 0).
  { rewrite !add_pairs_total, Rmult_plus_distr_l, <- total_scale.
    rewrite Rmult_0_r. f_equal. apply total_ext. intros i _. apply P. }
  simpl sweep. rewrite N, I.
  set (new := add_pairs f c d (offset level) (offset (S level)) 0).
  assert (E1 : 1 / 2 * (k * integral) + k * new * (dx * (1 / 2))
               = k * (1 / 2 * integral + new * (dx * (1 / 2)))) by ring.
  assert (E2 : 1 / 2 * (k * integral) - k * new * (dx * (1 / 2))
               = k * (1 / 2 * integral - new * (dx * (1 / 2)))) by ring.
  rewrite E1, E2.
  set (u := 1 / 2 * integral - new * (dx * (1 / 2))).
  destruct (Nat.eqb level 1).
  - apply IH; [exact K|exact P|reflexivity].
  - destruct (Req_EM_T (Rabs u) 0) as [Z|Z]; destruct (Req_EM_T (Rabs (k * u)) 0) as [Z'|Z'].
    + reflexivity.
    + exfalso. apply Z'. rewrite Rabs_mult, Z. ring.
    + exfalso. rewrite Rabs_mult in Z'. apply Rmult_integral in Z'. destruct Z' as [Z'|Z'].
      * revert Z'. apply Rabs_no_R0. exact K.
      * exact (Z Z').
    + assert (NN : forall a b, ~ (if in_window (Rabs a) b then Rabs a * Rabs a else Rabs a) < 1 / 10 * 0).
      { intros a b. pose proof (Rabs_pos a). destruct (in_window (Rabs a) b); nra. }
      destruct (Rlt_dec _ (1 / 10 * 0)) as [A|_]; [exfalso; exact (NN _ _ A)|].
      destruct (Rlt_dec _ (1 / 10 * 0)) as [A|_]; [exfalso; exact (NN _ _ A)|].
      apply IH; [exact K|exact P|reflexivity].
Qed.

Lemma integrate_scaled : forall f g c d c' d' k,
  k <> 0 ->
  g (c' * node 0 + d') = k * f (c * node 0 + d) ->
  (forall i, pair g c' d' i = k * pair f c d i) ->
  value (integrate g c' d' 0) * c = k * value (integrate f c d 0) * c'.
Proof.
  intros f g c d c' d' k K F P. unfold integrate.
  replace (0 / c) with 0 by (unfold Rdiv; ring). replace (0 / c') with 0 by (unfold Rdiv; ring).
  pose proof (sweep_scaled f g c d c' d' k (num_levels - 1) 1 1 dbl_max dbl_max dbl_max dbl_max
    (add_pairs f c d (offset 0) (offset 1) (f (c * node 0 + d) * weight 0))
    (add_pairs g c' d' (offset 0) (offset 1) (g (c' * node 0 + d') * weight 0)) K P) as S.
  destruct (sweep f _ _ _ _ _ _ _ _ _) as [[v s] i].
  destruct (sweep g _ _ _ _ _ _ _ _ _) as [[v' s'] i'].
  simpl in S |- *. rewrite S.
  - ring.
  - rewrite !add_pairs_total, F.
    rewrite (total_ext (pair g c' d') (fun i => k * pair f c d i)) by (intros; apply P).
    rewrite total_scale. ring.
Qed.

(** ** The sums of the weights, computed exactly *)

(** Specification or proof only; nothing in the code. *)
Fixpoint qpow (q : Q) (k : nat) : Q :=
  match k with O => 1%Q | S k => (q * qpow q k)%Q end.

(** Sum of [w_i n_i^k] over the indices [1 <= i < n].  Specification or proof only; nothing in the code. *)
Definition wsum (k : nat) (n : nat) : Q :=
  fold_right (fun i s => Qred (nth i weights 0 * qpow (nth i nodes 0) k + s))%Q 0%Q (seq 1 (n - 1)).

Lemma Q2R_power : forall q k, Q2R (qpow q k) = Q2R q ^ k.
Proof.
  intros q k. induction k as [|k IH]; [apply Q2R_1|].
  cbn [qpow]. rewrite <- tech_pow_Rmult, <- IH. apply Q2R_mult.
Qed.

Lemma wsum_total : forall k n,
  Q2R (wsum k n) = total (fun i => weight i * node i ^ k) (seq 1 (n - 1)).
Proof.
  intros k n. unfold wsum. generalize (seq 1 (n - 1)). induction l as [|i l IH].
  - apply Q2R_0.
  - cbn [fold_right total]. rewrite (Qeq_eqR _ _ (Qred_correct _)).
    rewrite Q2R_plus, Q2R_mult, Q2R_power, IH. reflexivity.
Qed.

(** [2^-L (w_0 + 2 sum w_i)] and [2^-L 2 sum w_i n_i^2].  Specification or proof only; nothing in the code. *)
Definition mass (L : nat) : Q :=
  ((nth 0 weights 0 + 2 * wsum 0 (offset (S L))) / qpow 2 L)%Q.
Definition second (L : nat) : Q :=
  (2 * wsum 2 (offset (S L)) / qpow 2 L)%Q.

Definition close (p q eps : Q) : bool :=
  Qle_bool (q - eps) p && Qle_bool p (q + eps).

Lemma mass_close : forallb (fun L => close (mass L) 2 1e-13) [2; 3; 4; 5; 6]%nat = true.
Proof. vm_compute. reflexivity. Qed.

Lemma second_close : forallb (fun L => close (second L) (2 # 3) 14e-11) [2; 3; 4; 5; 6]%nat = true.
Proof. vm_compute. reflexivity. Qed.

Lemma close_abs : forall p q eps, close p q eps = true -> Rabs (Q2R p - Q2R q) <= Q2R eps.
Proof.
  intros p q eps H. unfold close in H. apply andb_true_iff in H. destruct H as [A B].
  apply Qle_bool_iff in A. apply Qle_bool_iff in B.
  apply Qle_Rle in A. apply Qle_Rle in B.
  rewrite Q2R_minus in A. rewrite Q2R_plus in B.
  apply Rabs_le. lra.
Qed.

Lemma Q2R_pow2 : forall L, Q2R (qpow 2 L) = 2 ^ L.
Proof.
  intros L. rewrite Q2R_power. f_equal. unfold Q2R. simpl. lra.
Qed.

Lemma qpow2_nonzero : forall L, ~ (qpow 2 L == 0)%Q.
Proof.
  intros L H. apply Qeq_eqR in H. rewrite Q2R_pow2, Q2R_0 in H.
  revert H. apply pow_nonzero. lra.
Qed.

Lemma mass_R : forall L,
  Q2R (mass L) = / 2 ^ L * (weight 0 + 2 * total weight (seq 1 (offset (S L) - 1))).
Proof.
  intros L. unfold mass. rewrite Q2R_div by apply qpow2_nonzero.
  rewrite Q2R_pow2, Q2R_plus, Q2R_mult, wsum_total.
  rewrite (total_ext (fun i => weight i * node i ^ 0) weight) by (intros; simpl; ring).
  change (Q2R (nth 0 weights 0%Q)) with (weight 0).
  replace (Q2R 2) with 2 by (unfold Q2R; simpl; lra). unfold Rdiv. ring.
Qed.

Lemma second_R : forall L,
  Q2R (second L)
  = / 2 ^ L * (2 * total (fun i => weight i * node i ^ 2) (seq 1 (offset (S L) - 1))).
Proof.
  intros L. unfold second. rewrite Q2R_div by apply qpow2_nonzero.
  rewrite Q2R_pow2, Q2R_mult, wsum_total.
  replace (Q2R 2) with 2 by (unfold Q2R; simpl; lra). unfold Rdiv. ring.
Qed.

Lemma mass_near : forall L, (2 <= L <= 6)%nat ->
  Rabs (Q2R (mass L) - 2) <= / 10000000000000.
Proof.
  intros L H.
  assert (C : close (mass L) 2 1e-13 = true).
  { apply (proj1 (forallb_forall _ _) mass_close). simpl. lia. }
  apply close_abs in C.
  replace (Q2R 2) with 2 in C by (unfold Q2R; simpl; lra).
  eapply Rle_trans; [exact C|]. unfold Q2R. simpl. lra.
Qed.

Lemma second_near : forall L, (2 <= L <= 6)%nat ->
  Rabs (Q2R (second L) - 2 / 3) <= 14 / 100000000000.
Proof.
  intros L H.
  assert (C : close (second L) (2 # 3) 14e-11 = true).
  { apply (proj1 (forallb_forall _ _) second_close). simpl. lia. }
  apply close_abs in C.
  replace (Q2R (2 # 3)) with (2 / 3) in C by (unfold Q2R; simpl; lra).
  eapply Rle_trans; [exact C|]. unfold Q2R. simpl. lra.
Qed.
