(** * Angular coupling: coffe_legendre_integral, coffe_kronecker_delta, coffe_sign
    (src/common.c:1370-1421) *)
From Coq Require Import ZArith QArith Qabs Qreduction List Lia Reals Qreals.
Import ListNotations.
Open Scope Z_scope.

(** coffe_kronecker_delta, common.c:1401-1407. *)
Definition kronecker (i j : Z) : Z := if i =? j then 1 else 0.

(** coffe_sign, common.c:1414-1419: [abs(m) % 2 == 0 ? 1 : -1]. *)
Definition csign (m : Z) : Z := if (Z.abs m mod 2 =? 0) then 1 else -1.

Fixpoint factZ (n : nat) : Z := match n with O => 1 | S m => Z.of_nat n * factZ m end.
Definition fct (n : Z) : Z := factZ (Z.to_nat n).

(** The square of gsl_sf_coupling_3j(2a, 2b, 2c, 0, 0, 0), for orders >= 0: zero
    unless a + b + c is even and the triangle inequalities hold, otherwise Racah's
    closed form.  (GSL computes it in floating point; here it is exact.).
    gsl_sf_coupling_3j, called in coffe_legendre_integral, common.c:1370-1398. *)
Definition threej_sq (a b c : Z) : Q :=
  let s := a + b + c in
  if ((s mod 2 =? 0) && (c <=? a + b) && (a <=? b + c) && (b <=? a + c))%bool
  then let g := s / 2 in
       Qmake (fct (s - 2 * a) * fct (s - 2 * b) * fct (s - 2 * c) * (fct g * fct g)) 1
       / Qmake (fct (s + 1) * ((fct (g - a) * fct (g - b) * fct (g - c)) * (fct (g - a) * fct (g - b) * fct (g - c)))) 1
  else 0%Q.

(** The loop [for (l = lower; l <= upper; ++l)], [n] iterations from [l].
    coffe_legendre_integral, common.c:1370-1398. *)
Fixpoint coupling_sum (n m a b : Z) (l : Z) (k : nat) (acc : Q) : Q :=
  match k with
  | O => acc
  | S k => coupling_sum n m a b (l + 1) k
             (acc + Qmake (2 * l + 1) 1 * threej_sq n m l * threej_sq a b l)%Q
  end.

(** coffe_legendre_integral, common.c:1370-1394. *)
Definition legendre_integral (n m a b : Z) : Q :=
  if negb (Z.rem (n + m + a + b) 2 =? 0) then 0%Q
  else
    let lower := if Z.abs (n - m) >? Z.abs (a - b) then Z.abs (n - m) else Z.abs (a - b) in
    let upper := if n + m <? a + b then n + m else a + b in
    (2 * coupling_sum n m a b lower (Z.to_nat (upper - lower + 1)) 0)%Q.

(** ** Symmetries *)
Lemma threej_swap : forall a b c, (threej_sq a b c == threej_sq b a c)%Q.
Proof.
  intros a b c. unfold threej_sq. replace (b + a + c) with (a + b + c) by lia. replace (b + a) with (a + b) by lia.
  cbv zeta.
  destruct ((a + b + c) mod 2 =? 0)%Z; [|reflexivity]. cbn [andb].
  destruct (c <=? a + b); [|reflexivity]. cbn [andb]. rewrite (Bool.andb_comm (a <=? b + c)).
  destruct ((b <=? a + c) && (a <=? b + c))%bool; [|reflexivity].
  set (g := (a + b + c) / 2).
  replace (fct (a + b + c - 2 * a) * fct (a + b + c - 2 * b)) with (fct (a + b + c - 2 * b) * fct (a + b + c - 2 * a)) by ring.
  replace (fct (g - a) * fct (g - b)) with (fct (g - b) * fct (g - a)) by ring. reflexivity.
Qed.

Lemma coupling_sum_ext : forall n m a b n' m' a' b' k l acc acc',
  (acc == acc')%Q ->
  (forall l, (threej_sq n m l * threej_sq a b l == threej_sq n' m' l * threej_sq a' b' l)%Q) ->
  (coupling_sum n m a b l k acc == coupling_sum n' m' a' b' l k acc')%Q.
Proof.
  intros n m a b n' m' a' b'. induction k as [|k IH]; intros l acc acc' E H; [exact E|].
  cbn [coupling_sum]. apply IH; [|exact H]. rewrite E. rewrite <- !Qmult_assoc, (H l). reflexivity.
Qed.

Lemma legendre_swap_nm : forall n m a b, (legendre_integral n m a b == legendre_integral m n a b)%Q.
Proof.
  intros n m a b. unfold legendre_integral. rewrite (Z.add_comm m n).
  destruct (negb _); [reflexivity|].
  replace (Z.abs (m - n)) with (Z.abs (n - m)) by lia. cbv zeta.
  rewrite (coupling_sum_ext n m a b m n a b _ _ 0 0)%Q; [reflexivity|reflexivity|].
  intros l. rewrite (threej_swap n m l). reflexivity.
Qed.
Lemma legendre_swap_pairs : forall n m a b, (legendre_integral n m a b == legendre_integral a b n m)%Q.
Proof.
  intros n m a b. unfold legendre_integral.
  replace (a + b + n + m) with (n + m + a + b) by lia.
  destruct (negb _); [reflexivity|]. cbv zeta.
  assert (L : (if Z.abs (a - b) >? Z.abs (n - m) then Z.abs (a - b) else Z.abs (n - m))
            = (if Z.abs (n - m) >? Z.abs (a - b) then Z.abs (n - m) else Z.abs (a - b))).
  { rewrite !Z.gtb_ltb. destruct (Z.ltb_spec (Z.abs (n - m)) (Z.abs (a - b)));
      destruct (Z.ltb_spec (Z.abs (a - b)) (Z.abs (n - m))); lia. }
  assert (U : (if a + b <? n + m then a + b else n + m) = (if n + m <? a + b then n + m else a + b)).
  { destruct (Z.ltb_spec (n + m) (a + b)); destruct (Z.ltb_spec (a + b) (n + m)); lia. }
  rewrite L, U. rewrite (coupling_sum_ext n m a b a b n m _ _ 0 0)%Q; [reflexivity|reflexivity|].
  intros l. apply Qmult_comm.
Qed.
Lemma legendre_swap_ab : forall n m a b, (legendre_integral n m a b == legendre_integral n m b a)%Q.
Proof.
  intros n m a b. rewrite legendre_swap_pairs, legendre_swap_nm. apply legendre_swap_pairs.
Qed.

Lemma legendre_odd : forall n m a b, Z.Odd (n + m + a + b) -> legendre_integral n m a b = 0%Q.
Proof.
  intros n m a b [k E]. unfold legendre_integral.
  assert (N : Z.rem (n + m + a + b) 2 <> 0).
  { intros Z0. apply Z.rem_divide in Z0; [|lia]. destruct Z0 as [q Q]. lia. }
  apply Z.eqb_neq in N. rewrite N. reflexivity.
Qed.

Lemma factZ_pos : forall n, 0 < factZ n.
Proof. induction n as [|n IH]; [reflexivity|]. cbn [factZ]. lia. Qed.
Lemma fct_pos : forall n, 0 < fct n.
Proof. intros n. apply factZ_pos. Qed.

Lemma threej_nonneg : forall a b c, (0 <= threej_sq a b c)%Q.
Proof.
  intros a b c. unfold threej_sq. cbv zeta. destruct (_ && _ && _ && _)%bool; [|apply Qle_refl].
  apply Qle_shift_div_l.
  - unfold Qlt. cbn. rewrite Z.mul_1_r.
    repeat apply Z.mul_pos_pos; apply fct_pos.
  - rewrite Qmult_0_l. unfold Qle. cbn. rewrite Z.mul_1_r. apply Z.lt_le_incl.
    repeat apply Z.mul_pos_pos; apply fct_pos.
Qed.

Lemma coupling_nonneg : forall n m a b k l acc, 0 <= l -> (0 <= acc)%Q -> (0 <= coupling_sum n m a b l k acc)%Q.
Proof.
  intros n m a b. induction k as [|k IH]; intros l acc L A; [exact A|].
  cbn [coupling_sum]. apply IH; [lia|]. rewrite <- (Qplus_0_l 0). apply Qplus_le_compat; [exact A|].
  apply Qmult_le_0_compat; [apply Qmult_le_0_compat|]; [unfold Qle; cbn [Qnum Qden inject_Z]; lia|apply threej_nonneg|apply threej_nonneg].
Qed.
Lemma legendre_nonneg : forall n m a b, (0 <= legendre_integral n m a b)%Q.
Proof.
  intros n m a b. unfold legendre_integral. destruct (negb _); [apply Qle_refl|]. cbv zeta.
  apply Qmult_le_0_compat; [unfold Qle; cbn [Qnum Qden inject_Z]; lia|]. apply coupling_nonneg; [|apply Qle_refl].
  destruct (Z.abs (n - m) >? Z.abs (a - b)); lia.
Qed.

(** ** Polynomials with rational coefficients, lowest degree first *)
Open Scope Q_scope.
(** Specification or proof only; nothing in the code. *)
Definition poly := list Q.
Fixpoint padd (p q : poly) : poly :=
  match p, q with
  | [], _ => q | _, [] => p
  | a :: p, b :: q => Qred (a + b) :: padd p q
  end.
Definition pscale (c : Q) (p : poly) : poly := map (fun a => Qred (c * a)) p.
Fixpoint pmul (p q : poly) : poly :=
  match p with [] => [] | a :: p => padd (pscale a q) (0 :: pmul p q) end.
Fixpoint peval (p : poly) (x : R) : R :=
  match p with [] => 0%R | a :: p => (Q2R a + x * peval p x)%R end.
(** The integral from -1 to 1: of x^i it is 2 / (i + 1) for even i, else 0.
    Specification or proof only; nothing in the code. *)
Fixpoint pint_from (i : nat) (p : poly) : Q :=
  match p with
  | [] => 0
  | a :: p => Qred ((if Nat.even i then a * (Qmake 2 1 / Qmake (Z.of_nat (S i)) 1) else 0) + pint_from (S i) p)
  end.
Definition pint (p : poly) : Q := pint_from 0 p.

(** The Legendre polynomials: P_0 = 1, P_1 = x,
    (n + 2) P_(n+2) = (2 n + 3) x P_(n+1) - (n + 1) P_n.  Specification or proof only; nothing in the code. *)
Fixpoint legendre_pair (n : nat) : poly * poly :=
  match n with
  | O => ([1], [0; 1])
  | S n => let (p, q) := legendre_pair n in
           (q, padd (pscale (Qmake (2 * Z.of_nat n + 3) 1 / Qmake (Z.of_nat n + 2) 1) (0 :: q))
                    (pscale (- (Qmake (Z.of_nat n + 1) 1 / Qmake (Z.of_nat n + 2) 1)) p))
  end.
Definition legendre (n : nat) : poly := fst (legendre_pair n).

Lemma Q2R_red : forall a, Q2R (Qred a) = Q2R a.
Proof. intros a. apply Qeq_eqR. apply Qred_correct. Qed.
Lemma peval_padd : forall p q x, peval (padd p q) x = (peval p x + peval q x)%R.
Proof.
  induction p as [|a p IH]; intros [|b q] x; cbn [padd peval]; try ring.
  rewrite IH, Q2R_red, Q2R_plus. ring.
Qed.
Lemma peval_pscale : forall c p x, peval (pscale c p) x = (Q2R c * peval p x)%R.
Proof.
  intros c. induction p as [|a p IH]; intros x; cbn [pscale map peval]; [ring|].
  fold (pscale c p). rewrite IH, Q2R_red, Q2R_mult. ring.
Qed.
Lemma Q2R_0 : Q2R 0 = 0%R.
Proof. unfold Q2R. cbn. field. Qed.
Lemma Q2R_1 : Q2R 1 = 1%R.
Proof. unfold Q2R. cbn. field. Qed.
Lemma peval_pmul : forall p q x, peval (pmul p q) x = (peval p x * peval q x)%R.
Proof.
  induction p as [|a p IH]; intros q x; cbn [pmul peval]; [ring|].
  rewrite peval_padd, peval_pscale. cbn [peval]. rewrite IH, Q2R_0. ring.
Qed.
Lemma Q2R_Z : forall z, Q2R (Qmake z 1) = IZR z.
Proof. intros z. unfold Q2R. cbn. field. Qed.
Lemma Q2R_ratio : forall a b, (b <> 0)%Z -> Q2R (Qmake a 1 / Qmake b 1) = (IZR a / IZR b)%R.
Proof.
  intros a b N. rewrite Q2R_div; [rewrite !Q2R_Z; reflexivity|].
  unfold Qeq. cbn. lia.
Qed.

(** The polynomials satisfy the recurrence. *)
Lemma legendre_rec : forall n x,
  peval (legendre 0) x = 1%R /\ peval (legendre 1) x = x
  /\ (IZR (Z.of_nat n + 2) * peval (legendre (S (S n))) x
      = IZR (2 * Z.of_nat n + 3) * x * peval (legendre (S n)) x - IZR (Z.of_nat n + 1) * peval (legendre n) x)%R.
Proof.
  intros n x. split; [|split].
  - cbn. rewrite Q2R_1. ring.
  - cbn. rewrite Q2R_0, Q2R_1. ring.
  - unfold legendre. cbn [legendre_pair]. destruct (legendre_pair n) as [p q]. cbn [fst snd].
    rewrite peval_padd, !peval_pscale. cbn [peval]. rewrite Q2R_0, Q2R_opp, !Q2R_ratio by lia.
    assert (N : IZR (Z.of_nat n + 2) <> 0%R) by (apply not_0_IZR; lia).
    field. exact N.
Qed.

(** ** The integral of a polynomial from -1 to 1 *)
From Coquelicot Require Import Coquelicot.
Open Scope R_scope.

(** Antiderivative of x^i * p.  Specification or proof only; nothing in the code. *)
Fixpoint pprim (i : nat) (p : poly) (x : R) : R :=
  match p with
  | [] => 0
  | a :: p => Q2R a * (x ^ (S i) / INR (S i)) + pprim (S i) p x
  end.
Lemma pprim_derive : forall p i x, is_derive (pprim i p) x (x ^ i * peval p x).
Proof.
  induction p as [|a p IH]; intros i x; cbn [pprim peval].
  - rewrite Rmult_0_r. apply (is_derive_const 0 x).
  - pose proof (IH (S i) x) as H.
    replace (x ^ i * (Q2R a + x * peval p x)) with (plus (Q2R a * x ^ i) (x ^ (S i) * peval p x)).
    2:{ unfold plus. cbn. ring. }
    apply (is_derive_plus (fun x => Q2R a * (x ^ (S i) / INR (S i))) (pprim (S i) p)); [|exact H].
    assert (N : INR (S i) <> 0) by (apply not_0_INR; lia).
    auto_derive; [exact I|]. change (match i with O => 1 | S _ => INR i + 1 end) with (INR (S i)).
    rewrite Nat.pred_succ || cbn [Nat.pred]. field. exact N.
Qed.
Lemma peval_continuous : forall p x, continuous (peval p) x.
Proof.
  induction p as [|a p IH]; intros x; cbn [peval].
  - apply continuous_const.
  - apply (continuous_plus (fun _ => Q2R a) (fun x => x * peval p x)); [apply continuous_const|].
    apply (continuous_mult (fun x => x) (peval p)); [apply continuous_id|apply IH].
Qed.
Lemma Q2R_if : forall (b : bool) x y, Q2R (if b then x else y) = if b then Q2R x else Q2R y.
Proof. intros [|]; reflexivity. Qed.
Lemma pow_m1 : forall i, (-1) ^ i = if Nat.even i then 1 else -1.
Proof.
  induction i as [|i IH]; [reflexivity|]. rewrite <- tech_pow_Rmult, IH, Nat.even_succ, <- Nat.negb_even.
  destruct (Nat.even i); cbn; ring.
Qed.
Lemma pint_prim : forall p i, Q2R (pint_from i p) = pprim i p 1 - pprim i p (-1).
Proof.
  induction p as [|a p IH]; intros i.
  - cbn. rewrite Q2R_0. ring.
  - change (pint_from i (a :: p)) with
      (Qred ((if Nat.even i then a * (Qmake 2 1 / Qmake (Z.of_nat (S i)) 1) else 0) + pint_from (S i) p)%Q).
    change (pprim i (a :: p)) with (fun x => Q2R a * (x ^ (S i) / INR (S i)) + pprim (S i) p x). cbv beta.
    rewrite Q2R_red, Q2R_plus, IH, Q2R_if, Q2R_mult, Q2R_0, Q2R_ratio by lia.
    rewrite <- INR_IZR_INZ. rewrite pow1, pow_m1, Nat.even_succ, <- Nat.negb_even.
    assert (N : INR (S i) <> 0) by (apply not_0_INR; lia).
    destruct (Nat.even i); cbn [negb]; field; exact N.
Qed.
Lemma pint_correct : forall p, is_RInt (peval p) (-1) 1 (Q2R (pint p)).
Proof.
  intros p. unfold pint. rewrite pint_prim.
  apply (is_RInt_derive (pprim 0 p) (peval p)).
  - intros x _. pose proof (pprim_derive p 0 x) as H. rewrite pow_O, Rmult_1_l in H. exact H.
  - intros x _. apply peval_continuous.
Qed.

(** For the orders the program uses, the closed form is the integral.
    Specification or proof only; nothing in the code. *)
Definition orders_n : list nat := seq 0 11.
Definition orders_a : list nat := [0; 1; 2; 3; 4]%nat.
Definition coupling_check (n m a b : nat) : bool :=
  Qeq_bool (legendre_integral (Z.of_nat n) (Z.of_nat m) (Z.of_nat a) (Z.of_nat b))
           (pint (pmul (pmul (legendre n) (legendre m)) (pmul (legendre a) (legendre b)))).
Definition all4 (P : nat -> nat -> nat -> nat -> bool) (l1 l2 : list nat) : bool :=
  forallb (fun n => forallb (fun m => forallb (fun a => forallb (fun b => P n m a b) l2) l2) l1) l1.
Lemma all4_ok : forall P l1 l2, all4 P l1 l2 = true ->
  forall n m a b, In n l1 -> In m l1 -> In a l2 -> In b l2 -> P n m a b = true.
Proof.
  intros P l1 l2 H n m a b Hn Hm Ha Hb. unfold all4 in H.
  rewrite forallb_forall in H. specialize (H n Hn). rewrite forallb_forall in H. specialize (H m Hm).
  rewrite forallb_forall in H. specialize (H a Ha). rewrite forallb_forall in H. exact (H b Hb).
Qed.
Lemma coupling_checked_ok : all4 coupling_check orders_n orders_a = true.
Proof. vm_compute. reflexivity. Qed.
Lemma legendre_integral_value : forall n m a b,
  (n <= 10)%nat -> (m <= 10)%nat -> (a <= 4)%nat -> (b <= 4)%nat ->
  is_RInt (fun x => peval (legendre n) x * peval (legendre m) x * peval (legendre a) x * peval (legendre b) x)
          (-1) 1 (Q2R (legendre_integral (Z.of_nat n) (Z.of_nat m) (Z.of_nat a) (Z.of_nat b))).
Proof.
  intros n m a b Hn Hm Ha Hb.
  assert (I1 : forall k, (k <= 10)%nat -> In k orders_n) by (intros k Hk; apply in_seq; lia).
  assert (I2 : forall k, (k <= 4)%nat -> In k orders_a)
    by (intros k Hk; unfold orders_a; destruct k as [|[|[|[|[|k]]]]]; cbn [In]; try tauto; lia).
  pose proof (all4_ok _ _ _ coupling_checked_ok n m a b (I1 n Hn) (I1 m Hm) (I2 a Ha) (I2 b Hb)) as H.
  unfold coupling_check in H.
  apply Qeq_bool_iff in H. rewrite (Qeq_eqR _ _ H).
  apply (is_RInt_ext (peval (pmul (pmul (legendre n) (legendre m)) (pmul (legendre a) (legendre b))))).
  - intros x _.
    assert (E : peval (pmul (pmul (legendre n) (legendre m)) (pmul (legendre a) (legendre b))) x
                = peval (legendre n) x * peval (legendre m) x * peval (legendre a) x * peval (legendre b) x)
      by (rewrite !peval_pmul; ring).
    exact E.
  - apply pint_correct.
Qed.
