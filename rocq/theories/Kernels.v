(** * The correlations of the fields are derivatives of one function

    The fields of [Weights.field] are derivatives of one potential: the velocity is
    its derivative along the line of sight, redshift-space distortion its second
    derivative, the density its Laplacian and lensing its angular Laplacian.  So the
    correlation of two of them is obtained from the correlation of the potential at
    two places by differentiating with respect to the two places. *)
From Coq Require Import Reals Lra Lia List ZArith Bool.
From Coquelicot Require Import Coquelicot.
From Coq Require Import List.
Import ListNotations.
From Verif Require Import Integrals CExpr Terms Signal Weights.
Open Scope R_scope.

(** ** Specification *)

(** The square of the distance between two places at distances [a] and [b] from the
    observer, seen at an angle of cosine [c].  Specification or proof only; nothing in the code. *)
Definition squared (a b c : R) : R := a ^ 2 + b ^ 2 - 2 * a * b * c.

(** Field [k] at distance [d] in terms of the potential, which depends on the
    distance and on the cosine of the angle with a fixed direction.
    Specification or proof only; nothing in the code. *)
Definition responds (k : field) (f : R -> R -> R) (d c : R) : R :=
  let radial := Derive (fun x => f x c) d in
  let radial2 := Derive (fun x => Derive (fun y => f y c) x) d in
  let angular := (1 - c ^ 2) * Derive (fun x => Derive (fun y => f d y) x) c
                 - 2 * c * Derive (fun x => f d x) c in
  match k with
  | Potential => f d c
  | Velocity => - radial
  | Redshift => - radial2
  | Density => - (radial2 + 2 / d * radial + angular / d ^ 2)
  | Lensing => - angular / d
  end.

(** The correlation of field [k] at distance [a] and field [k'] at distance [b], when
    the potential has correlation [psi] as a function of the squared separation.
    Specification or proof only; nothing in the code. *)
Definition derived (psi : R -> R) (k k' : field) (a b c : R) : R :=
  responds k (fun d e => responds k' (fun d' e' => psi (squared d d' e')) b e) a c.

(** [A 0] is the correlation of the potential and [A j] its j-th derivative with
    respect to the squared separation, times (-2)^j.  Specification or proof only; nothing in the code. *)
Definition derivatives (A : nat -> R -> R) : Prop :=
  forall j q, 0 < q -> is_derive (A j) q (- A (S j) q / 2).

(** The tables of the code in terms of these: the relation between Bessel functions
    (2l+1) j_l(x) / x = j_(l-1)(x) + j_(l+1)(x).  Specification or proof only; nothing in the code. *)
Record tables_of (E : env) (A : nat -> R -> R) : Prop := {
  t40 : forall q, 0 < q -> table E 4 0 q = A 0%nat q;
  t31 : forall q, 0 < q -> table E 3 1 q = A 1%nat q;
  t22 : forall q, 0 < q -> table E 2 2 q = A 2%nat q;
  t20 : forall q, 0 < q -> table E 2 0 q = 3 * A 1%nat q - q * A 2%nat q;
  t11 : forall q, 0 < q -> table E 1 1 q = 5 * A 2%nat q - q * A 3%nat q;
  t13 : forall q, 0 < q -> table E 1 3 q = q * A 3%nat q;
  t00 : forall q, 0 < q -> table E 0 0 q = 15 * A 2%nat q - 10 * q * A 3%nat q + q ^ 2 * A 4%nat q;
  t02 : forall q, 0 < q -> table E 0 2 q = q * (7 * A 3%nat q - q * A 4%nat q);
  t04 : forall q, 0 < q -> table E 0 4 q = q ^ 2 * A 4%nat q }.

(** ** Combinations of the derivatives with polynomial coefficients *)
(** Specification or proof only; nothing in the code. *)
Inductive px := Va | Vb | Vc | Cn (r : R) | Add (p q : px) | Sub (p q : px) | Mul (p q : px).
Fixpoint ev (p : px) (a b c : R) : R :=
  match p with
  | Va => a | Vb => b | Vc => c | Cn r => r
  | Add p q => ev p a b c + ev q a b c
  | Sub p q => ev p a b c - ev q a b c
  | Mul p q => ev p a b c * ev q a b c
  end.
Inductive axis := XA | XB | XC.
Definition line (i : axis) (f : R -> R -> R -> R) (a b c x : R) : R :=
  match i with XA => f x b c | XB => f a x c | XC => f a b x end.
Definition at_ (i : axis) (a b c : R) : R := match i with XA => a | XB => b | XC => c end.
Fixpoint dp (i : axis) (p : px) : px :=
  match p with
  | Va => match i with XA => Cn 1 | _ => Cn 0 end
  | Vb => match i with XB => Cn 1 | _ => Cn 0 end
  | Vc => match i with XC => Cn 1 | _ => Cn 0 end
  | Cn _ => Cn 0
  | Add p q => Add (dp i p) (dp i q)
  | Sub p q => Sub (dp i p) (dp i q)
  | Mul p q => Add (Mul (dp i p) q) (Mul p (dp i q))
  end.
(** Minus half the derivative of the squared separation.  Specification or proof only; nothing in the code. *)
Definition hq (i : axis) : px :=
  match i with
  | XA => Sub (Mul Vb Vc) Va
  | XB => Sub (Mul Va Vc) Vb
  | XC => Mul Va Vb
  end.
Fixpoint dv (i : axis) (carry : px) (v : list px) : list px :=
  match v with
  | [] => [carry]
  | p :: r => Add (dp i p) carry :: dv i (Mul p (hq i)) r
  end.
Definition dif (i : axis) (v : list px) : list px := dv i (Cn 0) v.

Section Calculus.
Variable A : nat -> R -> R.
Hypothesis HA : derivatives A.

Fixpoint evl (v : list px) (j : nat) (a b c : R) : R :=
  match v with
  | [] => 0
  | p :: r => ev p a b c * A j (squared a b c) + evl r (S j) a b c
  end.

Lemma dp_ok : forall i p a b c, is_derive (line i (ev p) a b c) (at_ i a b c) (ev (dp i p) a b c).
Proof.
  intros i p a b c. induction p as [| | |r|p IHp q IHq|p IHp q IHq|p IHp q IHq].
  - destruct i; cbn; [apply (is_derive_id a)|apply (is_derive_const a)|apply (is_derive_const a)].
  - destruct i; cbn; [apply (is_derive_const b)|apply (is_derive_id b)|apply (is_derive_const b)].
  - destruct i; cbn; [apply (is_derive_const c)|apply (is_derive_const c)|apply (is_derive_id c)].
  - destruct i; cbn; apply (is_derive_const r).
  - destruct i; cbn [dp line at_ ev] in *; apply (is_derive_plus _ _ _ _ _ IHp IHq).
  - destruct i; cbn [dp line at_ ev] in *; apply (is_derive_minus _ _ _ _ _ IHp IHq).
  - pose proof (is_derive_mult _ _ _ _ _ IHp IHq Rmult_comm) as M.
    destruct i; cbn [dp line at_ ev] in *; exact M.
Qed.

Lemma squared_derive : forall i a b c,
  is_derive (line i squared a b c) (at_ i a b c) (- 2 * ev (hq i) a b c).
Proof.
  intros i a b c. destruct i; unfold line, squared; cbn [at_ hq ev]; auto_derive; trivial;
    match goal with |- ?x = ?y => change (@eq R x y) end; ring.
Qed.

Lemma A_derive : forall i j a b c, 0 < squared a b c ->
  is_derive (line i (fun a b c => A j (squared a b c)) a b c) (at_ i a b c)
    (ev (hq i) a b c * A (S j) (squared a b c)).
Proof.
  intros i j a b c Hq.
  assert (HL : line i squared a b c (at_ i a b c) = squared a b c) by (destruct i; reflexivity).
  pose proof (HA j _ Hq) as H. rewrite <- HL in H at 1.
  pose proof (is_derive_comp (A j) (line i squared a b c) _ _ _ H (squared_derive i a b c)) as C.
  replace (ev (hq i) a b c * A (S j) (squared a b c))
    with (scal (- 2 * ev (hq i) a b c) (- A (S j) (squared a b c) / 2)).
  2:{ change (- 2 * ev (hq i) a b c * (- A (S j) (squared a b c) / 2)
        = ev (hq i) a b c * A (S j) (squared a b c)). field. }
  destruct i; exact C.
Qed.

Lemma dv_ok : forall i v carry j a b c, 0 < squared a b c ->
  is_derive (line i (evl v j) a b c) (at_ i a b c)
    (evl (dv i carry v) j a b c - ev carry a b c * A j (squared a b c)).
Proof.
  intros i v. induction v as [|p r IH]; intros carry j a b c Hq.
  - cbn [dv evl].
    replace (ev carry a b c * A j (squared a b c) + 0 - ev carry a b c * A j (squared a b c))
      with 0 by ring.
    destruct i; apply (is_derive_const 0).
  - cbn [dv evl ev].
    pose proof (is_derive_mult _ _ _ _ _ (dp_ok i p a b c) (A_derive i j a b c Hq) Rmult_comm) as M.
    pose proof (is_derive_plus _ _ _ _ _ M (IH (Mul p (hq i)) (S j) a b c Hq)) as P.
    cbn [ev] in P.
    match goal with |- is_derive _ _ ?l => match type of P with is_derive _ _ ?l' =>
      replace l with l' end end.
    + destruct i; exact P.
    + destruct i; cbn [line at_]; unfold plus, mult; cbn; ring.
Qed.

Lemma dif_ok : forall i v a b c, 0 < squared a b c ->
  is_derive (line i (evl v 0) a b c) (at_ i a b c) (evl (dif i v) 0 a b c).
Proof.
  intros i v a b c Hq. pose proof (dv_ok i v (Cn 0) 0 a b c Hq) as H. cbn [ev] in H.
  replace (evl (dif i v) 0 a b c)
    with (evl (dv i (Cn 0) v) 0 a b c - 0 * A 0%nat (squared a b c)) by (unfold dif; ring).
  exact H.
Qed.

(** ** The operators on combinations *)
(** Specification or proof only; nothing in the code. *)
Definition place_ok (a b c : R) : Prop := 0 < a /\ 0 < b /\ -1 < c < 1.
Lemma place_squared : forall a b c, place_ok a b c -> 0 < squared a b c.
Proof. intros a b c (Ha & Hb & Hc). unfold squared.
  assert (0 < a * b * (1 - c)) by (repeat apply Rmult_lt_0_compat; lra).
  pose proof (pow2_ge_0 (a - b)). lra. Qed.

Lemma locally_pos : forall x, 0 < x -> locally x (fun y => 0 < y).
Proof. intros. apply (open_gt 0 x H). Qed.
Lemma locally_cos : forall x, -1 < x < 1 -> locally x (fun y => -1 < y < 1).
Proof.
  intros x [H1 H2]. apply filter_and; [apply (open_gt (-1) x H1)|apply (open_lt 1 x H2)].
Qed.

(** [f] coincides with the combination [v] where [i] selects the place.
    Specification or proof only; nothing in the code. *)
Definition radial_operator (k : field) (d c : R) (u u1 u2 w1 w2 : R) : R :=
  let angular := (1 - c ^ 2) * w2 - 2 * c * w1 in
  match k with
  | Potential => u
  | Velocity => - u1
  | Redshift => - u2
  | Density => - (u2 + 2 / d * u1 + angular / d ^ 2)
  | Lensing => - angular / d
  end.

Lemma first_ok : forall k f v a b c, place_ok a b c ->
  (forall d e, place_ok d b e -> f d e = evl v 0 d b e) ->
  responds k f a c =
  radial_operator k a c (evl v 0 a b c) (evl (dif XA v) 0 a b c) (evl (dif XA (dif XA v)) 0 a b c)
    (evl (dif XC v) 0 a b c) (evl (dif XC (dif XC v)) 0 a b c).
Proof.
  intros k f v a b c (Ha & Hb & Hc) Hf.
  assert (D1 : forall d, 0 < d -> is_derive (fun x => f x c) d (evl (dif XA v) 0 d b c)).
  { intros d Hd. apply is_derive_ext_loc with (fun x => evl v 0 x b c).
    - apply filter_imp with (2 := locally_pos d Hd). intros y Hy. symmetry. apply Hf. repeat split; lra.
    - apply (dif_ok XA v d b c). apply place_squared. repeat split; lra. }
  assert (D2 : Derive (fun x => Derive (fun y => f y c) x) a = evl (dif XA (dif XA v)) 0 a b c).
  { apply is_derive_unique. apply is_derive_ext_loc with (fun x => evl (dif XA v) 0 x b c).
    - apply filter_imp with (2 := locally_pos a Ha). intros y Hy. symmetry.
      apply is_derive_unique, D1, Hy.
    - apply (dif_ok XA (dif XA v) a b c). apply place_squared. repeat split; lra. }
  assert (C1 : forall e, -1 < e < 1 -> is_derive (fun x => f a x) e (evl (dif XC v) 0 a b e)).
  { intros e He. apply is_derive_ext_loc with (fun x => evl v 0 a b x).
    - apply filter_imp with (2 := locally_cos e He). intros y Hy. symmetry. apply Hf. repeat split; lra.
    - apply (dif_ok XC v a b e). apply place_squared. repeat split; lra. }
  assert (C2 : Derive (fun x => Derive (fun y => f a y) x) c = evl (dif XC (dif XC v)) 0 a b c).
  { apply is_derive_unique. apply is_derive_ext_loc with (fun x => evl (dif XC v) 0 a b x).
    - apply filter_imp with (2 := locally_cos c Hc). intros y Hy. symmetry.
      apply is_derive_unique, C1, Hy.
    - apply (dif_ok XC (dif XC v) a b c). apply place_squared. repeat split; lra. }
  assert (U1 : Derive (fun x : R => f x c) a = evl (dif XA v) 0 a b c) by (apply is_derive_unique, D1, Ha).
  assert (U2 : Derive (fun x : R => f a x) c = evl (dif XC v) 0 a b c) by (apply is_derive_unique, C1, Hc).
  unfold responds. cbv zeta.
  rewrite D2, C2, U1, U2.
  unfold radial_operator. destruct k; try reflexivity. apply Hf. repeat split; lra.
Qed.

Lemma second_ok : forall k f v a b c, place_ok a b c ->
  (forall d e, place_ok a d e -> f d e = evl v 0 a d e) ->
  responds k f b c =
  radial_operator k b c (evl v 0 a b c) (evl (dif XB v) 0 a b c) (evl (dif XB (dif XB v)) 0 a b c)
    (evl (dif XC v) 0 a b c) (evl (dif XC (dif XC v)) 0 a b c).
Proof.
  intros k f v a b c (Ha & Hb & Hc) Hf.
  assert (D1 : forall d, 0 < d -> is_derive (fun x => f x c) d (evl (dif XB v) 0 a d c)).
  { intros d Hd. apply is_derive_ext_loc with (fun x => evl v 0 a x c).
    - apply filter_imp with (2 := locally_pos d Hd). intros y Hy. symmetry. apply Hf. repeat split; lra.
    - apply (dif_ok XB v a d c). apply place_squared. repeat split; lra. }
  assert (D2 : Derive (fun x => Derive (fun y => f y c) x) b = evl (dif XB (dif XB v)) 0 a b c).
  { apply is_derive_unique. apply is_derive_ext_loc with (fun x => evl (dif XB v) 0 a x c).
    - apply filter_imp with (2 := locally_pos b Hb). intros y Hy. symmetry.
      apply is_derive_unique, D1, Hy.
    - apply (dif_ok XB (dif XB v) a b c). apply place_squared. repeat split; lra. }
  assert (C1 : forall e, -1 < e < 1 -> is_derive (fun x => f b x) e (evl (dif XC v) 0 a b e)).
  { intros e He. apply is_derive_ext_loc with (fun x => evl v 0 a b x).
    - apply filter_imp with (2 := locally_cos e He). intros y Hy. symmetry. apply Hf. repeat split; lra.
    - apply (dif_ok XC v a b e). apply place_squared. repeat split; lra. }
  assert (C2 : Derive (fun x => Derive (fun y => f b y) x) c = evl (dif XC (dif XC v)) 0 a b c).
  { apply is_derive_unique. apply is_derive_ext_loc with (fun x => evl (dif XC v) 0 a b x).
    - apply filter_imp with (2 := locally_cos c Hc). intros y Hy. symmetry.
      apply is_derive_unique, C1, Hy.
    - apply (dif_ok XC (dif XC v) a b c). apply place_squared. repeat split; lra. }
  assert (U1 : Derive (fun x : R => f x c) b = evl (dif XB v) 0 a b c) by (apply is_derive_unique, D1, Hb).
  assert (U2 : Derive (fun x : R => f b x) c = evl (dif XC v) 0 a b c) by (apply is_derive_unique, C1, Hc).
  unfold responds. cbv zeta.
  rewrite D2, C2, U1, U2.
  unfold radial_operator. destruct k; try reflexivity. apply Hf. repeat split; lra.
Qed.

(** The potential at the first place with field [k] at the second.
    Specification or proof only; nothing in the code. *)
Definition px_square (p : px) : px := Mul p p.
Definition px_q : px :=
  Sub (Add (px_square Va) (px_square Vb)) (Mul (Cn 2) (Mul Va (Mul Vb Vc))).
Definition px_v : px := Sub Vb (Mul Va Vc).
Definition form (k : field) : list px :=
  match k with
  | Potential => [Cn 1]
  | Velocity => [Cn 0; px_v]
  | Redshift => [Cn 0; Cn 1; Sub (Cn 0) (px_square px_v)]
  | Density => [Cn 0; Cn 3; Sub (Cn 0) px_q]
  | Lensing => [Cn 0; Mul (Cn 2) (Mul Va Vc);
                Sub (Cn 0) (Mul (Mul (px_square Va) Vb) (Sub (Cn 1) (px_square Vc)))]
  end.

Lemma form_ok : forall k a b c, place_ok a b c ->
  responds k (fun d' e' => A 0%nat (squared a d' e')) b c = evl (form k) 0 a b c.
Proof.
  intros k a b c H.
  rewrite (second_ok k _ [Cn 1] a b c H).
  2:{ intros d e _. cbn [evl ev]. ring. }
  destruct H as (Ha & Hb & Hc).
  destruct k; cbn [radial_operator form]; cbv [dif dv dp hq evl ev px_v px_q px_square];
    unfold squared; field; lra.
Qed.

Lemma derived_ok : forall k k' a b c, place_ok a b c ->
  derived (A 0%nat) k k' a b c =
  let v := form k' in
  radial_operator k a c (evl v 0 a b c) (evl (dif XA v) 0 a b c) (evl (dif XA (dif XA v)) 0 a b c)
    (evl (dif XC v) 0 a b c) (evl (dif XC (dif XC v)) 0 a b c).
Proof.
  intros k k' a b c H. unfold derived. cbv zeta. apply first_ok; [exact H|].
  intros d e Hd. apply form_ok. exact Hd.
Qed.

(** ** The kernels of the code *)
(** Specification or proof only; nothing in the code. *)
Definition both (f : field) (k k' : field) : bool :=
  Nat.eqb (rank k) (rank f) && Nat.eqb (rank k') (rank f).

Theorem kernel_derived : forall E k k' a b c, tables_of E A -> place_ok a b c ->
  both Velocity k k' = false ->
  kernel E k k' a b c =
  derived (A 0%nat) k k' a b c
  - (if both Potential k k' then tab2 E (K 4 0 false) renormalization a b else 0).
Proof.
  intros E k k' a b c HT H HV. rewrite derived_ok by exact H. cbv zeta.
  pose proof (place_squared _ _ _ H) as Hq.
  assert (Q2 : b ^ 2 + a ^ 2 - 2 * b * a * c = squared a b c) by (unfold squared; ring).
  destruct H as (Ha & Hb & Hc).
  destruct k, k'; try discriminate HV; unfold kernel; cbn [rank Nat.leb base both Nat.eqb andb];
    fold (squared a b c); rewrite ?Q2; unfold divergent_table;
    rewrite ?(t40 _ _ HT), ?(t31 _ _ HT), ?(t22 _ _ HT), ?(t20 _ _ HT), ?(t11 _ _ HT),
      ?(t13 _ _ HT), ?(t00 _ _ HT), ?(t02 _ _ HT), ?(t04 _ _ HT) by exact Hq;
    cbn [radial_operator form]; cbv [dif dv dp hq evl ev px_v px_q px_square];
    set (Q := squared a b c) in *; set (A0 := A 0%nat Q); set (A1 := A 1%nat Q);
    set (A2 := A 2%nat Q); set (A3 := A 3%nat Q); set (A4 := A 4%nat Q);
    clearbody A0 A1 A2 A3 A4; unfold Q, squared in *; clear Q.
  all: field; lra.
Qed.
End Calculus.
