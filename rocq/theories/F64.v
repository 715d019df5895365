(** * IEEE-754 binary64 numbers, as used by CPython floats and C doubles.

    The numbers are those of the standard library's [SpecFloat] with
    precision 53 and maximal exponent 1024.  Every operation is a plain
    computable function (no primitive floats), so nothing here rests on an
    axiom.  Rounding is to nearest, ties to even, which is what CPython and C
    use on every platform COFFE is built for. *)
From Coq Require Import ZArith Bool List Lia.
From Coq Require Import Floats.SpecFloat.
Import ListNotations.
Open Scope Z_scope.

Definition f64 := spec_float.

Definition fadd : f64 -> f64 -> f64 := SFadd 53 1024.
Definition fsub : f64 -> f64 -> f64 := SFsub 53 1024.
Definition fmul : f64 -> f64 -> f64 := SFmul 53 1024.
Definition fdiv : f64 -> f64 -> f64 := SFdiv 53 1024.
Definition fabs : f64 -> f64 := SFabs.
Definition feqb : f64 -> f64 -> bool := SFeqb.
Definition fltb : f64 -> f64 -> bool := SFltb.
Definition fleb : f64 -> f64 -> bool := SFleb.

(** Conversion of a Python integer to a double (rounds to nearest even).
    Conversions of C and Python, e.g. common.c:1200. *)
Definition of_Z (z : Z) : f64 := binary_normalize 53 1024 z 0 false.

(** A decimal literal [n / d], correctly rounded (both are exact for the
    literals used below, and division rounds once).  Decimal literals, e.g. parser.c:744-800. *)
Definition lit (n d : Z) : f64 := fdiv (of_Z n) (of_Z d).

(** IEEE 754 classes; used for coffe.pyx:86-110. *)
Definition is_nan (x : f64) : bool :=
  match x with S754_nan => true | _ => false end.

Definition is_finite (x : f64) : bool :=
  match x with S754_zero _ | S754_finite _ _ _ => true | _ => false end.

(** [int(x)] of a finite double: truncation towards zero.
    Conversion of a double to an int in C, e.g. coffe.pyx:1543-1549. *)
Definition trunc (x : f64) : Z :=
  match x with
  | S754_finite s m e =>
      let a := if 0 <=? e then Zpos m * 2 ^ e else Zpos m / 2 ^ (- e) in
      if s then - a else a
  | _ => 0
  end.

(** [np.allclose(a, b)] for scalars: NumPy's [isclose] with the default
    tolerances rtol = 1e-5, atol = 1e-8.  numpy.allclose, called e.g. at coffe.pyx:1182. *)
Definition allclose (a b : f64) : bool :=
  if is_finite a && is_finite b
  then fleb (fabs (fsub a b)) (fadd (lit 1 100000000) (fmul (lit 1 100000) (fabs b)))
  else feqb a b.

(** Equality of the two doubles' digits, except for the sign of zero. *)
Lemma feqb_finite : forall x s m e, feqb x (S754_finite s m e) = true -> x = S754_finite s m e.
Proof.
  intros [a|a| |a n f] s m e H; unfold feqb, SFeqb in H; simpl in H;
    try (destruct a); try (destruct s); try discriminate;
    try (destruct (f ?= e) eqn:E; try discriminate; apply Z.compare_eq in E;
         destruct (Pos.compare_cont Eq n m) eqn:F; try discriminate;
         apply Pos.compare_eq in F; subst; reflexivity).
Qed.

Lemma feqb_nan_l : forall x, feqb S754_nan x = false.
Proof. reflexivity. Qed.

Lemma fltb_nan_l : forall x, fltb S754_nan x = false.
Proof. reflexivity. Qed.

Lemma fltb_nan_r : forall x, fltb x S754_nan = false.
Proof. destruct x; reflexivity. Qed.

Lemma SFcompare_refl : forall x, is_nan x = false -> SFcompare x x = Some Eq.
Proof.
  destruct x as [s|s| |s m e]; simpl; intros H; try discriminate;
    try reflexivity; try (destruct s; reflexivity).
  destruct s; rewrite Z.compare_refl, Pos.compare_cont_refl; reflexivity.
Qed.

(** Trichotomy of the comparison on numbers that are not NaN. *)
Lemma SFcompare_some :
  forall x y, is_nan x = false -> is_nan y = false ->
  exists c, SFcompare x y = Some c.
Proof.
  destruct x as [s|s| |s m e], y as [s'|s'| |s' m' e']; simpl;
    intros; try discriminate; eexists; try reflexivity;
    destruct s; try destruct s'; try reflexivity;
    destruct (e ?= e'); try reflexivity.
Qed.

Lemma SFcompare_antisym :
  forall x y, SFcompare y x = option_map CompOpp (SFcompare x y).
Proof.
  assert (HP : forall m m', Pos.compare_cont Eq m' m
               = CompOpp (Pos.compare_cont Eq m m')).
  { intros. rewrite Pos.compare_cont_antisym. reflexivity. }
  destruct x as [s|s| |s m e], y as [s'|s'| |s' m' e']; simpl; try reflexivity;
    destruct s; try destruct s'; simpl; try reflexivity;
    rewrite (Z.compare_antisym e e');
    destruct (e ?= e'); simpl; try reflexivity; rewrite HP;
    destruct (Pos.compare_cont Eq m m'); reflexivity.
Qed.

Lemma not_fltb_fleb :
  forall x y, is_nan x = false -> is_nan y = false ->
  fltb x y = false -> fleb y x = true.
Proof.
  intros x y Hx Hy. unfold fltb, fleb, SFltb, SFleb.
  rewrite (SFcompare_antisym x y).
  destruct (SFcompare_some x y Hx Hy) as [c ->].
  destruct c; simpl; congruence.
Qed.

Lemma allclose_nan_l : forall x, allclose S754_nan x = false.
Proof. reflexivity. Qed.

(** ** Subtraction and non-negative results *)

Lemma fsub_self : forall x, is_finite x = true -> fabs (fsub x x) = S754_zero false.
Proof.
  destruct x as [s|s| |s m e]; simpl; intros H; try discriminate.
  - destruct s; reflexivity.
  - rewrite Z.sub_diag. reflexivity.
Qed.

(** "Not NaN and not below zero".  Specification or proof only; nothing in the code. *)
Definition nonneg (x : f64) : Prop :=
  match x with
  | S754_zero _ | S754_infinity false | S754_finite false _ _ => True
  | _ => False
  end.

Lemma nonneg_fleb : forall b x, nonneg x -> fleb (S754_zero b) x = true.
Proof. intros b [s|[]| |[] m e] H; try destruct H; reflexivity. Qed.

Definition rec_ok (r : shr_record) : Prop := 0 <= shr_m r.

Lemma shr_1_ok : forall r, rec_ok r -> rec_ok (shr_1 r).
Proof.
  intros [m r s] H. unfold rec_ok in *. simpl in H.
  destruct m as [|[p|p|]|[p|p|]]; simpl; lia.
Qed.

Lemma iter_ok : forall p r, rec_ok r -> rec_ok (iter_pos shr_1 p r).
Proof. induction p; intros r H; simpl; auto using shr_1_ok. Qed.

Lemma shr_ok : forall r e n, rec_ok r -> rec_ok (fst (shr r e n)).
Proof. intros r e [|p|p] H; simpl; auto. apply iter_ok. exact H. Qed.

Lemma shr_fexp_ok : forall m e l, 0 <= m -> rec_ok (fst (shr_fexp 53 1024 m e l)).
Proof.
  intros m e l H. unfold shr_fexp. apply shr_ok. unfold rec_ok, shr_record_of_loc.
  destruct l as [|[]]; exact H.
Qed.

Lemma rne_ok : forall m l, 0 <= m -> 0 <= round_nearest_even m l.
Proof. intros m [|[]] H; simpl; try lia. destruct (Z.even m); lia. Qed.

Lemma round_aux_nonneg : forall m e l, 0 <= m -> nonneg (binary_round_aux 53 1024 false m e l).
Proof.
  intros m e l H. unfold binary_round_aux.
  pose proof (shr_fexp_ok m e l H) as H1.
  destruct (shr_fexp 53 1024 m e l) as [r1 e1]. simpl in H1.
  pose proof (shr_fexp_ok (round_nearest_even (shr_m r1) (loc_of_shr_record r1)) e1 loc_Exact
                (rne_ok _ _ H1)) as H2.
  destruct (shr_fexp 53 1024 _ e1 loc_Exact) as [r2 e2]. simpl in H2. unfold rec_ok in H2.
  destruct (shr_m r2); simpl; auto.
  destruct (e2 <=? 971); exact I.
Qed.

Lemma fmul_nonneg : forall m e y, nonneg y -> is_finite y = true ->
  nonneg (fmul (S754_finite false m e) y).
Proof.
  intros m e y Hy Hf. destruct y as [s|[]| |[] my ey]; try destruct Hy; try discriminate.
  - exact I.
  - unfold fmul, SFmul. simpl xorb. apply round_aux_nonneg. lia.
Qed.

Lemma binary_round_nonneg : forall m e, nonneg (binary_round 53 1024 false m e).
Proof. intros m e. unfold binary_round. destruct (shl_align _ _ _). apply round_aux_nonneg. lia. Qed.

Lemma fadd_nonneg : forall m e y, nonneg y -> nonneg (fadd (S754_finite false m e) y).
Proof.
  intros m e y Hy. destruct y as [s|[]| |[] my ey]; try destruct Hy; simpl; auto.
  unfold fadd, SFadd. simpl.
  destruct (shl_align m e (Z.min e ey)) as [m1 e1]. destruct (shl_align my ey (Z.min e ey)) as [m2 e2].
  simpl. apply binary_round_nonneg.
Qed.

Lemma fabs_nonneg : forall x, is_nan x = false -> nonneg (fabs x).
Proof. destruct x; simpl; auto; discriminate. Qed.

(** A finite value is close to itself, so re-assigning it is a no-op. *)
Lemma lit_small_pos : exists m1 e1 m2 e2,
  lit 1 100000 = S754_finite false m1 e1 /\ lit 1 100000000 = S754_finite false m2 e2.
Proof. do 4 eexists. split; vm_compute; reflexivity. Qed.

Lemma allclose_self : forall x, is_finite x = true -> allclose x x = true.
Proof.
  intros x H. unfold allclose. rewrite H. simpl andb. cbv iota.
  rewrite (fsub_self x H). apply nonneg_fleb.
  assert (Hn : nonneg (fabs x)) by (apply fabs_nonneg; destruct x; simpl in *; congruence).
  assert (Hf : is_finite (fabs x) = true) by (destruct x; exact H).
  destruct lit_small_pos as (m1 & e1 & m2 & e2 & -> & ->).
  apply fadd_nonneg. apply fmul_nonneg; assumption.
Qed.

Example allclose_self_sample :
  allclose (lit 67 100) (lit 67 100) = true /\
  allclose (lit 670001 1000000) (lit 67 100) = true /\
  allclose (lit 68 100) (lit 67 100) = false.
Proof. repeat split; vm_compute; reflexivity. Qed.
