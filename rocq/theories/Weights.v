(** * Every contribution enters every pair with the same weight

    The observed number count is a sum over contributions, so the correlation of
    two galaxies is a sum, over a contribution for the first and a contribution for
    the second, of (weight of the first) (weight of the second) (correlation of the
    two underlying fields at the two places). *)
From Coq Require Import Reals ZArith Bool List Lia Lra FunctionalExtensionality.
Import ListNotations.
From Verif Require Import Integrals CExpr Terms Signal TermsMeta TermsSum Additive SignalSum
  Lookup Exchange ExchangeSignal Built.
Open Scope R_scope.
#[local] Arguments upd : simpl never.

(** ** Specification *)

(** The underlying fields.  Specification or proof only; nothing in the code. *)
Inductive field := Density | Redshift | Velocity | Potential | Lensing.
Inductive galaxy := First | Second.

Definition field_of (X : contrib) : field :=
  match X with
  | den => Density
  | rsd => Redshift
  | d1 => Velocity
  | d2 | g1 | g2 | g3 | g4 | g5 => Potential
  | len => Lensing
  end.

(** Contributions of the matter along the line of sight.  Specification or proof only; nothing in the code. *)
Definition along (X : contrib) : bool :=
  match X with len | g4 | g5 => true | _ => false end.

Section Spec.
Variable E : env.
Definition redshift (d : R) : R := spl E bg_z_as_chi d.
Definition growth := spl E bg_D1.
Definition rate := spl E bg_f.
Definition hubble := spl E bg_conformal_Hz.
Definition factor_a := spl E bg_a.
Definition bias (w : galaxy) := spl E match w with First => par_galaxy_bias1 | Second => par_galaxy_bias2 end.
Definition magnification (w : galaxy) :=
  spl E match w with First => par_magnification_bias1 | Second => par_magnification_bias2 end.
Definition evolution (w : galaxy) :=
  spl E match w with First => par_evolution_bias1 | Second => par_evolution_bias2 end.
Definition doppler (w : galaxy) := spl E match w with First => bg_G1 | Second => bg_G2 end.

(** Weight of contribution [X] for a galaxy of population [w] at distance [d]; for
    the contributions along the line of sight, per unit of the fraction [x].
    Specification or proof only; nothing in the code. *)
Definition weight (w : galaxy) (X : contrib) (d x : R) : R :=
  let z := redshift d in let y := redshift (d * x) in
  let poisson := 3 / 2 * (omega_cdm E + omega_baryon E) * (coffe_H0 * par_h E) ^ 2 in
  match X with
  | den => bias w z * growth z
  | rsd => rate z * growth z
  | d1 => hubble z * rate z * doppler w z * growth z
  | d2 => (3 - evolution w z) * hubble z ^ 2 * rate z * growth z
  | g1 => - poisson * (1 + doppler w z) / factor_a z * growth z
  | g2 => - poisson * (5 * magnification w z - 2) / factor_a z * growth z
  | g3 => - poisson * (rate z - 1) / factor_a z * growth z
  | len => - poisson * (2 - 5 * magnification w z) * d * (1 - x) / factor_a y * growth y
  | g4 => - (2 * poisson) * (2 - 5 * magnification w z) / factor_a y * growth y
  | g5 => - (2 * poisson) * doppler w z * d * hubble y * (rate y - 1) / factor_a y * growth y
  end.

Definition place (X : contrib) (d x : R) : R := if along X then d * x else d.

(** Correlation of field [k] at distance [a] with field [k'] at distance [b] when the
    cosine of the angle between them is [c].  Specification or proof only; nothing in the code. *)
Definition table (n l : Z) (q : R) : R := tab1 E (K n l false) result (sqrt q).
Definition divergent_table (a b q : R) : R :=
  table 4 0 q - tab2 E (K 4 0 false) renormalization a b.

Definition base (k k' : field) (a b c : R) : R :=
  let q := a ^ 2 + b ^ 2 - 2 * a * b * c in
  let I n l := table n l q in
  match k, k' with
  | Density, Density => I 0%Z 0%Z
  | Density, Redshift => I 0%Z 0%Z / 3 - (2 / 3 - (1 - c ^ 2) * a ^ 2 / q) * I 0%Z 2%Z
  | Density, Velocity => (b - a * c) * I 1%Z 1%Z
  | Density, Potential => I 2%Z 0%Z
  | Density, Lensing => 2 * a * c * I 1%Z 1%Z - a ^ 2 * b * (1 - c ^ 2) / q * I 0%Z 2%Z
  | Redshift, Redshift =>
      (1 + 2 * c ^ 2) / 15 * I 0%Z 0%Z
      - (1 + 11 * c ^ 2 + 18 * c * (c ^ 2 - 1) * a * b / q) / 21 * I 0%Z 2%Z
      + (4 * (3 * c ^ 2 - 1) * (a ^ 4 + b ^ 4)
         + a * b * (3 + c ^ 2) * (3 * (3 + c ^ 2) * a * b - 8 * (a ^ 2 + b ^ 2) * c))
        / 35 / q ^ 2 * I 0%Z 4%Z
  | Redshift, Velocity =>
      ((1 + 2 * c ^ 2) * b - 3 * a * c) / 5 * I 1%Z 1%Z
      + ((1 - 3 * c ^ 2) * b ^ 3 + c * (5 + c ^ 2) * b ^ 2 * a
         - 2 * (2 + c ^ 2) * b * a ^ 2 + 2 * a ^ 3 * c) / 5 / q * I 1%Z 3%Z
  | Redshift, Potential => I 2%Z 0%Z / 3 - (2 / 3 * q - (1 - c ^ 2) * b ^ 2) * I 2%Z 2%Z
  | Redshift, Lensing =>
      - (((6 * c ^ 2 - 2) * b - 6 * a * c) / 15 * I 0%Z 0%Z
         - (6 * a ^ 3 * c - a ^ 2 * b * (9 * c ^ 2 + 11) + a * b ^ 2 * c * (6 * c ^ 2 + 16)
            - 2 * b ^ 3 * (6 * c ^ 2 - 2)) / 21 / q * I 0%Z 2%Z
         - (- 4 * a ^ 5 * c - a ^ 3 * b ^ 2 * c * (2 * c ^ 2 + 6)
            + a ^ 2 * b ^ 3 * (c ^ 4 + 12 * c ^ 2 - 21)
            - 3 * a * b ^ 4 * c * (2 * c ^ 2 - 6) - b ^ 5 * (6 * c ^ 2 - 2)
            + 12 * a ^ 4 * b) / 35 / q ^ 2 * I 0%Z 4%Z)
  | Velocity, Velocity =>
      c / 3 * I 2%Z 0%Z - ((b - a * c) * (a - b * c) + q * c / 3) * I 2%Z 2%Z
  | Velocity, Potential => (a - b * c) * I 3%Z 1%Z
  | Velocity, Lensing =>
      - (2 * (c * (b ^ 2 - 2 * a ^ 2) + a * b * (4 * c ^ 2 - 3)) / 15 * I 1%Z 1%Z
         + 2 * c / 3 * I 2%Z 0%Z
         - (4 * a ^ 4 * c - a ^ 3 * b * (c ^ 2 + 9) + a ^ 2 * b ^ 2 * c * (c ^ 2 + 5)
            - 2 * a * b ^ 3 * (2 * c ^ 2 - 3) - 2 * b ^ 4 * c) / 15 / q * I 1%Z 3%Z)
  | Potential, Potential => divergent_table a b q
  | Potential, Lensing => 2 * a * c * I 3%Z 1%Z - a ^ 2 * b * (1 - c ^ 2) * I 2%Z 2%Z
  | Lensing, Lensing =>
      2 * (c ^ 2 - 1) * a * b / 5 * I 0%Z 0%Z + 4 * c / 3 * I 2%Z 0%Z
      + 4 * c * (q + 6 * c * a * b) / 15 * I 1%Z 1%Z
      + 2 * (c ^ 2 - 1) * a * b * (2 * q + 3 * c * a * b) / 7 / q * I 0%Z 2%Z
      + 2 * c * (2 * q ^ 2 + 12 * c * q * a * b + 15 * (c ^ 2 - 1) * a ^ 2 * b ^ 2)
        / 15 / q * I 1%Z 3%Z
      + (c ^ 2 - 1) * a * b * (6 * q ^ 2 + 30 * c * q * a * b
         + 35 * (c ^ 2 - 1) * a ^ 2 * b ^ 2) / 35 / q ^ 2 * I 0%Z 4%Z
  | _, _ => 0
  end.

Definition rank (k : field) : nat :=
  match k with Density => 0 | Redshift => 1 | Velocity => 2 | Potential => 3 | Lensing => 4 end.
Definition kernel (k k' : field) (a b c : R) : R :=
  if Nat.leb (rank k) (rank k') then base k k' a b c else base k' k b a c.

(** The correlation of contribution [X] of the first galaxy, at distance [d],
    with contribution [Y] of the second, at distance [d'].  Specification or proof only; nothing in the code. *)
Definition correlation (X Y : contrib) (d x d' x' c : R) : R :=
  weight First X d x * weight Second Y d' x'
  * kernel (field_of X) (field_of Y) (place X d x) (place Y d' x') c.
End Spec.

(** The triangle of the observer and the two galaxies.  Specification or proof only; nothing in the code. *)
Definition near (E : env) (zm m s : R) : R := spl E bg_comoving_distance zm - s * m / 2.
Definition far (E : env) (zm m s : R) : R := spl E bg_comoving_distance zm + s * m / 2.
Definition cosine (d d' s : R) : R := (d ^ 2 + d' ^ 2 - s ^ 2) / (2 * d * d').

(** Pairs for which the code does not do this; see DESIGN.md.  Specification or proof only; nothing in the code. *)
Definition inconsistent (X Y : contrib) : bool :=
  match X, Y with
  | d1, (d2 | g1 | g2 | g3 | g4 | g5 | len)
  | (g1 | g2 | g3), len
  | den, g5
  | g5, len => true
  | _, _ => false
  end.

Record full_sky_linear (E : env) : Prop := {
  fl_deriv : no_derivatives E;
  fl_ren : symmetric_renormalization E;
  fl_lin : sw E pk_nonlinear = false;
  fl_local : sw E flatsky_local = false;
  fl_ln : sw E flatsky_local_nonlocal = false;
  fl_nn : sw E flatsky_nonlocal = false }.

(** ** The triangle *)
Lemma code_cosine : forall E zm m s,
  let chi := spl E bg_comoving_distance zm in
  near E zm m s <> 0 -> far E zm m s <> 0 ->
  (2 * chi * chi - s * s + m * m * s * s / 2) / (2 * chi * chi - m * m * s * s / 2)
  = cosine (near E zm m s) (far E zm m s) s.
Proof.
  intros E zm m s chi H1 H2. unfold cosine, near, far in *. fold chi in H1, H2. fold chi.
  replace (2 * chi * chi - m * m * s * s / 2)
    with (2 * (chi - s * m / 2) * (chi + s * m / 2)) by field.
  f_equal. field.
Qed.

Lemma law_of_cosines : forall d d' s, d <> 0 -> d' <> 0 ->
  d ^ 2 + d' ^ 2 - 2 * d * d' * cosine d d' s = s ^ 2.
Proof. intros. unfold cosine. field. split; assumption. Qed.

(** ** Values of the local variables *)

(** Where a variable is assigned.  Specification or proof only; nothing in the code. *)
Fixpoint assigned_at (v : var) (l : list stmt) : nat :=
  match l with
  | Set_ w _ :: r => if var_beq v w then O else S (assigned_at v r)
  | _ :: r => S (assigned_at v r)
  | [] => O
  end.

(** A variable assigned from variables that are not assigned afterwards keeps the
    value of its expression. *)
Lemma assigned : forall E l k v e t,
  nth_error l k = Some (Set_ v e) -> keepsv v (skipn (S k) l) = true ->
  clean_e (fun w => negb (keepsv w (skipn k l))) no_spline e = true ->
  dens E t l v = eval E (dens E t l) e.
Proof.
  intros E l k v e t N K C.
  assert (L : forall w, keepsv w (skipn k l) = true -> dens E t l w = dens E t (firstn k l) w).
  { intros w H. rewrite <- (firstn_skipn k l) at 1. rewrite dens_app.
    apply dens_keeps. exact H. }
  rewrite (eval_agree _ _ E E (dens E t l) (dens E t (firstn k l))) with (2 := C).
  2:{ constructor; try reflexivity. intros w H. apply L. apply negb_false_iff. exact H. }
  assert (S : l = firstn k l ++ [Set_ v e] ++ skipn (S k) l).
  { clear -N. revert l N. induction k as [|k IH]; intros [|c l] N; try discriminate.
    - cbn in N. injection N as ->. reflexivity.
    - cbn. f_equal. apply IH. exact N. }
  rewrite S at 1. rewrite !dens_app, dens_keeps by exact K.
  cbn [dens den1]. apply upd_same.
Qed.

Ltac val t p v :=
  let H := fresh "V" in
  let b := eval unfold t in t in
  match b with dens ?E ?t0 _ =>
    epose proof (assigned E p (assigned_at v p) v _ t0 eq_refl eq_refl eq_refl) as H;
    cbn [eval] in H; fold t in H
  end.

(** ** Local terms *)
Section Pair.
Variable E : env.
Hypothesis F : full_sky_linear E.
Hypothesis fl_div : sw E divergent = true.
Variables zm m s : R.
Hypothesis Hs : 0 < s < 2 * spl E bg_comoving_distance zm.
Hypothesis Hm : -1 <= m <= 1.

Let a := near E zm m s.
Let b := far E zm m s.
Let c := cosine a b s.

Lemma near_pos : 0 < a. Proof. unfold a, near. nra. Qed.
Lemma far_pos : 0 < b. Proof. unfold b, far. nra. Qed.

(** Specification or proof only; nothing in the code. *)
Record ni_state (t : store) : Prop := {
  n_sep : t sep = s; n_chi1 : t chi1 = a; n_chi2 : t chi2 = b; n_c : t costheta = c;
  n_z1 : t z1 = redshift E a; n_z2 : t z2 = redshift E b;
  n_f1 : t f1 = rate E (redshift E a); n_f2 : t f2 = rate E (redshift E b);
  n_h1 : t curlyH1 = hubble E (redshift E a); n_h2 : t curlyH2 = hubble E (redshift E b);
  n_b1 : t b1 = bias E First (redshift E a); n_b2 : t b2 = bias E Second (redshift E b);
  n_G1 : t G1 = doppler E First (redshift E a); n_G2 : t G2 = doppler E Second (redshift E b);
  n_s1 : t s1 = magnification E First (redshift E a);
  n_s2 : t s2 = magnification E Second (redshift E b);
  n_e1 : t fevo1 = evolution E First (redshift E a);
  n_e2 : t fevo2 = evolution E Second (redshift E b);
  n_a1 : t a1 = factor_a E (redshift E a); n_a2 : t a2 = factor_a E (redshift E b) }.

Lemma ni_state_ok : ni_state (ni_s0 E zm m s).
Proof.
  unfold ni_s0. set (t := dens E (args zm m s) ni_prelude).
  assert (t sep = s) as K1 by (unfold t; rewrite dens_keeps by reflexivity; reflexivity).
  assert (t mu = m) as K2 by (unfold t; rewrite dens_keeps by reflexivity; reflexivity).
  assert (t z_mean = zm) as K3 by (unfold t; rewrite dens_keeps by reflexivity; reflexivity).
  val t ni_prelude chi_mean. rewrite K3 in V.
  val t ni_prelude chi1. rewrite V, K1, K2 in V0.
  val t ni_prelude chi2. rewrite V, K1, K2 in V1.
  val t ni_prelude costheta. rewrite V, K1, K2 in V2.
  rewrite code_cosine in V2 by (apply Rgt_not_eq; apply near_pos || apply far_pos).
  change (t chi1 = a) in V0. change (t chi2 = b) in V1. change (t costheta = c) in V2.
  val t ni_prelude z1. rewrite V0 in V3. val t ni_prelude z2. rewrite V1 in V4.
  constructor; try assumption;
  match goal with |- t ?v = _ => val t ni_prelude v end;
  rewrite ?V3, ?V4 in *; assumption.
Qed.

Lemma local_linear : sw E pk_nonlinear && sw E midpoint = false.
Proof. rewrite (fl_lin _ F). reflexivity. Qed.

Ltac block st :=
  match goal with |- context [body ?l] => unfold l end; cbn [body incr];
  repeat (rewrite incr1_If; cbn [holds];
          rewrite ?(fl_lin _ F), ?(fl_local _ F); cbn [andb orb negb]; cbn [incr]);
  cbn [incr1 eval];
  rewrite ?(n_sep _ st), ?(n_chi1 _ st), ?(n_chi2 _ st), ?(n_c _ st),
    ?(n_f1 _ st), ?(n_f2 _ st), ?(n_h1 _ st), ?(n_h2 _ st), ?(n_b1 _ st), ?(n_b2 _ st),
    ?(n_G1 _ st), ?(n_G2 _ st), ?(n_s1 _ st), ?(n_s2 _ st), ?(n_e1 _ st), ?(n_e2 _ st),
    ?(n_a1 _ st), ?(n_a2 _ st).

Lemma sep_square : forall u v, {u = a /\ v = b} + {u = b /\ v = a} ->
  u ^ 2 + v ^ 2 - 2 * u * v * c = s ^ 2.
Proof.
  intros u v [[-> ->]|[-> ->]].
  - apply law_of_cosines; apply Rgt_not_eq; [apply near_pos|apply far_pos].
  - rewrite <- (law_of_cosines a b s) by (apply Rgt_not_eq; apply near_pos || apply far_pos).
    fold c. ring.
Qed.

Definition lookup (X Y : contrib) (bs : list (contrib * contrib * list stmt)) : list stmt :=
  match find (fun p => contrib_beq (fst (fst p)) X && contrib_beq (snd (fst p)) Y) bs with
  | Some p => body (snd p)
  | None => []
  end.

Ltac algebra :=
  unfold Rdiv; rewrite ?Rinv_mult, <- ?pow_inv;
  repeat match goal with
  | |- context [/ factor_a E ?z] => generalize (/ factor_a E z); intro
  end;
  try (generalize (/ s); intro);
  field.

Lemma ni_weights : forall X Y, along X = false -> along Y = false -> inconsistent X Y = false ->
  lookup X Y ni_blocks <> [] ->
  incr E (ni_s0 E zm m s) (lookup X Y ni_blocks) * (growth E (redshift E a) * growth E (redshift E b))
  = if contrib_beq X Y then correlation E X X a 1 b 1 c
    else correlation E X Y a 1 b 1 c + correlation E Y X a 1 b 1 c.
Proof.
  intros X Y HX HY HI HL.
  pose proof ni_state_ok as st.
  assert (Q1 : a ^ 2 + b ^ 2 - 2 * a * b * c = s ^ 2) by (apply sep_square; left; split; reflexivity).
  assert (Q2 : b ^ 2 + a ^ 2 - 2 * b * a * c = s ^ 2) by (apply sep_square; right; split; reflexivity).
  assert (SQ : sqrt (s ^ 2) = s) by (rewrite <- Rsqr_pow2; apply sqrt_Rsqr; lra).
  generalize dependent (ni_s0 E zm m s). intros t st.
  destruct X; try discriminate HX; destruct Y; try discriminate HY; try discriminate HI;
  try (elim HL; reflexivity); clear HX HY HI HL;
  match goal with |- context [lookup ?X ?Y ?l] =>
    let v := eval cbv [lookup find ni_blocks contrib_beq fst snd andb] in (lookup X Y l) in
    change (lookup X Y l) with v end;
  block st;
  cbn [contrib_beq]; unfold correlation, kernel, weight, place;
  cbn [field_of along rank Nat.leb base]; unfold divergent_table, table;
  rewrite ?Q1, ?Q2, ?SQ.
  all: algebra.
Qed.

(** The Doppler term correlated with a local potential term lacks its weight G. *)
Lemma ni_weights_d1 : forall Y, along Y = false -> field_of Y = Potential ->
  let G1 := doppler E First (redshift E a) in let G2 := doppler E Second (redshift E b) in
  incr E (ni_s0 E zm m s) (lookup d1 Y ni_blocks)
    * (growth E (redshift E a) * growth E (redshift E b)) * (G1 * G2)
  = correlation E d1 Y a 1 b 1 c * G2 + correlation E Y d1 a 1 b 1 c * G1.
Proof.
  intros Y HY HP G1 G2.
  pose proof ni_state_ok as st.
  assert (Q1 : a ^ 2 + b ^ 2 - 2 * a * b * c = s ^ 2) by (apply sep_square; left; split; reflexivity).
  assert (Q2 : b ^ 2 + a ^ 2 - 2 * b * a * c = s ^ 2) by (apply sep_square; right; split; reflexivity).
  assert (SQ : sqrt (s ^ 2) = s) by (rewrite <- Rsqr_pow2; apply sqrt_Rsqr; lra).
  generalize dependent (ni_s0 E zm m s). intros t st.
  destruct Y; try discriminate HY; try discriminate HP; clear HY HP;
  match goal with |- context [lookup ?X ?Y ?l] =>
    let v := eval cbv [lookup find ni_blocks contrib_beq fst snd andb] in (lookup X Y l) in
    change (lookup X Y l) with v end;
  block st; unfold G1, G2;
  unfold correlation, kernel, weight, place;
  cbn [field_of along rank Nat.leb base]; unfold divergent_table, table;
  rewrite ?Q1, ?Q2, ?SQ.
  all: algebra.
Qed.

(** ** One contribution along the line of sight *)
Lemma cosine_below_1 : -1 < m < 1 -> c < 1.
Proof.
  intros Hm'.
  pose proof near_pos as A. pose proof far_pos as B.
  assert (P : 0 < 2 * a * b) by (apply Rmult_lt_0_compat; lra).
  unfold c, cosine. apply Rmult_lt_reg_r with (1 := P).
  unfold Rdiv. rewrite Rmult_assoc, Rinv_l by lra.
  unfold a, b, near, far in *. set (chi := spl E bg_comoving_distance zm) in *. clearbody chi.
  assert (0 < s * s) by nra. assert (m * m < 1) by nra.
  assert (m * m * (s * s) < s * s) by nra. nra.
Qed.

Lemma cosine_on_axis : m * m = 1 -> c = 1.
Proof.
  intros M. pose proof near_pos as A. pose proof far_pos as B.
  assert (P : 0 < 2 * a * b) by (apply Rmult_lt_0_compat; lra).
  unfold c, cosine. apply Rmult_eq_reg_r with (2 * a * b); [|lra].
  unfold Rdiv. rewrite Rmult_assoc, Rinv_l by lra.
  unfold a, b, near, far in *. set (chi := spl E bg_comoving_distance zm) in *. clearbody chi.
  replace (s ^ 2) with (s * s * (m * m)) by (rewrite M; ring). field.
Qed.

Lemma kept_pos : forall r, 0 < r -> kept r = r.
Proof. intros r H. unfold kept, Rltb. destruct (Rlt_dec r 0); [lra|reflexivity]. Qed.
Lemma Reqb_pos : forall r, 0 < r -> Reqb r 0 = false.
Proof. intros r H. unfold Reqb. destruct (Req_EM_T r 0); [lra|reflexivity]. Qed.

(** Off the axis no point of one line of sight lies on the other. *)
Lemma apart_off_axis : forall x, -1 < m < 1 -> interior x ->
  0 < a ^ 2 + (b * x) ^ 2 - 2 * a * (b * x) * c /\ 0 < (a * x) ^ 2 + b ^ 2 - 2 * (a * x) * b * c.
Proof.
  intros x Hm' Hx. split.
  - replace (a ^ 2 + (b * x) ^ 2 - 2 * a * (b * x) * c)
      with (b * x * (b * x) + a * a - 2 * a * (b * x) * c) by ring.
    apply separated; [apply near_pos| |apply cosine_below_1; exact Hm'].
    apply Rmult_lt_0_compat; [apply far_pos|apply Hx].
  - replace ((a * x) ^ 2 + b ^ 2 - 2 * (a * x) * b * c)
      with (b * b + a * x * (a * x) - 2 * (a * x) * b * c) by ring.
    apply separated; [|apply far_pos|apply cosine_below_1; exact Hm'].
    apply Rmult_lt_0_compat; [apply near_pos|apply Hx].
Qed.

Section Single.
Variable x : R.
Let A := a * x.
Let B := b * x.
Let q1 := a ^ 2 + B ^ 2 - 2 * a * B * c.
Let q2 := A ^ 2 + b ^ 2 - 2 * A * b * c.

(** Specification or proof only; nothing in the code. *)
Record si_state (t : store) : Prop := {
  i_x : t x_ = x; i_mu : t mu = m;
  i_chi1 : t chi1 = a; i_chi2 : t chi2 = b; i_c : t costheta = c;
  i_l1 : t lambda1 = A; i_l2 : t lambda2 = B; i_r1 : t r21 = q1; i_r2 : t r22 = q2;
  i_zc1 : t z1_const = redshift E a; i_zc2 : t z2_const = redshift E b;
  i_z1 : t z1 = redshift E A; i_z2 : t z2 = redshift E B;
  i_b1 : t b1 = bias E First (redshift E a); i_b2 : t b2 = bias E Second (redshift E b);
  i_s1 : t s1 = magnification E First (redshift E a);
  i_s2 : t s2 = magnification E Second (redshift E b);
  i_ren1 : t ren1 = divergent_table E a B q1; i_ren2 : t ren2 = divergent_table E A b q2 }.

Hypothesis q1_pos : 0 < q1.
Hypothesis q2_pos : 0 < q2.

Lemma si_state_ok : si_state (si_s0 E zm m s x).
Proof.
  unfold si_s0. set (t := dens E (upd (args zm m s) x_ x) si_prelude).
  assert (t sep = s) as K1 by (unfold t; rewrite dens_keeps by reflexivity; reflexivity).
  assert (t mu = m) as K2 by (unfold t; rewrite dens_keeps by reflexivity; reflexivity).
  assert (t z_mean = zm) as K3 by (unfold t; rewrite dens_keeps by reflexivity; reflexivity).
  assert (t x_ = x) as K4 by (unfold t; rewrite dens_keeps by reflexivity; reflexivity).
  destruct (si_r2 E zm m s x) as [R1 R2]. fold t in R1, R2.
  rewrite code_cosine in R1, R2 by (apply Rgt_not_eq; apply near_pos || apply far_pos).
  assert (t r21 = q1) as R1'.
  { rewrite R1. transitivity (kept q1); [|apply kept_pos; exact q1_pos].
    f_equal. unfold q1, B, c, a, b, near, far. ring. }
  assert (t r22 = q2) as R2'.
  { rewrite R2. transitivity (kept q2); [|apply kept_pos; exact q2_pos].
    f_equal. unfold q2, A, c, a, b, near, far. ring. }
  clear R1 R2.
  val t si_prelude chi_mean. rewrite K3 in V.
  val t si_prelude chi1. rewrite V, K1, K2 in V0.
  val t si_prelude chi2. rewrite V, K1, K2 in V1.
  val t si_prelude costheta. rewrite V, K1, K2 in V2.
  rewrite code_cosine in V2 by (apply Rgt_not_eq; apply near_pos || apply far_pos).
  change (t chi1 = a) in V0. change (t chi2 = b) in V1. change (t costheta = c) in V2.
  val t si_prelude lambda1. rewrite V0, K4 in V3. change (t lambda1 = A) in V3.
  val t si_prelude lambda2. rewrite V1, K4 in V4. change (t lambda2 = B) in V4.
  val t si_prelude z1_const. rewrite V0 in V5. val t si_prelude z2_const. rewrite V1 in V6.
  val t si_prelude z1. rewrite V3 in V7. val t si_prelude z2. rewrite V4 in V8.
  assert (REN : t ren1 = divergent_table E a B q1 /\ t ren2 = divergent_table E A b q2).
  { unfold t in *. change si_prelude with (firstn 24 si_prelude ++ skipn 24 si_prelude) in *.
    rewrite !dens_app in *.
    set (u := dens E (upd (args zm m s) x_ x) (firstn 24 si_prelude)) in *.
    rewrite !dens_keeps in R1', R2', V0, V1, V3, V4 by reflexivity.
    clearbody u.
    change (skipn 24 si_prelude) with (firstn 1 (skipn 24 si_prelude) ++ skipn 25 si_prelude).
    rewrite dens_app. set (w := dens E u (firstn 1 (skipn 24 si_prelude))).
    assert (w r21 = q1) as W1 by exact R1'. assert (w r22 = q2) as W2 by exact R2'.
    assert (w chi1 = a) as W3 by exact V0. assert (w chi2 = b) as W4 by exact V1.
    assert (w lambda1 = A) as W5 by exact V3. assert (w lambda2 = B) as W6 by exact V4.
    clearbody w. cbn [skipn si_prelude dens]. rewrite den1_If. cbn [holds].
    rewrite fl_div. cbn [dens]. rewrite (den1_If E w). cbn [holds eval].
    rewrite W1, (Reqb_pos q1) by exact q1_pos. cbn [dens].
    set (w' := den1 E w (Set_ ren1 _)).
    assert (w' r22 = q2) as W2' by exact W2. assert (w' chi2 = b) as W4' by exact W4.
    assert (w' lambda1 = A) as W5' by exact W5.
    assert (w' ren1 = divergent_table E a B q1) as RR.
    { unfold w'. cbn [den1 eval]. rewrite upd_same, W1, W3, W6. unfold divergent_table, table. f_equal.
      apply (fl_ren _ F). }
    clearbody w'. rewrite den1_If. cbn [holds eval].
    rewrite W2', (Reqb_pos q2) by exact q2_pos. cbn [dens den1 eval]. split.
    - rewrite upd_other by discriminate. exact RR.
    - rewrite upd_same, W2', W4', W5'. reflexivity. }
  destruct REN as [RE1 RE2].
  constructor; try assumption;
  match goal with |- t ?v = _ => val t si_prelude v end;
  rewrite ?V5, ?V6 in *; assumption.
Qed.

Ltac si_block st :=
  match goal with |- context [body ?l] => unfold l end; cbn [body incr];
  repeat (rewrite incr1_If; cbn [holds eval];
          rewrite ?(i_r1 _ st), ?(i_r2 _ st), ?(i_mu _ st), ?(Reqb_pos q1 q1_pos), ?(Reqb_pos q2 q2_pos),
            ?(fl_lin _ F), ?(fl_ln _ F); cbn [andb orb negb];
          try match goal with H : Rltb (Rabs m) _ = _ |- _ => rewrite H end; cbn [incr]);
  cbn [incr1 eval];
  rewrite ?(i_x _ st), ?(i_chi1 _ st), ?(i_chi2 _ st), ?(i_c _ st), ?(i_l1 _ st), ?(i_l2 _ st),
    ?(i_r1 _ st), ?(i_r2 _ st), ?(i_zc1 _ st), ?(i_zc2 _ st), ?(i_z1 _ st), ?(i_z2 _ st),
    ?(i_b1 _ st), ?(i_b2 _ st), ?(i_s1 _ st), ?(i_s2 _ st), ?(i_ren1 _ st), ?(i_ren2 _ st).

Ltac si_algebra :=
  unfold A, B in *; unfold Rdiv; rewrite ?Rinv_mult, <- ?pow_inv;
  repeat match goal with
  | |- context [/ spl E bg_a ?z] => generalize (/ spl E bg_a z); intro
  end;
  repeat match goal with
  | |- context [spl E ?f ?z] => generalize (spl E f z); intro
  | |- context [tab1 E ?k ?f ?z] => generalize (tab1 E k f z); intro
  end;
  try (generalize (/ q1); intro); try (generalize (/ q2); intro);
  field.

Lemma si_weights : forall X Y, along X = false -> along Y = true -> inconsistent X Y = false ->
  (X = rsd -> Y = len -> Rabs m < 999 / 1000 \/ m * m = 1) ->
  incr E (si_s0 E zm m s x) (lookup X Y si_blocks)
  = correlation E X Y a x b x c + correlation E Y X a x b x c.
Proof.
  intros X Y HX HY HI HM.
  pose proof si_state_ok as st.
  assert (Q1 : a ^ 2 + B ^ 2 - 2 * a * B * c = q1) by reflexivity.
  assert (Q2 : b ^ 2 + A ^ 2 - 2 * b * A * c = q2) by (unfold q2; ring).
  assert (Q3 : A ^ 2 + b ^ 2 - 2 * A * b * c = q2) by reflexivity.
  assert (Q4 : B ^ 2 + a ^ 2 - 2 * B * a * c = q1) by (unfold q1; ring).
  assert (ML : X = rsd -> Y = len -> Rltb (Rabs m) (IZR 999 / IZR 1000) = true
                 \/ (Rltb (Rabs m) (IZR 999 / IZR 1000) = false /\ c = 1)).
  { intros H1 H2. destruct (HM H1 H2) as [H|H].
    - left. unfold Rltb. destruct (Rlt_dec (Rabs m) (IZR 999 / IZR 1000)); [reflexivity|lra].
    - right. split; [|apply cosine_on_axis; exact H].
      unfold Rltb. destruct (Rlt_dec (Rabs m) (IZR 999 / IZR 1000)) as [L|]; [|reflexivity].
      apply Rabs_def2 in L. nra. }
  clear HM.
  generalize dependent (si_s0 E zm m s x). intros t st.
  destruct X; try discriminate HX; destruct Y; try discriminate HY; try discriminate HI;
  clear HX HY HI;
  try (specialize (ML eq_refl eq_refl); destruct ML as [ML|[ML C1]]);
  match goal with |- context [lookup ?X ?Y ?l] =>
    let v := eval cbv [lookup find si_blocks contrib_beq fst snd andb] in (lookup X Y l) in
    change (lookup X Y l) with v end;
  si_block st;
  unfold correlation, kernel, weight, place;
  cbn [field_of along rank Nat.leb base]; fold A B;
  rewrite ?Q1, ?Q2, ?Q3, ?Q4; unfold divergent_table, table.
  all: unfold redshift, growth, rate, hubble, factor_a, bias, magnification, evolution, doppler.
  all: try solve [si_algebra].
  assert (E1 : q1 = (B - a) ^ 2) by (unfold q1; rewrite C1; ring).
  assert (E2 : q2 = (A - b) ^ 2) by (unfold q2; rewrite C1; ring).
  assert (N1 : B - a <> 0) by (intros Z; rewrite Z in E1; lra).
  assert (N2 : A - b <> 0) by (intros Z; rewrite Z in E2; lra).
  rewrite C1. clear Q1 Q2 Q3 Q4 ML st.
  repeat match goal with
  | |- context [tab1 E ?k ?f ?z] => generalize (tab1 E k f z); intro
  end.
  rewrite E1, E2. clear E1 E2 q1_pos q2_pos. unfold A, B in *.
  unfold Rdiv.
  repeat match goal with
  | |- context [/ spl E bg_a ?z] => generalize (/ spl E bg_a z); intro
  end;
  repeat match goal with
  | |- context [spl E ?f ?z] => generalize (spl E f z); intro
  end.
  clearbody a b. field. split; assumption.
Qed.

Ltac si_wrong :=
  match goal with |- context [lookup ?X ?Y ?l] =>
    let v := eval cbv [lookup find si_blocks contrib_beq fst snd andb] in (lookup X Y l) in
    change (lookup X Y l) with v end;
  match goal with st : si_state _ |- _ => si_block st end;
  unfold correlation, kernel, weight, place;
  cbn [field_of along rank Nat.leb base]; fold A B;
  repeat match goal with H : _ = q1 |- _ => rewrite H; clear H | H : _ = q2 |- _ => rewrite H; clear H end;
  unfold divergent_table, table;
  unfold redshift, growth, rate, hubble, factor_a, bias, magnification, evolution, doppler.
Ltac si_start :=
  pose proof si_state_ok as st;
  assert (Q1 : a ^ 2 + B ^ 2 - 2 * a * B * c = q1) by reflexivity;
  assert (Q2 : b ^ 2 + A ^ 2 - 2 * b * A * c = q2) by (unfold q2; ring);
  assert (Q3 : A ^ 2 + b ^ 2 - 2 * A * b * c = q2) by reflexivity;
  assert (Q4 : B ^ 2 + a ^ 2 - 2 * B * a * c = q1) by (unfold q1; ring);
  generalize dependent (si_s0 E zm m s x); intros t st.

(** The same for the potential terms along the line of sight. *)
Lemma si_weights_d1 : forall Y, along Y = true -> field_of Y = Potential ->
  let G1 := doppler E First (redshift E a) in let G2 := doppler E Second (redshift E b) in
  incr E (si_s0 E zm m s x) (lookup d1 Y si_blocks) * (G1 * G2)
  = correlation E d1 Y a x b x c * G2 + correlation E Y d1 a x b x c * G1.
Proof.
  intros Y HY HP G1 G2. unfold G1, G2. si_start.
  destruct Y; try discriminate HY; try discriminate HP; clear HY HP; si_wrong; si_algebra.
Qed.

(** Doppler and lensing: the half in which the second galaxy carries the Doppler
    term uses the first population's G and the second's magnification bias. *)
Lemma si_weights_d1_len :
  let za := redshift E a in let zb := redshift E b in
  incr E (si_s0 E zm m s x) (lookup d1 len si_blocks)
    * (doppler E Second zb * (2 - 5 * magnification E First za))
  = correlation E d1 len a x b x c * (doppler E Second zb * (2 - 5 * magnification E First za))
    + correlation E len d1 a x b x c * (doppler E First zb * (2 - 5 * magnification E Second zb)).
Proof. intros za zb. unfold za, zb. si_start. si_wrong. si_algebra. Qed.

(** Local potential terms and lensing: the factor 1/a of the potential is missing. *)
Lemma si_weights_g_len : forall X, (X = g1 \/ X = g2 \/ X = g3) ->
  factor_a E (redshift E a) <> 0 -> factor_a E (redshift E b) <> 0 ->
  incr E (si_s0 E zm m s x) (lookup X len si_blocks)
  = correlation E X len a x b x c * factor_a E (redshift E a)
    + correlation E len X a x b x c * factor_a E (redshift E b).
Proof.
  intros X HX Na Nb. si_start. unfold factor_a, redshift in Na, Nb.
  destruct HX as [-> | [-> | ->]]; si_wrong;
  unfold A, B in *; unfold Rdiv; rewrite ?Rinv_mult, <- ?pow_inv;
  generalize (/ spl E bg_a (spl E bg_z_as_chi (a * x))), (/ spl E bg_a (spl E bg_z_as_chi (b * x)));
  generalize (/ q1), (/ q2); intros; field; split; assumption.
Qed.

(** Density and g5: multiplied by a instead of divided by it. *)
Lemma si_weights_den_g5 :
  factor_a E (redshift E A) <> 0 -> factor_a E (redshift E B) <> 0 ->
  incr E (si_s0 E zm m s x) (lookup den g5 si_blocks)
  = correlation E den g5 a x b x c * factor_a E (redshift E B) ^ 2
    + correlation E g5 den a x b x c * factor_a E (redshift E A) ^ 2.
Proof.
  intros Na Nb. si_start. unfold factor_a, redshift in Na, Nb.
  si_wrong. unfold A, B in *. field; repeat split; assumption.
Qed.
End Single.

(** ** Two contributions along the line of sight *)
Section Double.
Variables x y : R.
Hypothesis Hx : interior x.
Hypothesis Hy : interior y.
Let A := a * x.
Let B := b * y.
Let q := A ^ 2 + B ^ 2 - 2 * A * B * c.
Hypothesis Hq : (1 / 1000000) ^ 2 < q.

(** Specification or proof only; nothing in the code. *)
Record di_state (t : store) : Prop := {
  w_x : t x_1 = x; w_y : t x_2 = y; w_chi1 : t chi1 = a; w_chi2 : t chi2 = b;
  w_c : t costheta = c; w_l1 : t lambda1 = A; w_l2 : t lambda2 = B; w_r2 : t r2 = q;
  w_zc1 : t z1_const = redshift E a; w_zc2 : t z2_const = redshift E b;
  w_z1 : t z1 = redshift E A; w_z2 : t z2 = redshift E B;
  w_s1 : t s1 = magnification E First (redshift E a);
  w_s2 : t s2 = magnification E Second (redshift E b);
  w_ren : t ren = divergent_table E A B q }.

Lemma q_pos : 0 < q.
Proof. lra. Qed.

Lemma di_state_ok : di_state (di_s0 E zm m s x y).
Proof.
  unfold di_s0. set (t := dens E (upd (upd (args zm m s) x_1 x) x_2 y) di_prelude).
  assert (t sep = s) as K1 by (unfold t; rewrite dens_keeps by reflexivity; reflexivity).
  assert (t mu = m) as K2 by (unfold t; rewrite dens_keeps by reflexivity; reflexivity).
  assert (t z_mean = zm) as K3 by (unfold t; rewrite dens_keeps by reflexivity; reflexivity).
  assert (t x_1 = x) as K4 by (unfold t; rewrite dens_keeps by reflexivity; reflexivity).
  assert (t x_2 = y) as K5 by (unfold t; rewrite dens_keeps by reflexivity; reflexivity).
  val t di_prelude chi_mean. rewrite K3 in V.
  val t di_prelude chi1. rewrite V, K1, K2 in V0.
  val t di_prelude chi2. rewrite V, K1, K2 in V1.
  val t di_prelude costheta. rewrite V, K1, K2 in V2.
  rewrite code_cosine in V2 by (apply Rgt_not_eq; apply near_pos || apply far_pos).
  change (t chi1 = a) in V0. change (t chi2 = b) in V1. change (t costheta = c) in V2.
  val t di_prelude lambda1. rewrite V0, K4 in V3. change (t lambda1 = A) in V3.
  val t di_prelude lambda2. rewrite V1, K5 in V4. change (t lambda2 = B) in V4.
  val t di_prelude z1_const. rewrite V0 in V5. val t di_prelude z2_const. rewrite V1 in V6.
  val t di_prelude z1. rewrite V3 in V7. val t di_prelude z2. rewrite V4 in V8.
  assert (R2 : t r2 = q).
  { unfold t in *. change di_prelude with (firstn 7 di_prelude ++ skipn 7 di_prelude) in *.
    rewrite !dens_app in *.
    set (u := dens E (upd (upd (args zm m s) x_1 x) x_2 y) (firstn 7 di_prelude)) in *.
    rewrite !dens_keeps in V2, V3, V4 by reflexivity. clearbody u.
    change (skipn 7 di_prelude) with
      (firstn 1 (skipn 7 di_prelude) ++ firstn 1 (skipn 8 di_prelude) ++ skipn 9 di_prelude).
    rewrite !dens_app, (dens_keeps r2 E (skipn 9 di_prelude)) by reflexivity.
    set (w := dens E u (firstn 1 (skipn 7 di_prelude))).
    assert (w r2 = q) as W.
    { unfold w. cbn [firstn skipn di_prelude dens den1 eval]. rewrite upd_same, V2, V3, V4.
      unfold q. ring. }
    clearbody w. cbn [firstn skipn di_prelude dens]. rewrite den1_If. cbn [holds eval].
    rewrite W. unfold Rltb. destruct (Rlt_dec q 0) as [N|N]; [pose proof q_pos; lra|].
    exact W. }
  assert (RR : t ren = divergent_table E A B q).
  { unfold t in *. change di_prelude with (firstn 18 di_prelude ++ skipn 18 di_prelude) in *.
    rewrite !dens_app in *.
    set (u := dens E (upd (upd (args zm m s) x_1 x) x_2 y) (firstn 18 di_prelude)) in *.
    rewrite !dens_keeps in R2, V3, V4 by reflexivity. clearbody u.
    cbn [skipn di_prelude dens]. rewrite den1_If. cbn [holds].
    rewrite fl_div. cbn [dens]. rewrite den1_If. cbn [holds eval].
    rewrite R2. unfold Rltb.
    destruct (Rlt_dec ((IZR 1 / IZR 1000000) ^ 2) q) as [N|N]; [|exfalso; apply N; exact Hq].
    cbn [negb dens den1 eval]. rewrite upd_same, R2, V3, V4. reflexivity. }
  constructor; try assumption;
  match goal with |- t ?v = _ => val t di_prelude v end;
  rewrite ?V5, ?V6 in *; assumption.
Qed.

Ltac di_block st :=
  match goal with |- context [body ?l] => unfold l end; cbn [body incr];
  repeat (rewrite incr1_If; cbn [holds eval];
          rewrite ?(w_r2 _ st), ?(Reqb_pos q q_pos), ?(fl_lin _ F), ?(fl_nn _ F); cbn [andb orb negb];
          try match goal with H : Rltb _ q = true |- _ => rewrite H end; cbn [incr]);
  cbn [incr1 eval];
  rewrite ?(w_x _ st), ?(w_y _ st), ?(w_chi1 _ st), ?(w_chi2 _ st), ?(w_c _ st),
    ?(w_l1 _ st), ?(w_l2 _ st), ?(w_r2 _ st), ?(w_zc1 _ st), ?(w_zc2 _ st),
    ?(w_z1 _ st), ?(w_z2 _ st), ?(w_s1 _ st), ?(w_s2 _ st), ?(w_ren _ st).

Ltac di_algebra :=
  unfold A, B in *; unfold Rdiv; rewrite ?Rinv_mult, <- ?pow_inv;
  repeat match goal with
  | |- context [/ spl E bg_a ?z] => generalize (/ spl E bg_a z); intro
  end;
  repeat match goal with
  | |- context [spl E ?f ?z] => generalize (spl E f z); intro
  | |- context [tab1 E ?k ?f ?z] => generalize (tab1 E k f z); intro
  | |- context [tab2 E ?k ?f ?y ?z] => generalize (tab2 E k f y z); intro
  end;
  try (generalize (/ q); intro);
  field; split; apply Rgt_not_eq; apply Hx || apply Hy.

Lemma di_weights : forall X Y, along X = true -> along Y = true -> inconsistent X Y = false ->
  lookup X Y di_blocks <> [] ->
  incr E (di_s0 E zm m s x y) (lookup X Y di_blocks) * (coffe_H0 * par_h E) ^ 4
  = if contrib_beq X Y then correlation E X X a x b y c
    else correlation E X Y a x b y c + correlation E Y X a x b y c.
Proof.
  intros X Y HX HY HI HL.
  pose proof di_state_ok as st.
  assert (Q1 : A ^ 2 + B ^ 2 - 2 * A * B * c = q) by reflexivity.
  assert (Q2 : B ^ 2 + A ^ 2 - 2 * B * A * c = q) by (unfold q; ring).
  assert (ML : Rltb (IZR 1 / IZR 100000000000000000000) q = true).
  { unfold Rltb. destruct (Rlt_dec (IZR 1 / IZR 100000000000000000000) q) as [N|N]; [reflexivity|].
    exfalso. apply N. apply Rlt_trans with (2 := Hq). lra. }
  generalize dependent (di_s0 E zm m s x y). intros t st.
  destruct X; try discriminate HX; destruct Y; try discriminate HY; try discriminate HI;
  try (elim HL; reflexivity); clear HX HY HI HL;
  match goal with |- context [lookup ?X ?Y ?l] =>
    let v := eval cbv [lookup find di_blocks contrib_beq fst snd andb] in (lookup X Y l) in
    change (lookup X Y l) with v end;
  di_block st; cbn [contrib_beq];
  unfold correlation, kernel, weight, place;
  cbn [field_of along rank Nat.leb base]; fold A B;
  rewrite ?Q1, ?Q2; unfold divergent_table, table;
  try (rewrite (fl_ren _ F B A));
  unfold redshift, growth, rate, hubble, factor_a, bias, magnification, evolution, doppler.
  all: try solve [di_algebra].
Qed.

(** g5 and lensing: H (H - 1) in place of H (f - 1). *)
Lemma di_weights_g5_len :
  let ya := redshift E A in let yb := redshift E B in
  incr E (di_s0 E zm m s x y) (lookup g5 len di_blocks) * (coffe_H0 * par_h E) ^ 4
    * ((rate E ya - 1) * (rate E yb - 1))
  = correlation E g5 len a x b y c * ((hubble E ya - 1) * (rate E yb - 1))
    + correlation E len g5 a x b y c * ((hubble E yb - 1) * (rate E ya - 1)).
Proof.
  intros ya yb. unfold ya, yb.
  pose proof di_state_ok as st.
  assert (Q1 : A ^ 2 + B ^ 2 - 2 * A * B * c = q) by reflexivity.
  assert (Q2 : B ^ 2 + A ^ 2 - 2 * B * A * c = q) by (unfold q; ring).
  generalize dependent (di_s0 E zm m s x y). intros t st.
  match goal with |- context [lookup ?X ?Y ?l] =>
    let v := eval cbv [lookup find di_blocks contrib_beq fst snd andb] in (lookup X Y l) in
    change (lookup X Y l) with v end;
  di_block st;
  unfold correlation, kernel, weight, place;
  cbn [field_of along rank Nat.leb base]; fold A B;
  rewrite ?Q1, ?Q2; unfold divergent_table, table;
  unfold redshift, growth, rate, hubble, factor_a, bias, magnification, evolution, doppler.
  di_algebra.
Qed.
End Double.
End Pair.

(** ** Sums over the enabled contributions *)

(** The ordered pairs of enabled contributions of which exactly [n] are along the
    line of sight; pairs of equal contributions are left out by
    only_cross_correlations.  Specification or proof only; nothing in the code. *)
Definition enabled_pairs (S : contrib -> bool) (cross : bool) (n : nat)
    : list (contrib * contrib) :=
  filter (fun p => Nat.eqb (Nat.b2n (along (fst p)) + Nat.b2n (along (snd p))) n
                   && (S (fst p) && S (snd p)
                       && negb (cross && contrib_beq (fst p) (snd p))))
         (list_prod all_contribs all_contribs).

Definition consistent (S : contrib -> bool) : Prop :=
  forall X Y, S X = true -> S Y = true -> inconsistent X Y = false.

Lemma with_set_same : forall E, with_set E (con E) (sw E only_cross) = E.
Proof.
  intros []. unfold with_set. cbn. f_equal. apply functional_extensionality. intros [];
    reflexivity.
Qed.

Section Sums.
Variable S : contrib -> bool.
Variable cross : bool.
Variable f : contrib -> contrib -> R.
Let both (X Y : contrib) : R :=
  if S X && S Y && negb (cross && contrib_beq X Y) then f X Y else 0.
Definition folded (X Y : contrib) : R :=
  if contrib_beq X Y then both X X else both X Y + both Y X.

Ltac sum_blocks bs :=
  unfold enabled_pairs; rewrite sum_filter;
  cbn [all_contribs list_prod map app]; unfold sum_over, bs; cbn [map fold_right fst snd];
  cbn [along Nat.b2n Nat.add Nat.eqb andb fst snd];
  repeat match goal with
    |- context [if S ?X && S ?Y && negb (cross && contrib_beq ?X ?Y) then f ?X ?Y else 0] =>
    change (if S X && S Y && negb (cross && contrib_beq X Y) then f X Y else 0) with (both X Y) end;
  unfold folded; cbn [contrib_beq];
  ring.
Lemma ni_sum : sum_over ni_blocks (fun b => folded (fst (fst b)) (snd (fst b)))
  = sum_over (enabled_pairs S cross 0) (fun p => f (fst p) (snd p)).
Proof. sum_blocks ni_blocks. Qed.
Lemma si_sum : sum_over si_blocks (fun b => folded (fst (fst b)) (snd (fst b)))
  = sum_over (enabled_pairs S cross 1) (fun p => f (fst p) (snd p)).
Proof. sum_blocks si_blocks. Qed.
Lemma di_sum : sum_over di_blocks (fun b => folded (fst (fst b)) (snd (fst b)))
  = sum_over (enabled_pairs S cross 2) (fun p => f (fst p) (snd p)).
Proof. sum_blocks di_blocks. Qed.

Lemma folded_picked : forall E t k p q l,
  (guard S cross p q = true -> incr E t (body l) * k
     = if contrib_beq p q then f p p else f p q + f q p) ->
  picked E t S cross (p, q, l) * k = folded p q.
Proof.
  intros E t k p q l H. unfold picked, folded, both, guard in *.
  destruct (contrib_beq p q) eqn:B.
  - rewrite (internal_contrib_dec_lb p p eq_refl), andb_true_r.
    destruct (S p); cbn [andb] in *; [|ring].
    destruct cross; cbn [negb] in *; [ring|apply H; reflexivity].
  - assert (contrib_beq q p = false) as B'.
    { destruct (contrib_beq q p) eqn:B'; [|reflexivity].
      apply internal_contrib_dec_bl in B'. subst. rewrite internal_contrib_dec_lb in B; congruence. }
    rewrite B', !andb_false_r, (andb_comm (S q)). cbn [negb]. rewrite andb_true_r.
    destruct (S p && S q); [apply H; reflexivity|ring].
Qed.
End Sums.

Lemma sum_ext_in : forall A (l : list A) f g, (forall a, In a l -> f a = g a) ->
  sum_over l f = sum_over l g.
Proof. intros. unfold sum_over. f_equal. apply map_ext_in. assumption. Qed.

Lemma sum_scal_r : forall A (l : list A) c f,
  sum_over l f * c = sum_over l (fun a => f a * c).
Proof.
  intros. rewrite Rmult_comm, <- sum_scal. apply sum_ext. intros. apply Rmult_comm.
Qed.

(** What it takes to compare a configuration with the specification.
    Specification or proof only; nothing in the code. *)
Record in_view (E : env) (zm m s : R) : Prop := {
  iv_linear : full_sky_linear E;
  iv_sep : 0 < s < 2 * spl E bg_comoving_distance zm;
  iv_mu : -1 <= m <= 1;
  iv_threshold : con E rsd = true -> con E len = true -> Rabs m < 999 / 1000 \/ m * m = 1;
  iv_consistent : consistent (con E) }.

Section Final.
Variable E : env.
Variables zm m s : R.
Hypothesis V : in_view E zm m s.
Hypothesis all_present : forall k, present E k = true.
Hypothesis fl_div : sw E divergent = true.
Let a := near E zm m s.
Let b := far E zm m s.
Let c := cosine a b s.

Lemma mu_inside : -1 <= m <= 1.
Proof. exact (iv_mu _ _ _ _ V). Qed.

Lemma guard_both' : forall S x p q, guard S x p q = true -> S p = true /\ S q = true.
Proof.
  intros S x p q H. unfold guard in H. destruct (contrib_beq p q) eqn:B.
  - apply internal_contrib_dec_bl in B. subst. apply andb_true_iff in H. tauto.
  - apply andb_true_iff in H. exact H.
Qed.

Ltac in_cases H :=
  cbn [In] in H; repeat (destruct H as [H|H]; [injection H as <- <- <-|]); try contradiction.

Lemma weights_local :
  value (nonintegrated E zm m s) =
  sum_over (enabled_pairs (con E) (sw E only_cross) 0) (fun p => correlation E (fst p) (snd p) a 1 b 1 c).
Proof.
  pose proof (iv_linear _ _ _ _ V) as F.
  rewrite <- (with_set_same E) at 1.
  rewrite ni_value by exact all_present.
  assert (N : ni_factor E (ni_s0 E zm m s) = growth E (redshift E a) * growth E (redshift E b)).
  { destruct (fl_deriv _ F) as (D1 & D2 & D3 & D4).
    pose proof (ni_state_ok E zm m s (iv_sep _ _ _ _ V) mu_inside) as st.
    unfold ni_factor. rewrite (fl_lin _ F), (fl_local _ F), D1, D2, D3, D4. cbn [andb orb].
    rewrite (n_z1 _ _ _ _ _ st), (n_z2 _ _ _ _ _ st). reflexivity. }
  rewrite N, sum_scal_r, <- (ni_sum (con E) (sw E only_cross) (fun X Y => correlation E X Y a 1 b 1 c)). apply sum_ext_in. intros [[p q] l] HI.
  apply folded_picked. intros G. apply guard_both' in G. destruct G as [G1 G2].
  pose proof (iv_consistent _ _ _ _ V p q G1 G2) as C. clear G1 G2.
  pose proof (ni_weights E F zm m s (iv_sep _ _ _ _ V) mu_inside p q) as W.
  assert (L : lookup p q ni_blocks = body l /\ body l <> [] /\ along p = false /\ along q = false).
  { clear -HI. in_cases HI; repeat split; try reflexivity; discriminate. }
  destruct L as (L & L0 & L1 & L2). rewrite L in W. apply W; assumption.
Qed.

Lemma weights_single : forall x,
  0 < a ^ 2 + (b * x) ^ 2 - 2 * a * (b * x) * c -> 0 < (a * x) ^ 2 + b ^ 2 - 2 * (a * x) * b * c ->
  value (single_integrated E zm m s x) =
  sum_over (enabled_pairs (con E) (sw E only_cross) 1) (fun p => correlation E (fst p) (snd p) a x b x c).
Proof.
  intros x Q1 Q2. pose proof (iv_linear _ _ _ _ V) as F.
  rewrite <- (with_set_same E) at 1.
  rewrite si_value by exact all_present.
  rewrite <- (si_sum (con E) (sw E only_cross) (fun X Y => correlation E X Y a x b x c)). apply sum_ext_in. intros [[p q] l] HI.
  rewrite <- (Rmult_1_r (picked _ _ _ _ _)).
  apply folded_picked. intros G. apply guard_both' in G. destruct G as [G1 G2].
  pose proof (iv_consistent _ _ _ _ V p q G1 G2) as C.
  assert (T : p = rsd -> q = len -> Rabs m < 999 / 1000 \/ m * m = 1)
    by (intros Hp Hq; rewrite Hp in G1; rewrite Hq in G2; exact (iv_threshold _ _ _ _ V G1 G2)).
  clear G1 G2.
  pose proof (si_weights E F fl_div zm m s (iv_sep _ _ _ _ V) mu_inside x Q1 Q2 p q) as W.
  assert (L : lookup p q si_blocks = body l /\ along p = false /\ along q = true /\
              contrib_beq p q = false).
  { clear -HI. in_cases HI; repeat split; reflexivity. }
  destruct L as (L & L1 & L2 & L3). rewrite L in W. cbv beta.
  change (incr E (si_s0 E zm m s x) (body l) * 1 =
    if contrib_beq p q then correlation E p p a x b x c
    else correlation E p q a x b x c + correlation E q p a x b x c).
  rewrite L3, Rmult_1_r. apply W; assumption.
Qed.

Lemma weights_double : forall x y, interior x -> interior y ->
  (1 / 1000000) ^ 2 < (a * x) ^ 2 + (b * y) ^ 2 - 2 * (a * x) * (b * y) * c ->
  value (double_integrated E zm m s x y) =
  sum_over (enabled_pairs (con E) (sw E only_cross) 2) (fun p => correlation E (fst p) (snd p) a x b y c).
Proof.
  intros x y Hx Hy Hq. pose proof (iv_linear _ _ _ _ V) as F.
  rewrite <- (with_set_same E) at 1.
  rewrite di_value by exact all_present.
  rewrite sum_scal_r, <- (di_sum (con E) (sw E only_cross) (fun X Y => correlation E X Y a x b y c)). apply sum_ext_in. intros [[p q] l] HI.
  apply folded_picked. intros G. apply guard_both' in G. destruct G as [G1 G2].
  pose proof (iv_consistent _ _ _ _ V p q G1 G2) as C. clear G1 G2.
  pose proof (di_weights E F fl_div zm m s (iv_sep _ _ _ _ V) mu_inside x y Hx Hy Hq p q) as W.
  assert (L : lookup p q di_blocks = body l /\ body l <> [] /\ along p = true /\ along q = true).
  { clear -HI. in_cases HI; repeat split; try reflexivity; discriminate. }
  destruct L as (L & L0 & L1 & L2). rewrite L in W. apply W; assumption.
Qed.
End Final.

(** ** In the configurations the program can be in *)
(** Specification or proof only; nothing in the code. *)
Definition ready (E : env) : env := complete (set_div E true).

Lemma in_view_ready : forall E zm m s, in_view E zm m s -> in_view (ready E) zm m s.
Proof. intros E zm m s [[D R L1 L2 L3 L4] H2 H3 HT H4]. constructor; try assumption. constructor; assumption. Qed.

Section BuiltE.
Variable E : env.
Variable ells : list Z.
Hypothesis B : built E ells.

Lemma sw_ready : (forall c, con E c = true -> potential c = false) \/ sw E divergent = true.
Proof.
  destruct (sw E divergent) eqn:D; [right; reflexivity|left].
  intros c Hc. destruct (potential c) eqn:P; [|reflexivity].
  rewrite (bu_div _ _ B c Hc P) in D. discriminate.
Qed.

Lemma ready_same : sw E divergent = true -> complete E = ready E.
Proof.
  intros H. unfold ready, complete, set_div. cbn. f_equal.
  apply functional_extensionality. intros []; try reflexivity. exact H.
Qed.
Lemma ready_div : ready E = set_div (complete E) true.
Proof. reflexivity. Qed.

Lemma ni_ready : forall zm m s, nonintegrated E zm m s = nonintegrated (ready E) zm m s.
Proof.
  intros. rewrite (ni_complete E ells B). destruct sw_ready as [H|H].
  - rewrite ready_div, ni_div; [reflexivity|exact H|reflexivity].
  - rewrite ready_same by exact H. reflexivity.
Qed.
Lemma si_ready : forall zm m s x, single_integrated E zm m s x = single_integrated (ready E) zm m s x.
Proof.
  intros. rewrite (si_complete E ells B). destruct sw_ready as [H|H].
  - rewrite ready_div, si_div; [reflexivity|exact H|reflexivity].
  - rewrite ready_same by exact H. reflexivity.
Qed.
Lemma di_ready : forall zm m s x y, double_integrated E zm m s x y = double_integrated (ready E) zm m s x y.
Proof.
  intros. rewrite (di_complete E ells B). destruct sw_ready as [H|H].
  - rewrite ready_div, di_div; [reflexivity|exact H|reflexivity].
  - rewrite ready_same by exact H. reflexivity.
Qed.

Lemma built_local : forall zm m s, in_view E zm m s ->
  value (nonintegrated E zm m s) =
  sum_over (enabled_pairs (con E) (sw E only_cross) 0)
    (fun p => correlation E (fst p) (snd p) (near E zm m s) 1 (far E zm m s) 1
                (cosine (near E zm m s) (far E zm m s) s)).
Proof.
  intros zm m s V. rewrite ni_ready.
  apply (weights_local (ready E)); [apply in_view_ready; exact V|reflexivity].
Qed.
Lemma built_single : forall zm m s x, in_view E zm m s ->
  let a := near E zm m s in let b := far E zm m s in let c := cosine a b s in
  0 < a ^ 2 + (b * x) ^ 2 - 2 * a * (b * x) * c -> 0 < (a * x) ^ 2 + b ^ 2 - 2 * (a * x) * b * c ->
  value (single_integrated E zm m s x) =
  sum_over (enabled_pairs (con E) (sw E only_cross) 1)
    (fun p => correlation E (fst p) (snd p) a x b x c).
Proof.
  intros zm m s x V a b c Q1 Q2. rewrite si_ready.
  apply (weights_single (ready E)); [apply in_view_ready; exact V|reflexivity|reflexivity|exact Q1|exact Q2].
Qed.
Lemma built_double : forall zm m s x y, in_view E zm m s -> interior x -> interior y ->
  let a := near E zm m s in let b := far E zm m s in let c := cosine a b s in
  (1 / 1000000) ^ 2 < (a * x) ^ 2 + (b * y) ^ 2 - 2 * (a * x) * (b * y) * c ->
  value (double_integrated E zm m s x y) =
  sum_over (enabled_pairs (con E) (sw E only_cross) 2)
    (fun p => correlation E (fst p) (snd p) a x b y c).
Proof.
  intros zm m s x y V Hx Hy a b c Hq. rewrite di_ready.
  apply (weights_double (ready E)); [apply in_view_ready; exact V|reflexivity|reflexivity|exact Hx|exact Hy|exact Hq].
Qed.
End BuiltE.

(** ** One pair of different contributions *)
Lemma ni_pair : forall E X Y zm m s, (forall k, present E k = true) ->
  In (X, Y) (map fst ni_blocks) -> X <> Y ->
  con E = pair_set X Y -> sw E only_cross = true ->
  value (nonintegrated E zm m s)
  = incr E (ni_s0 E zm m s) (lookup X Y ni_blocks) * ni_factor E (ni_s0 E zm m s).
Proof.
  intros E X Y zm m s PR HI NE HC HX.
  rewrite <- (with_set_same E) at 1. rewrite ni_value by exact PR. rewrite HC, HX.
  f_equal. generalize (ni_s0 E zm m s). intros t.
  cbn [map fst ni_blocks In] in HI.
  repeat (destruct HI as [HI|HI]; [injection HI as <- <-; try (elim NE; reflexivity);
    unfold sum_over, ni_blocks; cbn [map fold_right]; unfold picked;
    unfold guard, pair_set; cbn [contrib_beq orb andb negb];
    rewrite ?Rplus_0_l, ?Rplus_0_r; reflexivity|]).
  contradiction.
Qed.
Lemma si_pair : forall E X Y zm m s x, (forall k, present E k = true) ->
  In (X, Y) (map fst si_blocks) ->
  con E = pair_set X Y -> sw E only_cross = true ->
  value (single_integrated E zm m s x) = incr E (si_s0 E zm m s x) (lookup X Y si_blocks).
Proof.
  intros E X Y zm m s x PR HI HC HX.
  rewrite <- (with_set_same E) at 1. rewrite si_value by exact PR. rewrite HC, HX.
  generalize (si_s0 E zm m s x). intros t.
  cbn [map fst si_blocks In] in HI.
  repeat (destruct HI as [HI|HI]; [injection HI as <- <-;
    unfold sum_over, si_blocks; cbn [map fold_right]; unfold picked;
    unfold guard, pair_set; cbn [contrib_beq orb andb negb];
    rewrite ?Rplus_0_l, ?Rplus_0_r; reflexivity|]).
  contradiction.
Qed.
Lemma di_pair : forall E X Y zm m s x y, (forall k, present E k = true) ->
  In (X, Y) (map fst di_blocks) -> X <> Y ->
  con E = pair_set X Y -> sw E only_cross = true ->
  value (double_integrated E zm m s x y)
  = incr E (di_s0 E zm m s x y) (lookup X Y di_blocks) * (coffe_H0 * par_h E) ^ 4.
Proof.
  intros E X Y zm m s x y PR HI NE HC HX.
  rewrite <- (with_set_same E) at 1. rewrite di_value by exact PR. rewrite HC, HX.
  f_equal. generalize (di_s0 E zm m s x y). intros t.
  cbn [map fst di_blocks In] in HI.
  repeat (destruct HI as [HI|HI]; [injection HI as <- <-; try (elim NE; reflexivity);
    unfold sum_over, di_blocks; cbn [map fold_right]; unfold picked;
    unfold guard, pair_set; cbn [contrib_beq orb andb negb];
    rewrite ?Rplus_0_l, ?Rplus_0_r; reflexivity|]).
  contradiction.
Qed.
