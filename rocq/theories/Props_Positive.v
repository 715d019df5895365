(** * The covariance of a redshift bin is positive semidefinite: C84 *)
From Coq Require Import ZArith Reals List Lia Lra Bool Arith QArith Qreals FunctionalExtensionality.
From Coquelicot Require Import Coquelicot.
From Coq Require Import List.
From Verif Require Import Arrays Numeric Coupling Covariance CovLemmas Props_Cov Props_Gauss.
Import ListNotations.
Open Scope nat_scope.

(** ** Specification *)
Fixpoint sum {A : Type} (f : A -> R) (l : list A) : R := match l with [] => 0%R | a :: l => (f a + sum f l)%R end.
(** The matrix c over the points D is positive semidefinite. *)
Definition positive_semidefinite {A : Type} (D : list A) (c : A -> A -> R) : Prop :=
  forall w : A -> R, (0 <= sum (fun a => sum (fun b => w a * w b * c a b) D) D)%R.
(** The data points of a redshift: (multipole number, separation number). *)
Definition data (I : cov_in) : list (nat * nat) := list_prod (seq 0 (List.length (ci_ells I))) (seq 0 (List.length (ci_sep I))).
(** What is asked of the numerical integration: linear, and not negative for what is not negative. *)
Definition linear_rule (Q : (R -> R) -> R -> R -> R) : Prop :=
  forall c f g x y, Q (fun q => (c * f q + g q)%R) x y = (c * Q f x y + Q g x y)%R.
Definition positive_rule (Q : (R -> R) -> R -> R -> R) : Prop :=
  forall f x y, (x <= y)%R -> (forall q, (x <= q <= y)%R -> (0 <= f q)%R) -> (0 <= Q f x y)%R.

(** ** Sums *)
Section Sums.
Context {A : Type}.
Implicit Types (f g : A -> R) (l D : list A) (c : A -> A -> R).
Lemma sum_ext : forall f g l, (forall a, In a l -> f a = g a) -> sum f l = sum g l.
Proof. intros f g. induction l as [|a l IH]; intros H; [reflexivity|]. cbn [sum]. rewrite IH, H by (intros; auto with datatypes). reflexivity. Qed.
Lemma sum_plus : forall f g l, sum (fun a => f a + g a)%R l = (sum f l + sum g l)%R.
Proof. intros f g. induction l as [|a l IH]; cbn [sum]; [ring|]. rewrite IH. ring. Qed.
Lemma sum_scale : forall k f l, sum (fun a => k * f a)%R l = (k * sum f l)%R.
Proof. intros k f. induction l as [|a l IH]; cbn [sum]; [ring|]. rewrite IH. ring. Qed.
Lemma sum_0 : forall l, sum (fun _ : A => 0%R) l = 0%R.
Proof. induction l as [|a l IH]; cbn [sum]; [ring|]. rewrite IH. ring. Qed.
Lemma sum_only : forall (eqd : forall x y : A, {x = y} + {x <> y}) f l a, NoDup l -> In a l ->
  sum (fun x => if eqd x a then f x else 0%R) l = f a.
Proof.
  intros eqd f l a N. induction N as [|x l Hx N IH]; intros H; [destruct H|]. cbn [sum].
  destruct (eqd x a) as [->|Ne].
  - rewrite (sum_ext _ (fun _ => 0%R)). { rewrite sum_0. ring. }
    intros y Hy. destruct (eqd y a) as [->|_]; [contradiction|reflexivity].
  - destruct H as [H|H]; [congruence|]. rewrite IH by exact H. ring.
Qed.

End Sums.

Section Matrices.
Context {A : Type}.
Implicit Types (D : list A) (c : A -> A -> R).
Lemma psd_ext : forall D c c', (forall a b, In a D -> In b D -> c a b = c' a b) -> positive_semidefinite D c -> positive_semidefinite D c'.
Proof.
  intros D c c' E H w. specialize (H w).
  rewrite (sum_ext _ (fun a => sum (fun b => w a * w b * c' a b)%R D)) in H; [exact H|].
  intros a Ha. apply sum_ext. intros b Hb. rewrite E by assumption. reflexivity.
Qed.
Lemma psd_plus : forall D c c', positive_semidefinite D c -> positive_semidefinite D c' -> positive_semidefinite D (fun a b => c a b + c' a b)%R.
Proof.
  intros D c c' H H' w. specialize (H w). specialize (H' w).
  rewrite (sum_ext _ (fun a => sum (fun b => w a * w b * c a b)%R D + sum (fun b => w a * w b * c' a b)%R D)%R).
  { rewrite sum_plus. lra. }
  intros a _. rewrite <- sum_plus. apply sum_ext. intros b _. ring.
Qed.
Lemma psd_0 : forall D, positive_semidefinite D (fun _ _ => 0%R).
Proof.
  intros D w. rewrite (sum_ext _ (fun _ => 0%R)). { rewrite sum_0. lra. }
  intros a _. rewrite (sum_ext _ (fun _ => 0%R)); [apply sum_0|]. intros b _. ring.
Qed.
Lemma psd_scale : forall D k c, (0 <= k)%R -> positive_semidefinite D c -> positive_semidefinite D (fun a b => k * c a b)%R.
Proof.
  intros D k c Hk H w. specialize (H w).
  rewrite (sum_ext _ (fun a => k * sum (fun b => w a * w b * c a b) D)%R).
  { rewrite sum_scale. apply Rmult_le_pos; assumption. }
  intros a _. rewrite <- sum_scale. apply sum_ext. intros b _. ring.
Qed.
Lemma psd_if : forall D (b : bool) c, positive_semidefinite D c -> positive_semidefinite D (fun x y => if b then c x y else 0%R).
Proof. intros D [|] c H; [exact H|apply psd_0]. Qed.
(** Rescaling the points. *)
Lemma psd_conj : forall D v c, positive_semidefinite D c -> positive_semidefinite D (fun a b => v a * v b * c a b)%R.
Proof.
  intros D v c H w. specialize (H (fun a => w a * v a)%R).
  rewrite (sum_ext _ (fun a => sum (fun b => w a * v a * (w b * v b) * c a b)%R D)); [exact H|].
  intros a _. apply sum_ext. intros b _. ring.
Qed.
Lemma psd_ones : forall D, positive_semidefinite D (fun _ _ => 1%R).
Proof.
  intros D w. rewrite (sum_ext _ (fun a => sum w D * w a)%R).
  { rewrite sum_scale. change (fun x => w x) with w. nra. }
  intros a _. rewrite (sum_ext _ (fun b => w a * w b)%R) by (intros; ring). rewrite sum_scale. ring.
Qed.
Lemma psd_sum : forall (B : Type) (K : list B) D (c : B -> A -> A -> R), (forall x, In x K -> positive_semidefinite D (c x)) ->
  positive_semidefinite D (fun a b => sum (fun x => c x a b) K).
Proof.
  intros B K D c. induction K as [|x K IH]; intros H; [apply psd_0|]. cbn [sum].
  apply (psd_plus D (c x)); [apply H; left; reflexivity|]. apply IH. intros y Hy. apply H. right. exact Hy.
Qed.
(** Blocks of ones. *)
Lemma psd_blocks : forall (B : Type) (eqd : forall x y : B, {x = y} + {x <> y}) (key : A -> B) (g : B -> R) D,
  (forall a, In a D -> (0 <= g (key a))%R) ->
  positive_semidefinite D (fun a b => if eqd (key a) (key b) then g (key a) else 0%R).
Proof.
  intros B eqd key g D H. set (K := nodup eqd (map key D)).
  apply (psd_ext D (fun a b => sum (fun x => g x * ((if eqd x (key a) then 1 else 0) * (if eqd x (key b) then 1 else 0) * 1))%R K)).
  - intros a b Ha Hb.
    rewrite (sum_ext _ (fun x => if eqd x (key a) then (if eqd (key a) (key b) then g (key a) else 0%R) else 0%R)).
    { rewrite (sum_only eqd (fun _ => if eqd (key a) (key b) then g (key a) else 0%R)); [reflexivity|apply NoDup_nodup|].
      apply nodup_In. apply in_map. exact Ha. }
    intros x _. destruct (eqd x (key a)) as [->|_]; [|ring]. destruct (eqd (key a) (key b)); ring.
  - apply (psd_sum B K D (fun x a b => g x * ((if eqd x (key a) then 1 else 0) * (if eqd x (key b) then 1 else 0) * 1))%R).
    intros x Hx. apply psd_scale.
    + unfold K in Hx. apply nodup_In in Hx. apply in_map_iff in Hx. destruct Hx as (a & <- & Ha). apply H. exact Ha.
    + apply (psd_conj D (fun a => if eqd x (key a) then 1%R else 0%R)). apply psd_ones.
Qed.
(** A functional that is linear and not negative on a class of functions. *)
Lemma psd_functional : forall (L : (R -> R) -> R) (C : (R -> R) -> Prop) (S : R -> Prop) D (g : A -> A -> R -> R),
  C (fun _ => 0%R) -> L (fun _ => 0%R) = 0%R ->
  (forall k f h, C f -> C h -> C (fun x => (k * f x + h x)%R)) ->
  (forall k f h, C f -> C h -> L (fun x => (k * f x + h x)%R) = (k * L f + L h)%R) ->
  (forall f, C f -> (forall x, S x -> (0 <= f x)%R) -> (0 <= L f)%R) ->
  (forall a b, In a D -> In b D -> C (g a b)) ->
  (forall x, S x -> positive_semidefinite D (fun a b => g a b x)) ->
  positive_semidefinite D (fun a b => L (g a b)).
Proof.
  intros L C S D g C0 L0 Cc Lc Lp Cg H w.
  assert (Ex : forall f h : R -> R, (forall x, f x = h x) -> f = h) by (intros; apply functional_extensionality; assumption).
  (* one row *)
  assert (Row : forall a l, In a D -> (forall b, In b l -> In b D) ->
     C (fun x => sum (fun b => w a * w b * g a b x)%R l) /\ L (fun x => sum (fun b => w a * w b * g a b x)%R l) = sum (fun b => w a * w b * L (g a b))%R l).
  { intros a l Ha. induction l as [|b l IH]; intros Hl; [split; [exact C0|exact L0]|].
    destruct IH as [I1 I2]; [intros; apply Hl; right; assumption|]. cbn [sum].
    split; [apply Cc|rewrite Lc, I2; [reflexivity| |]]; try exact I1; apply Cg; try assumption; apply Hl; left; reflexivity. }
  assert (All : forall l, (forall a, In a l -> In a D) ->
     C (fun x => sum (fun a => sum (fun b => w a * w b * g a b x)%R D) l)
     /\ L (fun x => sum (fun a => sum (fun b => w a * w b * g a b x)%R D) l) = sum (fun a => sum (fun b => w a * w b * L (g a b))%R D) l).
  { induction l as [|a l IH]; intros Hl; [split; [exact C0|exact L0]|].
    destruct IH as [I1 I2]; [intros; apply Hl; right; assumption|].
    destruct (Row a D) as [R1 R2]; [apply Hl; left; reflexivity|intros; assumption|]. cbn [sum].
    assert (E : (fun x => sum (fun b => w a * w b * g a b x)%R D + sum (fun a => sum (fun b => w a * w b * g a b x)%R D) l)%R
              = (fun x => 1 * sum (fun b => w a * w b * g a b x)%R D + sum (fun a => sum (fun b => w a * w b * g a b x)%R D) l)%R)
      by (apply Ex; intros; ring).
    rewrite E. split; [apply Cc; assumption|]. rewrite Lc by assumption. rewrite R2, I2. ring. }
  destruct (All D) as [A1 A2]; [intros; assumption|]. rewrite <- A2. apply Lp; [exact A1|].
  intros x Sx. apply H. exact Sx.
Qed.
(** Two points among them. *)
Lemma psd_two : forall (eqd : forall x y : A, {x = y} + {x <> y}) D c a b, NoDup D -> In a D -> In b D -> positive_semidefinite D c ->
  forall u v, (0 <= u * u * c a a + u * v * c a b + v * u * c b a + v * v * c b b)%R.
Proof.
  intros eqd D c a b N Ha Hb H u v.
  pose (w := fun x => ((if eqd x a then u else 0) + (if eqd x b then v else 0))%R).
  assert (S : forall f, sum (fun x => w x * f x)%R D = (u * f a + v * f b)%R).
  { intros f. rewrite (sum_ext _ (fun x => (if eqd x a then u * f x else 0) + (if eqd x b then v * f x else 0))%R).
    - rewrite sum_plus, (sum_only eqd (fun x => u * f x)%R), (sum_only eqd (fun x => v * f x)%R) by assumption. reflexivity.
    - intros x _. unfold w. destruct (eqd x a), (eqd x b); ring. }
  specialize (H w). rewrite (sum_ext _ (fun x => w x * (u * c x a + v * c x b))%R) in H.
  - rewrite S in H. nra.
  - intros x _. rewrite (sum_ext _ (fun y => w x * (w y * c x y))%R) by (intros; ring). rewrite sum_scale, S. reflexivity.
Qed.
Lemma psd_diagonal : forall (eqd : forall x y : A, {x = y} + {x <> y}) D c a, NoDup D -> In a D -> positive_semidefinite D c -> (0 <= c a a)%R.
Proof. intros eqd D c a N Ha H. pose proof (psd_two eqd D c a a N Ha Ha H 1 0)%R. lra. Qed.
Lemma psd_cauchy : forall (eqd : forall x y : A, {x = y} + {x <> y}) D c a b, NoDup D -> In a D -> In b D -> positive_semidefinite D c ->
  c a b = c b a -> (c a b ^ 2 <= c a a * c b b)%R.
Proof.
  intros eqd D c a b N Ha Hb H Sy.
  pose proof (psd_two eqd D c a b N Ha Hb H) as T. rewrite <- Sy in T.
  pose proof (psd_diagonal eqd D c a N Ha H) as Pa. pose proof (psd_diagonal eqd D c b N Hb H) as Pb.
  set (x := c a b) in *. set (p := c a a) in *. set (q := c b b) in *.
  destruct (Rle_lt_or_eq_dec 0 p Pa) as [P|P].
  - specialize (T (- x) p)%R. assert (0 <= p * (p * q - x ^ 2))%R by nra. nra.
  - rewrite <- P in *. destruct (Req_dec x 0) as [->|Nx]; [nra|]. specialize (T (- (q + 1) / x) 1)%R.
    assert (E : (- (q + 1) / x * 1 * x = - (q + 1))%R) by (field; exact Nx). nra.
Qed.
End Matrices.

Lemma NoDup_prod : forall (A B : Type) (l : list A) (l' : list B), NoDup l -> NoDup l' -> NoDup (list_prod l l').
Proof.
  intros A B l l' N N'. induction N as [|a l Ha N IH]; [constructor|]. cbn [list_prod].
  assert (G : forall m : list B, NoDup m -> (forall y, In (a, y) (map (fun y => (a, y)) m ++ list_prod l l') -> In y m) ->
     NoDup (map (fun y => (a, y)) m ++ list_prod l l')).
  { intros m Nm. induction Nm as [|y m Hy Nm IHm]; intros Hm; [exact IH|]. cbn [map app]. constructor.
    - intros H. apply in_app_or in H. destruct H as [H|H].
      + apply in_map_iff in H. destruct H as (y' & E & H). injection E as ->. contradiction.
      + apply in_prod_iff in H. tauto.
    - apply IHm. intros y' H. apply in_app_or in H. destruct H as [H|H].
      + apply in_map_iff in H. destruct H as (y2 & E & H). injection E as ->. exact H.
      + apply in_prod_iff in H. tauto. }
  apply G; [exact N'|]. intros y H. apply in_app_or in H. destruct H as [H|H].
  - apply in_map_iff in H. destruct H as (y2 & E & H). injection E as ->. exact H.
  - apply in_prod_iff in H. tauto.
Qed.
Lemma data_nodup : forall I, NoDup (data I).
Proof. intros I. apply NoDup_prod; apply seq_NoDup. Qed.
Lemma in_data : forall I i m, In (i, m) (data I) <-> i < List.length (ci_ells I) /\ m < List.length (ci_sep I).
Proof. intros I i m. unfold data. rewrite in_prod_iff, !in_seq. lia. Qed.

(** ** The setting *)
(** The covariance of one set of multipoles with itself: the populations of the first data point are those of the second.
    The spectrum is not negative, and bins, densities, separations and pixels are as they are in a survey. *)
Record survey_bin (X : cov_ext) (I : cov_in) (k : nat) (b : bin) : Prop := {
  sb_shape : shape_ok I;
  sb_k : k < redshifts I;
  sb_bin : bin_of X I k = Some b;
  sb_pop13 : ci_pop1 I = ci_pop3 I;
  sb_pop24 : ci_pop2 I = ci_pop4 I;
  sb_standard : ci_fftlog I = false;
  sb_nonlinear : ci_nonlinear I = true -> ci_class I = true /\ ci_avg I = false;
  sb_pk2 : forall q, e_pk2 X q = (e_pk X q ^ 2)%R;
  sb_zpk2 : forall z q, e_zpk2 X z q = (e_zpk X z q ^ 2)%R;
  sb_linear : linear_rule (e_quad X);
  sb_positive : positive_rule (e_quad X);
  sb_range : (k_from X I <= k_to X I)%R;
  sb_spectrum : forall q, (k_from X I <= q <= k_to X I)%R -> (0 <= spectrum_at X I (b_z b) q)%R;
  sb_ells : forall l, In l (ci_ells I) -> (0 <= l <= 10)%Z;
  sb_sep : forall r, In r (ci_sep I) -> (0 < r)%R;
  sb_pix : forall p, In p (ci_pix I) -> (0 < p)%R;
  sb_volume : (0 < b_volume b)%R;
  sb_n1 : (0 < b_n1 b)%R;
  sb_n2 : (0 < b_n2 b)%R
}.

(** ** Angular averages *)
Lemma psd_angular : forall (A : Type) (D : list A) (ell : A -> nat) (W : R -> R),
  (forall x, continuous W x) -> (forall x, (0 <= W x)%R) ->
  positive_semidefinite D (fun a b => RInt (fun mu => Leg (ell a) mu * Leg (ell b) mu * W mu)%R (-1) 1).
Proof.
  intros A D ell W Wc Wp.
  assert (Ex : forall f : R -> R, (forall x, continuous f x) -> ex_RInt f (-1) 1).
  { intros f Hf. apply (ex_RInt_continuous (V := R_CompleteNormedModule)). intros; apply Hf. }
  apply (psd_functional (fun f => RInt f (-1) 1) (fun f => forall x, continuous f x) (fun _ => True) D
           (fun a b mu => Leg (ell a) mu * Leg (ell b) mu * W mu)%R).
  - intros x. apply continuous_const.
  - rewrite RInt_const. apply Rmult_0_r.
  - intros k f h Hf Hh x. apply (continuous_plus (fun x => k * f x)%R h); [|apply Hh].
    apply (continuous_mult (fun _ => k) f); [apply continuous_const|apply Hf].
  - intros k f h Hf Hh.
    etransitivity; [apply (RInt_plus (V := R_CompleteNormedModule) (fun x => k * f x)%R h); [|apply Ex; exact Hh]|].
    + apply Ex. intros x. apply (continuous_mult (fun _ => k) f); [apply continuous_const|apply Hf].
    + unfold plus; cbn. f_equal. apply (RInt_scal (V := R_CompleteNormedModule) f). apply Ex. exact Hf.
  - intros f Hf Hp. apply RInt_ge_0; [lra|apply Ex; exact Hf|]. intros x _. apply Hp. exact Logic.I.
  - intros a b _ _ x. apply (continuous_mult (fun x => Leg (ell a) x * Leg (ell b) x)%R W); [|apply Wc].
    apply (continuous_mult (Leg (ell a)) (Leg (ell b))); apply peval_continuous.
  - intros x _. apply (psd_ext D (fun a b => Leg (ell a) x * Leg (ell b) x * (W x * 1))%R); [intros; ring|].
    apply (psd_conj D (fun a => Leg (ell a) x) (fun _ _ => W x * 1)%R). apply (psd_scale D (W x) (fun _ _ => 1%R)); [apply Wp|]. apply psd_ones.
Qed.
Lemma kaiser_continuous : forall b1 b2 f x, continuous (kaiser b1 b2 f) x.
Proof. intros b1 b2 f x. apply (ex_derive_continuous (kaiser b1 b2 f)). unfold kaiser. auto_derive. exact Logic.I. Qed.
Lemma kaiser_square : forall b f x, (0 <= kaiser b b f x)%R.
Proof. intros b f x. unfold kaiser. apply Rle_0_sqr. Qed.
Lemma kaiser_cross : forall b1 b2 f x, (0 <= kaiser b1 b2 f x * kaiser b2 b1 f x)%R.
Proof.
  intros b1 b2 f x. unfold kaiser.
  replace ((b1 + f * x ^ 2) * (b2 + f * x ^ 2) * ((b2 + f * x ^ 2) * (b1 + f * x ^ 2)))%R
    with (((b1 + f * x ^ 2) * (b2 + f * x ^ 2)) ^ 2)%R by ring. apply pow2_ge_0.
Qed.

Section Bin.
Context (X : cov_ext) (I : cov_in) (k : nat) (b : bin) (H : survey_bin X I k b).
Let D := data I.
Let ell (a : nat * nat) : nat := Z.to_nat (nth (fst a) (ci_ells I) 0%Z).
Let sep (a : nat * nat) : R := nth (snd a) (ci_sep I) 0%R.

Lemma data_at : forall a, In a D -> nth_error (ci_ells I) (fst a) = Some (Z.of_nat (ell a)) /\ ell a <= 10
  /\ nth_error (ci_sep I) (snd a) = Some (sep a).
Proof.
  intros [i m] Ha. apply in_data in Ha. destruct Ha as [Hi Hm]. unfold ell, sep. cbn [fst snd].
  assert (L : In (nth i (ci_ells I) 0%Z) (ci_ells I)) by (apply nth_In; exact Hi).
  apply (sb_ells _ _ _ _ H) in L.
  split; [|split; [lia|apply nth_error_nth'; exact Hm]]. rewrite Z2Nat.id by lia. apply nth_error_nth'. exact Hi.
Qed.
Lemma data_range : forall a c, In a D -> In c D -> in_range I k (fst a) (snd a) (fst c) (snd c).
Proof.
  intros [i m] [j n] Ha Hc. apply in_data in Ha. apply in_data in Hc. unfold in_range. cbn [fst snd]. pose proof (sb_k _ _ _ _ H). tauto.
Qed.

Lemma psd_cosmic_angular : positive_semidefinite D (fun a c => cosmic_angular I (b_z b) (ell a) (ell c)).
Proof.
  unfold cosmic_angular. rewrite <- (sb_pop13 _ _ _ _ H), <- (sb_pop24 _ _ _ _ H). unfold spectrum_factor.
  apply (psd_angular _ D ell).
  - intros x. apply (continuous_plus (fun mu => kaiser _ _ _ mu * kaiser _ _ _ mu)%R (fun mu => kaiser _ _ _ mu * kaiser _ _ _ mu)%R);
      apply (continuous_mult (kaiser _ _ _) (kaiser _ _ _)); apply kaiser_continuous.
  - intros x. apply Rplus_le_le_0_compat; [apply Rmult_le_pos; apply kaiser_square|apply kaiser_cross].
Qed.
Lemma psd_mixed_angular : positive_semidefinite D (fun a c => mixed_angular I (b_z b) (b_n1 b) (b_n2 b) (ell a) (ell c)).
Proof.
  unfold mixed_angular. rewrite <- (sb_pop13 _ _ _ _ H), <- (sb_pop24 _ _ _ _ H). unfold spectrum_factor.
  assert (N1 : (0 < / b_n1 b)%R) by (apply Rinv_0_lt_compat; apply (sb_n1 _ _ _ _ H)).
  assert (N2 : (0 < / b_n2 b)%R) by (apply Rinv_0_lt_compat; apply (sb_n2 _ _ _ _ H)).
  apply (psd_angular _ D ell).
  - intros x. repeat (apply (continuous_plus (V := R_NormedModule)));
      apply (continuous_mult (kaiser _ _ _) (fun _ => _)); (apply kaiser_continuous || apply continuous_const).
  - intros x.
    assert (S : forall p, same p p = 1%R) by (intros p; unfold same; destruct (Z.eq_dec p p); congruence).
    rewrite !S. unfold same. unfold Rdiv.
    destruct (Z.eq_dec (ci_pop2 I) (ci_pop1 I)) as [E|E]; destruct (Z.eq_dec (ci_pop1 I) (ci_pop2 I)) as [E'|E']; try congruence.
    + rewrite E. pose proof (kaiser_square (spec_bias I (b_z b) (ci_pop1 I)) (spec_growth I (b_z b)) x). nra.
    + pose proof (kaiser_square (spec_bias I (b_z b) (ci_pop1 I)) (spec_growth I (b_z b)) x).
      pose proof (kaiser_square (spec_bias I (b_z b) (ci_pop2 I)) (spec_growth I (b_z b)) x). nra.
Qed.

(** Opposite parities: nothing. *)
Lemma parity : forall l1 l2, Nat.even (l1 + l2) = false -> forall a c, Z.even a = true -> Z.even c = true ->
  coupling (Z.of_nat l1) (Z.of_nat l2) a c = 0%R.
Proof.
  intros l1 l2 E a c Ea Ec. unfold coupling. rewrite legendre_odd; [apply RMicromega.Q2R_0|].
  rewrite <- even_nat in E. rewrite <- Z.negb_odd in E. rewrite Nat2Z.inj_add in E.
  apply Z.odd_spec. rewrite !Z.odd_add. rewrite Z.odd_add in E. rewrite <- !Z.negb_even in *. rewrite Ea, Ec.
  destruct (Z.even (Z.of_nat l1)), (Z.even (Z.of_nat l2)); cbn in *; congruence.
Qed.
Lemma cosmic_parity : forall z l1 l2, l1 <= 10 -> l2 <= 10 -> Nat.even (l1 + l2) = false -> cosmic_angular I z l1 l2 = 0%R.
Proof.
  intros z l1 l2 H1 H2 E. pose proof (cosmic_is_angular I z l1 l2 H1 H2) as A. unfold cosmic_sum in A.
  cbn [even_orders list_prod map app fold_left] in A. rewrite !(parity l1 l2 E) in A by reflexivity. lra.
Qed.
Lemma mixed_parity : forall l1 l2, l1 <= 10 -> l2 <= 10 -> Nat.even (l1 + l2) = false -> mixed_angular I (b_z b) (b_n1 b) (b_n2 b) l1 l2 = 0%R.
Proof.
  intros l1 l2 H1 H2 E. pose proof (mixed_is_angular I b l1 l2 H1 H2) as A. unfold mixed_sum in A.
  cbn [even_orders fold_left] in A. rewrite !(parity l1 l2 E) in A by reflexivity. lra.
Qed.
(** The sign belongs to the data points. *)
Definition point_sign (l : nat) : R := if Nat.even (l / 2) then 1%R else (-1)%R.
Lemma sign_split : forall l1 l2, Nat.even (l1 + l2) = true ->
  (if Nat.even ((Nat.max l1 l2 - Nat.min l1 l2) / 2) then 1 else -1)%R = (point_sign l1 * point_sign l2)%R.
Proof.
  assert (G : forall x d, (if Nat.even (((x + 2 * d) - x) / 2) then 1 else -1)%R = (point_sign x * point_sign (x + 2 * d))%R).
  { intros x d. unfold point_sign. replace (x + 2 * d - x) with (d * 2) by lia. rewrite Nat.div_mul by lia.
    replace (x + 2 * d) with (x + d * 2) by lia. rewrite Nat.div_add, Nat.even_add by lia.
    destruct (Nat.even d), (Nat.even (x / 2)); cbn; ring. }
  intros l1 l2 E. apply Nat.even_spec in E. destruct E as [h E].
  destruct (Nat.le_ge_cases l1 l2) as [L|L].
  - rewrite Nat.max_r, Nat.min_l by lia. replace l2 with (l1 + 2 * (h - l1)) by lia. apply G.
  - rewrite Nat.max_l, Nat.min_r by lia. replace l1 with (l2 + 2 * (h - l2)) by lia. rewrite G. ring.
Qed.

(** Angular average and transform together. *)
Lemma psd_transform : forall (Ang : nat * nat -> nat * nat -> R) (g : R -> R) pix, positive_semidefinite D Ang ->
  (forall q, (k_from X I <= q <= k_to X I)%R -> (0 <= g q)%R) ->
  positive_semidefinite D (fun a c => (Ang a c * e_quad X (fun q => q ^ 2 * g q * windowed_bessel X (Z.of_nat (ell a)) q (sep a) pix
      * windowed_bessel X (Z.of_nat (ell c)) q (sep c) pix) (k_from X I) (k_to X I))%R).
Proof.
  intros Ang g pix PA Pg. pose proof (sb_linear _ _ _ _ H) as Li. pose proof (sb_positive _ _ _ _ H) as Po. pose proof (sb_range _ _ _ _ H) as Ra.
  assert (Z0 : forall x y, e_quad X (fun _ => 0%R) x y = 0%R).
  { intros x y. pose proof (Li (-1) (fun _ => 0) (fun _ => 0) x y)%R as E. cbv beta in E.
    replace (fun _ : R => (-1 * 0 + 0)%R) with (fun _ : R => 0%R) in E by (apply functional_extensionality; intros; ring). lra. }
  assert (Sc : forall c f x y, (c * e_quad X f x y)%R = e_quad X (fun q => c * f q + 0)%R x y) by (intros; rewrite Li, Z0; ring).
  apply (psd_ext D (fun a c => e_quad X (fun q => Ang a c * (q ^ 2 * g q * windowed_bessel X (Z.of_nat (ell a)) q (sep a) pix
      * windowed_bessel X (Z.of_nat (ell c)) q (sep c) pix) + 0)%R (k_from X I) (k_to X I))); [intros; symmetry; apply Sc|].
  apply (psd_functional (fun f => e_quad X f (k_from X I) (k_to X I)) (fun _ => True) (fun q => k_from X I <= q <= k_to X I)%R D
    (fun a c q => Ang a c * (q ^ 2 * g q * windowed_bessel X (Z.of_nat (ell a)) q (sep a) pix
      * windowed_bessel X (Z.of_nat (ell c)) q (sep c) pix) + 0)%R); try (intros; exact Logic.I).
  - apply Z0.
  - intros; apply Li.
  - intros f _ Hf. apply Po; assumption.
  - intros q Hq. apply (psd_ext D (fun a c => windowed_bessel X (Z.of_nat (ell a)) q (sep a) pix * windowed_bessel X (Z.of_nat (ell c)) q (sep c) pix
        * (q ^ 2 * g q * Ang a c))%R); [intros; ring|].
    apply (psd_conj D (fun a => windowed_bessel X (Z.of_nat (ell a)) q (sep a) pix)). apply psd_scale; [|exact PA].
    apply Rmult_le_pos; [apply pow2_ge_0|apply Pg; exact Hq].
Qed.

Lemma window_some : exists pix, (if ci_window I then nth_error (ci_pix I) (if ci_nonlinear I then k else 0) else Some 0%R) = Some pix.
Proof.
  destruct (ci_window I); [|eexists; reflexivity].
  pose proof (sb_shape _ _ _ _ H) as S. pose proof (sh_pix _ S). pose proof (sh_some _ S). pose proof (sb_k _ _ _ _ H).
  destruct (nth_error_lt _ (ci_pix I) (if ci_nonlinear I then k else 0)) as [p E]; [destruct (ci_nonlinear I); lia|]. exists p. exact E.
Qed.
Definition value (o : option R) : R := match o with Some v => v | None => 0%R end.

Lemma psd_gaussian :
  positive_semidefinite D (fun a c => value (cov X (mixed_only I) k (fst a) (snd a) (fst c) (snd c)))
  /\ positive_semidefinite D (fun a c => value (cov X (cosmic_only I) k (fst a) (snd a) (fst c) (snd c))).
Proof.
  destruct window_some as [pix Ep].
  set (v := fun a => (point_sign (ell a) * IZR (2 * Z.of_nat (ell a) + 1))%R).
  set (P := spectrum_at X I (b_z b)).
  set (tr := fun (g : R -> R) a c => e_quad X (fun q => q ^ 2 * g q * windowed_bessel X (Z.of_nat (ell a)) q (sep a) pix
      * windowed_bessel X (Z.of_nat (ell c)) q (sep c) pix)%R (k_from X I) (k_to X I)).
  assert (Vp : (0 <= / (4 * PI ^ 2 * b_volume b))%R).
  { left. apply Rinv_0_lt_compat. pose proof (sb_volume _ _ _ _ H). pose proof PI_RGT_0. apply Rmult_lt_0_compat; [|assumption]. nra. }
  assert (Ho : forall c f x y, e_quad X (fun q => (c * f q)%R) x y = (c * e_quad X f x y)%R).
  { intros c f x y. pose proof (sb_linear _ _ _ _ H) as Li.
    pose proof (Li (-1) (fun _ => 0) (fun _ => 0) x y)%R as E. cbv beta in E.
    replace (fun _ : R => (-1 * 0 + 0)%R) with (fun _ : R => 0%R) in E by (apply functional_extensionality; intros; ring).
    pose proof (Li c f (fun _ => 0%R) x y) as E2. cbv beta in E2.
    replace (fun q => (c * f q + 0)%R) with (fun q => (c * f q)%R) in E2 by (apply functional_extensionality; intros; ring). lra. }
  assert (G : forall a c, In a D -> In c D ->
     cov X (mixed_only I) k (fst a) (snd a) (fst c) (snd c)
       = Some (v a * v c * (/ (4 * PI ^ 2 * b_volume b) * (mixed_angular I (b_z b) (b_n1 b) (b_n2 b) (ell a) (ell c) * tr P a c)))%R
     /\ cov X (cosmic_only I) k (fst a) (snd a) (fst c) (snd c)
       = Some (v a * v c * (/ (4 * PI ^ 2 * b_volume b) * (cosmic_angular I (b_z b) (ell a) (ell c) * tr (fun q => P q ^ 2)%R a c)))%R).
  { intros a c Ha Hc. destruct (data_at a Ha) as (A1 & A2 & A3). destruct (data_at c Hc) as (C1 & C2 & C3).
    destruct (C63_gaussian_partial X I k (fst a) (snd a) (fst c) (snd c) b (ell a) (ell c) (sep a) (sep c) pix
      (sb_shape _ _ _ _ H) (data_range a c Ha Hc) (sb_standard _ _ _ _ H) (sb_nonlinear _ _ _ _ H) (sb_pk2 _ _ _ _ H) (sb_zpk2 _ _ _ _ H)
      Ho (sb_bin _ _ _ _ H) A2 C2 A1 C1 A3 C3 Ep) as [M C].
    fold P in M, C. rewrite M, C. clear M C.
    change (e_quad X (fun q => q ^ 2 * P q * windowed_bessel X (Z.of_nat (ell a)) q (sep a) pix
      * windowed_bessel X (Z.of_nat (ell c)) q (sep c) pix)%R (k_from X I) (k_to X I)) with (tr P a c).
    change (e_quad X (fun q => q ^ 2 * P q ^ 2 * windowed_bessel X (Z.of_nat (ell a)) q (sep a) pix
      * windowed_bessel X (Z.of_nat (ell c)) q (sep c) pix)%R (k_from X I) (k_to X I)) with (tr (fun q => P q ^ 2)%R a c).
    unfold v. destruct (Nat.even (ell a + ell c)) eqn:E.
    - rewrite sign_split by exact E. unfold Rdiv. split; apply f_equal; ring.
    - rewrite mixed_parity, cosmic_parity by assumption. split; apply f_equal; ring. }
  split.
  - apply (psd_ext D (fun a c => v a * v c * (/ (4 * PI ^ 2 * b_volume b) * (mixed_angular I (b_z b) (b_n1 b) (b_n2 b) (ell a) (ell c) * tr P a c)))%R).
    { intros a c Ha Hc. rewrite (proj1 (G a c Ha Hc)). reflexivity. }
    apply psd_conj. apply psd_scale; [exact Vp|]. apply (psd_transform _ P pix psd_mixed_angular). apply (sb_spectrum _ _ _ _ H).
  - apply (psd_ext D (fun a c => v a * v c * (/ (4 * PI ^ 2 * b_volume b) * (cosmic_angular I (b_z b) (ell a) (ell c) * tr (fun q => P q ^ 2) a c)))%R).
    { intros a c Ha Hc. rewrite (proj2 (G a c Ha Hc)). reflexivity. }
    apply psd_conj. apply psd_scale; [exact Vp|]. apply (psd_transform _ (fun q => P q ^ 2)%R pix psd_cosmic_angular).
    intros q _. apply pow2_ge_0.
Qed.

Lemma psd_poisson : positive_semidefinite D (fun a c => value (cov X (poisson_only I) k (fst a) (snd a) (fst c) (snd c))).
Proof.
  pose proof (sb_shape _ _ _ _ H) as S.
  destruct (nth_error_lt _ (ci_pix I) k) as [pix Ep]; [rewrite (sh_pix _ S); apply (sb_k _ _ _ _ H)|].
  pose proof (sb_pix _ _ _ _ H pix (nth_error_In _ _ Ep)) as Pp.
  pose (g := fun x : nat * nat => (IZR (2 * Z.of_nat (fst x) + 1) / 4 / PI * (1 + sgn (Z.of_nat (fst x)) * (same (ci_pop1 I) (ci_pop2 I)) ^ 2)
     * (if ci_window I then 1 / shell (nth (snd x) (ci_sep I) 0 - pix / 2) (nth (snd x) (ci_sep I) 0 + pix / 2)
        else 1 / nth (snd x) (ci_sep I) 0 / nth (snd x) (ci_sep I) 0 / pix)
     / b_n1 b / b_n2 b / b_volume b)%R).
  assert (eqd : forall x y : nat * nat, {x = y} + {x <> y}) by (intros; decide equality; apply Nat.eq_dec).
  apply (psd_ext D (fun a c => if eqd (ell a, snd a) (ell c, snd c) then g (ell a, snd a) else 0%R)).
  - intros a c Ha Hc. destruct (data_at a Ha) as (A1 & A2 & A3). destruct (data_at c Hc) as (C1 & C2 & C3).
    rewrite cov_entry by (try apply shape_parts; try exact S; apply data_range; assumption). unfold entry_at.
    change (bin_of X (poisson_only I) k) with (bin_of X I k). rewrite (sb_bin _ _ _ _ H).
    change (ci_ells (poisson_only I)) with (ci_ells I). rewrite A1, C1.
    unfold poisson_part, mixed_entry, cosmic_entry. cbn [poisson_only with_parts ci_poisson ci_pix ci_sep ci_mixed ci_cosmic ci_window ci_pop1 ci_pop2 ci_pop3 ci_pop4].
    rewrite Ep, A3, C3. cbn [value]. rewrite <- (sb_pop13 _ _ _ _ H), <- (sb_pop24 _ _ _ _ H), <- !same_kr.
    assert (S1 : forall p, same p p = 1%R) by (intros p; unfold same; destruct (Z.eq_dec p p); congruence).
    assert (S2 : same (ci_pop2 I) (ci_pop1 I) = same (ci_pop1 I) (ci_pop2 I)).
    { unfold same. destruct (Z.eq_dec (ci_pop2 I) (ci_pop1 I)), (Z.eq_dec (ci_pop1 I) (ci_pop2 I)); congruence. }
    rewrite S2, !(S1 (ci_pop1 I)), !(S1 (ci_pop2 I)).
    destruct (eqd (ell a, snd a) (ell c, snd c)) as [E|E].
    + injection E as E1 E2. unfold g. cbn [fst snd]. unfold sep. rewrite <- E1, <- E2, !S1. unfold Rdiv. ring.
    + unfold same at 1 2. destruct (Z.eq_dec (Z.of_nat (ell a)) (Z.of_nat (ell c))) as [E1|E1]; [|unfold Rdiv; ring].
      destruct (Z.eq_dec (Z.of_nat (snd a)) (Z.of_nat (snd c))) as [E2|E2]; [|unfold Rdiv; ring].
      exfalso. apply E. f_equal; lia.
  - apply psd_blocks. intros [i m] Ha. unfold g. cbn [fst snd]. set (l := ell (i, m)).
    apply in_data in Ha. destruct Ha as [_ Hm].
    pose proof (sb_sep _ _ _ _ H (nth m (ci_sep I) 0%R) (nth_In _ _ Hm)) as Pr. set (r := nth m (ci_sep I) 0%R) in *.
    pose proof (sb_volume _ _ _ _ H) as Pv. pose proof (sb_n1 _ _ _ _ H) as P1. pose proof (sb_n2 _ _ _ _ H) as P2.
    assert (Si : (0 <= 1 + sgn (Z.of_nat l) * (same (ci_pop1 I) (ci_pop2 I)) ^ 2)%R).
    { unfold sgn, csign, same. destruct (_ =? 0)%Z, (Z.eq_dec _ _); lra. }
    assert (Sh : (0 < shell (r - pix / 2) (r + pix / 2))%R).
    { replace (shell (r - pix / 2) (r + pix / 2)) with (r * r * pix + pix * (pix * pix) / 12)%R by (unfold shell; field).
      assert (0 < r * r * pix)%R by (repeat apply Rmult_lt_0_compat; assumption).
      assert (0 < pix * (pix * pix))%R by (repeat apply Rmult_lt_0_compat; assumption). lra. }
    unfold Rdiv. repeat apply Rmult_le_pos; try exact Si; try (left; apply Rinv_0_lt_compat; (lra || apply PI_RGT_0)).
    + apply IZR_le. lia.
    + destruct (ci_window I); repeat apply Rmult_le_pos; try lra; left; apply Rinv_0_lt_compat; assumption.
Qed.
End Bin.

(** ** C84 *)
(** Whatever the parts asked for, the covariance between the data points of a redshift is that of some random data:
    no combination of them has a negative variance, so that it can be inverted after adding any noise and chi-squared
    is never negative. *)
Theorem C84_positive_partial : forall X I k b, survey_bin X I k b ->
  exists c : nat * nat -> nat * nat -> R,
    (forall a a', In a (data I) -> In a' (data I) -> cov X I k (fst a) (snd a) (fst a') (snd a') = Some (c a a'))
    /\ positive_semidefinite (data I) c.
Proof.
  intros X I k b H. pose proof (sb_shape _ _ _ _ H) as S.
  exists (fun a c => value (cov X I k (fst a) (snd a) (fst c) (snd c))). split.
  - intros a a' Ha Ha'. destruct (cov_some X I k (fst a) (snd a) (fst a') (snd a') S (data_range X I k b H a a' Ha Ha')) as [v ->]. reflexivity.
  - destruct (psd_gaussian X I k b H) as [M C]. pose proof (psd_poisson X I k b H) as P.
    apply (psd_if (data I) (ci_poisson I)) in P. apply (psd_if (data I) (ci_mixed I)) in M. apply (psd_if (data I) (ci_cosmic I)) in C.
    refine (psd_ext _ _ _ _ (psd_plus _ _ _ (psd_plus _ _ _ P M) C)). cbv beta.
    intros a a' Ha Ha'.
    destruct (C25_parts X I k (fst a) (snd a) (fst a') (snd a') S (data_range X I k b H a a' Ha Ha')) as (p & x & c & Ep & Ex & Ec & E & _).
    rewrite Ep, Ex, Ec. cbn [value]. specialize (E (ci_poisson I) (ci_mixed I) (ci_cosmic I)).
    replace (with_parts I (ci_poisson I) (ci_mixed I) (ci_cosmic I)) with I in E by (destruct I; reflexivity).
    rewrite E. reflexivity.
Qed.
Print Assumptions C84_positive_partial.
(** Variances are not negative, and correlation coefficients are between -1 and 1. *)
Theorem C84_correlation_partial : forall X I k b i m j n, survey_bin X I k b -> in_range I k i m j n ->
  exists v1 v2 c, cov X I k i m i m = Some v1 /\ cov X I k j n j n = Some v2 /\ cov X I k i m j n = Some c
    /\ (0 <= v1)%R /\ (0 <= v2)%R /\ (c ^ 2 <= v1 * v2)%R.
Proof.
  intros X I k b i m j n H (Hk & Hi & Hm & Hj & Hn). destruct (C84_positive_partial X I k b H) as (c & E & P).
  assert (A : In (i, m) (data I)) by (apply in_data; split; assumption).
  assert (B : In (j, n) (data I)) by (apply in_data; split; assumption).
  assert (eqd : forall x y : nat * nat, {x = y} + {x <> y}) by (intros; decide equality; apply Nat.eq_dec).
  exists (c (i, m) (i, m)), (c (j, n) (j, n)), (c (i, m) (j, n)).
  split; [apply (E (i, m) (i, m) A A)|]. split; [apply (E (j, n) (j, n) B B)|]. split; [apply (E (i, m) (j, n) A B)|].
  split; [apply (psd_diagonal eqd (data I)); [apply data_nodup|exact A|exact P]|].
  split; [apply (psd_diagonal eqd (data I)); [apply data_nodup|exact B|exact P]|].
  apply (psd_cauchy eqd (data I)); [apply data_nodup|exact A|exact B|exact P|].
  destruct (C23_symmetric_partial X I k i m j n) as (v & E1 & E2); [apply (sb_shape _ _ _ _ H)|repeat split; assumption| |].
  { rewrite (sb_standard _ _ _ _ H). discriminate. }
  pose proof (E (i, m) (j, n) A B) as F1. pose proof (E (j, n) (i, m) B A) as F2. cbn [fst snd] in F1, F2. congruence.
Qed.
Print Assumptions C84_correlation_partial.
(** Two redshifts, multipoles 0 and 2, two populations, all three parts. *)
Definition ex_survey : cov_in := with_parts (ex_in [1; 1]%R [2; 2]%R 1 2 1 2) true true true.
Example C84_met : exists b, survey_bin ex_ext ex_survey 1 b /\ data ex_survey = [(0, 0); (0, 1); (1, 0); (1, 1)].
Proof.
  eexists. split; [|reflexivity].
  assert (Z2 : (0 < PI)%R) by apply PI_RGT_0.
  constructor; try reflexivity.
  - apply shape_parts. apply ex_shape; reflexivity.
  - cbn. lia.
  - discriminate.
  - intros q. cbn. ring.
  - intros c f g x y. cbn. ring.
  - intros f x y Hxy Hf. cbn. apply Rmult_le_pos; [lra|]. apply Hf. lra.
  - cbn. lra.
  - intros q _. cbn. lra.
  - cbn. intros l [<-|[<-|[]]]; lia.
  - cbn. intros l [<-|[<-|[]]]; lra.
  - cbn. intros l [<-|[<-|[]]]; lra.
  - cbn. unfold shell. nra.
  - cbn. lra.
  - cbn. lra.
Qed.
