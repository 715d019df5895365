(** * Multipoles and their redshift averages as integrals

    With a quadrature that returns the integral, the multipoles the code computes are
    integrals of the correlation function it computes, and the averaged multipoles are
    integrals of the multipoles. *)
From Coq Require Import Reals Lra Lia List ZArith Bool.
From Coquelicot Require Import Coquelicot.
From Coq Require Import List FunctionalExtensionality.
Import ListNotations.
From Verif Require Import Integrals CExpr Terms Signal SignalSum.
Open Scope R_scope.
#[local] Opaque nonintegrated single_integrated double_integrated flat_den_len flat_len_len.

(** ** Specification *)

(** The integral over the unit cube, one coordinate after the other.
    Specification or proof only; nothing in the code. *)
Fixpoint cube (d : nat) (f : list R -> R) : R :=
  match d with
  | O => f []
  | S d => RInt (fun x => cube d (fun v => f (x :: v))) 0 1
  end.
Definition exact : quadrature := mkQuad (fun f => RInt f 0 1) cube.

(** The correlation function and the multipoles of the code.  Specification or proof only; nothing in the code. *)
Definition xi (E : env) (z s m : R) : R := signal exact E (mkPoint z 0 0 s m 0) Corrfunc.
Definition multipole (E : env) (z s : R) (l : nat) : R :=
  signal exact E (mkPoint z 0 0 s 0 l) Multipoles.
Definition averaged (E : env) (zmin zmax s : R) (l : nat) : R :=
  signal exact E (mkPoint 0 zmin zmax s 0 l) AverageMultipoles.

(** The options that make the code compute other integrals.  Specification or proof only; nothing in the code. *)
Definition full_nonlocal (E : env) : Prop :=
  sw E flatsky_local_nonlocal = false /\ sw E flatsky_nonlocal = false.

(** The integrals exist.  Specification or proof only; nothing in the code. *)
Record integrable (E : env) (z s : R) (l : nat) : Prop := {
  i_local : ex_RInt (fun m => legendre l m * value (nonintegrated E z m s)) (-1) 1;
  i_single_inner : forall m, -1 < m < 1 -> ex_RInt (fun x => value (single_integrated E z m s x)) 0 1;
  i_single : ex_RInt (fun m => legendre l m
      * RInt (fun x => value (single_integrated E z m s x)) 0 1) (-1) 1;
  i_double_inner : forall m x, -1 < m < 1 -> 0 < x < 1 ->
    ex_RInt (fun y => value (double_integrated E z m s x y)) 0 1;
  i_double_mid : forall m, -1 < m < 1 ->
    ex_RInt (fun x => RInt (fun y => value (double_integrated E z m s x y)) 0 1) 0 1;
  i_double : ex_RInt (fun m => legendre l m
      * RInt (fun x => RInt (fun y => value (double_integrated E z m s x y)) 0 1) 0 1) (-1) 1 }.

(** ** The three families *)
(** Specification or proof only; nothing in the code. *)
Definition local_part (E : env) (z s m : R) : R :=
  if local_on E then value (nonintegrated E z m s) else 0.
Definition single_part (E : env) (z s m : R) : R :=
  if single_on E then RInt (fun x => value (single_integrated E z m s x)) 0 1 else 0.
Definition double_part (E : env) (z s m : R) : R :=
  if integrated_on E
  then RInt (fun x => RInt (fun y => value (double_integrated E z m s x y)) 0 1) 0 1 else 0.

Lemma xi_parts : forall E z s m,
  xi E z s m = local_part E z s m + single_part E z s m + double_part E z s m.
Proof.
  intros. unfold xi, signal, coffe_integrate, local_part, single_part, double_part.
  cbn [p_z p_sep p_mu p_l].
  destruct (local_on E), (single_on E), (integrated_on E); cbn [negb run q1 qn exact cube coord nth]; ring.
Qed.

Lemma leg_factor_legendre : forall l m, leg_factor l m = legendre l m.
Proof. intros [|l] m; reflexivity. Qed.

(** Replacing the cosine by a variable of the unit interval. *)
Lemma unit_interval : forall G : R -> R, ex_RInt G (-1) 1 ->
  ex_RInt (fun x => G (2 * x - 1)) 0 1 /\ RInt (fun x => G (2 * x - 1)) 0 1 = / 2 * RInt G (-1) 1.
Proof.
  intros G HG.
  assert (H : ex_RInt G (2 * 0 + (-1)) (2 * 1 + (-1))).
  { replace (2 * 0 + (-1)) with (-1) by ring. replace (2 * 1 + (-1)) with 1 by ring. exact HG. }
  pose proof (ex_RInt_comp_lin G 2 (-1) 0 1 H) as X.
  pose proof (RInt_comp_lin G 2 (-1) 0 1 H) as I.
  replace (2 * 0 + (-1)) with (-1) in I by ring. replace (2 * 1 + (-1)) with 1 in I by ring.
  assert (Y : forall x, G (2 * x - 1) = scal (/ 2) (scal 2 (G (2 * x + (-1))))).
  { intros x. change (G (2 * x - 1) = / 2 * (2 * G (2 * x + (-1)))).
    replace (2 * x + (-1)) with (2 * x - 1) by ring. field. }
  split.
  - apply (ex_RInt_ext (fun x => scal (/ 2) (scal 2 (G (2 * x + (-1)))))).
    + intros x _. symmetry. apply Y.
    + apply (ex_RInt_scal _ _ _ (/ 2) X).
  - rewrite (RInt_ext _ (fun x => scal (/ 2) (scal 2 (G (2 * x + (-1)))))) by (intros x _; apply Y).
    etransitivity; [apply (RInt_scal _ _ _ _ X)|].
    change (/ 2 * RInt (fun y => scal 2 (G (2 * y + -1))) 0 1 = / 2 * RInt G (-1) 1). f_equal. exact I.
Qed.

Lemma in_unit : forall x, Rmin 0 1 < x < Rmax 0 1 -> 0 < x < 1.
Proof. intros x H. rewrite Rmin_left, Rmax_right in H by lra. exact H. Qed.
Lemma in_sky : forall x, Rmin 0 1 < x < Rmax 0 1 -> -1 < 2 * x - 1 < 1.
Proof. intros x H. apply in_unit in H. lra. Qed.

Section Parts.
Variable E : env.
Hypothesis HF : full_nonlocal E.
Variables (z s : R) (l : nat).
Hypothesis HI : integrable E z s l.

Lemma single_full : single_full_on E = single_on E.
Proof.
  unfold single_full_on, single_on. destruct HF as [-> _].
  destruct (con E den), (con E rsd), (con E d1), (con E d2), (con E g1), (con E g2), (con E g3),
    (con E len), (con E g4), (con E g5); reflexivity.
Qed.

Lemma local_ex : ex_RInt (fun m => legendre l m * local_part E z s m) (-1) 1.
Proof.
  unfold local_part. destruct (local_on E); [apply (i_local _ _ _ _ HI)|].
  apply (ex_RInt_ext (fun _ => 0)); [intros; symmetry; apply Rmult_0_r|apply ex_RInt_const].
Qed.
Lemma single_ex : ex_RInt (fun m => legendre l m * single_part E z s m) (-1) 1.
Proof.
  unfold single_part. destruct (single_on E); [apply (i_single _ _ _ _ HI)|].
  apply (ex_RInt_ext (fun _ => 0)); [intros; symmetry; apply Rmult_0_r|apply ex_RInt_const].
Qed.
Lemma double_ex : ex_RInt (fun m => legendre l m * double_part E z s m) (-1) 1.
Proof.
  unfold double_part. destruct (integrated_on E); [apply (i_double _ _ _ _ HI)|].
  apply (ex_RInt_ext (fun _ => 0)); [intros; symmetry; apply Rmult_0_r|apply ex_RInt_const].
Qed.

(** Specification or proof only; nothing in the code. *)
Definition projected (part : R -> R) : R := RInt (fun x => legendre l (2 * x - 1) * part (2 * x - 1)) 0 1.

Lemma zero_integral : forall a b, RInt (fun _ : R => 0) a b = 0.
Proof. intros. rewrite RInt_const. apply Rmult_0_r. Qed.

Lemma projected_zero : projected (fun _ => 0) = 0.
Proof.
  unfold projected. rewrite (RInt_ext _ (fun _ => 0)) by (intros; apply Rmult_0_r).
  apply zero_integral.
Qed.

Lemma run_local : forall zmin zmax,
  run exact (coffe_integrate E (mkPoint z zmin zmax s 0 l) NonIntegrated Multipoles)
  = INR (2 * l + 1) * projected (local_part E z s).
Proof.
  intros zmin zmax. unfold coffe_integrate. cbn [p_z p_sep p_l]. unfold local_part.
  destruct (local_on E); cbn [negb run q1 exact].
  - f_equal. unfold projected. apply RInt_ext. intros x _.
    rewrite value_times_legendre, leg_factor_legendre. reflexivity.
  - rewrite projected_zero. ring.
Qed.

Lemma run_single : forall zmin zmax,
  run exact (coffe_integrate E (mkPoint z zmin zmax s 0 l) SingleIntegrated Multipoles)
  = INR (2 * l + 1) * projected (single_part E z s).
Proof.
  intros zmin zmax. unfold coffe_integrate. cbn [p_z p_sep p_l]. rewrite single_full.
  destruct HF as [-> _]. rewrite andb_false_r. unfold single_part.
  destruct (single_on E); cbn [negb run qn exact cube coord nth].
  - rewrite Rplus_0_l. f_equal. unfold projected. apply RInt_ext. intros x Hx.
    rewrite (RInt_ext _ (fun y => scal (legendre l (2 * x - 1)) (value (single_integrated E z (2 * x - 1) s y)))).
    2:{ intros y _. rewrite value_times_legendre, leg_factor_legendre. reflexivity. }
    rewrite (RInt_scal _ _ _ _ (i_single_inner _ _ _ _ HI (2 * x - 1) (in_sky x Hx))). reflexivity.
  - rewrite projected_zero. ring.
Qed.

Lemma run_double : forall zmin zmax,
  run exact (coffe_integrate E (mkPoint z zmin zmax s 0 l) DoubleIntegrated Multipoles)
  = INR (2 * l + 1) * projected (double_part E z s).
Proof.
  intros zmin zmax. unfold coffe_integrate. cbn [p_z p_sep p_l].
  destruct HF as [_ ->]. rewrite andb_false_r. cbn [negb andb]. rewrite andb_true_r.
  replace (con E g4 || con E g5 || con E len) with (integrated_on E)
    by (unfold integrated_on; destruct (con E len), (con E g4), (con E g5); reflexivity).
  unfold double_part.
  destruct (integrated_on E); cbn [negb run qn exact cube coord nth].
  - rewrite Rplus_0_l. f_equal. unfold projected. apply RInt_ext. intros x Hx.
    rewrite (RInt_ext _ (fun y => scal (legendre l (2 * x - 1))
      (RInt (fun w => value (double_integrated E z (2 * x - 1) s y w)) 0 1))).
    2:{ intros y Hy.
        rewrite (RInt_ext _ (fun w => scal (legendre l (2 * x - 1)) (value (double_integrated E z (2 * x - 1) s y w)))).
        2:{ intros w _. rewrite value_times_legendre, leg_factor_legendre. reflexivity. }
        rewrite (RInt_scal _ _ _ _ (i_double_inner _ _ _ _ HI (2 * x - 1) y (in_sky x Hx) (in_unit y Hy))). reflexivity. }
    rewrite (RInt_scal _ _ _ _ (i_double_mid _ _ _ _ HI (2 * x - 1) (in_sky x Hx))). reflexivity.
  - rewrite projected_zero. ring.
Qed.

Definition projection (part : R -> R) : R := RInt (fun m => legendre l m * part m) (-1) 1.

Lemma projected_half : forall part, ex_RInt (fun m => legendre l m * part m) (-1) 1 ->
  projected part = / 2 * projection part.
Proof. intros part H. apply (proj2 (unit_interval _ H)). Qed.

Lemma multipole_parts :
  multipole E z s l = INR (2 * l + 1) / 2 *
    (projection (local_part E z s) + projection (single_part E z s) + projection (double_part E z s)).
Proof.
  unfold multipole, signal. rewrite run_local, run_single, run_double.
  rewrite !projected_half by (apply local_ex || apply single_ex || apply double_ex).
  change (INR (2 * l + 1) * (/ 2 * projection (local_part E z s))
    + INR (2 * l + 1) * (/ 2 * projection (single_part E z s))
    + INR (2 * l + 1) * (/ 2 * projection (double_part E z s)) =
   INR (2 * l + 1) / 2 * (projection (local_part E z s) + projection (single_part E z s) + projection (double_part E z s))).
  field.
Qed.

Lemma projection_sum : forall f g : R -> R, ex_RInt (fun m => legendre l m * f m) (-1) 1 ->
  ex_RInt (fun m => legendre l m * g m) (-1) 1 ->
  ex_RInt (fun m => legendre l m * (f m + g m)) (-1) 1 /\
  projection (fun m => f m + g m) = projection f + projection g.
Proof.
  intros f g Hf Hg. unfold projection.
  assert (X : forall m, legendre l m * (f m + g m) = plus (legendre l m * f m) (legendre l m * g m)).
  { intros m. apply Rmult_plus_distr_l. }
  split.
  - apply (ex_RInt_ext (fun m => plus (legendre l m * f m) (legendre l m * g m))); [intros; symmetry; apply X|].
    apply (ex_RInt_plus _ _ _ _ Hf Hg).
  - rewrite (RInt_ext _ _ _ _ (fun m _ => X m)). apply (RInt_plus _ _ _ _ Hf Hg).
Qed.

Lemma multipole_projection :
  ex_RInt (fun m => legendre l m * xi E z s m) (-1) 1 /\
  multipole E z s l = INR (2 * l + 1) / 2 * RInt (fun m => legendre l m * xi E z s m) (-1) 1.
Proof.
  destruct (projection_sum _ _ local_ex single_ex) as [X1 P1].
  destruct (projection_sum _ _ X1 double_ex) as [X2 P2].
  split.
  - apply (ex_RInt_ext _ _ _ _ (fun m _ => f_equal (Rmult (legendre l m)) (eq_sym (xi_parts E z s m))) X2).
  - rewrite multipole_parts, <- P1, <- P2. f_equal. unfold projection.
    apply RInt_ext. intros m _. rewrite xi_parts. reflexivity.
Qed.
End Parts.

(** ** Averages over redshift *)

(** The redshifts over which the code averages: half a separation inside the bin.
    Specification or proof only; nothing in the code. *)
Definition first_z (E : env) (zmin s : R) : R :=
  spl E bg_z_as_chi (spl E bg_comoving_distance zmin + s / 2).
Definition last_z (E : env) (zmax s : R) : R :=
  spl E bg_z_as_chi (spl E bg_comoving_distance zmax - s / 2).

Record averageable (E : env) (zmin zmax s : R) (l : nat) : Prop := {
  a_inner : forall z, Rmin (first_z E zmin s) (last_z E zmax s) < z < Rmax (first_z E zmin s) (last_z E zmax s) ->
    integrable E z s l;
  a_local : ex_RInt (fun z => av_weight E z * projection l (local_part E z s))
              (first_z E zmin s) (last_z E zmax s);
  a_single : ex_RInt (fun z => av_weight E z * projection l (single_part E z s))
              (first_z E zmin s) (last_z E zmax s);
  a_double : ex_RInt (fun z => av_weight E z * projection l (double_part E z s))
              (first_z E zmin s) (last_z E zmax s) }.

Lemma linear_change : forall (F : R -> R) a b, a <> b -> ex_RInt F a b ->
  ex_RInt (fun u => F ((b - a) * u + a)) 0 1 /\
  RInt (fun u => F ((b - a) * u + a)) 0 1 = / (b - a) * RInt F a b.
Proof.
  intros F a b N H0.
  assert (H : ex_RInt F ((b - a) * 0 + a) ((b - a) * 1 + a)).
  { replace ((b - a) * 0 + a) with a by ring. replace ((b - a) * 1 + a) with b by ring. exact H0. }
  pose proof (ex_RInt_comp_lin F (b - a) a 0 1 H) as X.
  pose proof (RInt_comp_lin F (b - a) a 0 1 H) as I.
  replace ((b - a) * 0 + a) with a in I by ring. replace ((b - a) * 1 + a) with b in I by ring.
  assert (Y : forall u, F ((b - a) * u + a) = scal (/ (b - a)) (scal (b - a) (F ((b - a) * u + a)))).
  { intros u. change (F ((b - a) * u + a) = / (b - a) * ((b - a) * F ((b - a) * u + a))). field. lra. }
  split.
  - apply (ex_RInt_ext _ _ _ _ (fun u _ => eq_sym (Y u))). apply (ex_RInt_scal _ _ _ (/ (b - a)) X).
  - rewrite (RInt_ext _ _ _ _ (fun u _ => Y u)). etransitivity; [apply (RInt_scal _ _ _ _ X)|].
    change (/ (b - a) * RInt (fun y => scal (b - a) (F ((b - a) * y + a))) 0 1 = / (b - a) * RInt F a b).
    f_equal. exact I.
Qed.

Section Average.
Variable E : env.
Hypothesis HF : full_nonlocal E.
Variables (zmin zmax s : R) (l : nat).
Hypothesis HA : averageable E zmin zmax s l.
Let z1 := first_z E zmin s.
Let z2 := last_z E zmax s.
Hypothesis HZ : z1 <> z2.
Let at_u u := (z2 - z1) * u + z1.
Let p := mkPoint 0 zmin zmax s 0 l.

Lemma av_z_at : forall u, av_z E p u = at_u u.
Proof. reflexivity. Qed.

Lemma between : forall u, 0 < u < 1 -> Rmin z1 z2 < at_u u < Rmax z1 z2.
Proof.
  intros u Hu. unfold at_u. destruct (Rtotal_order z1 z2) as [L|[L|L]]; [|contradiction|].
  - rewrite Rmin_left, Rmax_right by lra. split; nra.
  - rewrite Rmin_right, Rmax_left by lra. split; nra.
Qed.
Lemma inside : forall u, Rmin 0 1 < u < Rmax 0 1 -> integrable E (at_u u) s l.
Proof. intros u Hu. apply (a_inner _ _ _ _ _ HA), between, in_unit, Hu. Qed.

(** One family. *)
Lemma average_part : forall (part : R -> R -> R),
  (forall u, 0 < u < 1 -> ex_RInt (fun m => legendre l m * part (at_u u) m) (-1) 1) ->
  ex_RInt (fun z => av_weight E z * projection l (part z)) z1 z2 ->
  RInt (fun u => av_weight E (at_u u) * projected l (part (at_u u))) 0 1
  = / 2 * (/ (z2 - z1) * RInt (fun z => av_weight E z * projection l (part z)) z1 z2).
Proof.
  intros part Hp He. destruct (linear_change _ _ _ HZ He) as [X I].
  rewrite <- I.
  rewrite (RInt_ext _ (fun u => scal (/ 2) (av_weight E (at_u u) * projection l (part (at_u u))))).
  - apply (RInt_scal _ _ _ (/ 2) X).
  - intros u Hu. rewrite Rmin_left, Rmax_right in Hu by lra.
    rewrite projected_half by (apply Hp; exact Hu).
    change (av_weight E (at_u u) * (/ 2 * projection l (part (at_u u)))
      = / 2 * (av_weight E (at_u u) * projection l (part (at_u u)))). ring.
Qed.

Lemma run_average_local :
  run exact (coffe_integrate E p NonIntegrated AverageMultipoles)
  = INR (2 * l + 1) * RInt (fun u => av_weight E (at_u u) * projected l (local_part E (at_u u) s)) 0 1.
Proof.
  unfold coffe_integrate. unfold p at 1 2 3. cbn [p_z p_sep p_l]. unfold local_part.
  destruct (local_on E) eqn:L; cbn [negb run qn exact cube coord nth].
  - f_equal. apply RInt_ext. intros u Hu. rewrite av_z_at.
    pose proof (local_ex E (at_u u) s l (inside u Hu)) as X. unfold local_part in X. rewrite L in X.
    destruct (unit_interval _ X) as [X1 _].
    rewrite (RInt_ext _ (fun x => scal (av_weight E (at_u u))
      (legendre l (2 * x - 1) * value (nonintegrated E (at_u u) (2 * x - 1) s)))).
    2:{ intros x _. rewrite value_scale, value_times_legendre, leg_factor_legendre. reflexivity. }
    apply (RInt_scal _ _ _ _ X1).
  - rewrite (RInt_ext _ (fun _ => 0)).
    + rewrite zero_integral. ring.
    + intros u _. rewrite projected_zero. apply Rmult_0_r.
Qed.

Lemma run_average_single :
  run exact (coffe_integrate E p SingleIntegrated AverageMultipoles)
  = INR (2 * l + 1) * RInt (fun u => av_weight E (at_u u) * projected l (single_part E (at_u u) s)) 0 1.
Proof.
  unfold coffe_integrate. unfold p at 1 2 3. cbn [p_z p_sep p_l]. unfold single_part.
  destruct (single_on E) eqn:L; cbn [negb run qn exact cube coord nth].
  - f_equal. apply RInt_ext. intros u Hu. rewrite av_z_at.
    pose proof (single_ex E (at_u u) s l (inside u Hu)) as X. unfold single_part in X. rewrite L in X.
    destruct (unit_interval _ X) as [X1 _].
    rewrite (RInt_ext _ (fun x => scal (av_weight E (at_u u))
      (legendre l (2 * x - 1) * RInt (fun y => value (single_integrated E (at_u u) (2 * x - 1) s y)) 0 1))).
    2:{ intros x Hx.
        rewrite (RInt_ext _ (fun y => scal (av_weight E (at_u u) * legendre l (2 * x - 1))
          (value (single_integrated E (at_u u) (2 * x - 1) s y)))).
        2:{ intros y _. rewrite value_scale, value_times_legendre, leg_factor_legendre.
            rewrite <- Rmult_assoc. reflexivity. }
        rewrite (RInt_scal _ _ _ _ (i_single_inner _ _ _ _ (inside u Hu) (2 * x - 1) (in_sky x Hx))).
        apply Rmult_assoc. }
    apply (RInt_scal _ _ _ _ X1).
  - rewrite (RInt_ext _ (fun _ => 0)).
    + rewrite zero_integral. ring.
    + intros u _. rewrite projected_zero. apply Rmult_0_r.
Qed.

Lemma run_average_double :
  run exact (coffe_integrate E p DoubleIntegrated AverageMultipoles)
  = INR (2 * l + 1) * RInt (fun u => av_weight E (at_u u) * projected l (double_part E (at_u u) s)) 0 1.
Proof.
  unfold coffe_integrate. unfold p at 1 2 3. cbn [p_z p_sep p_l]. unfold double_part.
  destruct (integrated_on E) eqn:L; cbn [negb run qn exact cube coord nth].
  - f_equal. apply RInt_ext. intros u Hu. rewrite av_z_at.
    pose proof (double_ex E (at_u u) s l (inside u Hu)) as X. unfold double_part in X. rewrite L in X.
    destruct (unit_interval _ X) as [X1 _].
    rewrite (RInt_ext _ (fun x => scal (av_weight E (at_u u))
      (legendre l (2 * x - 1) * RInt (fun y => RInt (fun w =>
         value (double_integrated E (at_u u) (2 * x - 1) s y w)) 0 1) 0 1))).
    2:{ intros x Hx.
        rewrite (RInt_ext _ (fun y => scal (av_weight E (at_u u) * legendre l (2 * x - 1))
          (RInt (fun w => value (double_integrated E (at_u u) (2 * x - 1) s y w)) 0 1))).
        2:{ intros y Hy.
            rewrite (RInt_ext _ (fun w => scal (av_weight E (at_u u) * legendre l (2 * x - 1))
              (value (double_integrated E (at_u u) (2 * x - 1) s y w)))).
            2:{ intros w _. rewrite value_scale, value_times_legendre, leg_factor_legendre.
                rewrite <- Rmult_assoc. reflexivity. }
            rewrite (RInt_scal _ _ _ _ (i_double_inner _ _ _ _ (inside u Hu) (2 * x - 1) y (in_sky x Hx) (in_unit y Hy))).
            reflexivity. }
        rewrite (RInt_scal _ _ _ _ (i_double_mid _ _ _ _ (inside u Hu) (2 * x - 1) (in_sky x Hx))).
        apply Rmult_assoc. }
    apply (RInt_scal _ _ _ _ X1).
  - rewrite (RInt_ext _ (fun _ => 0)).
    + rewrite zero_integral. ring.
    + intros u _. rewrite projected_zero. apply Rmult_0_r.
Qed.

(** The three families together. *)
Lemma averaged_integral :
  averaged E zmin zmax s l =
  / (z2 - z1) * RInt (fun z => av_weight E z * (INR (2 * l + 1) / 2 * (projection l (local_part E z s)
     + projection l (single_part E z s) + projection l (double_part E z s)))) z1 z2.
Proof.
  unfold averaged, signal. fold p.
  rewrite run_average_local, run_average_single, run_average_double.
  rewrite (average_part (fun z => local_part E z s)).
  2:{ intros u Hu. apply local_ex. apply (a_inner _ _ _ _ _ HA), between, Hu. }
  2:{ apply (a_local _ _ _ _ _ HA). }
  rewrite (average_part (fun z => single_part E z s)).
  2:{ intros u Hu. apply single_ex. apply (a_inner _ _ _ _ _ HA), between, Hu. }
  2:{ apply (a_single _ _ _ _ _ HA). }
  rewrite (average_part (fun z => double_part E z s)).
  2:{ intros u Hu. apply double_ex. apply (a_inner _ _ _ _ _ HA), between, Hu. }
  2:{ apply (a_double _ _ _ _ _ HA). }
  pose proof (ex_RInt_plus _ _ _ _ (a_local _ _ _ _ _ HA) (a_single _ _ _ _ _ HA)) as X1.
  pose proof (ex_RInt_plus _ _ _ _ X1 (a_double _ _ _ _ _ HA)) as X2.
  rewrite (RInt_ext (fun z => av_weight E z * (INR (2 * l + 1) / 2 * (projection l (local_part E z s)
     + projection l (single_part E z s) + projection l (double_part E z s))))
    (fun z => scal (INR (2 * l + 1) / 2) (plus (plus (av_weight E z * projection l (local_part E z s))
       (av_weight E z * projection l (single_part E z s))) (av_weight E z * projection l (double_part E z s))))).
  2:{ intros z _. unfold plus, scal. cbn -[INR Nat.mul Nat.add]. unfold mult. cbn -[INR Nat.mul Nat.add].
      match goal with |- ?a = ?b => change (@eq R a b) end. ring. }
  pose proof (RInt_scal _ _ _ (INR (2 * l + 1) / 2) X2) as I0.
  pose proof (RInt_plus _ _ _ _ X1 (a_double _ _ _ _ _ HA)) as I1.
  pose proof (RInt_plus _ _ _ _ (a_local _ _ _ _ _ HA) (a_single _ _ _ _ _ HA)) as I2.
  fold z1 z2 in I0, I1, I2. etransitivity; [|symmetry; apply f_equal; exact I0].
  etransitivity; [|symmetry; apply f_equal; apply f_equal; exact I1].
  etransitivity; [|symmetry; apply f_equal; apply f_equal; apply (f_equal (fun q => plus q _)); exact I2].
  clear. unfold plus, scal. cbn -[INR Nat.mul Nat.add RInt]. unfold mult. cbn -[INR Nat.mul Nat.add RInt].
  match goal with |- ?a = ?b => change (@eq R a b) end. unfold Rdiv. ring.
Qed.

Lemma averaged_multipoles :
  averaged E zmin zmax s l =
  / (z2 - z1) * RInt (fun z => av_weight E z * multipole E z s l) z1 z2.
Proof.
  rewrite averaged_integral. f_equal. apply RInt_ext. intros z Hz.
  rewrite (multipole_parts E HF z s l (a_inner _ _ _ _ _ HA z Hz)). reflexivity.
Qed.
End Average.
