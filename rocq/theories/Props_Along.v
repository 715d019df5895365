(** * Property C22 with a nonlinear spectrum: the terms along the lines of sight

    With a nonlinear spectrum the terms of density, redshift-space distortions and lensing read
    tables of the spectrum at the mean redshift of the two points they correlate, without growth
    factors (functions.c:1559-2391, 3104-3330). *)
From Coq Require Import Reals Lra Lia List ZArith Bool.
From Coquelicot Require Import Coquelicot.
From Coq Require Import List.
Import ListNotations.
From Verif Require Import Integrals CExpr Terms Signal TermsMeta TermsSum Additive SignalSum
  Lookup Exchange ExchangeSignal Built Evolved Weights Props_Terms Legendre Multipoles Flat Props_Multipoles
  Props_Limit Props_Nonlinear.
Open Scope R_scope.
#[local] Opaque nonintegrated single_integrated double_integrated.

(** ** Specification *)

(** The mean redshift of the two points at which [X] of the first galaxy, at distance [d], and
    [Y] of the second, at distance [d'], are.  Specification or proof only; nothing in the code. *)
Definition midway (E : env) (X Y : contrib) (d x d' x' : R) : R :=
  (redshift E (place X d x) + redshift E (place Y d' x')) / 2.

(** The correlation of two contributions with the spectrum midway between them.
    Specification or proof only; nothing in the code. *)
Definition evolved_correlation (E : env) (ells : list Z) (X Y : contrib) (d x d' x' c : R) : R :=
  correlation (seen_at E ells (midway E X Y d x d' x')) X Y d x d' x' c.

Ltac along_algebra E q1 q2 :=
  unfold Rdiv; rewrite ?Rinv_mult, <- ?pow_inv;
  repeat match goal with
  | |- context [/ spl E bg_a ?z] => generalize (/ spl E bg_a z); intro
  end;
  repeat match goal with
  | |- context [tab2 E ?k ?f ?y ?z] => generalize (tab2 E k f y z); intro
  end;
  repeat match goal with
  | |- context [spl E ?f ?z] => generalize (spl E f z); intro
  end;
  try (generalize (/ q1); intro); try (generalize (/ q2); intro);
  field.

(** ** One line of sight *)
Section Single.
Variable E : env.
Variable ells : list Z.
Variables zm m s x : R.
Hypothesis N : sw E pk_nonlinear = true.
Hypothesis M : sw E midpoint = true.
Hypothesis F : full_sky_linear (with_linear E).
Hypothesis fl_div : sw E divergent = true.
Hypothesis Hs : 0 < s < 2 * spl E bg_comoving_distance zm.
Hypothesis Hm : -1 <= m <= 1.
Let a := near E zm m s.
Let b := far E zm m s.
Let c := Weights.cosine a b s.
Let A := a * x.
Let B := b * x.
Let q1 := a ^ 2 + B ^ 2 - 2 * a * B * c.
Let q2 := A ^ 2 + b ^ 2 - 2 * A * b * c.
Hypothesis q1_pos : 0 < q1.
Hypothesis q2_pos : 0 < q2.

Lemma si_same_store : si_s0 (with_linear E) zm m s x = si_s0 E zm m s x.
Proof. unfold si_s0. apply dens_linear. reflexivity. Qed.

Lemma single_evolved : forall X, X = den \/ X = rsd ->
  (X = rsd -> Rabs m < 999 / 1000 \/ m * m = 1) ->
  incr E (si_s0 E zm m s x) (lookup X len si_blocks)
  = evolved_correlation E ells X len a x b x c + evolved_correlation E ells len X a x b x c.
Proof.
  intros X HX HM.
  pose proof (si_state_ok (with_linear E) F fl_div zm m s Hs Hm x q1_pos q2_pos) as st.
  rewrite si_same_store in st.
  assert (Q1 : a ^ 2 + B ^ 2 - 2 * a * B * c = q1) by reflexivity.
  assert (Q2 : b ^ 2 + A ^ 2 - 2 * b * A * c = q2) by (unfold q2; ring).
  assert (FL : sw E flatsky_local_nonlocal = false) by exact (fl_ln _ F).
  assert (ML : X = rsd -> Rltb (Rabs m) (IZR 999 / IZR 1000) = true
                 \/ (Rltb (Rabs m) (IZR 999 / IZR 1000) = false /\ c = 1)).
  { intros H1. destruct (HM H1) as [H|H].
    - left. unfold Rltb. destruct (Rlt_dec (Rabs m) (IZR 999 / IZR 1000)); [reflexivity|lra].
    - right. split; [|apply (cosine_on_axis E zm m s Hs Hm); exact H].
      unfold Rltb. destruct (Rlt_dec (Rabs m) (IZR 999 / IZR 1000)) as [L|]; [|reflexivity].
      apply Rabs_def2 in L. nra. }
  clear HM.
  destruct st as [I1 I2 I3 I4 I5 I6 I7 I8 I9 I10 I11 I12 I13 I14 I15 I16 I17 _ _].
  change (si_s0 E zm m s x chi1 = a) in I3. change (si_s0 E zm m s x chi2 = b) in I4.
  change (si_s0 E zm m s x costheta = c) in I5.
  change (si_s0 E zm m s x lambda1 = A) in I6. change (si_s0 E zm m s x lambda2 = B) in I7.
  change (si_s0 E zm m s x r21 = q1) in I8. change (si_s0 E zm m s x r22 = q2) in I9.
  change (si_s0 E zm m s x z1_const = redshift E a) in I10. change (si_s0 E zm m s x z2_const = redshift E b) in I11.
  change (si_s0 E zm m s x z1 = redshift E A) in I12. change (si_s0 E zm m s x z2 = redshift E B) in I13.
  change (si_s0 E zm m s x b1 = bias E First (redshift E a)) in I14.
  change (si_s0 E zm m s x b2 = bias E Second (redshift E b)) in I15.
  change (si_s0 E zm m s x s1 = magnification E First (redshift E a)) in I16.
  change (si_s0 E zm m s x s2 = magnification E Second (redshift E b)) in I17.
  generalize dependent (si_s0 E zm m s x). intros t I1 I2 I3 I4 I5 I6 I7 I8 I9 I10 I11 I12 I13 I14 I15 I16 I17.
  destruct HX as [-> | ->].
  all: try (specialize (ML eq_refl); destruct ML as [ML|[ML C1]]).
  all: match goal with |- context [lookup ?X ?Y ?l] =>
    let v := eval cbv [lookup find si_blocks contrib_beq fst snd andb] in (lookup X Y l) in
    change (lookup X Y l) with v end.
  all: match goal with |- context [body ?l] => unfold l end; cbn [body incr].
  all: repeat (rewrite incr1_If; cbn [holds eval];
          rewrite ?I8, ?I9, ?I2, ?(Reqb_pos q1 q1_pos), ?(Reqb_pos q2 q2_pos), ?N, ?M, ?FL; cbn [andb orb negb];
          try match goal with H : Rltb (Rabs m) _ = _ |- _ => rewrite H end; cbn [incr]).
  all: cbn [incr1 eval];
  rewrite ?I1, ?I2, ?I3, ?I4, ?I5, ?I6, ?I7, ?I8, ?I9, ?I10, ?I11, ?I12, ?I13, ?I14, ?I15, ?I16, ?I17.
  all: unfold evolved_correlation, correlation, midway, kernel, weight, place;
  cbn [field_of along rank Nat.leb base]; fold A B; rewrite ?Q1, ?Q2; unfold table.
  all: unfold growth, rate, hubble, factor_a, evolution, doppler;
       unfold redshift, bias, magnification, seen_at, evolves; rewrite N, M;
       cbn [andb spl tab1 par_h omega_cdm omega_baryon].
  all: rewrite ?(Rplus_comm (spl E bg_z_as_chi b) (spl E bg_z_as_chi A)).
  all: try solve [along_algebra E q1 q2].
  assert (E1 : q1 = (B - a) ^ 2) by (unfold q1; rewrite C1; ring).
  assert (E2 : q2 = (A - b) ^ 2) by (unfold q2; rewrite C1; ring).
  assert (N1 : B - a <> 0) by (intros Z; rewrite Z in E1; lra).
  assert (N2 : A - b <> 0) by (intros Z; rewrite Z in E2; lra).
  rewrite C1. clear - E1 E2 N1 N2.
  repeat match goal with
  | |- context [tab2 E ?k ?f ?y ?z] => generalize (tab2 E k f y z); intro
  end.
  rewrite E1, E2. clear E1 E2 q1 q2. unfold Rdiv.
  repeat match goal with
  | |- context [/ spl E bg_a ?z] => generalize (/ spl E bg_a z); intro
  end;
  repeat match goal with
  | |- context [spl E ?f ?z] => generalize (spl E f z); intro
  end.
  clearbody a b A B. field. split; assumption.
Qed.
End Single.

(** ** Both lines of sight *)
Section Double.
Variable E : env.
Variable ells : list Z.
Variables zm m s x y : R.
Hypothesis N : sw E pk_nonlinear = true.
Hypothesis M : sw E midpoint = true.
Hypothesis F : full_sky_linear (with_linear E).
Hypothesis fl_div : sw E divergent = true.
Hypothesis Hs : 0 < s < 2 * spl E bg_comoving_distance zm.
Hypothesis Hm : -1 <= m <= 1.
Hypothesis Hx : interior x.
Hypothesis Hy : interior y.
Let a := near E zm m s.
Let b := far E zm m s.
Let c := Weights.cosine a b s.
Let A := a * x.
Let B := b * y.
Let q := A ^ 2 + B ^ 2 - 2 * A * B * c.
Hypothesis Hq : (1 / 1000000) ^ 2 < q.

Lemma di_same_store : di_s0 (with_linear E) zm m s x y = di_s0 E zm m s x y.
Proof. unfold di_s0. apply dens_linear. reflexivity. Qed.

Lemma double_evolved :
  incr E (di_s0 E zm m s x y) (lookup len len di_blocks) * (coffe_H0 * par_h E) ^ 4
  = evolved_correlation E ells len len a x b y c.
Proof.
  pose proof (di_state_ok (with_linear E) fl_div zm m s Hs Hm x y Hq) as st.
  rewrite di_same_store in st.
  assert (Q1 : A ^ 2 + B ^ 2 - 2 * A * B * c = q) by reflexivity.
  assert (FL : sw E flatsky_nonlocal = false) by exact (fl_nn _ F).
  assert (q_pos : 0 < q) by lra.
  assert (ML : Rltb (IZR 1 / IZR 100000000000000000000) q = true).
  { unfold Rltb. destruct (Rlt_dec (IZR 1 / IZR 100000000000000000000) q) as [L|L]; [reflexivity|].
    exfalso. apply L. apply Rlt_trans with (2 := Hq). lra. }
  destruct st as [I1 I2 I3 I4 I5 I6 I7 I8 I9 I10 I11 I12 I13 I14 _].
  change (di_s0 E zm m s x y chi1 = a) in I3. change (di_s0 E zm m s x y chi2 = b) in I4.
  change (di_s0 E zm m s x y costheta = c) in I5.
  change (di_s0 E zm m s x y lambda1 = A) in I6. change (di_s0 E zm m s x y lambda2 = B) in I7.
  change (di_s0 E zm m s x y r2 = q) in I8.
  change (di_s0 E zm m s x y z1_const = redshift E a) in I9. change (di_s0 E zm m s x y z2_const = redshift E b) in I10.
  change (di_s0 E zm m s x y z1 = redshift E A) in I11. change (di_s0 E zm m s x y z2 = redshift E B) in I12.
  change (di_s0 E zm m s x y s1 = magnification E First (redshift E a)) in I13.
  change (di_s0 E zm m s x y s2 = magnification E Second (redshift E b)) in I14.
  generalize dependent (di_s0 E zm m s x y). intros t I1 I2 I3 I4 I5 I6 I7 I8 I9 I10 I11 I12 I13 I14.
  match goal with |- context [lookup ?X ?Y ?l] =>
    let v := eval cbv [lookup find di_blocks contrib_beq fst snd andb] in (lookup X Y l) in
    change (lookup X Y l) with v end.
  match goal with |- context [body ?l] => unfold l end; cbn [body incr].
  repeat (rewrite incr1_If; cbn [holds eval];
          rewrite ?I8, ?(Reqb_pos q q_pos), ?N, ?M, ?FL; cbn [andb orb negb];
          try match goal with H : Rltb _ q = true |- _ => rewrite H end; cbn [incr]).
  cbn [incr1 eval];
  rewrite ?I1, ?I2, ?I3, ?I4, ?I5, ?I6, ?I7, ?I8, ?I9, ?I10, ?I11, ?I12, ?I13, ?I14.
  unfold evolved_correlation, correlation, midway, kernel, weight, place;
  cbn [field_of along rank Nat.leb base]; fold A B; rewrite ?Q1; unfold table.
  unfold growth, rate, hubble, factor_a, evolution, doppler;
       unfold redshift, bias, magnification, seen_at, evolves; rewrite N, M;
       cbn [andb spl tab1 par_h omega_cdm omega_baryon].
  along_algebra E q q.
Qed.
End Double.

Ltac in_cases H :=
  cbn [In] in H; repeat (destruct H as [H|H]; [injection H as <- <- <-|]); try contradiction.

(** ** C22: the terms along the lines of sight with a nonlinear spectrum *)

(** A nonlinear spectrum on the full sky at the mean redshift, with galaxies the program
    correlates.  Specification or proof only; nothing in the code. *)
Record evolving_view (E : env) (zm m s : R) : Prop := {
  ev_nonlinear : sw E pk_nonlinear = true;
  ev_midpoint : sw E midpoint = true;
  ev_sky : full_sky_linear (with_linear E);
  ev_only : forall X, con E X = true -> X = den \/ X = rsd \/ X = len;
  ev_sep : 0 < s < 2 * spl E bg_comoving_distance zm;
  ev_mu : -1 <= m <= 1;
  ev_threshold : con E rsd = true -> con E len = true -> Rabs m < 999 / 1000 \/ m * m = 1 }.

(** Lensing with density and with redshift-space distortions: the correlation of each pair of
    fields, with the spectrum at the mean redshift of the two points correlated. *)
Theorem C22_single_evolved_partial : forall E ells zm m s x,
  built E ells -> evolving_view E zm m s ->
  let a := near E zm m s in let b := far E zm m s in let c := Weights.cosine a b s in
  0 < a ^ 2 + (b * x) ^ 2 - 2 * a * (b * x) * c -> 0 < (a * x) ^ 2 + b ^ 2 - 2 * (a * x) * b * c ->
  value (single_integrated E zm m s x) =
  sum_over (enabled_pairs (con E) (sw E only_cross) 1)
    (fun p => evolved_correlation E ells (fst p) (snd p) a x b x c).
Proof.
  intros E ells zm m s x B V a b c Q1 Q2. destruct V as [N M F0 O Hs Hm HT].
  assert (F : full_sky_linear (with_linear (ready E)))
    by (destruct F0 as [D R L1 L2 L3 L4]; constructor; assumption).
  rewrite (si_ready E ells B).
  rewrite <- (with_set_same (ready E)) at 1.
  rewrite si_value by reflexivity.
  change (con (ready E)) with (con E). change (sw (ready E) only_cross) with (sw E only_cross).
  rewrite <- (si_sum (con E) (sw E only_cross) (fun X Y => evolved_correlation E ells X Y a x b x c)).
  apply sum_ext_in. intros [[p q] l] HI.
  rewrite <- (Rmult_1_r (picked _ _ _ _ _)).
  apply folded_picked. intros G. apply guard_both' in G. destruct G as [G1 G2].
  assert (L : lookup p q si_blocks = body l /\ along p = false /\ along q = true /\
              contrib_beq p q = false).
  { clear -HI. in_cases HI; repeat split; reflexivity. }
  destruct L as (L & L1 & L2 & L3).
  assert (q = len) as -> by (destruct (O q G2) as [->|[->| ->]]; [discriminate L2|discriminate L2|reflexivity]).
  assert (P : p = den \/ p = rsd) by (destruct (O p G1) as [->|[->| ->]]; [left|right|discriminate L1]; reflexivity).
  pose proof (single_evolved (ready E) ells zm m s x N M F eq_refl Hs Hm Q1 Q2 p P) as W.
  rewrite L in W. cbv beta.
  change (incr (ready E) (si_s0 (ready E) zm m s x) (body l) * 1 =
    if contrib_beq p len then evolved_correlation E ells p p a x b x c
    else evolved_correlation E ells p len a x b x c + evolved_correlation E ells len p a x b x c).
  rewrite L3, Rmult_1_r. apply W. intros ->. exact (HT G1 G2).
Qed.
Print Assumptions C22_single_evolved_partial.

(** Lensing with lensing, where the two points are further apart than the smallest separation
    of the tables. *)
Theorem C22_double_evolved_partial : forall E ells zm m s x y,
  built E ells -> evolving_view E zm m s -> interior x -> interior y ->
  let a := near E zm m s in let b := far E zm m s in let c := Weights.cosine a b s in
  (1 / 1000000) ^ 2 < (a * x) ^ 2 + (b * y) ^ 2 - 2 * (a * x) * (b * y) * c ->
  value (double_integrated E zm m s x y) =
  sum_over (enabled_pairs (con E) (sw E only_cross) 2)
    (fun p => evolved_correlation E ells (fst p) (snd p) a x b y c).
Proof.
  intros E ells zm m s x y B V Hx Hy a b c Hq. destruct V as [N M F0 O Hs Hm HT].
  assert (F : full_sky_linear (with_linear (ready E)))
    by (destruct F0 as [D R L1 L2 L3 L4]; constructor; assumption).
  rewrite (di_ready E ells B).
  rewrite <- (with_set_same (ready E)) at 1.
  rewrite di_value by reflexivity.
  change (con (ready E)) with (con E). change (sw (ready E) only_cross) with (sw E only_cross).
  rewrite sum_scal_r, <- (di_sum (con E) (sw E only_cross) (fun X Y => evolved_correlation E ells X Y a x b y c)).
  apply sum_ext_in. intros [[p q] l] HI.
  apply folded_picked. intros G. apply guard_both' in G. destruct G as [G1 G2].
  assert (L : lookup p q di_blocks = body l /\ along p = true /\ along q = true).
  { clear -HI. in_cases HI; repeat split; reflexivity. }
  destruct L as (L & L1 & L2).
  assert (p = len) as -> by (destruct (O p G1) as [->|[->| ->]]; [discriminate L1|discriminate L1|reflexivity]).
  assert (q = len) as -> by (destruct (O q G2) as [->|[->| ->]]; [discriminate L2|discriminate L2|reflexivity]).
  pose proof (double_evolved (ready E) ells zm m s x y N M F eq_refl Hs Hm Hq) as W.
  rewrite L in W. exact W.
Qed.
Print Assumptions C22_double_evolved_partial.

(** The conditions of both are met with the three contributions and a spectrum that evolves. *)
Definition seen_galaxies : contrib -> bool :=
  fun c => match c with den | rsd | len => true | _ => false end.
Example C22_evolved_met : exists E, built E [0; 2]%Z /\ con E = seen_galaxies /\
  (forall k x, tab2 E k result2d 1 x <> tab2 E k result2d 2 x) /\
  evolving_view E 1 (1 / 2) 1 /\ interior (1 / 2) /\ interior (1 / 4) /\
  let a := near E 1 (1 / 2) 1 in let b := far E 1 (1 / 2) 1 in let c := Weights.cosine a b 1 in
  (1 / 1000000) ^ 2 < (a * (1 / 2)) ^ 2 + (b * (1 / 4)) ^ 2 - 2 * (a * (1 / 2)) * (b * (1 / 4)) * c /\
  0 < a ^ 2 + (b * (1 / 2)) ^ 2 - 2 * a * (b * (1 / 2)) * c /\
  0 < (a * (1 / 2)) ^ 2 + b ^ 2 - 2 * (a * (1 / 2)) * b * c.
Proof.
  exists (configured grown [0; 2]%Z seen_galaxies false).
  split; [apply configured_built|]. split; [reflexivity|]. split; [intros k x; cbn; lra|].
  split.
  { constructor; try reflexivity.
    - constructor; try reflexivity; [repeat split|intros k u v; cbn; lra].
    - intros []; try discriminate; auto.
    - cbn. lra.
    - lra.
    - intros _ _. left. rewrite Rabs_right; lra. }
  split; [split; lra|]. split; [split; lra|]. cbv zeta. unfold Weights.cosine, near, far. cbn.
  repeat split; lra.
Qed.
