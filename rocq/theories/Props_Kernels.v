(** * Property C75: the fields that are correlated derive from one potential *)
From Coq Require Import Reals Lra Lia List ZArith Bool.
From Coquelicot Require Import Coquelicot.
From Coq Require Import List FunctionalExtensionality.
Import ListNotations.
From Verif Require Import Integrals CExpr Terms Signal TermsMeta TermsSum Additive SignalSum
  Lookup Uses Exchange ExchangeSignal Built Weights Props_Terms Kernels.
Open Scope R_scope.

(** ** Superpositions of waves: the tables the code computes, for a power spectrum made
    of finitely many wave numbers *)

#[local] Ltac rfield := match goal with |- ?a = ?b => change (@eq R a b) end; field.

(** Spherical Bessel functions. *)
Fixpoint bessel (l : nat) (x : R) : R :=
  match l with
  | O => sin x / x
  | S l' => match l' with
            | O => sin x / x ^ 2 - cos x / x
            | S l'' => INR (2 * l' + 1) / x * bessel l' x - bessel l'' x
            end
  end.

(** Weight and wave number of each wave. *)
Definition waves := list (R * R).
Definition positive (ws : waves) : Prop := Forall (fun w => 0 < snd w) ws.
Definition wave_sum (ws : waves) (f : R -> R) : R :=
  fold_right Rplus 0 (map (fun w => fst w * f (snd w)) ws).

(** The tabulated integral, integrals.c:280-383: j_l(kr) / (kr)^n, times r^(n-l) when
    l <= n. *)
Definition wave_table (ws : waves) (n l : nat) (r : R) : R :=
  wave_sum ws (fun k => bessel l (k * r) / (k * r) ^ n * r ^ (n - l)).

(** The correlation of the potential. *)
Definition wave_potential (ws : waves) (q : R) : R :=
  wave_sum ws (fun k => bessel 0 (k * sqrt q) / k ^ 4).

Definition made_of (E : env) (ws : waves) : Prop :=
  forall n l r, In (n, l) [(4, 0); (3, 1); (2, 2); (2, 0); (1, 1); (1, 3); (0, 0); (0, 2); (0, 4)]%nat ->
    0 < r -> tab1 E (K (Z.of_nat n) (Z.of_nat l) false) result r = wave_table ws n l r.

Definition wave_derivative (ws : waves) (j : nat) (q : R) : R :=
  wave_sum ws (fun k => k ^ (2 * j) / k ^ 4 * (bessel j (k * sqrt q) / (k * sqrt q) ^ j)).

Lemma bessel_SS : forall l x, bessel (S (S l)) x = INR (2 * S l + 1) / x * bessel (S l) x - bessel l x.
Proof. reflexivity. Qed.
Lemma bessel_step : forall l x, x <> 0 ->
  bessel l x = INR (2 * S l + 1) / x * bessel (S l) x - bessel (S (S l)) x.
Proof. intros. rewrite bessel_SS. ring. Qed.

(** d/dx j_l(x)/x^l = - j_(l+1)(x)/x^l *)
Lemma bessel_derive : forall l x, 0 < x ->
  is_derive (bessel l) x (INR l / x * bessel l x - bessel (S l) x).
Proof.
  assert (P : forall l x, 0 < x ->
    is_derive (bessel l) x (INR l / x * bessel l x - bessel (S l) x) /\
    is_derive (bessel (S l)) x (INR (S l) / x * bessel (S l) x - bessel (S (S l)) x)).
  { induction l as [|l IH]; intros x Hx.
    - split.
      + apply (is_derive_ext (fun x => sin x / x)); [reflexivity|].
        cbn [bessel INR]. auto_derive; [lra|]. rfield. lra.
      + apply (is_derive_ext (fun x => sin x / x ^ 2 - cos x / x)); [reflexivity|].
        cbn [bessel]. replace (INR 1) with 1 by reflexivity.
        replace (INR (2 * 1 + 1)) with 3 by (cbn; ring).
        auto_derive; [repeat split; nra|]. rfield. lra.
    - destruct (IH x Hx) as [I1 I2]. split; [exact I2|].
      apply (is_derive_ext (fun x => INR (2 * S l + 1) / x * bessel (S l) x - bessel l x)).
      { intros t. symmetry. apply bessel_SS. }
      assert (D : is_derive (fun x => INR (2 * S l + 1) / x) x (- INR (2 * S l + 1) / x ^ 2)).
      { generalize (INR (2 * S l + 1)). intros C. auto_derive; [lra|]. rfield. lra. }
      pose proof (is_derive_minus _ _ _ _ _ (is_derive_mult _ _ _ _ _ D I2 Rmult_comm) I1) as M.
      match goal with |- is_derive _ _ ?a => match type of M with is_derive _ _ ?b =>
        replace a with b; [exact M|] end end.
      unfold minus, plus, opp, mult. cbn -[INR bessel pow Nat.mul Nat.add].
      rewrite (bessel_SS (S l)), (bessel_SS l).
      rewrite !plus_INR, !mult_INR, !S_INR. cbn [INR]. rfield. lra. }
  intros l x Hx. apply P. exact Hx.
Qed.

Lemma wave_sum_derive : forall ws (f : R -> R -> R) (g : R -> R) x,
  (forall k, In k (map snd ws) -> is_derive (f k) x (g k)) ->
  is_derive (fun t => wave_sum ws (fun k => f k t)) x (wave_sum ws g).
Proof.
  induction ws as [|[w k] ws IH]; intros f g x H; unfold wave_sum; cbn [map fold_right fst snd].
  - apply (is_derive_const 0).
  - apply (is_derive_plus (fun t => w * f k t)).
    + apply (is_derive_scal (f k) x w). apply H. left. reflexivity.
    + apply IH. intros k' Hk. apply H. right. exact Hk.
Qed.

Lemma wave_sum_ext : forall ws f g, (forall k, In k (map snd ws) -> f k = g k) ->
  wave_sum ws f = wave_sum ws g.
Proof.
  induction ws as [|[w k] ws IH]; intros f g H; unfold wave_sum; cbn [map fold_right fst snd]; [reflexivity|].
  rewrite H by (left; reflexivity). f_equal. apply IH. intros k' Hk. apply H. right. exact Hk.
Qed.
Lemma wave_sum_scal : forall ws c f, wave_sum ws (fun k => c * f k) = c * wave_sum ws f.
Proof.
  induction ws as [|w ws IH]; intros; unfold wave_sum; cbn [map fold_right]; [ring|].
  unfold wave_sum in IH. rewrite IH. ring.
Qed.
Lemma wave_sum_plus : forall ws f g, wave_sum ws (fun k => f k + g k) = wave_sum ws f + wave_sum ws g.
Proof.
  induction ws as [|w ws IH]; intros; unfold wave_sum; cbn [map fold_right]; [ring|].
  unfold wave_sum in IH. rewrite IH. ring.
Qed.
Lemma positive_in : forall ws k, positive ws -> In k (map snd ws) -> 0 < k.
Proof.
  intros ws k H I. apply in_map_iff in I. destruct I as (w & <- & I).
  apply (proj1 (Forall_forall _ _) H w I).
Qed.

Lemma wave_derivatives : forall ws, positive ws -> derivatives (wave_derivative ws).
Proof.
  intros ws Hw j q Hq. unfold wave_derivative.
  replace (- wave_sum ws (fun k => k ^ (2 * S j) / k ^ 4 * (bessel (S j) (k * sqrt q) / (k * sqrt q) ^ S j)) / 2)
    with (wave_sum ws (fun k => - / 2 * (k ^ (2 * S j) / k ^ 4 * (bessel (S j) (k * sqrt q) / (k * sqrt q) ^ S j))))
    by (rewrite wave_sum_scal; field).
  apply (wave_sum_derive ws (fun k q => k ^ (2 * j) / k ^ 4 * (bessel j (k * sqrt q) / (k * sqrt q) ^ j))).
  intros k Hk. apply positive_in in Hk; [|exact Hw].
  pose proof (sqrt_lt_R0 q Hq) as Hr. set (r := sqrt q) in *.
  assert (Hx : 0 < k * r) by (apply Rmult_lt_0_compat; assumption).
  assert (Di : is_derive (fun q => k * sqrt q) q (k / (2 * r))).
  { auto_derive; [exact Hq|]. fold r. rfield. lra. }
  assert (Dp : is_derive (fun q => (k * sqrt q) ^ j) q (INR j * (k / (2 * r)) * (k * r) ^ pred j)).
  { apply (is_derive_pow (fun q => k * sqrt q) j q _ Di). }
  assert (Db : is_derive (fun q => bessel j (k * sqrt q)) q
     (k / (2 * r) * (INR j / (k * r) * bessel j (k * r) - bessel (S j) (k * r)))).
  { apply (is_derive_comp (bessel j) (fun q => k * sqrt q) q _ _ (bessel_derive j (k * r) Hx) Di). }
  assert (Hn : (k * r) ^ j <> 0) by (apply pow_nonzero; lra).
  pose proof (is_derive_div _ _ _ _ _ Db Dp Hn) as Dd. fold r in Dd.
  pose proof (is_derive_scal _ _ (k ^ (2 * j) / k ^ 4) _ Dd) as Ds.
  match goal with |- is_derive _ _ ?a => match type of Ds with is_derive _ _ ?b =>
    replace a with b; [exact Ds|] end end.
  change (scal ?a ?b) with (a * b) in *. unfold scal; cbn -[INR bessel pow Nat.mul]. unfold mult; cbn -[INR bessel pow Nat.mul].
  fold r. replace (2 * S j)%nat with (2 * j + 2)%nat by lia. rewrite pow_add.
  destruct j as [|j].
  - cbn [pow pred INR]. rewrite ?Nat.mul_0_r. field. lra.
  - cbn [pred]. rewrite <- !tech_pow_Rmult. set (P := (k * r) ^ j) in *.
    assert (P <> 0) by (apply pow_nonzero; lra).
    set (B := bessel (S j) (k * r)). set (B' := bessel (S (S j)) (k * r)). set (K2 := k ^ (2 * S j)).
    generalize (INR (S j)). intros J. cbn [pow]. rfield. lra.
Qed.

Lemma wave_tables : forall E ws, positive ws -> made_of E ws -> tables_of E (wave_derivative ws).
Proof.
  intros E ws Hw HM.
  assert (X : forall n l q, In (n, l) [(4, 0); (3, 1); (2, 2); (2, 0); (1, 1); (1, 3); (0, 0); (0, 2); (0, 4)]%nat ->
      0 < q -> table E (Z.of_nat n) (Z.of_nat l) q = wave_table ws n l (sqrt q)).
  { intros n l q I Hq. unfold table. apply HM; [exact I|]. apply sqrt_lt_R0. exact Hq. }
  assert (B : forall q k, 0 < q -> In k (map snd ws) ->
     exists r, r = sqrt q /\ q = r * r /\ 0 < r /\ 0 < k /\
       bessel 0 (k * r) = 3 / (k * r) * bessel 1 (k * r) - bessel 2 (k * r) /\
       bessel 1 (k * r) = 5 / (k * r) * bessel 2 (k * r) - bessel 3 (k * r) /\
       bessel 2 (k * r) = 7 / (k * r) * bessel 3 (k * r) - bessel 4 (k * r)).
  { intros q k Hq Hk. apply positive_in in Hk; [|exact Hw]. exists (sqrt q).
    pose proof (sqrt_lt_R0 q Hq) as Hr.
    split; [reflexivity|]. split; [rewrite sqrt_sqrt; lra|]. split; [exact Hr|]. split; [exact Hk|].
    assert (k * sqrt q <> 0) by (apply Rgt_not_eq, Rmult_lt_0_compat; assumption).
    pose proof (bessel_step 0 (k * sqrt q) H) as S0. pose proof (bessel_step 1 (k * sqrt q) H) as S1.
    pose proof (bessel_step 2 (k * sqrt q) H) as S2.
    replace (INR (2 * 1 + 1)) with 3 in S0 by (cbn; ring).
    replace (INR (2 * 2 + 1)) with 5 in S1 by (cbn; ring).
    replace (INR (2 * 3 + 1)) with 7 in S2 by (cbn; ring).
    repeat split; assumption. }
  constructor; intros q Hq.
  all: match goal with |- table _ ?n ?l _ = _ =>
      let n' := eval cbv in (Z.to_nat n) in let l' := eval cbv in (Z.to_nat l) in
      transitivity (wave_table ws n' l' (sqrt q)); [apply (X n' l' q); [cbn; tauto|assumption]|] end.
  all: unfold wave_table, wave_derivative.
  all: cbn [Nat.sub Nat.mul].
  - apply wave_sum_ext. intros k Hk. destruct (B q k Hq Hk) as (r & <- & Q & Hr & Hk' & B0 & B1 & B2).
    cbn [pow Nat.add]. field. lra.
  - apply wave_sum_ext. intros k Hk. destruct (B q k Hq Hk) as (r & <- & Q & Hr & Hk' & B0 & B1 & B2).
    cbn [pow Nat.add]. field. lra.
  - apply wave_sum_ext. intros k Hk. destruct (B q k Hq Hk) as (r & <- & Q & Hr & Hk' & B0 & B1 & B2).
    cbn [pow Nat.add]. field. lra.
  - unfold Rminus. rewrite <- Ropp_mult_distr_l_reverse, <- !wave_sum_scal, <- wave_sum_plus.
    apply wave_sum_ext. intros k Hk. destruct (B q k Hq Hk) as (r & <- & Q & Hr & Hk' & B0 & B1 & B2).
    rewrite B0, Q. cbn [pow Nat.add]. field. lra.
  - unfold Rminus. rewrite <- Ropp_mult_distr_l_reverse, <- !wave_sum_scal, <- wave_sum_plus.
    apply wave_sum_ext. intros k Hk. destruct (B q k Hq Hk) as (r & <- & Q & Hr & Hk' & B0 & B1 & B2).
    rewrite B1, Q. cbn [pow Nat.add]. field. lra.
  - rewrite <- !wave_sum_scal.
    apply wave_sum_ext. intros k Hk. destruct (B q k Hq Hk) as (r & <- & Q & Hr & Hk' & B0 & B1 & B2).
    rewrite Q. cbn [pow Nat.add]. field. lra.
  - unfold Rminus. rewrite <- Ropp_mult_distr_l_reverse, <- !wave_sum_scal, <- !wave_sum_plus.
    apply wave_sum_ext. intros k Hk. destruct (B q k Hq Hk) as (r & <- & Q & Hr & Hk' & B0 & B1 & B2).
    rewrite B0, B1, B2, Q. cbn [pow Nat.add]. field. lra.
  - unfold Rminus. rewrite <- Ropp_mult_distr_l_reverse, <- !wave_sum_scal, <- wave_sum_plus, <- wave_sum_scal.
    apply wave_sum_ext. intros k Hk. destruct (B q k Hq Hk) as (r & <- & Q & Hr & Hk' & B0 & B1 & B2).
    rewrite B2, Q. cbn [pow Nat.add]. field. lra.
  - rewrite <- !wave_sum_scal.
    apply wave_sum_ext. intros k Hk. destruct (B q k Hq Hk) as (r & <- & Q & Hr & Hk' & B0 & B1 & B2).
    rewrite Q. cbn [pow Nat.add]. field. lra.
Qed.

(** ** C75 *)

(** The correlation of contribution [X] of the first galaxy with [Y] of the second, when
    the fields derive from a potential of correlation [psi]; the potential itself is
    correlated after its renormalisation. *)
Definition physical (E : env) (psi : R -> R) (X Y : contrib) (d x d' x' c : R) : R :=
  weight E First X d x * weight E Second Y d' x'
  * (derived psi (field_of X) (field_of Y) (place X d x) (place Y d' x') c
     - (if both Potential (field_of X) (field_of Y)
        then tab2 E (K 4 0 false) renormalization (place X d x) (place Y d' x') else 0)).

Lemma cosine_inside : forall E zm m s, in_view E zm m s -> -1 < m < 1 ->
  place_ok (near E zm m s) (far E zm m s) (cosine (near E zm m s) (far E zm m s) s).
Proof.
  intros E zm m s V Hm. pose proof (iv_sep _ _ _ _ V) as Hs.
  assert (Ha : 0 < near E zm m s) by (unfold near; nra).
  assert (Hb : 0 < far E zm m s) by (unfold far; nra).
  split; [exact Ha|]. split; [exact Hb|].
  assert (Hp : 0 < 2 * near E zm m s * far E zm m s) by (apply Rmult_lt_0_compat; lra).
  assert (Hd : far E zm m s - near E zm m s = s * m) by (unfold near, far; field).
  assert (Ht : far E zm m s + near E zm m s = 2 * spl E bg_comoving_distance zm) by (unfold near, far; field).
  unfold cosine. set (a := near E zm m s) in *. set (b := far E zm m s) in *.
  split.
  - apply (proj1 (Rlt_div_r _ _ _ Hp)).
    assert (s ^ 2 < (b + a) ^ 2) by (rewrite Ht; nra). lra.
  - apply (proj2 (Rlt_div_l _ _ _ Hp)).
    assert ((b - a) ^ 2 < s ^ 2) by (rewrite Hd; assert (0 < s * s * (1 - m * m)) by (apply Rmult_lt_0_compat; nra); lra). lra.
Qed.

Lemma along_field : forall X Y, both Velocity (field_of X) (field_of Y) = true -> X = d1 /\ Y = d1.
Proof. intros [] []; cbn; intros H; try discriminate H; split; reflexivity. Qed.

Lemma enabled_not_doppler : forall S cross n p, S d1 && negb cross = false ->
  In p (enabled_pairs S cross n) -> both Velocity (field_of (fst p)) (field_of (snd p)) = false.
Proof.
  intros S cross n [X Y] H I. apply filter_In in I. destruct I as [_ I]. cbn [fst snd] in *.
  destruct (both Velocity (field_of X) (field_of Y)) eqn:B; [|reflexivity].
  apply along_field in B. destruct B as [-> ->].
  rewrite !andb_true_iff in I. destruct I as (_ & (I1 & _) & I2). cbn in I2.
  rewrite andb_true_r in I2. rewrite I1, I2 in H. discriminate H.
Qed.

Lemma physical_ok : forall E A X Y d x d' x' c,
  derivatives A -> tables_of E A -> place_ok (place X d x) (place Y d' x') c ->
  both Velocity (field_of X) (field_of Y) = false ->
  correlation E X Y d x d' x' c = physical E (A 0%nat) X Y d x d' x' c.
Proof.
  intros E A X Y d x d' x' c HA HT HP HV. unfold correlation, physical. f_equal.
  apply (kernel_derived A HA E _ _ _ _ c HT HP HV).
Qed.

Lemma place_scaled : forall X Y a b c x y, place_ok a b c -> interior x -> interior y ->
  place_ok (place X a x) (place Y b y) c.
Proof.
  intros X Y a b c x y (Ha & Hb & Hc) Hx Hy. unfold interior in *.
  repeat split; try apply Hc; unfold place; [destruct (along X)|destruct (along Y)]; nra.
Qed.

(** The integrands of the three families are sums, over ordered pairs of enabled
    contributions, of weights and of the derivatives of one function, whatever the power
    spectrum.  Partial: as C22, and without the correlation of the Doppler term with
    itself, for which it is false (below). *)
Theorem C75_local_partial : forall E ells A zm m s,
  built E ells -> in_view E zm m s -> -1 < m < 1 -> derivatives A -> tables_of E A ->
  con E d1 && negb (sw E only_cross) = false ->
  value (nonintegrated E zm m s) =
  sum_over (enabled_pairs (con E) (sw E only_cross) 0)
    (fun p => physical E (A 0%nat) (fst p) (snd p) (near E zm m s) 1 (far E zm m s) 1
                (cosine (near E zm m s) (far E zm m s) s)).
Proof.
  intros E ells A zm m s HB V Hm HA HT HD. rewrite (C22_local_partial E ells zm m s HB V).
  apply sum_ext_in. intros p Hp. apply physical_ok; try assumption.
  - pose proof (cosine_inside _ _ _ _ V Hm) as P. apply filter_In in Hp. destruct Hp as [_ Hp].
    apply andb_true_iff in Hp. destruct Hp as [Hp _]. apply Nat.eqb_eq in Hp.
    unfold place. destruct (along (fst p)), (along (snd p)); try discriminate Hp. exact P.
  - apply (enabled_not_doppler _ _ _ _ HD Hp).
Qed.
Print Assumptions C75_local_partial.

Theorem C75_single_integrated_partial : forall E ells A zm m s x,
  built E ells -> in_view E zm m s -> -1 < m < 1 -> interior x -> derivatives A -> tables_of E A ->
  value (single_integrated E zm m s x) =
  sum_over (enabled_pairs (con E) (sw E only_cross) 1)
    (fun p => physical E (A 0%nat) (fst p) (snd p) (near E zm m s) x (far E zm m s) x
                (cosine (near E zm m s) (far E zm m s) s)).
Proof.
  intros E ells A zm m s x HB V Hm Hx HA HT. destruct (apart_off_axis E zm m s (iv_sep _ _ _ _ V) (iv_mu _ _ _ _ V) x Hm Hx) as [Q1 Q2].
  rewrite (C22_single_integrated_partial E ells zm m s x HB V Q1 Q2).
  apply sum_ext_in. intros p Hp. apply physical_ok; try assumption.
  - apply place_scaled; try assumption. apply cosine_inside; assumption.
  - apply filter_In in Hp. destruct Hp as [_ Hp].
    destruct (both Velocity (field_of (fst p)) (field_of (snd p))) eqn:B; [|reflexivity].
    apply along_field in B. destruct p as [X Y]. cbn [fst snd] in *. destruct B as [-> ->]. discriminate Hp.
Qed.
Print Assumptions C75_single_integrated_partial.

Theorem C75_double_integrated_partial : forall E ells A zm m s x y,
  built E ells -> in_view E zm m s -> -1 < m < 1 -> interior x -> interior y -> derivatives A -> tables_of E A ->
  let a := near E zm m s in let b := far E zm m s in let c := cosine a b s in
  (1 / 1000000) ^ 2 < squared (a * x) (b * y) c ->
  value (double_integrated E zm m s x y) =
  sum_over (enabled_pairs (con E) (sw E only_cross) 2)
    (fun p => physical E (A 0%nat) (fst p) (snd p) a x b y c).
Proof.
  intros E ells A zm m s x y HB V Hm Hx Hy HA HT a b c Hq.
  rewrite (C22_double_integrated_partial E ells zm m s x y HB V Hx Hy Hq).
  apply sum_ext_in. intros p Hp. apply physical_ok; try assumption.
  - apply place_scaled; try assumption. apply cosine_inside; assumption.
  - apply filter_In in Hp. destruct Hp as [_ Hp].
    destruct (both Velocity (field_of (fst p)) (field_of (snd p))) eqn:B; [|reflexivity].
    apply along_field in B. destruct p as [X Y]. cbn [fst snd] in *. destruct B as [-> ->]. discriminate Hp.
Qed.
Print Assumptions C75_double_integrated_partial.

(** The hypotheses hold for every power spectrum made of finitely many wave numbers;
    the correlation of the potential is then the sum of sin(kr)/(kr) / k^4. *)
Theorem C75_waves : forall E ws, positive ws -> made_of E ws ->
  derivatives (wave_derivative ws) /\ tables_of E (wave_derivative ws) /\
  forall q, wave_derivative ws 0 q = wave_sum ws (fun k => sin (k * sqrt q) / (k * sqrt q) / k ^ 4).
Proof.
  intros E ws Hw HM. split; [apply wave_derivatives; exact Hw|]. split; [apply wave_tables; assumption|].
  intros q. apply wave_sum_ext. intros k Hk. apply positive_in in Hk; [|exact Hw].
  cbn [bessel Nat.mul Nat.add pow]. unfold Rdiv. rewrite Rinv_1. ring.
Qed.
Print Assumptions C75_waves.

(** A universe with one wave number. *)
Definition wavy (S : contrib -> bool) (cross : bool) : env :=
  let E := ex S cross in
  mkEnv (con E) (sw E) (spl E)
    (fun k _ r => wave_table [(1, PI)] (Z.to_nat (key_n k)) (Z.to_nat (key_l k)) r)
    (tab2 E) (present E) (par_h E) (omega_cdm E) (omega_baryon E).
Lemma wavy_built : forall S cross, built (wavy S cross) [0; 2]%Z.
Proof. intros S cross. destruct (ex_built S cross) as [H1 H2]. constructor; [exact H1|exact H2]. Qed.
Lemma wavy_positive : positive [(1, PI)].
Proof. constructor; [exact PI_RGT_0|constructor]. Qed.
Lemma wavy_made : forall S cross, made_of (wavy S cross) [(1, PI)].
Proof. intros S cross n l r _ _. cbn [wavy tab1 key_n key_l]. rewrite !Nat2Z.id. reflexivity. Qed.
Lemma wavy_view : forall S cross m, consistent S -> -1 <= m <= 1 ->
  (S rsd = true -> S len = true -> Rabs m < 999 / 1000 \/ m * m = 1) -> in_view (wavy S cross) 1 m 1.
Proof.
  intros S cross m HS Hm HT. destruct (ex_full_sky S cross) as [F1 F2 F3 F4 F5 F6]. constructor.
  - constructor; assumption.
  - cbn. lra.
  - exact Hm.
  - exact HT.
  - exact HS.
Qed.
Definition galaxies : contrib -> bool := fun c => match c with den | rsd | d1 => true | _ => false end.
Example C75_met : exists E ells A, built E ells /\ in_view E 1 (1 / 2) 1 /\ con E = galaxies /\
  derivatives A /\ tables_of E A /\ con E d1 && negb (sw E only_cross) = false.
Proof.
  exists (wavy galaxies true), [0; 2]%Z, (wave_derivative [(1, PI)]).
  destruct (C75_waves (wavy galaxies true) [(1, PI)] wavy_positive (wavy_made galaxies true)) as (W1 & W2 & _).
  split; [apply wavy_built|]. split.
  { apply wavy_view; [|lra|discriminate].
    intros X Y HX HY. destruct X; try discriminate HX; destruct Y; try discriminate HY; reflexivity. }
  split; [reflexivity|]. split; [exact W1|]. split; [exact W2|reflexivity].
Qed.

(** *** The Doppler term correlated with itself *)

(** The code takes the part in I^2_2 with the wrong sign: functions.c:545-568. *)
Definition only_doppler : contrib -> bool := fun c => match c with d1 => true | _ => false end.

Lemma doppler_difference : forall E A a b c, derivatives A -> tables_of E A -> place_ok a b c ->
  kernel E Velocity Velocity a b c =
  derived (A 0%nat) Velocity Velocity a b c
  - 2 * ((b - a * c) * (a - b * c) + squared a b c * c / 3) * A 2%nat (squared a b c).
Proof.
  intros E A a b c HA HT H. rewrite (derived_ok A HA) by exact H. cbv zeta.
  pose proof (place_squared _ _ _ H) as Hq. unfold kernel. cbn [rank Nat.leb base].
  fold (squared a b c). rewrite (t22 _ _ HT), (t20 _ _ HT) by exact Hq.
  cbn [radial_operator form]. cbv [dif dv dp hq evl ev px_v px_q px_square].
  set (A1 := A 1%nat (squared a b c)). set (A2 := A 2%nat (squared a b c)). unfold squared. field.
Qed.

Theorem C75_doppler_difference : forall E ells A zm m s,
  built E ells -> in_view E zm m s -> -1 < m < 1 -> derivatives A -> tables_of E A ->
  con E = only_doppler -> sw E only_cross = false ->
  let a := near E zm m s in let b := far E zm m s in let c := cosine a b s in
  value (nonintegrated E zm m s) =
  physical E (A 0%nat) d1 d1 a 1 b 1 c
  - 2 * (weight E First d1 a 1 * weight E Second d1 b 1)
    * ((b - a * c) * (a - b * c) + s ^ 2 * c / 3) * A 2%nat (s ^ 2).
Proof.
  intros E ells A zm m s HB V Hm HA HT HC HX a b c. rewrite (C22_local_partial E ells zm m s HB V).
  rewrite HC, HX. cbn -[correlation weight pow]. fold a b c.
  unfold correlation, physical, place. cbn [along field_of both rank Nat.eqb andb].
  rewrite (doppler_difference E A a b c HA HT (cosine_inside _ _ _ _ V Hm)).
  assert (Q : squared a b c = s ^ 2).
  { apply law_of_cosines; apply Rgt_not_eq; destruct (cosine_inside _ _ _ _ V Hm) as (Ha & Hb & _); assumption. }
  rewrite Q. ring.
Qed.
Print Assumptions C75_doppler_difference.

(** So at separations across the line of sight, below the distance of the galaxies, the
    result is wrong whenever I^2_2 and the weights of the term are not zero. *)
Theorem C75_doppler_refuted : forall E ells A zm s,
  built E ells -> in_view E zm 0 s -> derivatives A -> tables_of E A ->
  con E = only_doppler -> sw E only_cross = false ->
  s < spl E bg_comoving_distance zm -> A 2%nat (s ^ 2) <> 0 ->
  let a := near E zm 0 s in let b := far E zm 0 s in
  weight E First d1 a 1 <> 0 -> weight E Second d1 b 1 <> 0 ->
  value (nonintegrated E zm 0 s) <> physical E (A 0%nat) d1 d1 a 1 b 1 (cosine a b s).
Proof.
  intros E ells A zm s HB V HA HT HC HX Hs H2 a b W1 W2.
  pose proof (C75_doppler_difference E ells A zm 0 s HB V ltac:(lra) HA HT HC HX) as D. cbv zeta in D.
  fold a b in D. rewrite D. intros C.
  pose proof (proj1 (iv_sep _ _ _ _ V)) as Hs0. set (chi := spl E bg_comoving_distance zm) in *.
  assert (Ha : a = chi) by (unfold a, near; fold chi; field).
  assert (Hb : b = chi) by (unfold b, far; fold chi; field).
  assert (P : 0 < (b - a * cosine a b s) * (a - b * cosine a b s) + s ^ 2 * cosine a b s / 3).
  { rewrite Ha, Hb. assert (G : cosine chi chi s = 1 - s ^ 2 / (2 * chi ^ 2)) by (unfold cosine; field; lra).
    assert (0 < cosine chi chi s).
    { rewrite G. apply Rlt_Rminus. assert (0 < 2 * chi ^ 2) by nra.
      apply (proj2 (Rlt_div_l _ _ _ H)). nra. }
    assert (0 < s ^ 2 * cosine chi chi s) by (apply Rmult_lt_0_compat; [nra|assumption]).
    pose proof (pow2_ge_0 (chi - chi * cosine chi chi s)). lra. }
  assert (N : weight E First d1 a 1 * weight E Second d1 b 1
     * ((b - a * cosine a b s) * (a - b * cosine a b s) + s ^ 2 * cosine a b s / 3) * A 2%nat (s ^ 2) <> 0).
  { apply Rgt_not_eq in P.
    do 3 (apply Rmult_integral_contrapositive_currified; [|assumption]); assumption. }
  apply N. lra.
Qed.
Print Assumptions C75_doppler_refuted.

Example C75_doppler_met : exists E ells A zm s,
  built E ells /\ in_view E zm 0 s /\ derivatives A /\ tables_of E A /\
  con E = only_doppler /\ sw E only_cross = false /\
  s < spl E bg_comoving_distance zm /\ A 2%nat (s ^ 2) <> 0 /\
  weight E First d1 (near E zm 0 s) 1 <> 0 /\ weight E Second d1 (far E zm 0 s) 1 <> 0.
Proof.
  exists (wavy only_doppler false), [0; 2]%Z, (wave_derivative [(1, PI)]), 1, 1.
  destruct (C75_waves (wavy only_doppler false) [(1, PI)] wavy_positive (wavy_made only_doppler false))
    as (W1 & W2 & _).
  split; [apply wavy_built|]. split.
  { apply wavy_view; [|lra|discriminate].
    intros X Y HX HY. destruct X; try discriminate HX; destruct Y; try discriminate HY; reflexivity. }
  split; [exact W1|]. split; [exact W2|]. split; [reflexivity|]. split; [reflexivity|].
  split; [cbn; lra|]. split.
  - replace (1 ^ 2) with 1 by ring. unfold wave_derivative, wave_sum. cbn [map fold_right fst snd].
    rewrite sqrt_1, Rmult_1_r. cbn -[INR PI]. rewrite sin_PI, cos_PI.
    replace (INR 3) with 3 by (cbn; ring). pose proof PI_RGT_0.
    match goal with |- ?x <> 0 => replace x with (3 / PI ^ 4) by (field; lra) end.
    apply Rgt_not_eq. apply Rdiv_lt_0_compat; [lra|]. apply pow_lt. lra.
  - cbn. split; lra.
Qed.
