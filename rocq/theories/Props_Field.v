(** * Property C75 with a nonlinear spectrum

    The integrands are those of linear theory also with a spectrum that evolves, when each pair
    of points is given the correlation of the potential at its mean redshift
    (functions.c:21-3330, the branches for a nonlinear spectrum). *)
From Coq Require Import Reals Lra Lia List ZArith Bool.
From Coquelicot Require Import Coquelicot.
From Coq Require Import List.
Import ListNotations.
From Verif Require Import Integrals CExpr Terms Signal TermsMeta TermsSum Additive SignalSum
  Lookup Exchange ExchangeSignal Built Evolved Weights Props_Terms Kernels Props_Kernels Legendre Multipoles Flat Props_Multipoles
  Props_Limit Props_Nonlinear Props_Along.
Open Scope R_scope.
#[local] Opaque nonintegrated single_integrated double_integrated.

(** ** Specification *)

(** [A z 0] is the correlation of the potential at redshift [z] and the program's tables at
    that redshift are those of its derivatives.  Specification or proof only; nothing in the
    code. *)
Definition evolving_potential (E : env) (ells : list Z) (A : R -> nat -> R -> R) : Prop :=
  forall z, derivatives (A z) /\ tables_of (seen_at E ells z) (A z).

(** The correlation of two contributions when the potential is the one midway between them.
    Specification or proof only; nothing in the code. *)
Definition evolved_physical (E : env) (ells : list Z) (A : R -> nat -> R -> R)
    (X Y : contrib) (d x d' x' c : R) : R :=
  let z := midway E X Y d x d' x' in
  physical (seen_at E ells z) (A z 0%nat) X Y d x d' x' c.

Lemma inside_view : forall E zm m s, 0 < s < 2 * spl E bg_comoving_distance zm -> -1 < m < 1 ->
  place_ok (near E zm m s) (far E zm m s) (Weights.cosine (near E zm m s) (far E zm m s) s).
Proof.
  intros E zm m s Hs Hm. 
  set (G := seen_at (mkEnv (fun _ => false) (fun _ => false) (spl E) (tab1 E) (tab2 E) (present E) (par_h E) (omega_cdm E) (omega_baryon E)) [] zm).
  change (place_ok (near G zm m s) (far G zm m s) (Weights.cosine (near G zm m s) (far G zm m s) s)).
  apply cosine_inside; [|exact Hm]. constructor.
  - constructor; try reflexivity; [repeat split|intros ? ? ?; reflexivity].
  - exact Hs.
  - lra.
  - discriminate.
  - intros X Y HX. discriminate HX.
Qed.

(** ** C75: the local terms *)
Theorem C75_local_evolved_partial : forall E ells A z m s,
  built E ells -> no_derivatives E -> sw E flatsky_local = false ->
  (forall X, con E X = true -> X = den \/ X = rsd \/ X = d1) ->
  con E d1 && negb (sw E only_cross) = false ->
  0 < s < 2 * spl E bg_comoving_distance z -> -1 < m < 1 ->
  evolving_potential E ells A ->
  value (nonintegrated E z m s) =
  sum_over (enabled_pairs (con E) (sw E only_cross) 0)
    (fun p => physical (seen_at E ells z) (A z 0%nat) (fst p) (snd p) (near E z m s) 1 (far E z m s) 1
                (Weights.cosine (near E z m s) (far E z m s) s)).
Proof.
  intros E ells A z m s B D FS O HD Hs Hm HA.
  rewrite (C22_local_evolved_partial E ells z m s B D FS O Hs ltac:(lra)).
  apply sum_ext_in. intros p Hp. destruct (HA z) as [A1 A2]. apply (physical_ok _ _ _ _ _ _ _ _ _ A1 A2).
  - pose proof (inside_view E z m s Hs Hm) as P. apply filter_In in Hp. destruct Hp as [_ Hp].
    apply andb_true_iff in Hp. destruct Hp as [Hp _]. apply Nat.eqb_eq in Hp.
    unfold place. destruct (along (fst p)), (along (snd p)); try discriminate Hp. exact P.
  - apply (enabled_not_doppler _ _ _ _ HD Hp).
Qed.
Print Assumptions C75_local_evolved_partial.

(** ** C75: the terms along the lines of sight *)
Theorem C75_single_evolved_partial : forall E ells A zm m s x,
  built E ells -> evolving_view E zm m s -> -1 < m < 1 -> interior x ->
  evolving_potential E ells A ->
  let a := near E zm m s in let b := far E zm m s in let c := Weights.cosine a b s in
  value (single_integrated E zm m s x) =
  sum_over (enabled_pairs (con E) (sw E only_cross) 1)
    (fun p => evolved_physical E ells A (fst p) (snd p) a x b x c).
Proof.
  intros E ells A zm m s x B V Hm Hx HA a b c.
  destruct (apart_off_axis E zm m s (ev_sep _ _ _ _ V) (ev_mu _ _ _ _ V) x Hm Hx) as [Q1 Q2].
  rewrite (C22_single_evolved_partial E ells zm m s x B V Q1 Q2).
  apply sum_ext_in. intros p Hp. unfold evolved_correlation, evolved_physical. cbv zeta.
  destruct (HA (midway E (fst p) (snd p) a x b x)) as [A1 A2]. fold a b c.
  apply (physical_ok _ _ _ _ _ _ _ _ _ A1 A2).
  - apply place_scaled; try assumption. exact (inside_view E zm m s (ev_sep _ _ _ _ V) Hm).
  - apply filter_In in Hp. destruct Hp as [_ Hp].
    destruct (both Velocity (field_of (fst p)) (field_of (snd p))) eqn:BV; [|reflexivity].
    apply along_field in BV. destruct p as [X Y]. cbn [fst snd] in *. destruct BV as [-> ->]. discriminate Hp.
Qed.
Print Assumptions C75_single_evolved_partial.

Theorem C75_double_evolved_partial : forall E ells A zm m s x y,
  built E ells -> evolving_view E zm m s -> -1 < m < 1 -> interior x -> interior y ->
  evolving_potential E ells A ->
  let a := near E zm m s in let b := far E zm m s in let c := Weights.cosine a b s in
  (1 / 1000000) ^ 2 < squared (a * x) (b * y) c ->
  value (double_integrated E zm m s x y) =
  sum_over (enabled_pairs (con E) (sw E only_cross) 2)
    (fun p => evolved_physical E ells A (fst p) (snd p) a x b y c).
Proof.
  intros E ells A zm m s x y B V Hm Hx Hy HA a b c Hq.
  rewrite (C22_double_evolved_partial E ells zm m s x y B V Hx Hy Hq).
  apply sum_ext_in. intros p Hp. unfold evolved_correlation, evolved_physical. cbv zeta.
  destruct (HA (midway E (fst p) (snd p) a x b y)) as [A1 A2]. fold a b c.
  apply (physical_ok _ _ _ _ _ _ _ _ _ A1 A2).
  - apply place_scaled; try assumption. exact (inside_view E zm m s (ev_sep _ _ _ _ V) Hm).
  - apply filter_In in Hp. destruct Hp as [_ Hp].
    destruct (both Velocity (field_of (fst p)) (field_of (snd p))) eqn:BV; [|reflexivity].
    apply along_field in BV. destruct p as [X Y]. cbn [fst snd] in *. destruct BV as [-> ->]. discriminate Hp.
Qed.
Print Assumptions C75_double_evolved_partial.

(** The conditions are met by a universe with one wave number whose amplitude grows. *)
Definition growing_wave : env :=
  mkEnv (fun _ => false)
    (fun f => match f with output_multipoles | pk_nonlinear | midpoint => true | _ => false end)
    (spl plane) (tab1 plane)
    (fun k t z r => match t with
       | result2d => wave_table [(1 + z, PI)] (Z.to_nat (key_n k)) (Z.to_nat (key_l k)) r
       | _ => 0 end) (present plane)
    (par_h plane) (omega_cdm plane) (omega_baryon plane).
Example C75_evolved_met : exists E A, built E [0; 2]%Z /\ con E = seen_galaxies /\
  evolving_view E 1 (1 / 2) 1 /\ evolving_potential E [0; 2]%Z A /\
  (exists q, 0 < q /\ A 1 0%nat q <> A 2 0%nat q) /\
  let a := near E 1 (1 / 2) 1 in let b := far E 1 (1 / 2) 1 in let c := Weights.cosine a b 1 in
  (1 / 1000000) ^ 2 < squared (a * (1 / 2)) (b * (1 / 4)) c.
Proof.
  exists (configured growing_wave [0; 2]%Z seen_galaxies false), (fun z => wave_derivative [(1 + z, PI)]).
  split; [apply configured_built|]. split; [reflexivity|].
  split.
  { constructor; try reflexivity.
    - constructor; try reflexivity; [repeat split|intros k u v; cbn; lra].
    - intros []; try discriminate; auto.
    - cbn. lra.
    - lra.
    - intros _ _. left. rewrite Rabs_right; lra. }
  split.
  { intros z. assert (P : positive [(1 + z, PI)]) by (constructor; [exact PI_RGT_0|constructor]).
    split; [apply wave_derivatives; exact P|].
    apply wave_tables; [exact P|]. intros n l r _ _.
    cbn [seen_at tab1 evolves configured growing_wave sw andb tab2 key_n key_l]. rewrite !Nat2Z.id. reflexivity. }
  split; [|cbv zeta; unfold Weights.cosine, near, far, squared; cbn; lra].
  exists (1 / 4). split; [lra|].
  pose proof PI_RGT_0 as P.
  assert (S : sqrt (1 / 4) = 1 / 2)
    by (replace (1 / 4) with ((1 / 2) * (1 / 2)) by lra; apply sqrt_square; lra).
  unfold wave_derivative, wave_sum. cbn [map fold_right fst snd bessel Nat.mul pow]. rewrite S.
  replace (PI * (1 / 2)) with (PI / 2) by lra. rewrite sin_PI2.
  assert (V : 0 < 1 / (PI * (PI * (PI * (PI * 1)))) * (1 / (PI / 2) / 1)).
  { apply Rmult_lt_0_compat; [|rewrite Rdiv_1; apply Rdiv_lt_0_compat; lra].
    apply Rdiv_lt_0_compat; [lra|]. replace (PI * (PI * (PI * (PI * 1)))) with (PI ^ 4) by ring. apply pow_lt; exact P. }
  change (PI ^ (0 + (0 + 0))) with 1. revert V. generalize (1 / (PI * (PI * (PI * (PI * 1)))) * (1 / (PI / 2) / 1)). intros v V. lra.
Qed.
