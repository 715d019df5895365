(** * Properties C22 and C72 with a nonlinear spectrum: the local terms

    With a nonlinear spectrum the local terms read tables of the spectrum at the redshift of the
    pair, without growth factors (functions.c:130-620).  They are those of a linear spectrum with
    these tables, whatever happens to the spectrum at other redshifts. *)
From Coq Require Import Reals Lra Lia List ZArith Bool.
From Coquelicot Require Import Coquelicot.
From Coq Require Import List FunctionalExtensionality.
Import ListNotations.
From Verif Require Import Integrals CExpr Terms Signal TermsMeta TermsSum Additive SignalSum
  Lookup Exchange ExchangeSignal Built Weights Props_Terms Legendre Multipoles Flat Props_Multipoles Props_Limit.
Open Scope R_scope.
#[local] Opaque nonintegrated single_integrated double_integrated.

(** ** Specification *)

(** The spectrum as it is at redshift [z]: the tables in use there, and the growth factor that
    goes with them.  Specification or proof only; nothing in the code. *)
Definition evolves (E : env) : bool := sw E pk_nonlinear && sw E midpoint.
Definition seen_at (E : env) (ells : list Z) (z : R) : env :=
  mkEnv (con E)
    (fun f => match f with pk_nonlinear | flatsky_local_nonlocal | flatsky_nonlocal => false | f => sw E f end)
    (fun f x => match f with bg_D1 => if evolves E then 1 else spl E bg_D1 x | f => spl E f x end)
    (fun k t x => match t with
       | result => if evolves E then tab2 E k result2d z x else tab1 E k result x
       | t => tab1 E k t x end)
    (fun _ _ _ _ => 0)
    (has_key (integral_keys (sw E divergent) false false (sw E output_multipoles) ells))
    (par_h E) (omega_cdm E) (omega_baryon E).

(** ** The local terms *)
Section Local.
Variable E : env.
Variable ells : list Z.
Hypothesis B : built E ells.
Hypothesis D : no_derivatives E.
Hypothesis PL : forall X, con E X = true -> plain X = true.

Lemma seen_built : forall z, built (seen_at E ells z) ells.
Proof. intros z. constructor; [reflexivity|exact (bu_div _ _ B)]. Qed.

Lemma seen_pair : forall z t X Y l, t z_mean = z -> In (X, Y, l) ni_blocks -> plain X = true -> plain Y = true ->
  incr (complete E) t (body l) * ni_factor (complete E) t
  = incr (complete (seen_at E ells z)) t (body l) * ni_factor (complete (seen_at E ells z)) t.
Proof.
  intros z t X Y l Z HI HX HY. destruct D as (N1 & N2 & N3 & N4).
  cbn [In ni_blocks] in HI.
  repeat (destruct HI as [HI|HI]; [injection HI as <- <- <-; try discriminate HX; try discriminate HY|]); try contradiction.
  all: match goal with |- context [body ?l] => unfold l end; cbn [body incr].
  all: unfold ni_factor, complete, seen_at, evolves in *; cbn [sw spl tab1 tab2 present par_h omega_cdm omega_baryon con].
  all: destruct (sw E flatsky_local) eqn:FL, (sw E pk_nonlinear) eqn:NL, (sw E midpoint) eqn:MD.
  all: rewrite ?N1, ?N2, ?N3, ?N4; cbn [orb andb].
  all: repeat (rewrite !incr1_If; cbn [holds sw]; rewrite ?N1, ?N2, ?N3, ?N4, ?FL, ?NL, ?MD; cbn [andb orb negb];
         cbn [incr]).
  all: cbn [incr1 eval spl tab1 tab2]; rewrite ?Z; try reflexivity; ring.
Qed.

Lemma dens_assign : forall F G l s,
  Forall (fun c => exists v e, c = Set_ v e /\ forall t, eval F t e = eval G t e) l ->
  dens F s l = dens G s l.
Proof.
  intros F G l s H. revert s. induction H as [|c l (v & e & -> & He) _ IH]; intros s; [reflexivity|].
  cbn [dens den1]. rewrite He. apply IH.
Qed.
Lemma seen_dens : forall z m s,
  dens (complete (seen_at E ells z)) (args z m s) ni_prelude = dens (complete E) (args z m s) ni_prelude.
Proof.
  intros. apply dens_assign. unfold ni_prelude.
  repeat (apply Forall_cons; [eexists; eexists; split; [reflexivity|intros t; reflexivity]|]). apply Forall_nil.
Qed.

Lemma seen_value : forall z m s,
  value (nonintegrated E z m s) = value (nonintegrated (seen_at E ells z) z m s).
Proof.
  intros z m s.
  rewrite (ni_complete E ells B), (ni_complete (seen_at E ells z) ells (seen_built z)).
  rewrite <- (with_set_same (complete E)), <- (with_set_same (complete (seen_at E ells z))).
  rewrite !ni_value by reflexivity. rewrite !sum_scal_r.
  unfold ni_s0.
  rewrite seen_dens. set (t := dens (complete E) (args z m s) ni_prelude).
  assert (Z : t z_mean = z) by (unfold t; rewrite dens_keeps by reflexivity; reflexivity).
  clearbody t.
  apply sum_ext_in. intros [[X Y] l] HI. cbn [picked].
  change (con (complete (seen_at E ells z))) with (con E).
  change (sw (complete (seen_at E ells z)) only_cross) with (sw E only_cross).
  change (con (complete E)) with (con E). change (sw (complete E) only_cross) with (sw E only_cross).
  destruct (guard (con E) (sw E only_cross) X Y) eqn:G; [|ring].
  apply guard_both' in G. destruct G as [G1 G2].
  exact (seen_pair z t X Y l Z HI (PL X G1) (PL Y G2)).
Qed.
End Local.

Lemma seen_xi : forall E ells z s m, built E ells -> no_derivatives E ->
  (forall X, con E X = true -> plain X = true) ->
  xi E z s m = xi (seen_at E ells z) z s m.
Proof.
  intros E ells z s m B D PL. rewrite !xi_parts. unfold local_part, single_part, double_part.
  assert (N : forall X, plain X = false -> con E X = false).
  { intros X HX. destruct (con E X) eqn:C; [|reflexivity]. rewrite (PL X C) in HX. discriminate. }
  assert (S1 : single_on E = false) by (unfold single_on; rewrite (N len), (N g4), (N g5) by reflexivity; reflexivity).
  assert (S2 : integrated_on E = false) by (unfold integrated_on; rewrite (N len), (N g4), (N g5) by reflexivity; reflexivity).
  change (single_on (seen_at E ells z)) with (single_on E).
  change (integrated_on (seen_at E ells z)) with (integrated_on E).
  change (local_on (seen_at E ells z)) with (local_on E).
  rewrite S1, S2. rewrite (seen_value E ells B D PL). reflexivity.
Qed.

(** ** C22: the local terms with a nonlinear spectrum *)

(** Density, redshift-space distortions and Doppler are the correlations of their fields, with
    the spectrum at the redshift of the pair. *)
Theorem C22_local_evolved_partial : forall E ells z m s,
  built E ells -> no_derivatives E -> sw E flatsky_local = false ->
  (forall X, con E X = true -> X = den \/ X = rsd \/ X = d1) ->
  0 < s < 2 * spl E bg_comoving_distance z -> -1 <= m <= 1 ->
  let F := seen_at E ells z in
  value (nonintegrated E z m s) =
  sum_over (enabled_pairs (con E) (sw E only_cross) 0)
    (fun p => correlation F (fst p) (snd p) (near E z m s) 1 (far E z m s) 1
                (cosine (near E z m s) (far E z m s) s)).
Proof.
  intros E ells z m s B D FS O Hs Hm F.
  assert (PL : forall X, con E X = true -> plain X = true) by (intros X HX; destruct (O X HX) as [->|[->| ->]]; reflexivity).
  rewrite (seen_value E ells B D PL). fold F.
  apply (C22_local_partial F ells z m s (seen_built E ells B z)).
  constructor.
  - constructor; try reflexivity; try assumption. intros ? ? ?; reflexivity.
  - exact Hs.
  - exact Hm.
  - intros _ HL. destruct (O len HL) as [C|[C|C]]; discriminate C.
  - intros X Y HX HY. destruct (O X HX) as [->|[->| ->]], (O Y HY) as [->|[->| ->]]; reflexivity.
Qed.
Print Assumptions C22_local_evolved_partial.

(** ** C72: the flat sky is the limit of the full sky, for every spectrum *)
Theorem C72_limit : forall E ells z s m,
  built E ells -> no_derivatives E -> sw E flatsky_local = false -> smooth_at E z ->
  0 < s -> -1 <= m <= 1 ->
  (forall X, con E X = true -> X = den \/ X = rsd \/ X = d1) ->
  is_lim (fun k => xi (stretched E k) z s m) p_infty (xi (flattened E) z s m).
Proof.
  intros E ells z s m B D FS SM Hs Hm O.
  assert (PL : forall X, con E X = true -> plain X = true) by (intros X HX; destruct (O X HX) as [->|[->| ->]]; reflexivity).
  assert (FB : built (flattened E) ells) by (destruct B; constructor; assumption).
  rewrite (seen_xi (flattened E) ells z s m FB D PL).
  replace (seen_at (flattened E) ells z) with (flattened (seen_at E ells z)).
  2:{ unfold seen_at, flattened, evolves. cbn [con sw spl tab1 tab2 present par_h omega_cdm omega_baryon].
      f_equal. apply functional_extensionality. intros []; reflexivity. }
  apply (is_lim_ext (fun k => xi (stretched (seen_at E ells z) k) z s m)).
  { intros k.
    assert (SB : built (stretched E k) ells) by (destruct B; constructor; assumption).
    rewrite (seen_xi (stretched E k) ells z s m SB D PL).
    replace (seen_at (stretched E k) ells z) with (stretched (seen_at E ells z) k); [reflexivity|].
    unfold seen_at, stretched, evolves. cbn [con sw spl tab1 tab2 present par_h omega_cdm omega_baryon].
    f_equal. apply functional_extensionality. intros f. apply functional_extensionality. intros x.
    destruct f; reflexivity. }
  apply (C72_limit_partial (seen_at E ells z) ells z s m).
  - apply seen_built. exact B.
  - constructor; try reflexivity; try assumption. intros ? ? ?; reflexivity.
  - destruct SM as [S1 S2 S3 S4]. constructor; try assumption.
    intros f Hf. unfold seen_at. cbn [spl].
    destruct f; try exact (S4 _ Hf).
    destruct (evolves E); [apply continuous_const|exact (S4 _ Hf)].
  - exact Hs.
  - exact Hm.
  - exact O.
Qed.
Print Assumptions C72_limit.

(** The conditions of both are met with all three contributions and a spectrum that evolves. *)
Definition grown : env :=
  mkEnv (con plane)
    (fun f => match f with output_multipoles | pk_nonlinear | midpoint => true | _ => false end)
    (spl plane) (tab1 plane) (fun _ _ z x => z + x) (present plane)
    (par_h plane) (omega_cdm plane) (omega_baryon plane).
Example C72_evolves_met : exists E, built E [0; 2]%Z /\ no_derivatives E /\ sw E flatsky_local = false /\
  evolves E = true /\ (forall k x, tab2 E k result2d 1 x <> tab2 E k result2d 2 x) /\
  smooth_at E 1 /\ con E = three /\ 0 < 1 < 2 * spl E bg_comoving_distance 1 /\
  (forall X, con E X = true -> X = den \/ X = rsd \/ X = d1).
Proof.
  exists (configured grown [0; 2]%Z three false).
  split; [apply configured_built|].
  split; [repeat split|]. split; [reflexivity|]. split; [reflexivity|].
  split; [intros k x; cbn; lra|].
  split; [|split; [reflexivity|split; [cbn; lra|intros []; try discriminate; auto]]].
  constructor.
  - cbn. lra.
  - cbn. lra.
  - change (continuous (fun x : R => x / 10) (10 * 1)).
    apply (ex_derive_continuous (K := R_AbsRing) (V := R_NormedModule) (fun x : R => x / 10)). auto_derive. exact Logic.I.
  - intros f Hf. cbn [In] in Hf.
    repeat (destruct Hf as [<-|Hf]; [cbn [configured grown plane spl]; apply (continuous_const (U := R_UniformSpace) (V := R_UniformSpace))|]).
    contradiction.
Qed.
