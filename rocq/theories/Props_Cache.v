(** * C01-C05, C11, C52-C54, C58: the Python object and its caches. *)
From Coq Require Import ZArith Bool List String Lia.
From Verif Require Import F64 PyParams PySet Integrals PyState PySpec PyWrites PyCoherence
  PyCovCoherence PyAlways PyValid PyFresh.
Import ListNotations.
Open Scope Z_scope.
#[local] Arguments view : simpl never.

(** ** Statements *)

(** The outcome [r], which left the object in state [s'], is the one a fresh
    object with the same parameters (and the same user-supplied spectrum, if
    any) produces. *)
Definition as_if_fresh (compute : state -> state * res) (s' : state) (r : res) : Prop :=
  exists q s2, could_have_entered q (sp s') /\
    compute (fresh_object q (user_spectrum s')) = (s2, r) /\
    same_except [FB B_divergent] (sp s2) (sp s').

(** The full property: after every history. *)
Definition signal_coherent (k : sigkind) : Prop :=
  forall cl l s rc s' r,
    run cl l coffe0 = Some s -> compute_bulk cl k rc s = (s', r) -> r <> Crash ->
    as_if_fresh (compute_bulk cl k false) s' r.
Definition covariance_coherent (k : covkind) : Prop :=
  forall cl l s rc s' r,
    run cl l coffe0 = Some s -> compute_cov cl k rc s = (s', r) -> r <> Crash ->
    as_if_fresh (compute_cov cl k false) s' r.

(** What is proved: after every history in which the listed exceptions do not
    occur (PySpec.safe_history). *)
Definition signal_coherent_if (k : sigkind) : Prop :=
  forall cl l s rc s' r,
    safe_history cl k l coffe0 ->
    run cl l coffe0 = Some s -> compute_bulk cl k rc s = (s', r) -> r <> Crash ->
    as_if_fresh (compute_bulk cl k false) s' r.
Definition covariance_coherent_if (k : covkind) : Prop :=
  forall cl l s rc s' r,
    cov_safe_history cl k l coffe0 ->
    run cl l coffe0 = Some s -> compute_cov cl k rc s = (s', r) -> r <> Crash ->
    as_if_fresh (compute_cov cl k false) s' r.

Lemma default_As : fltb (pf default_params F_A_s) m100 = false /\
  fltb p100 (pf default_params F_A_s) = false.
Proof. split; vm_compute; reflexivity. Qed.

Lemma coherent_signal : forall k, signal_coherent_if k.
Proof.
  intros k cl l s rc s' r Hs Hr Hc Hn.
  pose proof (run_Inv cl k l coffe0 s (Inv_init cl k default_params eq_refl default_As) Hs Hr) as I.
  exact (bulk_coherent cl k s rc s' r I Hc Hn).
Qed.

Lemma coherent_cov : forall k, covariance_coherent_if k.
Proof.
  intros k cl l s rc s' r Hs Hr Hc Hn.
  pose proof (run_CInv cl k l coffe0 s (CInv_init cl k default_params default_As) Hs Hr) as I.
  exact (cov_coherent cl k s rc s' r I Hc Hn).
Qed.

(** ** C01, C02, C03: correlation function, multipoles, averaged multipoles *)

Theorem C01_corrfunc_coherent_partial : signal_coherent_if SCorr.
Proof. exact (coherent_signal SCorr). Qed.
Print Assumptions C01_corrfunc_coherent_partial.
Theorem C02_multipoles_coherent_partial : signal_coherent_if SMult.
Proof. exact (coherent_signal SMult). Qed.
Print Assumptions C02_multipoles_coherent_partial.
Theorem C03_average_multipoles_coherent_partial : signal_coherent_if SAvg.
Proof. exact (coherent_signal SAvg). Qed.
Print Assumptions C03_average_multipoles_coherent_partial.

(** ** C04, C05: the covariances *)

Theorem C04_covariance_coherent_partial : covariance_coherent_if KCov.
Proof. exact (coherent_cov KCov). Qed.
Print Assumptions C04_covariance_coherent_partial.
Theorem C05_average_covariance_coherent_partial : covariance_coherent_if KACov.
Proof. exact (coherent_cov KACov). Qed.
Print Assumptions C05_average_covariance_coherent_partial.

(** The usual way of working is covered: configure, then compute ... *)
Theorem C01_C03_configure_then_compute : forall k cl l1 l2 s rc s' r,
  Forall configures l1 -> Forall computes l2 ->
  run cl (l1 ++ l2) coffe0 = Some s -> compute_bulk cl k rc s = (s', r) -> r <> Crash ->
  as_if_fresh (compute_bulk cl k false) s' r.
Proof.
  intros k cl l1 l2 s rc s' r F1 F2. apply coherent_signal.
  apply configure_then_compute; auto. repeat split.
Qed.
Print Assumptions C01_C03_configure_then_compute.
Theorem C04_C05_configure_then_compute : forall k cl l1 l2 s rc s' r,
  Forall configures l1 -> Forall computes l2 ->
  run cl (l1 ++ l2) coffe0 = Some s -> compute_cov cl k rc s = (s', r) -> r <> Crash ->
  as_if_fresh (compute_cov cl k false) s' r.
Proof.
  intros k cl l1 l2 s rc s' r F1 F2. apply coherent_cov.
  apply cov_configure_then_compute; auto. repeat split.
Qed.
Print Assumptions C04_C05_configure_then_compute.

(** ... and so is changing any attribute except z_mean, deltaz, z_min, z_max,
    sep, l, m_ncdm and covariance_interpolation_method between computations, in
    any order. *)
Theorem C01_C03_free_changes : forall k cl l s rc s' r,
  Forall free_op l ->
  run cl l coffe0 = Some s -> compute_bulk cl k rc s = (s', r) -> r <> Crash ->
  as_if_fresh (compute_bulk cl k false) s' r.
Proof. intros k cl l s rc s' r F. apply coherent_signal. apply free_ops_safe. exact F. Qed.
Print Assumptions C01_C03_free_changes.
Theorem C04_C05_free_changes : forall k cl l s rc s' r,
  Forall free_op l ->
  run cl l coffe0 = Some s -> compute_cov cl k rc s = (s', r) -> r <> Crash ->
  as_if_fresh (compute_cov cl k false) s' r.
Proof. intros k cl l s rc s' r F. apply coherent_cov. apply cov_free_ops_safe. exact F. Qed.
Print Assumptions C04_C05_free_changes.

(** recompute=True is coherent after every history at all, with the CLASS
    spectrum. *)
Theorem C01_C03_recompute : forall k cl l s s' r,
  run cl l coffe0 = Some s -> compute_bulk cl k true s = (s', r) -> r <> Crash ->
  exists q s2, could_have_entered q (sp s') /\
    compute_bulk cl k false (fresh_object q None) = (s2, r) /\
    same_except [FB B_divergent] (sp s2) (sp s').
Proof. intros k cl. exact (recompute_bulk_coherent cl k). Qed.
Print Assumptions C01_C03_recompute.
Theorem C04_C05_recompute : forall k cl l s s' r,
  run cl l coffe0 = Some s -> compute_cov cl k true s = (s', r) -> r <> Crash ->
  exists q s2, could_have_entered q (sp s') /\
    compute_cov cl k false (fresh_object q None) = (s2, r) /\
    same_except [FB B_divergent] (sp s2) (sp s').
Proof. intros k cl. exact (recompute_cov_coherent cl k). Qed.
Print Assumptions C04_C05_recompute.

(** ** Concrete histories *)

(** A CLASS whose table covers [1e-5, 300]. *)
Definition cl0 : class_lib := mkClass (fun _ => lit 1 100000) (fun _ => of_Z 300).

Definition nodes : list f64 := map of_Z [0; 1; 2; 3; 4; 5].
Definition ones : list f64 := map (fun _ => f1) nodes.

Definition computed (r : state * res) : bool :=
  match snd r with Ok (OSig _ _) | Ok (OCov _ _) => true | _ => false end.
Definition after (cl : class_lib) (l : list op) (f : state -> bool) : bool :=
  match run cl l coffe0 with Some s => f s | None => false end.

Definition h_mixed : list op :=
  [OpSet A_has_rsd (VBool true); OpBulk SMult false; OpSet A_h (VFloat (lit 7 10));
   OpSet A_has_g1 (VBool true); OpBulk SCorr false; OpParameters; OpCov KCov false;
   OpSet A_omega_m (VFloat (lit 32 100)); OpBulk SAvg false].

(** The hypotheses of C01-C05 are met by a history that computes, changes
    parameters of several kinds, reads the parameters and computes again. *)
Example C01_C05_nonvacuous :
  Forall free_op h_mixed /\
  after cl0 h_mixed (fun s => computed (compute_bulk cl0 SCorr false s)) = true /\
  after cl0 h_mixed (fun s => computed (compute_bulk cl0 SMult true s)) = true /\
  after cl0 h_mixed (fun s => computed (compute_bulk cl0 SAvg false s)) = true /\
  after cl0 h_mixed (fun s => computed (compute_cov cl0 KCov false s)) = true /\
  after cl0 h_mixed (fun s => computed (compute_cov cl0 KACov false s)) = true.
Proof. split; [repeat constructor|]. repeat split; vm_compute; reflexivity. Qed.

(** ** The exceptions are real: results that no fresh object would give *)

Definition fval_eq_dec : forall x y : fval, {x = y} + {x <> y}.
Proof. repeat decide equality. Defined.
Definition same_vals (x y : list fval) : bool :=
  if list_eq_dec fval_eq_dec x y then true else false.
Lemma same_vals_eq : forall x, same_vals x x = true.
Proof. intros x. unfold same_vals. destruct (list_eq_dec fval_eq_dec x x); congruence. Qed.

(** Entries that cannot depend on the wavenumber range narrowed by CLASS. *)
Definition fixed (fs : list field) (v : list fval) : list fval :=
  map snd (filter (fun fv => negb (memb (fst fv) (FB B_divergent :: k_range))) (combine fs v)).

Lemma fixed_view : forall p q fs, same_except (FB B_divergent :: k_range) q p ->
  fixed fs (view q fs) = fixed fs (view p fs).
Proof.
  intros p q fs W. unfold fixed, view. induction fs as [|f r IH]; [reflexivity|].
  cbn [map combine filter fst]. destruct (memb f (FB B_divergent :: k_range)) eqn:M; cbn [negb].
  - exact IH.
  - cbn [map snd]. rewrite (same_except_get _ _ _ _ W M). f_equal. exact IH.
Qed.

Definition pk_current (p : params) (u : option (list f64 * list f64)) (src : pksrc) : bool :=
  match u, src with
  | Some _, PkUser _ _ => true
  | None, PkClass c => same_vals (fixed class_fields c) (fixed class_fields (view p class_fields))
  | _, _ => false
  end.

(** Does the returned signal carry the current parameters? *)
Definition signal_current (k : sigkind) (o : state * res) : bool :=
  match o with
  | (s', Ok (OSig _ r)) =>
      same_vals (sg_core r) (view (sp s') bg_core_fields) &&
      same_vals (sg_G r) (view (sp s') bg_G_fields) &&
      same_vals (sg_view r) (view (sp s') (signal_fields ++ sig_coord_fields k)) &&
      pk_current (sp s') (user_spectrum s') (sg_pk r) &&
      (if needs_div (sp s')
       then match sg_div r with
            | Some (d, b) => same_vals d (view (sp s') div_fields) &&
                             same_vals b (view (sp s') bg_core_fields)
            | None => false
            end
       else true)
  | _ => true
  end.
Definition cov_current (k : covkind) (o : state * res) : bool :=
  match o with
  | (s', Ok (OCov _ r)) =>
      same_vals (cv_core r) (view (sp s') bg_core_fields) &&
      same_vals (fixed (cov_fields k) (cv_view r)) (fixed (cov_fields k) (view (sp s') (cov_fields k))) &&
      pk_current (sp s') (user_spectrum s') (cv_pk r)
  | _ => true
  end.

Lemma pk_current_fresh : forall q p u src,
  same_except (FB B_divergent :: k_range) q p ->
  src = match u with Some (k, pk) => PkUser k pk | None => PkClass (view q class_fields) end ->
  pk_current p u src = true.
Proof.
  intros q p u src W ->. destruct u as [[k pk]|]; [reflexivity|]. simpl.
  rewrite (fixed_view p q class_fields W). apply same_vals_eq.
Qed.

Lemma bulk_result_kind : forall cl k rc s s' o, compute_bulk cl k rc s = (s', Ok o) ->
  exists r, o = OSig k r.
Proof.
  intros cl k rc s s' o H. unfold compute_bulk in H.
  destruct (negb (coords_ok k (sp s))); [discriminate|].
  destruct (negb (any_contribution (sp s))); [discriminate|]. cbv zeta in H.
  destruct (bindo _ _); [|discriminate]. destruct (c_sig s0 k) as [r|]; [|discriminate].
  injection H as <- <-. exists r. reflexivity.
Qed.
Lemma cov_result_kind : forall cl k rc s s' o, compute_cov cl k rc s = (s', Ok o) ->
  exists r, o = OCov k r.
Proof.
  intros cl k rc s s' o H. unfold compute_cov in H.
  destruct (negb (coords_ok SMult (sp s))); [discriminate|].
  destruct (negb (any_contribution (sp s))); [discriminate|]. cbv zeta in H.
  destruct (negb (cov_lengths_ok k (sp s))); [discriminate|].
  destruct (bindo _ _) as [s1|]; [|discriminate].
  destruct (check_bins _) as [[]|]; [|discriminate|discriminate].
  destruct (ensure_cov k rc s1) as [s2|]; [|discriminate].
  destruct (c_cov s2 k) as [r|]; [|discriminate]. injection H as <- <-. exists r. reflexivity.
Qed.

(** A result a fresh object would give carries the current parameters. *)
Theorem fresh_signal_current : forall cl k s' r,
  as_if_fresh (compute_bulk cl k false) s' r -> signal_current k (s', r) = true.
Proof.
  intros cl k s' r (q & s2 & (W & _) & E & _). destruct r as [o| |]; try reflexivity.
  destruct (bulk_result_kind _ _ _ _ _ _ E) as [v ->].
  destruct (fresh_bulk_content cl k q _ s2 v E) as (C1 & C2 & C3 & C4 & C5).
  unfold signal_current.
  rewrite C1, (same_except_view _ _ _ bg_core_fields W eq_refl), same_vals_eq.
  rewrite C2, (same_except_view _ _ _ bg_G_fields W eq_refl), same_vals_eq.
  assert (D : disjointb (FB B_divergent :: k_range) (signal_fields ++ sig_coord_fields k) = true)
    by (destruct k; reflexivity).
  rewrite C3, (same_except_view _ _ _ _ W D), same_vals_eq.
  rewrite (pk_current_fresh q (sp s') _ _ W C4).
  rewrite (needs_div_same _ _ _ W eq_refl) in C5.
  destruct (needs_div (sp s')); [|reflexivity]. rewrite (C5 eq_refl).
  rewrite (same_except_view _ _ _ div_fields W eq_refl), (same_except_view _ _ _ bg_core_fields W eq_refl).
  rewrite !same_vals_eq. reflexivity.
Qed.
Theorem fresh_cov_current : forall cl k s' r,
  as_if_fresh (compute_cov cl k false) s' r -> cov_current k (s', r) = true.
Proof.
  intros cl k s' r (q & s2 & (W & _) & E & _). destruct r as [o| |]; try reflexivity.
  destruct (cov_result_kind _ _ _ _ _ _ E) as [v ->].
  destruct (fresh_cov_content cl k q _ s2 v E) as (C1 & C2 & q' & W' & C3).
  unfold cov_current.
  rewrite C1, (same_except_view _ _ _ bg_core_fields W eq_refl), same_vals_eq.
  rewrite C3, (fixed_view (sp s') q'), same_vals_eq.
  - rewrite (pk_current_fresh q (sp s') _ _ W C2). reflexivity.
  - apply (same_except_trans _ _ q); assumption.
Qed.

Lemma refute_signal : forall k cl l,
  after cl l (fun s => negb (signal_current k (compute_bulk cl k false s))) = true ->
  ~ signal_coherent k.
Proof.
  intros k cl l H C. unfold after in H. destruct (run cl l coffe0) as [s|] eqn:E; [|discriminate].
  destruct (compute_bulk cl k false s) as [s' r] eqn:E2.
  assert (N : r <> Crash) by (intros ->; discriminate).
  pose proof (fresh_signal_current cl k s' r (C cl l s false s' r E E2 N)) as F.
  rewrite F in H. discriminate.
Qed.
Lemma refute_cov : forall k cl l,
  after cl l (fun s => negb (cov_current k (compute_cov cl k false s))) = true ->
  ~ covariance_coherent k.
Proof.
  intros k cl l H C. unfold after in H. destruct (run cl l coffe0) as [s|] eqn:E; [|discriminate].
  destruct (compute_cov cl k false s) as [s' r] eqn:E2.
  assert (N : r <> Crash) by (intros ->; discriminate).
  pose proof (fresh_cov_current cl k s' r (C cl l s false s' r E E2 N)) as F.
  rewrite F in H. discriminate.
Qed.

Definition stale (k : sigkind) (l : list op) : bool :=
  after cl0 l (fun s => negb (signal_current k (compute_bulk cl0 k false s))).
Definition stale_cov (k : covkind) (l : list op) : bool :=
  after cl0 l (fun s => negb (cov_current k (compute_cov cl0 k false s))).

(** Setting a magnification bias after a computation (set_magnification_bias1
    does not drop the background, which holds the derived G functions). *)
Definition h_bias (k : sigkind) : list op :=
  [OpBulk k false; OpSetBias S_magnification_bias1 nodes ones].
Theorem C01_corrfunc_coherent_refuted : ~ signal_coherent SCorr.
Proof. apply (refute_signal SCorr cl0 (h_bias SCorr)). vm_compute. reflexivity. Qed.
Print Assumptions C01_corrfunc_coherent_refuted.
Theorem C02_multipoles_coherent_refuted : ~ signal_coherent SMult.
Proof. apply (refute_signal SMult cl0 (h_bias SMult)). vm_compute. reflexivity. Qed.
Theorem C03_average_multipoles_coherent_refuted : ~ signal_coherent SAvg.
Proof. apply (refute_signal SAvg cl0 [OpBulk SAvg false; OpSet A_sep (floats [of_Z 50])]). vm_compute. reflexivity. Qed.
(** Setting a galaxy bias after the covariance. *)
Definition h_cov (k : covkind) : list op :=
  [OpCov k false; OpSetBias S_galaxy_bias1 nodes (map (fun _ => of_Z 2) nodes)].
Theorem C04_covariance_coherent_refuted : ~ covariance_coherent KCov.
Proof. apply (refute_cov KCov cl0 (h_cov KCov)). vm_compute. reflexivity. Qed.
Theorem C05_average_covariance_coherent_refuted : ~ covariance_coherent KACov.
Proof. apply (refute_cov KACov cl0 (h_cov KACov)). vm_compute. reflexivity. Qed.

(** Each kind of exception in [safe_history] is needed. *)
Definition pk5 : list f64 := map (fun i => lit i 100) [1; 2; 5; 10; 50].
Theorem C01_C03_exceptions_needed :
  (* z_mean or deltaz with a potential term switched on *)
  stale SMult [OpSet A_has_g1 (VBool true); OpBulk SCorr false; OpSet A_z_mean (floats [lit 5 10])] = true /\
  stale SCorr [OpSet A_has_g1 (VBool true); OpBulk SMult false; OpSet A_deltaz (floats [lit 1 10])] = true /\
  (* the interpolation method with a potential term *)
  stale SCorr [OpSet A_has_d2 (VBool true); OpBulk SCorr false;
               OpSet A_covariance_interpolation_method (VStr "bilinear"); OpSet A_mu (floats [lit 1 10])] = true /\
  (* averaged multipoles: sep, z_min, z_max, any bias *)
  stale SAvg [OpBulk SAvg false; OpSet A_sep (floats [of_Z 50])] = true /\
  stale SAvg [OpBulk SAvg false; OpSet A_z_min (floats [lit 8 10])] = true /\
  stale SAvg [OpBulk SAvg false; OpSet A_z_max (floats [lit 13 10])] = true /\
  stale SAvg [OpBulk SAvg false; OpSetBias S_galaxy_bias1 nodes ones] = true /\
  (* a failed m_ncdm assignment (h = 0) *)
  stale SMult [OpSet A_h (VFloat f0); OpBulk SMult false; OpSet A_m_ncdm (VFloat (lit 6 100))] = true /\
  (* a spectrum supplied after the computation *)
  stale SMult [OpBulk SMult false; OpSetPk pk5 pk5] = true /\
  (* recompute=True of another output, after a supplied spectrum *)
  stale SMult [OpSetPk pk5 pk5; OpBulk SMult false; OpBulk SCorr true] = true /\
  stale SMult [OpSetPk pk5 pk5; OpBulk SMult false; OpCov KCov true] = true.
Proof. repeat split; vm_compute; reflexivity. Qed.
Theorem C04_C05_exceptions_needed :
  stale_cov KCov [OpCov KCov false; OpSet A_sep (floats [of_Z 50])] = true /\
  stale_cov KACov [OpCov KACov false; OpSet A_sep (floats [of_Z 50])] = true /\
  stale_cov KCov [OpCov KCov false; OpSetBias S_galaxy_bias2 nodes ones] = true /\
  stale_cov KCov [OpCov KCov false; OpSetPk pk5 pk5] = true /\
  stale_cov KCov [OpSet A_h (VFloat f0); OpCov KCov false; OpSet A_m_ncdm (VFloat (lit 6 100))] = true /\
  stale_cov KCov [OpSetPk pk5 pk5; OpCov KCov false; OpBulk SMult true] = true.
Proof. repeat split; vm_compute; reflexivity. Qed.

(** ** C58: background quantities are never stale *)

(** After every history at all, distances, Hubble rates, growth ... are those
    of a new object with the same parameters. *)
Theorem C58_background_coherent : forall cl l s which z,
  run cl l coffe0 = Some s ->
  snd (background_getter which z s) = snd (background_getter which z (init_state (sp s))).
Proof. intros cl l s which z. exact (background_coherent cl l s which z). Qed.
Print Assumptions C58_background_coherent.
Theorem C58_maximum_separation_coherent : forall cl l s z dz,
  run cl l coffe0 = Some s ->
  snd (maximum_separation z dz s) = snd (maximum_separation z dz (init_state (sp s))).
Proof. intros cl l s z dz. exact (maximum_separation_coherent cl l s z dz). Qed.
Print Assumptions C58_maximum_separation_coherent.
Example C58_nonvacuous :
  after cl0 h_mixed (fun s => match snd (background_getter 0 (VFloat f1) s) with Ok _ => true | _ => false end) = true.
Proof. vm_compute. reflexivity. Qed.

(** ** C49: a single point agrees with the bulk result *)

(** Both are evaluated from the same background, spectrum, tables and flags;
    the bulk result additionally depends on the coordinate lists. *)
Theorem C49_point_matches_bulk_partial : forall cl k l s rc s' r z x m s'' pt v,
  safe_history cl k l coffe0 -> run cl l coffe0 = Some s ->
  compute_bulk cl k rc s = (s', Ok (OSig k r)) ->
  compute_point cl k z x m false s' = (s'', Ok (OPoint k pt v)) ->
  sg_core v = sg_core r /\ sg_G v = sg_G r /\ sg_pk v = sg_pk r /\ sg_cls v = sg_cls r /\
  sg_iview v = sg_iview r /\ sg_div v = sg_div r /\
  sg_view r = (sg_view v ++ view (sp s') (sig_coord_fields k))%list.
Proof.
  intros cl k l s rc s' r z x m s'' pt v Hs Hr.
  apply point_matches_bulk.
  - exact (run_Inv cl k l coffe0 s (Inv_init cl k default_params eq_refl default_As) Hs Hr).
  - right. left. reflexivity.
Qed.
Print Assumptions C49_point_matches_bulk_partial.
Example C49_nonvacuous :
  after cl0 h_mixed (fun s => let s' := fst (compute_bulk cl0 SMult false s) in
    match snd (compute_point cl0 SMult (VFloat f1) (VFloat (of_Z 50)) (VInt 2) false s') with
    | Ok (OPoint _ _ _) => true | _ => false end) = true.
Proof. vm_compute. reflexivity. Qed.

(** ** C11: reading the parameters *)

(** The full property: reading [parameters] hands out the current values and
    has no effect. *)
Definition reading_has_no_effect : Prop :=
  forall cl l s s' r, run cl l coffe0 = Some s -> read_parameters s = (s', r) ->
    r = Ok (OParams (sp s)) /\
    forall k rc, compute_bulk cl k rc s' = compute_bulk cl k rc s \/
                 snd (compute_bulk cl k rc s') = snd (compute_bulk cl k rc s).
(** For every parameter set its own setters accept, the values are handed out
    and stay what they are; but every cache is dropped, the user's spectrum
    with them. *)
Theorem C11_read_parameters_partial : forall s, settled (sp s) -> exists s',
  read_parameters s = (s', Ok (OParams (sp s'))) /\ params_eq (sp s') (sp s) /\
  c_cls s' = c_cls s /\ no_cache s'.
Proof. exact read_parameters_settled. Qed.
Print Assumptions C11_read_parameters_partial.
Example C11_nonvacuous : settled (sp coffe0).
Proof. exact settled_default. Qed.

Definition h_user : list op := [OpSetPk pk5 pk5].
Definition pk_of (r : res) : option pksrc := match r with Ok (OSig _ v) => Some (sg_pk v) | _ => None end.
Definition from_user (o : option pksrc) : bool := match o with Some (PkUser _ _) => true | _ => false end.
Definition from_class (o : option pksrc) : bool := match o with Some (PkClass _) => true | _ => false end.

(** Reading [parameters] raises after a spectrum was supplied whose range the
    k_min setter would not accept; and it can change results: the user's
    spectrum is silently replaced by the one of CLASS. *)
Definition pk_ok : list f64 := map (fun i => lit i 10000) [1; 2; 5; 10; 5000].
Theorem C11_read_parameters_refuted : ~ reading_has_no_effect.
Proof.
  intros H.
  destruct (run cl0 h_user coffe0) as [s|] eqn:E; [|vm_compute in E; discriminate].
  destruct (read_parameters s) as [s' r] eqn:E2.
  destruct (H cl0 h_user s s' r E E2) as [-> _].
  assert (X : after cl0 h_user (fun s => match snd (read_parameters s) with Raise ValueError => true | _ => false end) = true)
    by (vm_compute; reflexivity).
  unfold after in X. rewrite E, E2 in X. discriminate.
Qed.
Theorem C11_reading_changes_results :
  after cl0 [OpSetPk pk_ok pk_ok] (fun s => from_user (pk_of (snd (compute_bulk cl0 SMult false s)))) = true /\
  after cl0 [OpSetPk pk_ok pk_ok; OpParameters] (fun s => from_class (pk_of (snd (compute_bulk cl0 SMult false s)))) = true.
Proof. split; vm_compute; reflexivity. Qed.

(** ** C52: a supplied power spectrum stays in force *)

Definition user_spectrum_stays : Prop :=
  forall cl l s s' kpk, user_spectrum s = Some kpk ->
    Forall (fun o => match o with OpSetPk _ _ => False | _ => True end) l ->
    run cl l s = Some s' -> user_spectrum s' = Some kpk.
Theorem C52_user_spectrum_partial : forall cl l s s' kpk,
  Forall any_compute l -> Forall (fun o => recomputes o = false) l ->
  user_spectrum s = Some kpk -> run cl l s = Some s' -> user_spectrum s' = Some kpk.
Proof. intros cl. exact (computes_keep_user_spectrum cl). Qed.
Print Assumptions C52_user_spectrum_partial.
Example C52_nonvacuous :
  after cl0 [OpSetPk pk_ok pk_ok; OpBulk SMult false; OpCov KCov false; OpBackground 0 (VInt 1)]
    (fun s => match user_spectrum s with Some _ => true | None => false end) = true.
Proof. vm_compute. reflexivity. Qed.
(** Any assignment that drops the spectrum (h, number densities do not, ...), reading the
    parameters, or recompute=True puts CLASS back in force. *)
Theorem C52_user_spectrum_refuted : ~ user_spectrum_stays.
Proof.
  intros H.
  destruct (run cl0 [OpSetPk pk_ok pk_ok] coffe0) as [s|] eqn:E; [|vm_compute in E; discriminate].
  assert (U : exists kpk, user_spectrum s = Some kpk).
  { destruct (user_spectrum s) eqn:U; eauto. exfalso.
    assert (X : after cl0 [OpSetPk pk_ok pk_ok] (fun s => match user_spectrum s with Some _ => true | None => false end) = true)
      by (vm_compute; reflexivity).
    unfold after in X. rewrite E, U in X. discriminate. }
  destruct U as [kpk U].
  destruct (run cl0 [OpBulk SMult true] s) as [s'|] eqn:E2.
  - assert (F : Forall (fun o => match o with OpSetPk _ _ => False | _ => True end) [OpBulk SMult true]) by (repeat constructor).
    pose proof (H cl0 _ s s' kpk U F E2) as X.
    assert (Y : after cl0 [OpSetPk pk_ok pk_ok; OpBulk SMult true]
        (fun s => match user_spectrum s with Some _ => false | None => true end) = true) by (vm_compute; reflexivity).
    unfold after in Y. change (run cl0 [OpSetPk pk_ok pk_ok; OpBulk SMult true] coffe0) with
      (match step cl0 (OpSetPk pk_ok pk_ok) coffe0 with (_, Crash) => None | (s1, _) => run cl0 [OpBulk SMult true] s1 end) in Y.
    change (run cl0 [OpSetPk pk_ok pk_ok] coffe0) with
      (match step cl0 (OpSetPk pk_ok pk_ok) coffe0 with (_, Crash) => None | (s1, _) => Some s1 end) in E.
    destruct (step cl0 (OpSetPk pk_ok pk_ok) coffe0) as [s1 [o|e|]]; try discriminate; injection E as ->;
      rewrite E2, X in Y; discriminate.
  - assert (Y : after cl0 [OpSetPk pk_ok pk_ok; OpBulk SMult true] (fun s => true) = true) by (vm_compute; reflexivity).
    unfold after in Y. change (run cl0 [OpSetPk pk_ok pk_ok; OpBulk SMult true] coffe0) with
      (match step cl0 (OpSetPk pk_ok pk_ok) coffe0 with (_, Crash) => None | (s1, _) => run cl0 [OpBulk SMult true] s1 end) in Y.
    change (run cl0 [OpSetPk pk_ok pk_ok] coffe0) with
      (match step cl0 (OpSetPk pk_ok pk_ok) coffe0 with (_, Crash) => None | (s1, _) => Some s1 end) in E.
    destruct (step cl0 (OpSetPk pk_ok pk_ok) coffe0) as [s1 [o|e|]]; try discriminate; injection E as ->;
      rewrite E2 in Y; discriminate.
Qed.
Theorem C52_lost_by :
  forallb (fun o => after cl0 [OpSetPk pk_ok pk_ok; o] (fun s => match user_spectrum s with Some _ => false | None => true end))
    [OpParameters; OpReset; OpSet A_h (VFloat (lit 7 10)); OpSet A_background_sampling (VInt 2000);
     OpSet A_has_d1 (VBool true); OpSet A_sigma8 (VFloat (lit 9 10)); OpBulk SCorr true; OpCov KCov true] = true.
Proof. vm_compute. reflexivity. Qed.

(** ** C54: computing does not change the parameters *)

Definition computing_changes_nothing : Prop :=
  forall cl o s, any_compute o -> forall a, get_attr a (sp (fst (step cl o s))) = get_attr a (sp s).
(** Every attribute except k_min and k_max. *)
Theorem C54_computing_keeps_parameters_partial : forall cl o s a,
  any_compute o -> a <> A_k_min -> a <> A_k_max ->
  get_attr a (sp (fst (step cl o s))) = get_attr a (sp s).
Proof.
  intros cl o s a C N1 N2. destruct (compute_leaves_alone cl o s C) as [W _].
  pose proof (fun f M => same_except_pf _ _ _ f W M) as Ef.
  pose proof (fun f M => same_except_pi _ _ _ f W M) as Ei.
  pose proof (fun f M => same_except_pb _ _ _ f W M) as Eb.
  pose proof (fun f M => same_except_pl _ _ _ f W M) as El.
  pose proof (same_except_pm _ _ _ W eq_refl) as Em.
  destruct a; try congruence; cbv beta iota delta [get_attr];
    rewrite ?Em; rewrite ?Ef by reflexivity; rewrite ?Ei by reflexivity;
    rewrite ?Eb by reflexivity; rewrite ?El by reflexivity; reflexivity.
Qed.
Print Assumptions C54_computing_keeps_parameters_partial.
(** CLASS tables that do not cover the requested range narrow k_min and k_max. *)
Definition cl1 : class_lib := mkClass (fun _ => lit 1 10000) (fun _ => of_Z 200).
Theorem C54_computing_keeps_parameters_refuted : ~ computing_changes_nothing.
Proof.
  intros H. specialize (H cl1 (OpBulk SMult false) coffe0 I A_k_min). revert H. vm_compute. discriminate.
Qed.

(** ** C56: power_spectrum works on the advertised range *)

Definition spectrum_range_ok : Prop :=
  forall cl l s cross k z, run cl l coffe0 = Some s -> klo cl = klo cl1 -> khi cl = khi cl1 ->
    snd (spectrum_method cl cross (VFloat k) (VFloat z) (VFloat z) s) <> Crash.
(** k is tested against k_min and k_max before the spectrum has been computed
    and has narrowed them: the first call outside the table aborts the process,
    the same call after any computation raises an exception. *)
Theorem C56_spectrum_range_refuted : ~ spectrum_range_ok.
Proof.
  intros H.
  apply (H cl1 [] coffe0 false (lit 2 100000) f0 eq_refl eq_refl eq_refl). vm_compute. reflexivity.
Qed.
Theorem C56_spectrum_range_after_computing :
  after cl1 [OpBulk SMult false] (fun s => match snd (spectrum_method cl1 false (VFloat (lit 2 100000)) (VFloat f0) (VFloat f0) s)
     with Raise ValueError => true | _ => false end) = true.
Proof. vm_compute. reflexivity. Qed.
(** From the first to the last wavenumber of a table.  Specification or proof only; nothing in the code. *)
Definition covered (cl : class_lib) (src : pksrc) (k : f64) : Prop :=
  match src with
  | PkClass c => fltb k (klo cl c) = false /\ fltb (khi cl c) k = false
  | PkUser ks _ => fltb k (hd SpecFloat.S754_nan ks) = false /\ fltb (last ks SpecFloat.S754_nan) k = false
  end.
Lemma covered_in : forall cl src k, covered cl src k -> in_table cl src k = true.
Proof. intros cl [ks q|c] k [A B]; cbn [in_table]; rewrite A, B; reflexivity. Qed.
(** With the linear spectrum, a wavenumber inside the table is always answered. *)
Theorem C56_spectrum_range_partial : forall cl s cross k z1 z2 s' r,
  5 <= pi (sp s) I_background_bins ->
  pi (sp s) I_pk_type = pk_LINEAR ->
  (forall src, c_pk s = Some src -> covered cl src k) ->
  (c_pk s = None -> covered cl (PkClass (view (sp s) class_fields)) k) ->
  spectrum_method cl cross (VFloat k) (VFloat z1) (VFloat z2) s = (s', r) -> r <> Crash.
Proof.
  intros cl s cross k z1 z2 s' r Hb Hp H1 H2 H. unfold spectrum_method in H.
  assert (T1 : forall src, c_pk s = Some src -> in_table cl src k = true) by (intros src E; apply covered_in, H1, E).
  assert (T2 : c_pk s = None -> in_table cl (PkClass (view (sp s) class_fields)) k = true) by (intros E; apply covered_in, H2, E).
  clear H1 H2. rename T1 into H1, T2 into H2.
  destruct (check_num (VFloat k) _ _) as [k'|] eqn:C; [|injection H as <- <-; discriminate].
  assert (k' = k) as ->.
  { unfold check_num in C. simpl in C. destruct (fltb k _); [discriminate|]. destruct (fltb _ k); congruence. }
  destruct (check_num (VFloat z1) _ _); [|injection H as <- <-; discriminate].
  destruct (check_num (VFloat z2) _ _); [|injection H as <- <-; discriminate].
  unfold bindo in H.
  assert (E1 : exists s1 src, ensure_pk cl false s = Some s1 /\ c_pk s1 = Some src /\ in_table cl src k = true /\
      same_except k_range (sp s1) (sp s)).
  { unfold ensure_pk. destruct (c_pk s) as [src|] eqn:Ek.
    - exists s, src. simpl. repeat split; auto using same_except_refl.
    - eexists _, _. simpl. split; [reflexivity|]. simpl. split; [reflexivity|]. split; [apply H2; reflexivity|].
      apply clamp_same. }
  destruct E1 as (s1 & src & E1 & K1 & T1 & W1). rewrite E1 in H.
  assert (E2 : exists s2 b, ensure_bg false s1 = Some s2 /\ c_pk s2 = c_pk s1 /\ c_bg s2 = Some b /\ sp s2 = sp s1).
  { unfold ensure_bg. destruct (c_bg s1) as [b|] eqn:Eb.
    - exists s1, b. simpl. auto.
    - simpl. unfold bg_init. rewrite (same_except_pi _ _ _ I_background_bins W1 eq_refl).
      replace (pi (sp s) I_background_bins <? 5) with false by lia. eexists _, _. repeat split. }
  destruct E2 as (s2 & b & E2 & K2 & B2 & P2). rewrite E2, K2, K1, B2, T1 in H. cbn [negb] in H.
  assert (N : nonlinear (sp s2) = false).
  { unfold nonlinear. rewrite P2, (same_except_pi _ _ _ I_pk_type W1 eq_refl), Hp. reflexivity. }
  rewrite N, andb_false_r in H. cbn [andb] in H. injection H as <- <-. discriminate.
Qed.
Print Assumptions C56_spectrum_range_partial.
(** The hypotheses with a table of the user: 0.3 lies in one from 0.1 to 0.6, and the call is answered. *)
Definition h_own_table : list op := [OpSetPk (map (fun i => lit i 10) [1; 2; 3; 4; 5; 6]) (map of_Z [1; 2; 3; 3; 2; 1])].
Example C56_user_met :
  after cl1 h_own_table (fun s => (5 <=? pi (sp s) I_background_bins) && (pi (sp s) I_pk_type =? pk_LINEAR)
    && match c_pk s with
       | Some (PkUser ks _) => negb (fltb (lit 3 10) (hd SpecFloat.S754_nan ks)) && negb (fltb (last ks SpecFloat.S754_nan) (lit 3 10))
       | _ => false end
    && match snd (spectrum_method cl1 false (VFloat (lit 3 10)) (VFloat f0) (VFloat f0) s) with Ok _ => true | _ => false end) = true.
Proof. vm_compute. reflexivity. Qed.
Example C56_nonvacuous :
  match snd (spectrum_method cl1 false (VFloat (lit 1 100)) (VFloat f0) (VFloat f0) coffe0) with
  | Ok _ => true | _ => false end = true.
Proof. vm_compute. reflexivity. Qed.

(** ** C57, C59: no call kills the process *)

Definition no_call_crashes : Prop :=
  forall cl l s o, run cl l coffe0 = Some s -> snd (step cl o s) <> Crash.
Definition crashes (l : list op) (o : op) : bool :=
  after cl0 l (fun s => match snd (step cl0 o s) with Crash => true | _ => false end).

(** A fresh object computes every signal without crashing, provided the
    background grid has five points, deltaz is as long as z_mean when a potential
    term needs it, and z_max is as long as z_min for the averages. *)
Theorem C59_fresh_no_crash_partial : forall cl k q u,
  5 <= pi q I_background_bins -> pi q I_output_type = out_MULTIPOLES ->
  (needs_div q = true \/ pb q B_divergent = true ->
     (List.length (pl q L_z_mean) <= List.length (pl q L_deltaz))%nat) ->
  (k = SAvg -> (List.length (pl q L_zmin) <= List.length (pl q L_zmax))%nat) ->
  (u <> None -> pi q I_pk_type = pk_LINEAR) ->
  snd (compute_bulk cl k false (fresh_object q u)) <> Crash.
Proof. exact fresh_no_crash. Qed.
Print Assumptions C59_fresh_no_crash_partial.

Theorem C59_no_call_crashes_refuted : ~ no_call_crashes.
Proof.
  intros H. apply (H cl0 [] coffe0 (OpSetBias S_galaxy_bias1 (map of_Z [0; 1; 2; 3]) (map of_Z [1; 1; 1; 1])) eq_refl).
  vm_compute. reflexivity.
Qed.
(** The ways found to kill the interpreter through accepted values. *)
Theorem C57_C59_crashes :
  (* a bias with four nodes, or with a repeated node *)
  crashes [] (OpSetBias S_galaxy_bias1 (map of_Z [0; 1; 2; 3]) (map of_Z [1; 1; 1; 1])) = true /\
  crashes [] (OpSetBias S_galaxy_bias1 (map of_Z [0; 1; 1; 2; 3]) (map of_Z [1; 1; 1; 1; 1])) = true /\
  (* a spectrum with four wavenumbers *)
  crashes [] (OpSetPk (map of_Z [1; 2; 3; 4]) (map of_Z [1; 1; 1; 1])) = true /\
  (* background_sampling below five *)
  crashes [OpSet A_background_sampling (VInt 4)] (OpBackground 0 (VInt 1)) = true /\
  (* changing l after a flat-sky computation *)
  crashes [OpSet A_has_lensing (VBool true); OpSet A_has_flatsky_nonlocal (VBool true); OpBulk SMult false;
           OpSet A_l (VList [VInt 0; VInt 2; VInt 4; VInt 6])] (OpBulk SMult false) = true /\
  (* a multipole outside l with flat sky *)
  crashes [OpSet A_has_lensing (VBool true); OpSet A_has_flatsky_nonlocal (VBool true)]
    (OpPoint SMult (VInt 1) (VInt 50) (VInt 6) false) = true /\
  (* integral() first, then a potential term that drops nothing it needs *)
  crashes [OpSet A_has_g1 (VBool true); OpIntegral (VInt 10) (VInt 0) (VInt 0)] (OpBulk SMult false) = true /\
  (* deltaz shorter than z_mean *)
  crashes [OpSet A_has_g1 (VBool true); OpSet A_z_mean (floats [f1; of_Z 2])] (OpBulk SMult false) = true /\
  (* z_max shorter than z_min *)
  crashes [OpSet A_z_min (floats [f1; of_Z 2])] (OpBulk SAvg false) = true /\
  (* a redshift bin that reaches beyond 15 *)
  crashes [] (OpMaxSep (VInt 10) (VInt 6)) = true /\
  (* a non-linear spectrum after supplying a linear one *)
  crashes [OpSet A_pk_type (VStr "halofit"); OpSetPk pk_ok pk_ok] (OpBulk SMult false) = true.
Proof. repeat split; vm_compute; reflexivity. Qed.
