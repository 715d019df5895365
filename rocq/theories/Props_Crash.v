(** * C59: the histories that never kill the process *)
From Coq Require Import ZArith Bool List String Lia.
From Verif Require Import F64 PyParams PySet Integrals PyState PySpec PyWrites PyCoherence PyAlways Props_Cache.
Import ListNotations.
Open Scope Z_scope.
#[local] Arguments view : simpl never.
#[local] Arguments needs_div : simpl never.
#[local] Arguments nonlinear : simpl never.
#[local] Arguments app : simpl nomatch.

(** ** Specification *)

(** At least five background points. *)
Definition enough_points (p : params) : bool := 5 <=? pi p I_background_bins.
(** As many bin widths as mean redshifts, if a potential term is on or one was on in an earlier
    computation (the library never clears its mark). *)
Definition enough_widths (p : params) : bool :=
  implb (needs_div p || pb p B_divergent)
        (Nat.leb (List.length (pl p L_z_mean)) (List.length (pl p L_deltaz))).
(** A spectrum given by the user only with the linear type. *)
Definition own_spectrum_linear (s : state) : bool :=
  implb (nonlinear (sp s)) (negb (is_some (user_spectrum s))).
Definition flat_lensing (p : params) : bool :=
  pb p B_flatsky_local_nonlocal || pb p B_flatsky_nonlocal.
(** The redshift bin ends by 15. *)
Definition within (b : f64 * f64) : bool := negb (fltb (of_Z 15) (fadd (fst b) (snd b))).
(** What a wavenumber is looked up in. *)
Definition spectrum_used (s : state) : pksrc :=
  match c_pk s with Some src => src | None => PkClass (view (sp s) class_fields) end.

(** Assigning the multipoles while the tables of a flat-sky computation are kept is not careful. *)
Definition careful_set (a : attr) (s : state) : bool :=
  match a with A_l => negb (is_some (c_int s)) || negb (flat_lensing (sp s)) | _ => true end.
Fixpoint careful_seq (l : list (attr * pyval)) (s : state) : bool :=
  match l with
  | [] => true
  | (a, v) :: r => careful_set a s &&
                   match set_attr a v s with (s1, Ok _) => careful_seq r s1 | _ => true end
  end.

Definition careful (cl : class_lib) (o : op) (s : state) : bool :=
  match o with
  | OpSet a _ => careful_set a s
  | OpSetParameters l => match known l with Some m => careful_seq m s | None => true end
  | OpSetBias _ x _ => spline_ok x
  | OpSetPk k _ => spline_ok k
  | OpParameters | OpReset => true
  | OpBackground _ _ => enough_points (sp s)
  | OpMaxSep z dz =>
      enough_points (sp s) &&
      match as_num z, as_num dz with Some z', Some dz' => within (z', dz') | _, _ => true end
  | OpIntegral _ _ _ =>
      enough_points (sp s) && enough_widths (sp s) && own_spectrum_linear s &&
      implb (needs_div (sp s)) (pb (sp s) B_divergent)
  | OpSpectrum cross k _ _ =>
      enough_points (sp s) && own_spectrum_linear s &&
      match as_num k with Some k' => in_table cl (spectrum_used s) k' | None => true end
  | OpPoint k _ _ m _ =>
      enough_points (sp s) && enough_widths (sp s) && own_spectrum_linear s &&
      match k, as_int m with
      | SMult, Some l => implb (flat_lensing (sp s)) (existsb (Z.eqb l) (pm (sp s)) || negb (Z.even l))
      | _, _ => true
      end
  | OpBulk k _ =>
      enough_points (sp s) && enough_widths (sp s) && own_spectrum_linear s &&
      match k with
      | SAvg => Nat.leb (List.length (pl (sp s) L_zmin)) (List.length (pl (sp s) L_zmax))
      | _ => true
      end
  | OpCov k _ =>
      enough_points (sp s) && forallb within (cov_bins k (sp s)) &&
      match k with
      | KCov => true
      | KACov => nonempty (pl (sp s) L_zmin) &&
                 implb (nonlinear (sp s))
                   (Nat.eqb (List.length (pl (sp s) L_z_mean)) (List.length (pl (sp s) L_zmin)))
      end
  end.
Fixpoint careful_history (cl : class_lib) (l : list op) (s : state) : bool :=
  match l with
  | [] => true
  | o :: r => careful cl o s && careful_history cl r (fst (step cl o s))
  end.

(** ** The invariant *)
Definition all_keys (p : params) : list key :=
  integral_keys (needs_div p) (pb p B_flatsky_local_nonlocal) (pb p B_flatsky_nonlocal) true (pm p).
Definition key_fields : list field := div_flags ++ flat_flags ++ [FM].

Record Good (s : state) : Prop := {
  g_basic : basic (sp s);
  g_class : forall c, c_pk s = Some (PkClass c) -> c_cls s <> None;
  g_keys : forall ic, c_int s = Some ic -> incl (all_keys (sp s)) (ic_keys ic)
}.

Lemma all_keys_same : forall w p' p, same_except w p' p -> disjointb w key_fields = true ->
  all_keys p' = all_keys p.
Proof.
  intros w p' p H D. unfold all_keys.
  rewrite (needs_div_same w p' p H) by (apply (disjoint_sub w key_fields); [exact D|reflexivity]).
  rewrite (same_except_pb w p' p B_flatsky_local_nonlocal H) by (apply (disjoint_memb w key_fields); [exact D|reflexivity]).
  rewrite (same_except_pb w p' p B_flatsky_nonlocal H) by (apply (disjoint_memb w key_fields); [exact D|reflexivity]).
  rewrite (same_except_pm w p' p H) by (apply (disjoint_memb w key_fields); [exact D|reflexivity]).
  reflexivity.
Qed.
Lemma all_keys_curved : forall w p' p, same_except w p' p -> disjointb w (div_flags ++ flat_flags) = true ->
  flat_lensing p = false -> all_keys p' = all_keys p.
Proof.
  intros w p' p H D F. unfold all_keys.
  rewrite (needs_div_same w p' p H) by (apply (disjoint_sub w (div_flags ++ flat_flags)); [exact D|reflexivity]).
  rewrite (same_except_pb w p' p B_flatsky_local_nonlocal H) by (apply (disjoint_memb w (div_flags ++ flat_flags)); [exact D|reflexivity]).
  rewrite (same_except_pb w p' p B_flatsky_nonlocal H) by (apply (disjoint_memb w (div_flags ++ flat_flags)); [exact D|reflexivity]).
  unfold flat_lensing in F. apply orb_false_iff in F. destruct F as [F1 F2]. rewrite F1, F2. reflexivity.
Qed.

Section WithClass.
Variable cl : class_lib.

Lemma set_attr_Good : forall a v s, Good s -> careful_set a s = true ->
  Good (fst (set_attr a v s)) /\ snd (set_attr a v s) <> Crash.
Proof.
  intros a v s [B C K] H. pose proof (set_attr_P cl basic (basic_closed cl) a v s B) as B'.
  unfold set_attr in *. destruct (attr_update a v (sp s)) as [|p'|e|p' e] eqn:E; cbn [fst snd] in *.
  - split; [split; assumption|discriminate].
  - split; [|discriminate]. pose proof (attr_update_Put _ _ _ _ E) as W. split; [exact B'| |].
    + intros c. cbn [drop c_pk c_cls]. destruct (dropped _ CPk); [discriminate|]. apply C.
    + intros ic. cbn [drop c_int sp]. destruct (dropped (attr_frees a) CInt) eqn:D; [discriminate|].
      intros I. cbn [setP c_int] in I. cbn [setP sp].
      replace (all_keys p') with (all_keys (sp s)); [exact (K ic I)|]. symmetry.
      destruct (attr_eq_dec a A_l) as [->|N].
      * cbn [careful_set] in H. rewrite I in H. cbn in H. apply (all_keys_curved _ _ _ W); [reflexivity|].
        destruct (flat_lensing (sp s)); [discriminate|reflexivity].
      * apply (all_keys_same _ _ _ W). destruct a; try discriminate D; try reflexivity. congruence.
  - split; [split; assumption|discriminate].
  - split; [|discriminate]. destruct (attr_update_Part _ _ _ _ _ E) as (-> & _ & W & _). split; [exact B'|exact C|].
    intros ic I. cbn [setP sp]. rewrite (all_keys_same _ _ _ W) by reflexivity. exact (K ic I).
Qed.
Lemma assign_Good : forall l s, Good s -> careful_seq l s = true ->
  Good (fst (assign_seq l s)) /\ snd (assign_seq l s) <> Crash.
Proof.
  induction l as [|[a v] r IH]; intros s G H; [split; [exact G|discriminate]|]. cbn [assign_seq careful_seq] in *.
  apply andb_true_iff in H. destruct H as [H1 H2]. destruct (set_attr_Good a v s G H1) as [G1 N1].
  destruct (set_attr a v s) as [s1 [o|e|]]; cbn [fst snd] in *.
  - apply IH; assumption.
  - split; [exact G1|discriminate].
  - congruence.
Qed.

(** An object without tables keeps none under assignments. *)
Lemma set_attr_bare : forall a v s, c_int s = None -> c_int (fst (set_attr a v s)) = None.
Proof.
  intros a v s H. unfold set_attr. destruct (attr_update a v (sp s)); cbn [fst drop setP c_int]; try exact H.
  destruct (dropped _ CInt); [reflexivity|exact H].
Qed.
Lemma bare_careful : forall a s, c_int s = None -> careful_set a s = true.
Proof. intros a s H. unfold careful_set. rewrite H. destruct a; reflexivity. Qed.
Lemma seq_bare : forall l s, c_int s = None -> careful_seq l s = true.
Proof.
  induction l as [|[a v] r IH]; intros s H; [reflexivity|]. cbn [careful_seq]. rewrite (bare_careful a s H). cbn [andb].
  pose proof (set_attr_bare a v s H) as H1. destruct (set_attr a v s) as [s1 [o|e|]]; cbn [fst] in H1; auto.
Qed.
Lemma reassign_Good : forall l s, Good s -> c_int s = None ->
  Good (fst (reassign_all l s)) /\ c_int (fst (reassign_all l s)) = None /\ snd (reassign_all l s) <> Crash.
Proof.
  induction l as [|a r IH]; intros s G H; [split; [exact G|split; [exact H|discriminate]]|]. cbn [reassign_all].
  destruct (set_attr_Good a (get_attr a (sp s)) s G (bare_careful a s H)) as [G1 N1].
  pose proof (set_attr_bare a (get_attr a (sp s)) s H) as H1.
  destruct (set_attr a (get_attr a (sp s)) s) as [s1 [o|e|]]; cbn [fst snd] in *.
  - apply IH; assumption.
  - destruct e; try (split; [exact G1|split; [exact H1|discriminate]]). apply IH; assumption.
  - congruence.
Qed.
Lemma read_Good : forall s, Good s ->
  Good (fst (read_parameters s)) /\ c_int (fst (read_parameters s)) = None /\ snd (read_parameters s) <> Crash.
Proof.
  intros s G. unfold read_parameters.
  assert (HA : exists r, all_attrs = A_A_s :: r) by (eexists; reflexivity). destruct HA as [rest ->]. cbn [reassign_all].
  destruct (g_basic s G) as [_ [A1 A2]].
  assert (E : set_attr A_A_s (get_attr A_A_s (sp s)) s
            = (drop (attr_frees A_A_s) (setP s (setF (sp s) F_A_s (pf (sp s) F_A_s))), Ok ONone)).
  { unfold set_attr. simpl attr_update. unfold check_num. simpl as_num. cbv iota beta. rewrite A1, A2. reflexivity. }
  destruct (set_attr_Good A_A_s (get_attr A_A_s (sp s)) s G eq_refl) as [G1 _].
  rewrite E in *. cbn [fst] in G1. apply reassign_Good; [exact G1|reflexivity].
Qed.

(** Building the tables. *)
Lemma bg_ready : forall rc s, Good s -> enough_points (sp s) = true ->
  exists s1, ensure_bg rc s = Some s1 /\ Good s1 /\ sp s1 = sp s /\ c_bg s1 <> None /\ c_pk s1 = c_pk s /\
    c_cls s1 = c_cls s /\ c_int s1 = c_int s /\ c_sig s1 = c_sig s /\ c_cov s1 = c_cov s.
Proof.
  intros rc s G H. unfold ensure_bg. destruct (is_some (c_bg s) && negb rc) eqn:E.
  - exists s. split; [reflexivity|]. split; [exact G|]. repeat split; try reflexivity.
    destruct (c_bg s); [discriminate|discriminate].
  - unfold bg_init. unfold enough_points in H. apply Z.leb_le in H.
    destruct (Z.ltb_spec (pi (sp s) I_background_bins) 5); [lia|].
    eexists. split; [reflexivity|]. split; [destruct G; split; assumption|]. repeat split; discriminate.
Qed.
Lemma pk_ready : forall rc s, Good s ->
  exists s1, ensure_pk cl rc s = Some s1 /\ Good s1 /\ same_except k_range (sp s1) (sp s) /\ c_bg s1 = c_bg s /\
    c_pk s1 <> None /\ (rc = false -> c_pk s1 = Some (spectrum_used s)) /\
    (own_spectrum_linear s = true -> nonlinear (sp s) = true -> c_cls s1 <> None) /\
    (own_spectrum_linear s = true -> own_spectrum_linear s1 = true) /\
    c_int s1 = c_int s /\ c_sig s1 = c_sig s /\ c_cov s1 = c_cov s.
Proof.
  intros rc s G. unfold ensure_pk, spectrum_used. destruct (c_pk s) as [src|] eqn:P; cbn [is_some].
  - destruct rc; cbn [negb andb].
    + unfold ps_init. eexists. split; [reflexivity|]. pose proof (clamp_same cl (sp s)) as W.
      split; [|repeat split; try discriminate; [exact W|]].
      * destruct G as [B C K]. split; cbn [sp c_pk c_cls c_int].
        -- apply (cl_clamp cl basic (basic_closed cl)). exact B.
        -- intros c _. discriminate.
        -- intros ic I. rewrite (all_keys_same _ _ _ W) by reflexivity. exact (K ic I).
      * intros O. unfold own_spectrum_linear, user_spectrum. cbn. destruct (nonlinear _); reflexivity.
    + exists s. split; [reflexivity|]. split; [exact G|]. split; [apply same_except_refl|].
      rewrite P. repeat split; try discriminate; auto.
      intros O N. unfold own_spectrum_linear, user_spectrum in O. rewrite N, P in O.
      destruct src as [k pk|c]; [discriminate|]. apply (g_class s G c P).
  - unfold ps_init. eexists. split; [reflexivity|]. pose proof (clamp_same cl (sp s)) as W.
      split; [|repeat split; try discriminate; [exact W|]].
      * destruct G as [B C K]. split; cbn [sp c_pk c_cls c_int].
        -- apply (cl_clamp cl basic (basic_closed cl)). exact B.
        -- intros c _. discriminate.
        -- intros ic I. rewrite (all_keys_same _ _ _ W) by reflexivity. exact (K ic I).
      * intros O. unfold own_spectrum_linear, user_spectrum. cbn. destruct (nonlinear _); reflexivity.
Qed.

Lemma widths_same : forall w p' p, same_except w p' p ->
  disjointb w (FB B_divergent :: FL L_z_mean :: FL L_deltaz :: div_flags) = true -> enough_widths p' = enough_widths p.
Proof.
  intros w p' p H D. set (fs := FB B_divergent :: FL L_z_mean :: FL L_deltaz :: div_flags) in *. unfold enough_widths.
  rewrite (needs_div_same w p' p H) by (apply (disjoint_sub w fs); [exact D|reflexivity]).
  rewrite (same_except_pb w p' p B_divergent H) by (apply (disjoint_memb w fs); [exact D|reflexivity]).
  rewrite (same_except_pl w p' p L_z_mean H) by (apply (disjoint_memb w fs); [exact D|reflexivity]).
  rewrite (same_except_pl w p' p L_deltaz H) by (apply (disjoint_memb w fs); [exact D|reflexivity]).
  reflexivity.
Qed.

Lemma int_ready : forall rc s, Good s -> c_bg s <> None -> c_pk s <> None ->
  (nonlinear (sp s) = true -> c_cls s <> None) -> enough_widths (sp s) = true ->
  (needs_div (sp s) = true -> pb (sp s) B_divergent = true) ->
  exists s1, ensure_int rc s = Some s1 /\ Good s1 /\ sp s1 = sp s /\ c_bg s1 = c_bg s /\ c_pk s1 = c_pk s /\
    c_int s1 <> None /\ c_sig s1 = c_sig s.
Proof.
  intros rc s G Hb Hp Hc Hw Hd. unfold ensure_int. destruct (is_some (c_int s) && negb rc) eqn:E.
  - exists s. split; [reflexivity|]. split; [exact G|]. repeat split; try reflexivity. destruct (c_int s); discriminate.
  - unfold int_init. destruct (c_pk s) as [pk|] eqn:P; [|congruence]. destruct (c_bg s) as [bg|] eqn:Bg; [|congruence].
    replace (nonlinear (sp s) && match c_cls s with None => true | _ => false end) with false
      by (destruct (nonlinear (sp s)); [|reflexivity]; destruct (c_cls s); [reflexivity|exfalso; apply Hc; reflexivity]).
    replace (pb (sp s) B_divergent && Nat.ltb (List.length (pl (sp s) L_deltaz)) (List.length (pl (sp s) L_z_mean))) with false.
    2: { unfold enough_widths in Hw. destruct (pb (sp s) B_divergent); [|reflexivity]. rewrite orb_true_r in Hw. cbn in Hw.
         apply Nat.leb_le in Hw. symmetry. apply Nat.ltb_ge. exact Hw. }
    eexists. split; [reflexivity|]. cbn [sp c_bg c_pk c_int c_sig].
    split; [|repeat split; discriminate]. destruct G as [B C K]. split; cbn [sp c_pk c_cls c_int]; [exact B| |].
    + intros c Hc'. apply (C c). congruence.
    + intros ic I. injection I as <-. cbn [ic_keys]. intros x Hx. unfold keys_of. unfold all_keys in Hx.
      destruct B as [O _]. unfold is_mult. rewrite O. change (out_MULTIPOLES =? out_MULTIPOLES) with true.
      unfold integral_keys in *. apply in_app_iff in Hx. apply in_app_iff. destruct Hx as [Hx|Hx]; [left; exact Hx|]. right.
      apply in_app_iff in Hx. apply in_app_iff. destruct Hx as [Hx|Hx]; [|right; exact Hx]. left.
      destruct (needs_div (sp s)); [|destruct Hx]. rewrite (Hd eq_refl). exact Hx.
Qed.

Lemma base_ready : forall rc s, Good s -> enough_points (sp s) = true -> enough_widths (sp s) = true ->
  own_spectrum_linear s = true -> (needs_div (sp s) = true -> pb (sp s) B_divergent = true) ->
  exists s1, ensure_base cl rc s = Some s1 /\ Good s1 /\ same_except k_range (sp s1) (sp s) /\
    c_bg s1 <> None /\ c_int s1 <> None /\ c_sig s1 = c_sig s.
Proof.
  intros rc s G Hn Hw Ho Hd. unfold ensure_base.
  destruct (bg_ready rc s G Hn) as (s1 & E1 & G1 & P1 & B1 & K1 & L1 & I1 & S1 & V1). rewrite E1. cbn [bindo].
  assert (O1 : own_spectrum_linear s1 = true) by (unfold own_spectrum_linear, user_spectrum; rewrite P1, K1; exact Ho).
  destruct (pk_ready rc s1 G1) as (s2 & E2 & G2 & P2 & B2 & K2 & U2 & L2 & O2 & I2 & S2 & V2). rewrite E2. cbn [bindo].
  rewrite P1 in P2.
  destruct (int_ready rc s2 G2) as (s3 & E3 & G3 & P3 & B3 & K3 & I3 & S3).
  - rewrite B2. exact B1.
  - exact K2.
  - intros N. apply (L2 O1). rewrite P1. rewrite <- N. symmetry. apply (nonlinear_same _ _ _ P2). reflexivity.
  - rewrite (widths_same _ _ _ P2) by reflexivity. exact Hw.
  - rewrite (needs_div_same _ _ _ P2) by reflexivity. rewrite (same_except_pb _ _ _ B_divergent P2) by reflexivity. exact Hd.
  - exists s3. split; [exact E3|]. split; [exact G3|]. rewrite P3. split; [exact P2|]. rewrite B3, B2, S3, S2, S1. auto.
Qed.

Lemma mark_Good : forall s, Good s -> Good (setP s (mark_divergent (sp s))).
Proof.
  intros s [B C K]. pose proof (mark_same (sp s)) as W. split; cbn [setP sp c_pk c_cls c_int].
  - apply (cl_mark cl basic (basic_closed cl)). exact B.
  - exact C.
  - intros ic I. rewrite (all_keys_same _ _ _ W) by reflexivity. exact (K ic I).
Qed.
Lemma mark_widths : forall p, enough_widths (mark_divergent p) = enough_widths p.
Proof.
  intros p. unfold mark_divergent. destruct (needs_div p) eqn:N; [|reflexivity]. unfold enough_widths.
  change (needs_div (setB p B_divergent true)) with (needs_div p). rewrite N. reflexivity.
Qed.

(** The values of the signal. *)
Lemma value_ready : forall k ells fs s, Good s -> c_bg s <> None -> c_int s <> None ->
  (k = SMult -> flat_lensing (sp s) = true -> forall l, In l ells -> Z.even l = true -> In l (pm (sp s))) ->
  sig_value k ells fs s <> None.
Proof.
  intros k ells fs s G Hb Hi Hl. unfold sig_value. destruct (c_bg s) as [bg|]; [|congruence].
  destruct (c_int s) as [ic|] eqn:I; [|congruence].
  replace (forallb (has_key (ic_keys ic)) (needed_keys k (sp s) ells)) with true; [discriminate|].
  symmetry. apply forallb_forall. intros x Hx. apply has_key_In. apply (g_keys s G ic I).
  unfold all_keys, integral_keys. unfold needed_keys in Hx.
  apply in_app_iff in Hx. apply in_app_iff. destruct Hx as [Hx|Hx]; [left; exact Hx|]. right.
  apply in_app_iff in Hx. apply in_app_iff. destruct Hx as [Hx|Hx]; [left; exact Hx|]. right.
  apply in_app_iff. right. destruct k; try destruct Hx. specialize (Hl eq_refl).
  apply in_app_iff in Hx. apply in_app_iff. destruct Hx as [Hx|Hx].
  - left. destruct (pb (sp s) B_flatsky_nonlocal) eqn:F; [|rewrite andb_false_r in Hx; destruct Hx].
    destruct (_ && _) in Hx; [|destruct Hx]. cbn [andb]. apply in_map_iff in Hx. destruct Hx as (l & <- & Hin).
    apply filter_In in Hin. destruct Hin as [Hin Ev]. apply in_map_iff. exists l. split; [reflexivity|].
    apply Hl; [unfold flat_lensing; rewrite F; apply orb_true_r|exact Hin|exact Ev].
  - right. destruct (pb (sp s) B_flatsky_local_nonlocal) eqn:F; [|rewrite andb_false_r in Hx; destruct Hx].
    destruct (_ && _) in Hx; [|destruct Hx]. cbn [andb]. apply in_flat_map in Hx. destruct Hx as (l & Hin & Hx).
    apply filter_In in Hin. destruct Hin as [Hin Ev]. apply in_flat_map. exists l. split; [|exact Hx].
    apply Hl; [unfold flat_lensing; rewrite F; reflexivity|exact Hin|exact Ev].
Qed.
Lemma set_sig_Good : forall s k r, Good s -> Good (set_sig s k r).
Proof. intros s k r [B C K]. split; assumption. Qed.

Lemma bulk_Good : forall k rc s, Good s -> careful cl (OpBulk k rc) s = true ->
  Good (fst (compute_bulk cl k rc s)) /\ snd (compute_bulk cl k rc s) <> Crash.
Proof.
  intros k rc s G H. unfold careful in H. apply andb_true_iff in H. destruct H as [H Ha].
  apply andb_true_iff in H. destruct H as [H Ho]. apply andb_true_iff in H. destruct H as [Hn Hw].
  unfold compute_bulk. destruct (negb (coords_ok k (sp s))); [split; [exact G|discriminate]|].
  destruct (negb (any_contribution (sp s))); [split; [exact G|discriminate]|].
  pose proof (mark_same (sp s)) as MS. cbv zeta.
  destruct (base_ready rc (setP s (mark_divergent (sp s))) (mark_Good s G)) as (s1 & E1 & G1 & P1 & B1 & I1 & S1).
  - cbn [setP sp]. unfold enough_points in *. rewrite (same_except_pi _ _ _ I_background_bins MS) by reflexivity. exact Hn.
  - cbn [setP sp]. rewrite mark_widths. exact Hw.
  - unfold own_spectrum_linear in *. cbn [setP sp]. rewrite (nonlinear_same _ _ _ MS) by reflexivity. exact Ho.
  - cbn [setP sp]. apply mark_ok.
  - rewrite E1. cbn [bindo]. cbn [setP sp] in P1. unfold ensure_sig.
    destruct (is_some (c_sig s1 k) && negb rc) eqn:Cs.
    + destruct (c_sig s1 k); [split; [exact G1|discriminate]|discriminate].
    + pose proof (value_ready k (pm (sp s1)) (signal_fields ++ sig_coord_fields k) s1 G1 B1 I1 (fun _ _ l Hl _ => Hl)) as V.
      assert (X : exists r, sig_init k s1 = Some (set_sig s1 k r)).
      { unfold sig_init. destruct (sig_value k (pm (sp s1)) (signal_fields ++ sig_coord_fields k) s1) as [r|]; [|congruence].
        exists r. destruct k; try reflexivity.
        rewrite (same_except_pl _ _ _ L_zmax P1), (same_except_pl _ _ _ L_zmin P1) by reflexivity.
        rewrite (same_except_pl _ _ _ L_zmax MS), (same_except_pl _ _ _ L_zmin MS) by reflexivity.
        apply Nat.leb_le in Ha. destruct (Nat.ltb_spec (List.length (pl (sp s) L_zmax)) (List.length (pl (sp s) L_zmin))); [lia|reflexivity]. }
      destruct X as [r ->]. cbn [set_sig c_sig]. rewrite internal_sigkind_dec_lb by reflexivity.
      split; [apply set_sig_Good; exact G1|discriminate].
Qed.

Lemma point_Good : forall k z r m rc s, Good s -> careful cl (OpPoint k z r m rc) s = true ->
  Good (fst (compute_point cl k z r m rc s)) /\ snd (compute_point cl k z r m rc s) <> Crash.
Proof.
  intros k z r m rc s G H. unfold careful in H. apply andb_true_iff in H. destruct H as [H Ha].
  apply andb_true_iff in H. destruct H as [H Ho]. apply andb_true_iff in H. destruct H as [Hn Hw].
  unfold compute_point. destruct (negb (coords_ok k (sp s))); [split; [exact G|discriminate]|].
  destruct (negb (any_contribution (sp s))); [split; [exact G|discriminate]|].
  pose proof (mark_same (sp s)) as MS. cbv zeta.
  destruct (base_ready rc (setP s (mark_divergent (sp s))) (mark_Good s G)) as (s1 & E1 & G1 & P1 & B1 & I1 & S1).
  - cbn [setP sp]. unfold enough_points in *. rewrite (same_except_pi _ _ _ I_background_bins MS) by reflexivity. exact Hn.
  - cbn [setP sp]. rewrite mark_widths. exact Hw.
  - unfold own_spectrum_linear in *. cbn [setP sp]. rewrite (nonlinear_same _ _ _ MS) by reflexivity. exact Ho.
  - cbn [setP sp]. apply mark_ok.
  - rewrite E1. cbn [setP sp] in P1. destruct (check_point k z r m) as [[pt ells]|e] eqn:Cp; [|split; [exact G1|discriminate]].
    pose proof (value_ready k ells signal_fields s1 G1 B1 I1) as V.
    destruct (sig_value k ells signal_fields s1) as [v|]; [split; [exact G1|discriminate]|]. exfalso. apply V; [|reflexivity].
    intros -> F l Hl Ev. unfold check_point in Cp. destruct (check_num z f0 (of_Z 15)); [|discriminate].
    destruct (check_num r f0 (of_Z 1500)); [|discriminate]. unfold check_int in Cp.
    destruct (as_int m) as [l'|]; [|discriminate]. destruct (l' <? 0); [discriminate|]. destruct (10 <? l'); [discriminate|].
    injection Cp as _ <-. destruct Hl as [<-|[]].
    rewrite (same_except_pm _ _ _ P1), (same_except_pm _ _ _ MS) by reflexivity.
    unfold flat_lensing in *. rewrite !(same_except_pb _ _ _ _ P1), !(same_except_pb _ _ _ _ MS) in F by reflexivity.
    rewrite F in Ha. cbn [implb] in Ha. rewrite Ev in Ha. rewrite orb_false_r in Ha.
    apply existsb_exists in Ha. destruct Ha as (y & Hy & E). apply Z.eqb_eq in E. subst. exact Hy.
Qed.

Lemma bins_ready : forall l, forallb within l = true -> check_bins l <> None.
Proof.
  induction l as [|[z dz] r IH]; intros H; [discriminate|]. cbn [forallb] in H. apply andb_true_iff in H. destruct H as [H1 H2].
  cbn [check_bins]. destruct (negb (maxsep_ok z dz)); [discriminate|]. unfold within in H1. cbn [fst snd] in H1.
  destruct (fltb (of_Z 15) (fadd z dz)); [discriminate|]. apply IH. exact H2.
Qed.

Lemma cov_Good : forall k rc s, Good s -> careful cl (OpCov k rc) s = true ->
  Good (fst (compute_cov cl k rc s)) /\ snd (compute_cov cl k rc s) <> Crash.
Proof.
  intros k rc s G H. unfold careful in H. apply andb_true_iff in H. destruct H as [H Ha].
  apply andb_true_iff in H. destruct H as [Hn Hb].
  unfold compute_cov. destruct (negb (coords_ok SMult (sp s))); [split; [exact G|discriminate]|].
  destruct (negb (any_contribution (sp s))); [split; [exact G|discriminate]|].
  pose proof (mark_same (sp s)) as MS. cbv zeta. pose proof (mark_Good s G) as G0.
  destruct (negb (cov_lengths_ok k (sp s))); [split; [exact G0|discriminate]|].
  set (s0 := setP s (mark_divergent (sp s))) in *.
  destruct (pk_ready rc s0 G0) as (s1 & E1 & G1 & P1 & B1 & K1 & U1 & L1 & O1 & I1 & S1 & V1). rewrite E1. cbn [bindo].
  assert (W : same_except (FB B_divergent :: k_range) (sp s1) (sp s)).
  { apply (same_except_trans _ _ (sp s0)).
    - apply (same_except_incl k_range); [exact P1|]. intros x Hx. right. exact Hx.
    - apply (same_except_incl [FB B_divergent]); [exact MS|]. intros x [<-|[]]. left. reflexivity. }
  destruct (bg_ready rc s1 G1) as (s2 & E2 & G2 & P2 & B2 & K2 & L2 & I2 & S2 & V2).
  { unfold enough_points in *. rewrite (same_except_pi _ _ _ I_background_bins W) by reflexivity. exact Hn. }
  rewrite E2.
  assert (CB : cov_bins k (sp s2) = cov_bins k (sp s)).
  { rewrite P2. unfold cov_bins. destruct k; rewrite !(same_except_pl _ _ _ _ W) by reflexivity; reflexivity. }
  rewrite CB. pose proof (bins_ready _ Hb) as NB. destruct (check_bins (cov_bins k (sp s))) as [[]|];
    [|split; [exact G2|discriminate]|congruence].
  unfold ensure_cov. destruct (is_some (c_cov s2 k) && negb rc) eqn:Cc.
  - destruct (c_cov s2 k); [split; [exact G2|discriminate]|discriminate].
  - unfold cov_init. destruct (c_bg s2) as [bg|]; [|congruence]. destruct (c_pk s2) as [pk|] eqn:Kp; [|congruence].
    match goal with |- context [if ?b then None else _] => replace b with false end.
    + cbn [c_cov]. rewrite internal_covkind_dec_lb by reflexivity. cbn [fst snd]. split; [|discriminate].
      destruct G2 as [Bs C K]. split; cbn [sp c_pk c_cls c_int]; [exact Bs| |exact K]. intros c Hc. apply (C c). congruence.
    + destruct k; [reflexivity|]. rewrite P2. apply andb_true_iff in Ha. destruct Ha as [Hz Hm].
      rewrite (nonlinear_same _ _ _ W) by reflexivity. rewrite !(same_except_pl _ _ _ _ W) by reflexivity.
      destruct (pl (sp s) L_zmin) as [|z zs]; [discriminate|]. cbn [List.length Nat.eqb orb].
      destruct (nonlinear (sp s)); [|reflexivity]. cbn [implb andb] in *. cbn [List.length] in Hm. rewrite Hm. reflexivity.
Qed.

Lemma check_num_as : forall v lo hi x, check_num v lo hi = inl x -> as_num v = Some x.
Proof.
  intros v lo hi x H. unfold check_num in H. destruct (as_num v); [|discriminate].
  destruct (fltb _ _); [discriminate|]. destruct (fltb _ _); [discriminate|]. congruence.
Qed.

Lemma step_Good : forall o s, Good s -> careful cl o s = true ->
  Good (fst (step cl o s)) /\ snd (step cl o s) <> Crash.
Proof.
  intros o s G H. destruct o; cbn [step].
  - apply set_attr_Good; assumption.
  - cbn [careful] in H. unfold set_bias.
    destruct (negb (is_sorted x)); [split; [exact G|discriminate]|].
    destruct (negb (Nat.eqb _ _)); [split; [exact G|discriminate]|].
    destruct x as [|x0 xs]; [split; [exact G|discriminate]|].
    destruct (fltb x0 f0); [split; [exact G|discriminate]|].
    destruct (fltb _ _); [split; [exact G|discriminate]|]. rewrite H. cbn [negb fst snd]. split; [|discriminate].
    destruct G as [B C K]. split; cbn [drop dropped setP sp c_pk c_cls c_int].
    + apply (cl_bias cl basic (basic_closed cl)). exact B.
    + exact C.
    + exact K.
  - cbn [careful] in H. unfold set_power_spectrum.
    destruct (negb (is_sorted k)); [split; [exact G|discriminate]|].
    destruct (negb (Nat.eqb _ _)); [split; [exact G|discriminate]|].
    destruct k as [|k0 ks].
    + discriminate H.
    + rewrite H. cbn [negb]. cbv zeta. cbn [fst snd]. split; [|discriminate]. destruct G as [B C K].
      split; cbn [sp c_pk c_cls c_int]; [|discriminate|discriminate].
      apply (cl_user cl basic (basic_closed cl)). exact B.
  - destruct (read_Good s G) as (A & _ & B). split; assumption.
  - unfold set_parameters. cbn [careful] in H. destruct (known l) as [m|]; [|split; [exact G|discriminate]].
    apply assign_Good; assumption.
  - unfold reset_contributions. destruct (read_Good s G) as (A & Bn & B).
    destruct (read_parameters s) as [s1 [o|e|]]; cbn [fst snd] in *.
    + apply assign_Good; [exact A|]. apply seq_bare. exact Bn.
    + split; [exact A|discriminate].
    + congruence.
  - cbn [careful] in H. unfold background_getter. destruct (check_num z _ _); [|split; [exact G|discriminate]].
    destruct (bg_ready false s G H) as (s1 & -> & G1 & _ & B1 & _). destruct (c_bg s1); [split; [exact G1|discriminate]|congruence].
  - cbn [careful] in H. apply andb_true_iff in H. destruct H as [H Hz]. unfold maximum_separation.
    destruct (check_num z f0 (of_Z 15)) as [z'|] eqn:Cz; [|split; [exact G|discriminate]].
    destruct (check_num dz f0 z') as [dz'|] eqn:Cd; [|split; [exact G|discriminate]].
    destruct (bg_ready false s G H) as (s1 & -> & G1 & _ & B1 & _).
    rewrite (check_num_as _ _ _ _ Cz), (check_num_as _ _ _ _ Cd) in Hz. unfold within in Hz. cbn [fst snd] in Hz.
    destruct (fltb (of_Z 15) (fadd z' dz')); [discriminate|]. destruct (c_bg s1); [split; [exact G1|discriminate]|congruence].
  - cbn [careful] in H. apply andb_true_iff in H. destruct H as [H Hd]. apply andb_true_iff in H. destruct H as [H Ho].
    apply andb_true_iff in H. destruct H as [Hn Hw]. unfold integral_method.
    destruct (check_num r f0 (of_Z 25000)); [|split; [exact G|discriminate]].
    destruct (check_int n (-2) 4); [|split; [exact G|discriminate]].
    destruct (check_int l 0 4); [|split; [exact G|discriminate]].
    destruct (base_ready false s G Hn Hw Ho) as (s1 & -> & G1 & _ & _ & I1 & _).
    { intros N. rewrite N in Hd. exact Hd. }
    destruct (c_int s1) as [ic|]; [|congruence]. cbv zeta. destruct (has_key _ _); split; try exact G1; discriminate.
  - cbn [careful] in H. apply andb_true_iff in H. destruct H as [H Hk]. apply andb_true_iff in H. destruct H as [Hn Ho].
    unfold spectrum_method.
    destruct (check_num k _ _) as [k'|] eqn:Ck; [|split; [exact G|discriminate]].
    destruct (check_num z1 _ _); [|split; [exact G|discriminate]].
    destruct (check_num z2 _ _); [|split; [exact G|discriminate]].
    rewrite (check_num_as _ _ _ _ Ck) in Hk.
    destruct (pk_ready false s G) as (s1 & -> & G1 & P1 & B1 & K1 & U1 & L1 & O1 & I1 & S1 & V1). cbn [bindo].
    destruct (bg_ready false s1 G1) as (s2 & -> & G2 & P2 & B2 & K2 & L2 & I2 & S2 & V2).
    { unfold enough_points in *. rewrite (same_except_pi _ _ _ I_background_bins P1) by reflexivity. exact Hn. }
    rewrite K2, (U1 eq_refl). destruct (c_bg s2) as [b|]; [|congruence]. rewrite Hk. cbn [negb].
    specialize (O1 Ho). unfold own_spectrum_linear, user_spectrum in O1. rewrite (U1 eq_refl) in O1. rewrite P2.
    destruct (nonlinear (sp s1)).
    + destruct (spectrum_used s); [discriminate O1|]. rewrite andb_false_r. split; [exact G2|discriminate].
    + rewrite andb_false_r. cbn [andb]. split; [exact G2|discriminate].
  - apply point_Good; assumption.
  - apply bulk_Good; assumption.
  - apply cov_Good; assumption.
Qed.
End WithClass.

Lemma coffe0_Good : Good coffe0.
Proof. split; [exact basic_coffe0|discriminate|discriminate]. Qed.

(** ** C59 *)

(** No call of a careful history kills the process. *)
Theorem C59_careful : forall cl l, careful_history cl l coffe0 = true -> run cl l coffe0 <> None.
Proof.
  intros cl. assert (X : forall l s, Good s -> careful_history cl l s = true -> run cl l s <> None).
  { induction l as [|o r IH]; intros s G H; [discriminate|]. cbn [careful_history] in H. apply andb_true_iff in H.
    destruct H as [H1 H2]. cbn [run]. destruct (step_Good cl o s G H1) as [G1 N1].
    destruct (step cl o s) as [s1 [x|e|]]; cbn [fst snd] in *; [|
      |congruence]; apply IH; assumption. }
  intros l H. apply X; [exact coffe0_Good|exact H].
Qed.
Print Assumptions C59_careful.

(** A careful history that sets every kind of value, computes every kind of result, in both skies,
    with potential terms and a spectrum of the user's, and computes again after changes. *)
Definition busy : list op :=
  [OpSetBias S_galaxy_bias1 nodes ones; OpSet A_has_density (VBool true); OpBulk SMult false; OpBulk SCorr true;
   OpBackground 0 (VInt 1); OpMaxSep (VFloat f1) (VFloat (lit 1 10)); OpSpectrum false (VFloat f1) (VInt 1) (VInt 1);
   OpSet A_l (VList [VInt 0; VInt 2; VInt 4; VInt 6]); OpBulk SMult false; OpCov KCov false;
   OpSet A_has_lensing (VBool true); OpSet A_has_flatsky_nonlocal (VBool true); OpBulk SMult false;
   OpPoint SMult (VInt 1) (VInt 50) (VInt 6) false; OpIntegral (VInt 10) (VInt 0) (VInt 0);
   OpSet A_has_g1 (VBool true); OpBulk SAvg false; OpPoint SCorr (VInt 1) (VInt 50) (VFloat f0) true;
   OpParameters; OpReset; OpSet A_has_rsd (VBool true); OpSetPk pk_ok pk_ok; OpBulk SMult false;
   OpSetParameters [(Some A_omega_m, VFloat (lit 32 100)); (Some A_l, VList [VInt 0])]; OpBulk SMult true].
Example C59_careful_met :
  careful_history cl0 busy coffe0 = true /\
  after cl0 busy (fun s => computed (compute_bulk cl0 SMult false s)) = true.
Proof. split; vm_compute; reflexivity. Qed.
(** None of the histories of C57_C59_crashes is careful in its last call, for instance: *)
Example careless : 
  after cl0 [OpSet A_has_lensing (VBool true); OpSet A_has_flatsky_nonlocal (VBool true); OpBulk SMult false]
    (fun s => negb (careful cl0 (OpSet A_l (VList [VInt 0; VInt 2; VInt 4; VInt 6])) s)) = true.
Proof. vm_compute. reflexivity. Qed.
