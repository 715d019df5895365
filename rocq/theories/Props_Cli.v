(** * The command-line tool: C85; objects loaded from a file: C86 *)
From Coq Require Import ZArith Bool List String Floats.SpecFloat Lia Arith.
From Verif Require Import F64 PyParams PySet PyState PySpec PyWrites PyCoherence PyAlways PyFresh PyValid Config ConfigLemmas Drivers
  Props_Cache Props_Drivers Props_Valid Props_Crash Props_Config Nodes Cli.
Import ListNotations.
Open Scope string_scope.
Open Scope list_scope.

(** ** C86: loading is a sequence of assignments *)
(** Assigning an attribute or calling the setter of a bias. *)
Definition assignment (o : op) : Prop := match o with OpSet _ _ | OpSetBias _ _ _ => True | _ => False end.
Definition reached (cl : class_lib) (s : state) : Prop :=
  untouched s /\ exists l, Forall assignment l /\ careful_history cl l coffe0 = true /\ run cl l coffe0 = Some s.

Section Loading.
Variable cl : class_lib.
Lemma run_app : forall l1 l2 s, run cl (l1 ++ l2) s = match run cl l1 s with Some s1 => run cl l2 s1 | None => None end.
Proof.
  induction l1 as [|o l1 IH]; intros l2 s; [reflexivity|]. cbn [run app].
  destruct (step cl o s) as [s1 [x|e|]]; [apply IH|apply IH|reflexivity].
Qed.
Lemma careful_app : forall l1 l2 s s1, run cl l1 s = Some s1 ->
  careful_history cl (l1 ++ l2) s = careful_history cl l1 s && careful_history cl l2 s1.
Proof.
  induction l1 as [|o l1 IH]; intros l2 s s1 H; [injection H as <-; reflexivity|]. cbn [run app careful_history] in *.
  destruct (step cl o s) as [s2 [x|e|]] eqn:Es; cbn [fst]; try discriminate; rewrite (IH l2 s2 s1 H), andb_assoc; reflexivity.
Qed.
Lemma reached_0 : reached cl coffe0.
Proof. split; [repeat split|]. exists []. repeat split. constructor. Qed.
Lemma reached_step : forall o s s1 x, assignment o -> reached cl s -> careful cl o s = true -> untouched s1 ->
  step cl o s = (s1, Ok x) -> reached cl s1.
Proof.
  intros o s s1 x A [_ (l & Fl & Cl & Rl)] Co U1 Es. split; [exact U1|]. exists (l ++ [o]).
  split; [apply Forall_app; split; [exact Fl|constructor; [exact A|constructor]]|].
  split; [rewrite (careful_app l [o] coffe0 s Rl), Cl; cbn [careful_history]; rewrite Co; reflexivity|].
  rewrite run_app, Rl. cbn [run]. rewrite Es. reflexivity.
Qed.
Lemma reached_set : forall a w s s1 x, reached cl s -> set_attr a w s = (s1, Ok x) -> reached cl s1.
Proof.
  intros a w s s1 x R Es. apply (reached_step (OpSet a w) s s1 x); [exact I|exact R| |exact (set_attr_untouched _ _ _ _ _ (proj1 R) Es)|exact Es].
  apply bare_careful. destruct R as [((_ & _ & H & _) & _) _]. exact H.
Qed.
Lemma reached_seq : forall (A : Type) (f : A -> state -> state * res) l s s1 x,
  (forall a s s1 x, reached cl s -> f a s = (s1, Ok x) -> reached cl s1) ->
  reached cl s -> seqr f l s = (s1, Ok x) -> reached cl s1.
Proof.
  intros A f. induction l as [|a l IH]; intros s s1 x St R H; cbn [seqr] in H; [injection H as <- _; exact R|].
  unfold bindr in H. destruct (f a s) as [s2 [y|e|]] eqn:E; try discriminate. exact (IH s2 s1 x St (St _ _ _ _ R E) H).
Qed.
Lemma reached_option : forall f o s s1 x, reached cl s -> read_option f o s = (s1, Ok x) -> reached cl s1.
Proof.
  intros f o s s1 x R H. unfold read_option in H. destruct (entry (o_key o) f); [|injection H as <- _; exact R].
  destruct (convert (o_kind o) p); [|discriminate]. destruct (o_attr o); [|discriminate]. exact (reached_set _ _ _ _ _ R H).
Qed.
Lemma reached_bias : forall X f k s s1 x, reached cl s -> read_bias X f k s = (s1, Ok x) -> reached cl s1.
Proof.
  intros X f k s s1 x R H. pose proof (read_bias_untouched X f k s s1 _ (proj1 R) H) as U. unfold read_bias in H.
  destruct (bias_source X f k) as [[[xs ys]|]|e]; [|injection H as <- _; exact R|discriminate].
  apply (reached_step (OpSetBias k xs ys) s s1 x); [exact I|exact R| |exact U|exact H].
  cbn [careful]. unfold set_bias in H.
  destruct (negb (is_sorted xs)); [discriminate|]. destruct (negb (Nat.eqb _ _)); [discriminate|].
  destruct xs as [|x0 xs]; [discriminate|]. destruct (fltb x0 f0); [discriminate|]. destruct (fltb _ _); [discriminate|].
  destruct (spline_ok (x0 :: xs)); [reflexivity|discriminate].
Qed.

(** An object read from a file could have been set up by hand: what is proved for all histories holds for it.
    No cache is filled, and the assignments are careful in the sense of C59. *)
Theorem C86_history : forall X v f s x, from_file X v f = (s, Ok x) ->
  exists l, Forall assignment l /\ careful_history cl l coffe0 = true /\ run cl l coffe0 = Some s.
Proof.
  intros X v f s x H.
  destruct (from_file_phases X v f s x H) as (s0 & s1 & s2 & s3 & s4 & s5 & r0 & r1 & r2 & r3 & r4 & r5 & P0 & P1 & P2 & P3 & P4 & P5 & P6).
  assert (ST : forall l s s' r, reached cl s -> seqr (read_option f) l s = (s', Ok r) -> reached cl s').
  { intros l t t' q. apply reached_seq. exact (reached_option f). }
  assert (R0 : reached cl s0).
  { unfold preamble, bindr in P0.
    destruct (seqr (read_option f) legacy_options coffe0) as [sa [xa|e|]] eqn:E; try discriminate.
    pose proof (ST _ _ _ _ reached_0 E) as Ra.
    unfold read_contributions in P0. destruct (entry _ f); [|injection P0 as <- _; exact Ra].
    eapply reached_seq; [|exact Ra|exact P0]. intros na t t' q U E'. cbv beta in E'.
    destruct (listed (fst na) p); [exact (reached_set _ _ _ _ _ U E')|injection E' as <- _; exact U]. }
  assert (R : reached cl s).
  { eapply reached_seq; [exact (reached_bias X f)| |exact P6].
    eapply ST; [|exact P5]. eapply ST; [|exact P4]. eapply ST; [|exact P3].
    eapply reached_option; [|exact P2]. eapply ST; [exact R0|exact P1]. }
  exact (proj2 R).
Qed.
End Loading.
Print Assumptions C86_history.

(** The ranges of C07 hold for a loaded object, and what it computes is what a new object with the
    same parameters computes (C01-C05). *)
Theorem C86_ranges_partial : forall X v f s x, from_file X v f = (s, Ok x) -> ranges_ok (sp s).
Proof.
  intros X v f s x H. destruct (C86_history cl0 X v f s x H) as (l & _ & _ & R). exact (C07_ranges_partial cl0 l s R).
Qed.
Print Assumptions C86_ranges_partial.
Lemma assignments_configure : forall l, Forall assignment l -> Forall configures l.
Proof. intros l. apply Forall_impl. intros []; cbn; tauto. Qed.
Lemma nothing_cached : no_cache' coffe0.
Proof. repeat split. Qed.
Theorem C86_signals : forall cl X v f s x k rc s' r, from_file X v f = (s, Ok x) ->
  compute_bulk cl k rc s = (s', r) -> r <> Crash -> as_if_fresh (compute_bulk cl k false) s' r.
Proof.
  intros cl X v f s x k rc s' r H. destruct (C86_history cl X v f s x H) as (l & A & _ & R).
  apply (coherent_signal k cl l s rc s' r); [|exact R].
  pose proof (configure_then_compute cl k l [] coffe0 nothing_cached (assignments_configure l A) (Forall_nil _)) as S.
  rewrite app_nil_r in S. exact S.
Qed.
Print Assumptions C86_signals.
Theorem C86_covariances : forall cl X v f s x k rc s' r, from_file X v f = (s, Ok x) ->
  compute_cov cl k rc s = (s', r) -> r <> Crash -> as_if_fresh (compute_cov cl k false) s' r.
Proof.
  intros cl X v f s x k rc s' r H. destruct (C86_history cl X v f s x H) as (l & A & _ & R).
  apply (coherent_cov k cl l s rc s' r); [|exact R].
  pose proof (cov_configure_then_compute cl k l [] coffe0 nothing_cached (assignments_configure l A) (Forall_nil _)) as S.
  rewrite app_nil_r in S. exact S.
Qed.
Print Assumptions C86_covariances.

(** ** C85: the files of the command-line tool *)
(** The lines of a table: a header that starts with a hash sign, then one line per row, the
    columns separated by tabulators. *)
Definition table (names : list string) (rows : list (list string)) : list string :=
  ("# " ++ String.concat tab names)%string :: map (String.concat tab) rows.

Section Writing.
Variable E : cli_ext.
Lemma savetxt_same : forall names rows n, rows <> [] -> Forall (fun r => List.length r = n) rows ->
  savetxt E Same names rows = Wrote (table names (map (map (x_sci E)) rows)).
Proof.
  intros names [|r0 rows] n N F; [contradiction|]. unfold savetxt, table. f_equal. f_equal. rewrite map_map. apply map_ext_in.
  intros r I. unfold line. f_equal. rewrite Forall_forall in F.
  assert (L : List.length r0 = List.length r) by (rewrite (F r I), (F r0); [reflexivity|left; reflexivity]). rewrite L.
  clear. induction r as [|x r IH]; [reflexivity|]. cbn [List.length repeat cells_text map cell]. rewrite IH. reflexivity.
Qed.
Lemma savetxt_each : forall fs names rows, rows <> [] -> Forall (fun r => List.length r = List.length fs) rows ->
  savetxt E (Each fs) names rows = Wrote (table names (map (cells_text E fs) rows)).
Proof.
  intros fs names [|r0 rows] N F; [contradiction|]. unfold savetxt, table. rewrite (Forall_inv F), Nat.eqb_refl. f_equal. f_equal.
  rewrite map_map. reflexivity.
Qed.
Lemma trunc_digit : forall l, (0 <= l <= 9)%Z -> trunc (of_Z l) = l.
Proof.
  intros l H. assert (C : In l [0; 1; 2; 3; 4; 5; 6; 7; 8; 9]%Z) by (cbn; lia).
  cbn [In] in C. repeat destruct C as [<-|C]; try reflexivity. destruct C.
Qed.
End Writing.

Section Kept.
Variable cl : class_lib.
Definition k_range_mark := FB B_divergent :: k_range.
Lemma mark_kept : forall p, same_except k_range_mark (mark_divergent p) p.
Proof. intros p. apply (same_except_incl [FB B_divergent]); [apply mark_same|]. intros y [<-|[]]. left. reflexivity. Qed.
Lemma ensure_pk_kept : forall rc s s', ensure_pk cl rc s = Some s' -> same_except k_range_mark (sp s') (sp s).
Proof.
  intros rc s s' H. unfold ensure_pk in H. destruct (_ && _); [injection H as <-; apply same_except_refl|].
  unfold ps_init in H. injection H as <-. cbn [sp].
  apply (same_except_incl k_range); [apply clamp_same|]. intros y Hy. right. exact Hy.
Qed.
Lemma bulk_kept : forall k rc s s' x, compute_bulk cl k rc s = (s', Ok x) ->
  same_except k_range_mark (sp s') (sp s) /\ coords_ok k (sp s) = true /\ exists r, x = OSig k r.
Proof.
  intros k rc s s' x H. unfold compute_bulk in H.
  destruct (coords_ok k (sp s)); [|discriminate]. cbn [negb] in H.
  destruct (any_contribution (sp s)); [|discriminate]. cbn [negb] in H. cbv zeta in H. unfold bindo in H.
  destruct (ensure_base cl rc (setP s (mark_divergent (sp s)))) as [s1|] eqn:E1; [|discriminate].
  destruct (ensure_sig k rc s1) as [s2|] eqn:E2; [|discriminate].
  destruct (c_sig s2 k) as [r|]; [|discriminate]. injection H as <- <-. split; [|split; [reflexivity|exists r; reflexivity]].
  assert (P2 : sp s2 = sp s1).
  { unfold ensure_sig in E2. destruct (_ && _); [injection E2 as <-; reflexivity|exact (sig_init_sp _ _ _ E2)]. }
  rewrite P2. apply (same_except_trans _ _ (mark_divergent (sp s))); [|apply mark_kept].
  unfold ensure_base, bindo in E1. destruct (ensure_bg rc _) as [s3|] eqn:E3; [|discriminate].
  destruct (ensure_pk cl rc s3) as [s4|] eqn:E4; [|discriminate].
  assert (P4 : sp s1 = sp s4).
  { unfold ensure_int in E1. destruct (_ && _); [injection E1 as <-; reflexivity|exact (int_init_sp _ _ E1)]. }
  rewrite P4. pose proof (ensure_pk_kept _ _ _ E4) as W. rewrite (ensure_bg_sp _ _ _ E3) in W. exact W.
Qed.
Lemma cov_kept : forall k rc s s' x, compute_cov cl k rc s = (s', Ok x) -> c_cov s k = None ->
  same_except k_range_mark (sp s') (sp s) /\ coords_ok SMult (sp s) = true /\ cov_lengths_ok k (sp s) = true /\
  (k = KACov -> pl (sp s) L_zmin <> []) /\ exists r, x = OCov k r.
Proof.
  intros k rc s s' x H C. unfold compute_cov in H.
  destruct (coords_ok SMult (sp s)); [|discriminate]. cbn [negb] in H.
  destruct (any_contribution (sp s)); [|discriminate]. cbn [negb] in H. cbv zeta in H.
  destruct (cov_lengths_ok k (sp s)); [|discriminate]. cbn [negb] in H. unfold bindo in H.
  destruct (ensure_pk cl rc (setP s (mark_divergent (sp s)))) as [s1|] eqn:E1; [|discriminate].
  destruct (ensure_bg rc s1) as [s2|] eqn:E2; [|discriminate].
  destruct (check_bins _) as [[]|]; try discriminate.
  assert (W : same_except k_range_mark (sp s2) (sp s)).
  { apply (same_except_trans _ _ (mark_divergent (sp s))); [|apply mark_kept].
    pose proof (ensure_pk_kept _ _ _ E1) as W. rewrite (ensure_bg_sp _ _ _ E2). exact W. }
  assert (C2 : c_cov s2 k = None).
  { assert (C1 : c_cov s1 k = None).
    { unfold ensure_pk in E1. destruct (_ && _); [injection E1 as <-; exact C|]. unfold ps_init in E1. injection E1 as <-. exact C. }
    unfold ensure_bg in E2. destruct (_ && _); [injection E2 as <-; exact C1|]. unfold bg_init in E2.
    destruct (_ <? _)%Z; [discriminate|]. injection E2 as <-. exact C1. }
  destruct (ensure_cov k rc s2) as [s3|] eqn:E3; [|discriminate].
  destruct (c_cov s3 k) as [r|]; [|discriminate]. injection H as <- <-.
  unfold ensure_cov in E3. rewrite C2 in E3. cbn [is_some andb] in E3.
  rewrite (cov_init_sp _ _ _ E3). split; [exact W|]. split; [reflexivity|]. split; [reflexivity|].
  split; [|exists r; reflexivity].
  intros -> Z. unfold cov_init in E3. rewrite (same_except_pl _ _ _ L_zmin W eq_refl), Z in E3.
  destruct (c_bg s2); [|discriminate]. destruct (c_pk s2); discriminate.
Qed.
End Kept.

Section Files.
Variables (E : cli_ext) (X : cfg_ext) (v : visit) (cl : class_lib).
Notation sci := (x_sci E).
Notation dec := (x_dec E).

(** The sizes of the arrays fit into the address space. *)
Definition fits (k : what) (p : params) : Prop :=
  (match k with
   | Cf => 32 * Z.of_nat (List.length (pl p L_z_mean) * List.length (pl p L_mu) * List.length (pl p L_sep))
   | Mp => 32 * Z.of_nat (List.length (pl p L_z_mean) * List.length (pm p) * List.length (pl p L_sep))
   | AvgMp => 40 * Z.of_nat (List.length (pl p L_zmin) * List.length (pm p) * List.length (pl p L_sep))
   | _ => 0
   end < 2 ^ 64)%Z.

Lemma loaded_ells : forall f s x, from_file X v f = (s, Ok x) -> Forall (fun l => (0 <= l <= 9)%Z) (pm (sp s)).
Proof. intros f s x H. exact (ro_multipoles _ (C86_ranges_partial X v f s x H)). Qed.
Lemma loaded_cov : forall f s x k, from_file X v f = (s, Ok x) -> c_cov s k = None.
Proof.
  intros f s x k H. pose proof (from_file_untouched X v f s _ H) as [N _]. destruct N as (_ & _ & _ & _ & C). apply C.
Qed.
Lemma cf_kept : forall s s1 o, compute_bulk cl SCorr false s = (s1, Ok o) ->
  pl (sp s1) L_z_mean = pl (sp s) L_z_mean /\ pl (sp s1) L_mu = pl (sp s) L_mu /\ pl (sp s1) L_sep = pl (sp s) L_sep.
Proof.
  intros s s1 o H. destruct (bulk_kept cl _ _ _ _ _ H) as (W & _). repeat split; apply (same_except_pl _ _ _ _ W); reflexivity.
Qed.
Lemma mp_kept : forall k s s1 o, compute_bulk cl k false s = (s1, Ok o) ->
  pl (sp s1) L_z_mean = pl (sp s) L_z_mean /\ pm (sp s1) = pm (sp s) /\ pl (sp s1) L_sep = pl (sp s) L_sep /\
  pl (sp s1) L_zmin = pl (sp s) L_zmin /\ pl (sp s1) L_zmax = pl (sp s) L_zmax.
Proof.
  intros k s s1 o H. destruct (bulk_kept cl _ _ _ _ _ H) as (W & _).
  repeat split; try (apply (same_except_pl _ _ _ _ W); reflexivity). apply (same_except_pm _ _ _ W). reflexivity.
Qed.
Lemma flat_map_nonempty : forall A B (f : A -> list B) l, l <> [] -> (forall a, In a l -> f a <> []) -> flat_map f l <> [].
Proof.
  intros A B f [|a l] N F; [contradiction|]. cbn [flat_map]. intros K. apply app_eq_nil in K. exact (F a (or_introl eq_refl) (proj1 K)).
Qed.
Lemma map_nonempty : forall A B (f : A -> B) l, l <> [] -> map f l <> [].
Proof. intros A B f [|a l] N; [contradiction|discriminate]. Qed.
Lemma nonempty_not : forall A (l : list A), nonempty l = true -> l <> [].
Proof. intros A [|a l] H; [discriminate|discriminate]. Qed.

(** *** What each kind writes, if the computation returns *)
Definition cf_file (s : state) (r : sig) : list string :=
  table ["r[Mpc]"; "mu"; "z"; "corrfunc_value"]
    (flat_map (fun z => flat_map (fun mu => map (fun sep =>
       [sci sep; sci mu; sci z; sci (corrfunc_point f0 fadd (x_integrate E r) z sep mu)])
       (pl (sp s) L_sep)) (pl (sp s) L_mu)) (pl (sp s) L_z_mean)).
Definition mp_file (s : state) (r : sig) : list string :=
  table ["r[Mpc]"; "l"; "z"; "multipoles_value"]
    (flat_map (fun z => flat_map (fun l => map (fun sep =>
       [sci sep; dec l; sci z; sci (multipole_point f0 fadd (x_integrate E r) z sep l)])
       (pl (sp s) L_sep)) (pm (sp s))) (pl (sp s) L_z_mean)).
Definition average_value (r : sig) (zmin zmax sep : f64) (l : Z) : f64 :=
  let part t := x_integrate E r (x_mid E zmin zmax) zmin zmax sep f0 l t AVERAGE_MULTIPOLES in
  fadd (fadd (part NONINTEGRATED) (part SINGLE_INTEGRATED)) (part DOUBLE_INTEGRATED).
Definition avg_mp_file (s : state) (r : sig) : list string :=
  table ["r[Mpc]"; "l"; "z_min"; "z_max"; "avg_multipoles_value"]
    (flat_map (fun zz => flat_map (fun l => map (fun sep =>
       [sci sep; dec l; sci (fst zz); sci (snd zz); sci (average_value r (fst zz) (snd zz) sep l)])
       (pl (sp s) L_sep)) (pm (sp s))) (combine (pl (sp s) L_zmin) (pl (sp s) L_zmax))).

Lemma map_flat : forall A B C (f : B -> C) (g : A -> list B) l, map f (flat_map g l) = flat_map (fun a => map f (g a)) l.
Proof. induction l as [|a l IH]; [reflexivity|]. cbn [flat_map]. rewrite map_app, IH. reflexivity. Qed.
Lemma flat_map_in_ext : forall A B (f g : A -> list B) l, (forall a, In a l -> f a = g a) -> flat_map f l = flat_map g l.
Proof.
  induction l as [|a l IH]; intros H; [reflexivity|]. cbn [flat_map]. rewrite (H a (or_introl eq_refl)), IH; [reflexivity|].
  intros b Hb. apply H. right. exact Hb.
Qed.

Lemma cf_written : forall s s1 r e, fits Cf (sp s) -> compute_bulk cl SCorr false s = (s1, Ok (OSig SCorr r)) ->
  from_object E cl s Cf e <-> e = Wrote (cf_file s r).
Proof.
  intros s s1 r e F H. destruct (cf_kept s s1 _ H) as (Kz & Km & Ks). destruct (bulk_kept cl _ _ _ _ _ H) as (_ & CO & _).
  assert (W : forall q, corrfunc_init f0 fadd (x_integrate E r) (pl (sp s1) L_z_mean) (pl (sp s1) L_mu) (pl (sp s1) L_sep) q <->
     q = Gives (map (fun c => (c, corrfunc_point f0 fadd (x_integrate E r) (cf_z c) (cf_sep c) (cf_mu c)))
       (flat_map (fun z => flat_map (fun mu => map (fun s => mkCF z s mu) (pl (sp s) L_sep)) (pl (sp s) L_mu)) (pl (sp s) L_z_mean)))).
  { intros q. rewrite Kz, Km, Ks. apply C14_corrfunc. exact F. }
  assert (T : forall l, Gives l = Gives (map (fun c => (c, corrfunc_point f0 fadd (x_integrate E r) (cf_z c) (cf_sep c) (cf_mu c)))
       (flat_map (fun z => flat_map (fun mu => map (fun s => mkCF z s mu) (pl (sp s) L_sep)) (pl (sp s) L_mu)) (pl (sp s) L_z_mean))) ->
     savetxt E Same cf_names (map cf_row l) = Wrote (cf_file s r)).
  { intros l Q. injection Q as ->. rewrite (savetxt_same E _ _ 4).
    - unfold cf_file. f_equal. unfold table, cf_names. f_equal. f_equal. rewrite !map_flat. apply flat_map_ext. intros z.
      rewrite !map_flat. apply flat_map_ext. intros mu. rewrite !map_map. reflexivity.
    - apply map_nonempty, map_nonempty. cbn [coords_ok] in CO. apply andb_true_iff in CO. destruct CO as [CO C3].
      apply andb_true_iff in CO. destruct CO as [C1 C2].
      apply flat_map_nonempty; [apply nonempty_not; exact C3|]. intros z _.
      apply flat_map_nonempty; [apply nonempty_not; exact C1|]. intros mu _. apply map_nonempty, nonempty_not. exact C2.
    - apply Forall_forall. intros row I. apply in_map_iff in I. destruct I as (y & <- & _). reflexivity. }
  split.
  - intros O. inversion O; subst;
      match goal with K : compute_bulk cl SCorr false s = _ |- _ => rewrite H in K; injection K as <- <- end.
    + discriminate.
    + match goal with K : corrfunc_init _ _ _ _ _ _ _ |- _ => apply W in K; discriminate K end.
    + match goal with K : corrfunc_init _ _ _ _ _ _ _ |- _ => apply W in K; apply T; exact K end.
  - intros ->. erewrite <- T by reflexivity. eapply O_cf; [exact H|]. apply W. reflexivity.
Qed.
Lemma mp_written : forall s s1 r e, Forall (fun l => (0 <= l <= 9)%Z) (pm (sp s)) ->
  fits Mp (sp s) -> compute_bulk cl SMult false s = (s1, Ok (OSig SMult r)) ->
  from_object E cl s Mp e <-> e = Wrote (mp_file s r).
Proof.
  intros s s1 r e D F H. destruct (mp_kept _ s s1 _ H) as (Kz & Km & Ks & _). destruct (bulk_kept cl _ _ _ _ _ H) as (_ & CO & _).
  assert (W : forall q, multipoles_init f0 fadd (x_integrate E r) (pl (sp s1) L_z_mean) (pm (sp s1)) (pl (sp s1) L_sep) q <->
     q = Gives (map (fun c => (c, multipole_point f0 fadd (x_integrate E r) (mp_z c) (mp_sep c) (mp_l c)))
       (flat_map (fun z => flat_map (fun l => map (fun s => mkMP z s l) (pl (sp s) L_sep)) (pm (sp s))) (pl (sp s) L_z_mean)))).
  { intros q. rewrite Kz, Km, Ks. apply C14_multipoles. exact F. }
  assert (T : forall l, Gives l = Gives (map (fun c => (c, multipole_point f0 fadd (x_integrate E r) (mp_z c) (mp_sep c) (mp_l c)))
       (flat_map (fun z => flat_map (fun l => map (fun s => mkMP z s l) (pl (sp s) L_sep)) (pm (sp s))) (pl (sp s) L_z_mean))) ->
     savetxt E (Each [Sci; Dec; Sci; Sci]) mp_names (map mp_row l) = Wrote (mp_file s r)).
  { intros l Q. injection Q as ->. rewrite savetxt_each.
    - unfold mp_file. f_equal. unfold table, mp_names. f_equal. f_equal. rewrite !map_flat. apply flat_map_ext. intros z.
      rewrite !map_flat. apply flat_map_in_ext. intros l I. rewrite !map_map. apply map_ext. intros sep.
      cbn [mp_row fst snd mp_sep mp_l mp_z cells_text cell]. rewrite trunc_digit; [reflexivity|].
      rewrite Forall_forall in D. exact (D l I).
    - apply map_nonempty, map_nonempty. cbn [coords_ok] in CO. apply andb_true_iff in CO. destruct CO as [CO C3].
      apply andb_true_iff in CO. destruct CO as [C1 C2].
      apply flat_map_nonempty; [apply nonempty_not; exact C3|]. intros z _.
      apply flat_map_nonempty; [apply nonempty_not; exact C1|]. intros mu _. apply map_nonempty, nonempty_not. exact C2.
    - apply Forall_forall. intros row I. apply in_map_iff in I. destruct I as (y & <- & _). reflexivity. }
  split.
  - intros O. inversion O; subst;
      match goal with K : compute_bulk cl SMult false s = _ |- _ => rewrite H in K; injection K as <- <- end.
    + discriminate.
    + match goal with K : multipoles_init _ _ _ _ _ _ _ |- _ => apply W in K; discriminate K end.
    + match goal with K : multipoles_init _ _ _ _ _ _ _ |- _ => apply W in K; apply T; exact K end.
  - intros ->. erewrite <- T by reflexivity. eapply O_mp; [exact H|]. apply W. reflexivity.
Qed.
Lemma av_lengths : forall s s1 o, (forall k, c_sig s k = None) -> compute_bulk cl SAvg false s = (s1, Ok o) ->
  (List.length (pl (sp s) L_zmin) <= List.length (pl (sp s) L_zmax))%nat.
Proof.
  intros s s1 o N H. destruct (mp_kept _ _ _ _ H) as (_ & _ & _ & K1 & K2). rewrite <- K1, <- K2. clear K1 K2.
  unfold compute_bulk in H. destruct (negb (coords_ok SAvg (sp s))); [discriminate|].
  destruct (negb (any_contribution (sp s))); [discriminate|]. cbv zeta in H. unfold bindo in H.
  destruct (ensure_base cl false (setP s (mark_divergent (sp s)))) as [s2|] eqn:E1; [|discriminate].
  destruct (ensure_sig SAvg false s2) as [s3|] eqn:E2; [|discriminate].
  destruct (c_sig s3 SAvg) as [r|]; [|discriminate]. injection H as <- _.
  assert (N2 : c_sig s2 SAvg = None).
  { unfold ensure_base, bindo in E1. destruct (ensure_bg false _) as [t1|] eqn:F1; [|discriminate].
    assert (M1 : c_sig t1 SAvg = None).
    { unfold ensure_bg in F1. destruct (_ && _); [injection F1 as <-; apply N|]. unfold bg_init in F1.
      destruct (_ <? _)%Z; [discriminate|]. injection F1 as <-. apply N. }
    destruct (ensure_pk cl false t1) as [t2|] eqn:F2; [|discriminate].
    assert (M2 : c_sig t2 SAvg = None).
    { unfold ensure_pk in F2. destruct (_ && _); [injection F2 as <-; exact M1|]. unfold ps_init in F2. injection F2 as <-. exact M1. }
    unfold ensure_int in E1. destruct (_ && _); [injection E1 as <-; exact M2|]. unfold int_init in E1.
    repeat match type of E1 with
           | (if ?b then _ else _) = _ => destruct b; try discriminate
           | match ?o with _ => _ end = _ => destruct o; try discriminate
           end; injection E1 as <-; exact M2. }
  unfold ensure_sig in E2. rewrite N2 in E2. cbn [is_some andb] in E2. rewrite (sig_init_sp _ _ _ E2).
  unfold sig_init in E2. destruct (Nat.ltb _ _) eqn:L; [discriminate|]. apply Nat.ltb_ge in L. exact L.
Qed.
Lemma avg_mp_written : forall s s1 r e, (forall k, c_sig s k = None) -> Forall (fun l => (0 <= l <= 9)%Z) (pm (sp s)) ->
  fits AvgMp (sp s) -> compute_bulk cl SAvg false s = (s1, Ok (OSig SAvg r)) ->
  from_object E cl s AvgMp e <-> e = Wrote (avg_mp_file s r).
Proof.
  intros s s1 r e N D F H. pose proof (av_lengths s s1 _ N H) as L.
  destruct (mp_kept _ s s1 _ H) as (_ & Km & Ks & K1 & K2). destruct (bulk_kept cl _ _ _ _ _ H) as (_ & CO & _).
  assert (W : forall q, average_init f0 (x_mid E) fadd (x_integrate E r) (pl (sp s1) L_zmin) (pl (sp s1) L_zmax) (pm (sp s1)) (pl (sp s1) L_sep) q <->
     q = Gives (map (fun c => (c, average_value r (av_zmin c) (av_zmax c) (av_sep c) (av_l c)))
       (flat_map (fun zz => flat_map (fun l => map (fun s => mkAV (fst zz) (snd zz) s l) (pl (sp s) L_sep)) (pm (sp s)))
          (combine (pl (sp s) L_zmin) (pl (sp s) L_zmax))))).
  { intros q. rewrite K1, K2, Km, Ks. apply C14_average_multipoles; [exact L|exact F]. }
  assert (T : forall l, Gives l = Gives (map (fun c => (c, average_value r (av_zmin c) (av_zmax c) (av_sep c) (av_l c)))
       (flat_map (fun zz => flat_map (fun l => map (fun s => mkAV (fst zz) (snd zz) s l) (pl (sp s) L_sep)) (pm (sp s)))
          (combine (pl (sp s) L_zmin) (pl (sp s) L_zmax)))) ->
     savetxt E (Each [Sci; Dec; Sci; Sci; Sci]) av_names (map av_row l) = Wrote (avg_mp_file s r)).
  { intros l Q. injection Q as ->. rewrite savetxt_each.
    - unfold avg_mp_file. f_equal. unfold table, av_names. f_equal. f_equal. rewrite !map_flat. apply flat_map_ext. intros z.
      rewrite !map_flat. apply flat_map_in_ext. intros l I. rewrite !map_map. apply map_ext. intros sep.
      cbn [av_row fst snd av_sep av_l av_zmin av_zmax cells_text cell]. rewrite trunc_digit; [reflexivity|].
      rewrite Forall_forall in D. exact (D l I).
    - apply map_nonempty, map_nonempty. cbn [coords_ok] in CO. apply andb_true_iff in CO. destruct CO as [CO C4].
      apply andb_true_iff in CO. destruct CO as [CO C3]. apply andb_true_iff in CO. destruct CO as [C1 C2].
      apply flat_map_nonempty.
      + destruct (pl (sp s) L_zmin); [discriminate|]. destruct (pl (sp s) L_zmax); [discriminate|]. discriminate.
      + intros z _. apply flat_map_nonempty; [apply nonempty_not; exact C1|]. intros mu _. apply map_nonempty, nonempty_not. exact C2.
    - apply Forall_forall. intros row I. apply in_map_iff in I. destruct I as (y & <- & _). reflexivity. }
  split.
  - intros O. inversion O; subst;
      match goal with K : compute_bulk cl SAvg false s = _ |- _ => rewrite H in K; injection K as <- <- end.
    + discriminate.
    + match goal with K : average_init _ _ _ _ _ _ _ _ _ |- _ => apply W in K; discriminate K end.
    + match goal with K : average_init _ _ _ _ _ _ _ _ _ |- _ => apply W in K; apply T; exact K end.
  - intros ->. erewrite <- T by reflexivity. eapply O_av; [exact H|]. apply W. reflexivity.
Qed.

(** *** The covariances *)
(** The rows, without their values, in the order of C26. *)
Definition cov_points (s : state) (zs : list (f64 * f64)) : list (f64 * f64 * Z * f64 * Z * f64) :=
  flat_map (fun z => flat_map (fun l1 => flat_map (fun r1 => flat_map (fun l2 => map (fun r2 => (z, l1, r1, l2, r2))
    (pl (sp s) L_sep)) (pm (sp s))) (pl (sp s) L_sep)) (pm (sp s))) zs.
Definition numbered {A} (l : list A) : list (A * nat) := combine l (seq 0 (List.length l)).
Definition cov_file (s : state) (r : covr) : list string :=
  table ["r1[Mpc]"; "r2[Mpc]"; "l1"; "l2"; "z"; "covariance_multipoles_value"]
    (map (fun p => let '(z, l1, r1, l2, r2, i) := p in [sci r1; sci r2; dec l1; dec l2; sci (fst z); sci (x_covariance E r i)])
       (numbered (cov_points s (map (fun z => (z, z)) (pl (sp s) L_z_mean))))).
Definition avg_cov_file (s : state) (r : covr) : list string :=
  table ["r1[Mpc]"; "r2[Mpc]"; "l1"; "l2"; "z_min"; "z_max"; "covariance_avg_multipoles_value"]
    (map (fun p => let '(z, l1, r1, l2, r2, i) := p in
            [sci r1; sci r2; dec l1; dec l2; sci (fst z); sci (snd z); sci (x_covariance E r i)])
       (numbered (cov_points s (combine (pl (sp s) L_zmin) (pl (sp s) L_zmax))))).
(** Row number [row_number nl ns k i m j n] is that of redshift k, multipoles i and j, separations m and n. *)
Definition row_number (nl ns k i m j n : nat) : nat := ((((k * nl + i) * ns + m) * nl + j) * ns + n)%nat.
Lemma nth_flat_map : forall A B (f : A -> list B) l n a b x, (forall y, In y l -> List.length (f y) = n) ->
  nth_error l a = Some x -> (b < n)%nat -> nth_error (flat_map f l) (a * n + b) = nth_error (f x) b.
Proof.
  induction l as [|y l IH]; intros n [|a] b x L H Lt; try discriminate; cbn [flat_map].
  - injection H as ->. rewrite nth_error_app1; [reflexivity|]. rewrite (L x (or_introl eq_refl)). exact Lt.
  - rewrite nth_error_app2; rewrite (L y (or_introl eq_refl)); [|cbn; lia].
    replace (S a * n + b - n)%nat with (a * n + b)%nat by (cbn; lia).
    apply IH; [intros z Z; apply L; right; exact Z|exact H|exact Lt].
Qed.
Lemma length_flat_map : forall A B (f : A -> list B) l n, (forall y, In y l -> List.length (f y) = n) ->
  List.length (flat_map f l) = (List.length l * n)%nat.
Proof.
  induction l as [|y l IH]; intros n L; [reflexivity|]. cbn [flat_map]. rewrite app_length, (L y (or_introl eq_refl)), (IH n); [cbn; lia|].
  intros z Z. apply L. right. exact Z.
Qed.
Theorem C85_covariance_order : forall s zs k i m j n z l1 r1 l2 r2,
  nth_error zs k = Some z -> nth_error (pm (sp s)) i = Some l1 -> nth_error (pl (sp s) L_sep) m = Some r1 ->
  nth_error (pm (sp s)) j = Some l2 -> nth_error (pl (sp s) L_sep) n = Some r2 ->
  nth_error (numbered (cov_points s zs)) (row_number (List.length (pm (sp s))) (List.length (pl (sp s) L_sep)) k i m j n)
  = Some ((z, l1, r1, l2, r2), row_number (List.length (pm (sp s))) (List.length (pl (sp s) L_sep)) k i m j n).
Proof.
  intros s zs k i m j n z l1 r1 l2 r2 Hk Hi Hm Hj Hn. unfold numbered.
  set (nl := List.length (pm (sp s))). set (ns := List.length (pl (sp s) L_sep)).
  assert (Bi : (i < nl)%nat) by (apply nth_error_Some; congruence). assert (Bj : (j < nl)%nat) by (apply nth_error_Some; congruence).
  assert (Bm : (m < ns)%nat) by (apply nth_error_Some; congruence). assert (Bn : (n < ns)%nat) by (apply nth_error_Some; congruence).
  assert (P : nth_error (cov_points s zs) (row_number nl ns k i m j n) = Some (z, l1, r1, l2, r2)).
  { unfold row_number, cov_points.
    replace ((((k * nl + i) * ns + m) * nl + j) * ns + n)%nat with (k * (nl * (ns * (nl * ns))) + (i * (ns * (nl * ns)) + (m * (nl * ns) + (j * ns + n))))%nat by ring.
    assert (N1 : (j * ns + n < nl * ns)%nat) by nia.
    assert (N2 : (m * (nl * ns) + (j * ns + n) < ns * (nl * ns))%nat) by nia.
    assert (N3 : (i * (ns * (nl * ns)) + (m * (nl * ns) + (j * ns + n)) < nl * (ns * (nl * ns)))%nat) by nia.
    assert (L1 : forall z l1 r1 l2, List.length (map (fun r2 => (z, l1, r1, l2, r2) : f64 * f64 * Z * f64 * Z * f64) (pl (sp s) L_sep)) = ns)
      by (intros; apply map_length).
    assert (L2 : forall z l1 r1, List.length (flat_map (fun l2 => map (fun r2 => (z, l1, r1, l2, r2) : f64 * f64 * Z * f64 * Z * f64) (pl (sp s) L_sep)) (pm (sp s))) = (nl * ns)%nat)
      by (intros; apply length_flat_map; intros; apply L1).
    assert (L3 : forall z l1, List.length (flat_map (fun r1 => flat_map (fun l2 => map (fun r2 => (z, l1, r1, l2, r2) : f64 * f64 * Z * f64 * Z * f64) (pl (sp s) L_sep)) (pm (sp s))) (pl (sp s) L_sep)) = (ns * (nl * ns))%nat)
      by (intros; apply length_flat_map; intros; apply L2).
    rewrite (nth_flat_map _ _ _ zs (nl * (ns * (nl * ns))) k _ z); [|intros; apply length_flat_map; intros; apply L3|exact Hk|exact N3].
    rewrite (nth_flat_map _ _ _ (pm (sp s)) (ns * (nl * ns)) i _ l1); [|intros; apply L3|exact Hi|exact N2].
    rewrite (nth_flat_map _ _ _ (pl (sp s) L_sep) (nl * ns) m _ r1); [|intros; apply L2|exact Hm|exact N1].
    rewrite (nth_flat_map _ _ _ (pm (sp s)) ns j _ l2); [|intros; apply L1|exact Hj|exact Bn].
    rewrite nth_error_map, Hn. reflexivity. }
  set (p := row_number nl ns k i m j n) in *. clearbody p. revert p P. generalize (cov_points s zs). clear.
  intros l p P. assert (G : forall (l : list (f64 * f64 * Z * f64 * Z * f64)) a p x, nth_error l p = Some x -> nth_error (combine l (seq a (List.length l))) p = Some (x, (a + p)%nat)).
  { clear. induction l as [|y l IH]; intros a [|p] x H; try discriminate; cbn [List.length seq combine nth_error].
    - injection H as ->. f_equal. f_equal. lia.
    - cbn [nth_error] in H. rewrite (IH (S a) p x H). f_equal. f_equal. lia. }
  exact (G l 0%nat p _ P).
Qed.
Lemma cov_lines : forall (r : covr) (g : cov_element * f64 -> list string) (h : f64 * f64 * Z * f64 * Z * f64 -> nat -> list string) s zs,
  (forall z l1 r1 l2 r2 i, In l1 (pm (sp s)) -> In l2 (pm (sp s)) ->
     g ({| ce_z1 := fst z; ce_z2 := snd z; ce_l1 := l1; ce_l2 := l2; ce_r1 := r1; ce_r2 := r2 |}, x_covariance E r i) = h (z, l1, r1, l2, r2) i) ->
  map g (cov_array E r zs (pm (sp s)) (pl (sp s) L_sep)) = map (fun p => h (fst p) (snd p)) (numbered (cov_points s zs)).
Proof.
  intros r g h s zs G. unfold cov_array, numbered.
  set (mk := fun p : f64 * f64 * Z * f64 * Z * f64 => let '(z, l1, r1, l2, r2) := p in
     {| ce_z1 := fst z; ce_z2 := snd z; ce_l1 := l1; ce_l2 := l2; ce_r1 := r1; ce_r2 := r2 |}).
  assert (Q : cov_elements zs (pm (sp s)) (pl (sp s) L_sep) = map mk (cov_points s zs)).
  { unfold cov_elements, cov_points. rewrite map_flat. apply flat_map_ext. intros z. rewrite map_flat. apply flat_map_ext. intros l1.
    rewrite map_flat. apply flat_map_ext. intros r1. rewrite map_flat. apply flat_map_ext. intros l2. rewrite map_map. reflexivity. }
  rewrite Q, map_length.
  assert (I : Forall (fun p : f64 * f64 * Z * f64 * Z * f64 => let '(z, l1, r1, l2, r2) := p in In l1 (pm (sp s)) /\ In l2 (pm (sp s))) (cov_points s zs)).
  { apply Forall_forall. intros [[[[z l1] r1] l2] r2] H. unfold cov_points in H.
    apply in_flat_map in H. destruct H as (z' & _ & H). apply in_flat_map in H. destruct H as (l1' & I1 & H).
    apply in_flat_map in H. destruct H as (r1' & _ & H). apply in_flat_map in H. destruct H as (l2' & I2 & H).
    apply in_map_iff in H. destruct H as (r2' & H & _). injection H as <- <- <- <- <-. auto. }
  revert I. generalize (cov_points s zs), 0%nat. clear Q. induction l as [|p l IH]; intros a I; [reflexivity|].
  cbn [List.length seq map combine]. rewrite (IH (S a) (Forall_inv_tail I)). f_equal. apply Forall_inv in I.
  destruct p as [[[[z l1] r1] l2] r2]. cbn [fst snd mk]. exact (G z l1 r1 l2 r2 a (proj1 I) (proj2 I)).
Qed.
Lemma cov_array_nonempty : forall r zs ls seps, zs <> [] -> ls <> [] -> seps <> [] -> cov_array E r zs ls seps <> [].
Proof.
  intros r zs ls seps Nz Nl Ns K. assert (Q : cov_elements zs ls seps <> []).
  { unfold cov_elements. repeat (apply flat_map_nonempty; [assumption|]; intros ? _). apply map_nonempty. assumption. }
  unfold cov_array in K. destruct (cov_elements zs ls seps); [contradiction|discriminate].
Qed.
Lemma cov_written : forall s s1 r e, c_cov s KCov = None -> Forall (fun l => (0 <= l <= 9)%Z) (pm (sp s)) ->
  compute_cov cl KCov false s = (s1, Ok (OCov KCov r)) -> from_object E cl s Cov e <-> e = Wrote (cov_file s r).
Proof.
  intros s s1 r e N D H. destruct (cov_kept cl _ _ _ _ _ H N) as (W & CO & _ & _ & _).
  rewrite Forall_forall in D. cbn [coords_ok] in CO. apply andb_true_iff in CO. destruct CO as [CO C3].
  apply andb_true_iff in CO. destruct CO as [C1 C2].
  assert (T : savetxt E (Each [Sci; Sci; Dec; Dec; Sci; Sci]) cov_names
      (map cov_row (cov_array E r (map (fun z => (z, z)) (pl (sp s1) L_z_mean)) (pm (sp s1)) (pl (sp s1) L_sep))) = Wrote (cov_file s r)).
  { rewrite !(same_except_pl _ _ _ _ W), (same_except_pm _ _ _ W) by reflexivity. rewrite savetxt_each.
    - unfold cov_file. f_equal. unfold table. f_equal. f_equal. rewrite map_map.
      rewrite (cov_lines r _ (fun q i => let '(z, l1, r1, l2, r2) := q in [sci r1; sci r2; dec l1; dec l2; sci (fst z); sci (x_covariance E r i)])).
      + apply map_ext. intros [[[[[z l1] r1] l2] r2] i]. reflexivity.
      + intros z l1 r1 l2 r2 i I1 I2. cbn. rewrite !trunc_digit by auto. reflexivity.
    - apply map_nonempty, cov_array_nonempty; [apply map_nonempty|..]; apply nonempty_not; assumption.
    - apply Forall_forall. intros row I. apply in_map_iff in I. destruct I as (y & <- & _). reflexivity. }
  split.
  - intros O. inversion O; subst;
      match goal with K : compute_cov cl KCov false s = _ |- _ => rewrite H in K; injection K as <- <- end;
      [discriminate|exact T].
  - intros ->. rewrite <- T. apply O_cov. exact H.
Qed.
Lemma avg_cov_written : forall s s1 r e, c_cov s KACov = None -> Forall (fun l => (0 <= l <= 9)%Z) (pm (sp s)) ->
  compute_cov cl KACov false s = (s1, Ok (OCov KACov r)) -> from_object E cl s AvgCov e <-> e = Wrote (avg_cov_file s r).
Proof.
  intros s s1 r e N D H. destruct (cov_kept cl _ _ _ _ _ H N) as (W & CO & LO & Z & _). specialize (Z eq_refl).
  rewrite Forall_forall in D. cbn [coords_ok] in CO. apply andb_true_iff in CO. destruct CO as [CO C3].
  apply andb_true_iff in CO. destruct CO as [C1 C2].
  assert (Zc : combine (pl (sp s) L_zmin) (pl (sp s) L_zmax) <> []).
  { unfold cov_lengths_ok in LO. rewrite forallb_forall in LO. pose proof (LO L_zmax (or_intror (or_introl eq_refl))) as Lz.
    apply Nat.eqb_eq in Lz. destruct (pl (sp s) L_zmin); [contradiction|]. destruct (pl (sp s) L_zmax); discriminate. }
  assert (T : savetxt E (Each [Sci; Sci; Dec; Dec; Sci; Sci; Sci]) avg_cov_names
      (map avg_cov_row (cov_array E r (combine (pl (sp s1) L_zmin) (pl (sp s1) L_zmax)) (pm (sp s1)) (pl (sp s1) L_sep))) = Wrote (avg_cov_file s r)).
  { rewrite !(same_except_pl _ _ _ _ W), (same_except_pm _ _ _ W) by reflexivity. rewrite savetxt_each.
    - unfold avg_cov_file. f_equal. unfold table. f_equal. f_equal. rewrite map_map.
      rewrite (cov_lines r _ (fun q i => let '(z, l1, r1, l2, r2) := q in [sci r1; sci r2; dec l1; dec l2; sci (fst z); sci (snd z); sci (x_covariance E r i)])).
      + apply map_ext. intros [[[[[z l1] r1] l2] r2] i]. reflexivity.
      + intros z l1 r1 l2 r2 i I1 I2. cbn. rewrite !trunc_digit by auto. reflexivity.
    - apply map_nonempty, cov_array_nonempty; [exact Zc|apply nonempty_not; assumption..].
    - apply Forall_forall. intros row I. apply in_map_iff in I. destruct I as (y & <- & _). reflexivity. }
  split.
  - intros O. inversion O; subst;
      match goal with K : compute_cov cl KACov false s = _ |- _ => rewrite H in K; injection K as <- <- end;
      [discriminate|exact T].
  - intros ->. rewrite <- T. apply O_avg_cov. exact H.
Qed.

(** *** The background *)
(** The methods of the object, as numbered in PyState. *)
Definition scale_factor := 2%Z. Definition hubble_rate := 1%Z. Definition hubble_rate_conformal := 3%Z.
Definition hubble_rate_conformal_derivative := 4%Z. Definition growth_factor := 5%Z. Definition growth_rate := 6%Z.
Definition comoving_distance := 0%Z.
Definition bg_file (s : state) : list string :=
  let at_z w z := x_background E (view (sp s) bg_core_fields) w z in
  table ["1)z"; "2)a"; "3)H[1/Mpc]"; "4)conformal_H[1/Mpc]"; "5)conformal_H_prime[1/Mpc^2]"; "6)D1"; "7)f"; "8)comoving_distance[Mpc]"]
    (map (fun z => map sci [z; at_z scale_factor z; at_z hubble_rate z; at_z hubble_rate_conformal z;
                            at_z hubble_rate_conformal_derivative z; at_z growth_factor z; at_z growth_rate z; at_z comoving_distance z])
       (linspace f0 (of_Z 15) (Z.to_nat (pi (sp s) I_background_bins)))).
Lemma background_row_ok : forall b l z s, c_bg s = Some b -> fltb z f0 = false -> fltb (of_Z 15) z = false ->
  background_row E l z s = (s, inl (map (fun w => x_background E (bg_core b) w z) l)).
Proof.
  intros b l z s B Z1 Z2. induction l as [|w l IH]; [reflexivity|]. cbn [background_row].
  unfold background_getter. change (check_num (VFloat z) f0 (of_Z 15)) with
    (if fltb z f0 then @inr f64 exn ValueError else if fltb (of_Z 15) z then inr ValueError else inl z).
  rewrite Z1, Z2. unfold ensure_bg. rewrite B. cbn [is_some andb negb]. rewrite B, IH. reflexivity.
Qed.
Lemma background_rows_ok : forall b zs s, c_bg s = Some b -> (forall z, In z zs -> fltb z f0 = false /\ fltb (of_Z 15) z = false) ->
  background_rows E zs s = inl (map (fun z => z :: map (fun w => x_background E (bg_core b) w z) background_columns) zs).
Proof.
  intros b. induction zs as [|z zs IH]; intros s B Z; [reflexivity|]. cbn [background_rows].
  destruct (Z z (or_introl eq_refl)) as [Z1 Z2]. rewrite (background_row_ok b background_columns z s B Z1 Z2), (IH s B); [reflexivity|].
  intros y Y. apply Z. right. exact Y.
Qed.
Lemma transpose_twice : forall m n, m <> [] -> (0 < n)%nat -> Forall (fun r => List.length r = n) m -> transpose (transpose m) = m.
Proof.
  intros m n N P F. destruct m as [|r0 m]; [contradiction|]. set (mm := r0 :: m) in *.
  assert (L0 : List.length r0 = n) by exact (Forall_inv F).
  assert (T1 : transpose mm = map (fun j => map (fun row => nth j row f0) mm) (seq 0 n)) by (unfold transpose, mm; rewrite L0; reflexivity).
  rewrite T1. destruct n as [|n]; [lia|]. unfold transpose at 1. cbn [seq map]. rewrite map_length.
  change (map (fun row => nth 0 row f0) mm :: map (fun j => map (fun row => nth j row f0) mm) (seq 1 n))
    with (map (fun j => map (fun row => nth j row f0) mm) (seq 0 (S n))).
  assert (G : forall i, (i < List.length mm)%nat -> map (fun row => nth i row f0) (map (fun j => map (fun row => nth j row f0) mm) (seq 0 (S n))) = nth i mm []).
  { intros i Hi. rewrite map_map. pose proof (nth_In mm [] Hi) as I. rewrite Forall_forall in F. pose proof (F _ I) as L.
    apply nth_ext with f0 f0; [rewrite map_length, seq_length; symmetry; exact L|]. intros j Hj. rewrite map_length, seq_length in Hj.
    rewrite (nth_indep _ f0 ((fun x => nth i (map (fun row => nth x row f0) mm) f0) 0%nat)) by (rewrite map_length, seq_length; exact Hj).
    rewrite (map_nth (fun x => nth i (map (fun row => nth x row f0) mm) f0)), seq_nth by exact Hj. cbn [Nat.add].
    rewrite (nth_indep _ f0 ((fun row => nth j row f0) [])) by (rewrite map_length; exact Hi). rewrite (map_nth (fun row => nth j row f0)). reflexivity. }
  apply nth_ext with [] []; [rewrite map_length, seq_length; reflexivity|]. intros i Hi. rewrite map_length, seq_length in Hi.
  rewrite (nth_indep _ [] ((fun j => map (fun row => nth j row f0) (map (fun j => map (fun row => nth j row f0) mm) (seq 0 (S n)))) 0%nat)) by (rewrite map_length, seq_length; exact Hi).
  rewrite (map_nth (fun j => map (fun row => nth j row f0) (map (fun j => map (fun row => nth j row f0) mm) (seq 0 (S n))))), seq_nth by exact Hi.
  exact (G i Hi).
Qed.
Lemma bg_written : forall s e, (5 <= pi (sp s) I_background_bins <= 2147483647)%Z ->
  from_object E cl s Bg e <-> e = Wrote (bg_file s).
Proof.
  intros s e H. assert (T : background_file E s = Wrote (bg_file s)).
  { unfold background_file, bg_init. destruct (_ <? _)%Z eqn:L; [apply Z.ltb_lt in L; lia|]. cbn [sp].
    set (zs := linspace f0 (of_Z 15) (Z.to_nat (pi (sp s) I_background_bins))).
    erewrite background_rows_ok; [|reflexivity|].
    - assert (Nz : zs <> []).
      { unfold zs. destruct (Z.to_nat (pi (sp s) I_background_bins)) as [|[|n]] eqn:Q; try (exfalso; lia).
        unfold linspace. cbv zeta. intros K. apply app_eq_nil in K. destruct K as [_ K]. discriminate K. }
      assert (F : Forall (fun r : list f64 => List.length r = 8%nat)
         (map (fun z => z :: map (fun w => x_background E (view (sp s) bg_core_fields) w z) background_columns) zs)).
      { apply Forall_forall. intros r I. apply in_map_iff in I. destruct I as (z & <- & _). reflexivity. }
      rewrite (transpose_twice _ 8); [|apply map_nonempty; exact Nz|lia|exact F].
      rewrite (savetxt_same E _ _ 8); [|apply map_nonempty; exact Nz|exact F].
      unfold bg_file, table, background_names. f_equal. f_equal. f_equal. fold zs. rewrite map_map. reflexivity.
    - intros z I. apply (linspace_within _ z) in I; [exact I|lia|]. rewrite Z2Nat.id by lia. lia. }
  split.
  - intros O. inversion O; subst. exact T.
  - intros ->. rewrite <- T. constructor.
Qed.

(** *** C85 *)
Definition bulk_kind (k : what) : option op :=
  match k with
  | Bg => None | Cf => Some (OpBulk SCorr false) | Mp => Some (OpBulk SMult false) | AvgMp => Some (OpBulk SAvg false)
  | Cov => Some (OpCov KCov false) | AvgCov => Some (OpCov KACov false)
  end.
(** The contents of the file, given what the method returns. *)
Definition contents (k : what) (s : state) (o : outval) : option (list string) :=
  match k, o with
  | Cf, OSig SCorr r => Some (cf_file s r) | Mp, OSig SMult r => Some (mp_file s r) | AvgMp, OSig SAvg r => Some (avg_mp_file s r)
  | Cov, OCov KCov r => Some (cov_file s r) | AvgCov, OCov KACov r => Some (avg_cov_file s r)
  | _, _ => None
  end.
(** How the tool ends: an exception of loading or computing is passed on, and the file is not touched;
    a killed process leaves no file; otherwise the file is the table of the results. *)
Definition ends (k : what) (s : state) (e : ending) : Prop :=
  match bulk_kind k with
  | None => e = if (pi (sp s) I_background_bins <? 5)%Z then Killed else Wrote (bg_file s)
  | Some o =>
      match step cl o s with
      | (_, Ok r) => exists lines, contents k s r = Some lines /\ e = Wrote lines
      | (_, Raise x) => e = Raised x
      | (_, Crash) => e = Killed
      end
  end.
Theorem C85_tool : forall f k s x e, from_file X v f = (s, Ok x) -> fits k (sp s) ->
  tool E X v cl f k e <-> ends k s e.
Proof.
  intros f k s x e H F. pose proof (loaded_ells f s x H) as D. pose proof (fun k => loaded_cov f s x k H) as NC.
  assert (NS : forall k, c_sig s k = None).
  { pose proof (from_file_untouched X v f s _ H) as [N _]. destruct N as (_ & _ & _ & N & _). intros q. apply N. }
  assert (T : tool E X v cl f k e <-> from_object E cl s k e).
  { split.
    - intros K. inversion K; subst; match goal with K : from_file X v f = _ |- _ => rewrite H in K; injection K as <- <- end; [discriminate|assumption].
    - intros K. exact (T_runs E X v cl f k s x e H K). }
  rewrite T. clear T. unfold ends. destruct k; cbn [bulk_kind].
  - destruct (pi (sp s) I_background_bins <? 5)%Z eqn:L.
    + assert (B : background_file E s = Killed) by (unfold background_file, bg_init; rewrite L; reflexivity).
      split; [intros O; inversion O; subst; exact B|intros ->; rewrite <- B; constructor].
    + apply bg_written. apply Z.ltb_ge in L. split; [exact L|].
      pose proof (ro_int _ (C86_ranges_partial X v f s x H) I_background_bins 0%Z 2147483647%Z eq_refl) as R. lia.
  - change (step cl (OpBulk SCorr false) s) with (compute_bulk cl SCorr false s).
    destruct (compute_bulk cl SCorr false s) as [s1 [o|y|]] eqn:C.
    + destruct (bulk_kept cl _ _ _ _ _ C) as (_ & _ & r & ->). rewrite (cf_written s s1 r e F C). cbn [contents].
      split; [intros ->; eexists; split; reflexivity|intros (l & Q & ->); injection Q as <-; reflexivity].
    + split; [|intros ->; exact (O_cf_ends E cl s s1 _ _ C eq_refl)].
      intros O. inversion O; subst; match goal with K : compute_bulk cl SCorr false s = _ |- _ => rewrite C in K; injection K as <- <- || discriminate K end.
      cbn in *. congruence.
    + split; [|intros ->; exact (O_cf_ends E cl s s1 _ _ C eq_refl)].
      intros O. inversion O; subst; match goal with K : compute_bulk cl SCorr false s = _ |- _ => rewrite C in K; injection K as <- <- || discriminate K end.
      cbn in *. congruence.
  - change (step cl (OpBulk SMult false) s) with (compute_bulk cl SMult false s).
    destruct (compute_bulk cl SMult false s) as [s1 [o|y|]] eqn:C.
    + destruct (bulk_kept cl _ _ _ _ _ C) as (_ & _ & r & ->). rewrite (mp_written s s1 r e D F C). cbn [contents].
      split; [intros ->; eexists; split; reflexivity|intros (l & Q & ->); injection Q as <-; reflexivity].
    + split; [|intros ->; exact (O_mp_ends E cl s s1 _ _ C eq_refl)].
      intros O. inversion O; subst; match goal with K : compute_bulk cl SMult false s = _ |- _ => rewrite C in K; injection K as <- <- || discriminate K end.
      cbn in *. congruence.
    + split; [|intros ->; exact (O_mp_ends E cl s s1 _ _ C eq_refl)].
      intros O. inversion O; subst; match goal with K : compute_bulk cl SMult false s = _ |- _ => rewrite C in K; injection K as <- <- || discriminate K end.
      cbn in *. congruence.
  - change (step cl (OpCov KCov false) s) with (compute_cov cl KCov false s).
    destruct (compute_cov cl KCov false s) as [s1 [o|y|]] eqn:C.
    + destruct (cov_kept cl _ _ _ _ _ C (NC KCov)) as (_ & _ & _ & _ & r & ->). rewrite (cov_written s s1 r e (NC KCov) D C). cbn [contents].
      split; [intros ->; eexists; split; reflexivity|intros (l & Q & ->); injection Q as <-; reflexivity].
    + split; [|intros ->; exact (O_cov_ends E cl s s1 _ _ C eq_refl)].
      intros O. inversion O; subst; match goal with K : compute_cov cl KCov false s = _ |- _ => rewrite C in K; injection K as <- <- || discriminate K end.
      cbn in *. congruence.
    + split; [|intros ->; exact (O_cov_ends E cl s s1 _ _ C eq_refl)].
      intros O. inversion O; subst; match goal with K : compute_cov cl KCov false s = _ |- _ => rewrite C in K; injection K as <- <- || discriminate K end.
      cbn in *. congruence.
  - change (step cl (OpCov KACov false) s) with (compute_cov cl KACov false s).
    destruct (compute_cov cl KACov false s) as [s1 [o|y|]] eqn:C.
    + destruct (cov_kept cl _ _ _ _ _ C (NC KACov)) as (_ & _ & _ & _ & r & ->). rewrite (avg_cov_written s s1 r e (NC KACov) D C). cbn [contents].
      split; [intros ->; eexists; split; reflexivity|intros (l & Q & ->); injection Q as <-; reflexivity].
    + split; [|intros ->; exact (O_avg_cov_ends E cl s s1 _ _ C eq_refl)].
      intros O. inversion O; subst; match goal with K : compute_cov cl KACov false s = _ |- _ => rewrite C in K; injection K as <- <- || discriminate K end.
      cbn in *. congruence.
    + split; [|intros ->; exact (O_avg_cov_ends E cl s s1 _ _ C eq_refl)].
      intros O. inversion O; subst; match goal with K : compute_cov cl KACov false s = _ |- _ => rewrite C in K; injection K as <- <- || discriminate K end.
      cbn in *. congruence.
  - change (step cl (OpBulk SAvg false) s) with (compute_bulk cl SAvg false s).
    destruct (compute_bulk cl SAvg false s) as [s1 [o|y|]] eqn:C.
    + destruct (bulk_kept cl _ _ _ _ _ C) as (_ & _ & r & ->). rewrite (avg_mp_written s s1 r e NS D F C). cbn [contents].
      split; [intros ->; eexists; split; reflexivity|intros (l & Q & ->); injection Q as <-; reflexivity].
    + split; [|intros ->; exact (O_av_ends E cl s s1 _ _ C eq_refl)].
      intros O. inversion O; subst; match goal with K : compute_bulk cl SAvg false s = _ |- _ => rewrite C in K; injection K as <- <- || discriminate K end.
      cbn in *. congruence.
    + split; [|intros ->; exact (O_av_ends E cl s s1 _ _ C eq_refl)].
      intros O. inversion O; subst; match goal with K : compute_bulk cl SAvg false s = _ |- _ => rewrite C in K; injection K as <- <- || discriminate K end.
      cbn in *. congruence.
Qed.

(** Exactly one ending: the file does not depend on how the threads run. *)
Theorem C85_one_ending : forall f k, (forall s x, from_file X v f = (s, Ok x) -> fits k (sp s)) ->
  exists e, tool E X v cl f k e /\ forall e', tool E X v cl f k e' -> e' = e.
Proof.
  intros f k F. destruct (from_file X v f) as [s [x|y|]] eqn:H.
  - specialize (F s x eq_refl). pose proof (C85_tool f k s x) as T.
    assert (Q : exists e, ends k s e /\ forall e', ends k s e' -> e' = e).
    { unfold ends. destruct (bulk_kind k) as [o|] eqn:K; [|eexists; split; [reflexivity|auto]].
      destruct (step cl o s) as [s1 [r|y|]] eqn:C; [|eexists; split; [reflexivity|auto]..].
      assert (G : exists l, contents k s r = Some l).
      { destruct k; cbn [bulk_kind] in K; try discriminate K; injection K as <-; cbn [step] in C.
        - destruct (bulk_kept cl _ _ _ _ _ C) as (_ & _ & q & ->). eexists. reflexivity.
        - destruct (bulk_kept cl _ _ _ _ _ C) as (_ & _ & q & ->). eexists. reflexivity.
        - destruct (cov_kept cl _ _ _ _ _ C (loaded_cov f s x _ H)) as (_ & _ & _ & _ & q & ->). eexists. reflexivity.
        - destruct (cov_kept cl _ _ _ _ _ C (loaded_cov f s x _ H)) as (_ & _ & _ & _ & q & ->). eexists. reflexivity.
        - destruct (bulk_kept cl _ _ _ _ _ C) as (_ & _ & q & ->). eexists. reflexivity. }
      destruct G as (l & G). exists (Wrote l). split; [exists l; auto|]. intros e' (l' & G' & ->). congruence. }
    destruct Q as (e & Q1 & Q2). exists e. split; [apply T; assumption|]. intros e' K. apply Q2, T; assumption.
  - exists (Raised y). split; [exact (T_ends E X v cl f k s _ _ H eq_refl)|].
    intros e' K. inversion K; subst; match goal with K : from_file X v f = _ |- _ => rewrite H in K; injection K as <- <- || discriminate K end.
    cbn in *. congruence.
  - exists Killed. split; [exact (T_ends E X v cl f k s _ _ H eq_refl)|].
    intros e' K. inversion K; subst; match goal with K : from_file X v f = _ |- _ => rewrite H in K; injection K as <- <- || discriminate K end.
    cbn in *. congruence.
Qed.

(** The tool never leaves a file it has opened without its table. *)
Theorem C85_all_or_nothing : forall f k e, (forall s x, from_file X v f = (s, Ok x) -> fits k (sp s)) ->
  tool E X v cl f k e -> forall y, e <> RaisedEmptied y.
Proof.
  intros f k e F T y ->. destruct (from_file X v f) as [s [x|z|]] eqn:H.
  - apply (C85_tool f k s x _ H (F s x eq_refl)) in T. unfold ends in T. destruct (bulk_kind k) as [o|].
    + destruct (step cl o s) as [s1 [r|z|]]; [destruct T as (l & _ & T); discriminate T|discriminate T|discriminate T].
    + destruct (_ <? _)%Z; discriminate T.
  - inversion T; subst; match goal with K : from_file X v f = _ |- _ => rewrite H in K; injection K as <- <- || discriminate K end. discriminate.
  - inversion T; subst; match goal with K : from_file X v f = _ |- _ => rewrite H in K; injection K as <- <- || discriminate K end. discriminate.
Qed.

(** Settings that are careful in the sense of C59: no kind kills the process. *)
Theorem C85_survives : forall f k s x, from_file X v f = (s, Ok x) -> fits k (sp s) ->
  match bulk_kind k with Some o => careful cl o s = true | None => enough_points (sp s) = true end ->
  ~ tool E X v cl f k Killed.
Proof.
  intros f k s x H F C T. apply (C85_tool f k s x _ H F) in T. unfold ends in T. destruct (bulk_kind k) as [o|].
  - destruct (C86_history cl X v f s x H) as (l & _ & Cl & R).
    pose proof (C59_careful cl (l ++ [o])) as N. rewrite (careful_app cl l [o] coffe0 s R), Cl, run_app, R in N.
    cbn [careful_history run andb] in N. rewrite C in N. specialize (N eq_refl).
    destruct (step cl o s) as [s1 [r|z|]]; [destruct T as (q & _ & T); discriminate T|discriminate T|congruence].
  - unfold enough_points in C. apply Z.leb_le in C. destruct (_ <? _)%Z eqn:L; [apply Z.ltb_lt in L; lia|discriminate T].
Qed.
End Files.
Print Assumptions C85_covariance_order.
Print Assumptions C85_tool.
Print Assumptions C85_one_ending.
Print Assumptions C85_all_or_nothing.
Print Assumptions C85_survives.

(** ** Cases that meet the hypotheses *)
Definition digits (z : Z) : string :=
  match z with 0 => "0" | 1 => "1" | 2 => "2" | 3 => "3" | 50 => "50" | 100 => "100" | 153 => "153" | 303 => "303" | _ => "?" end%Z.
(** Results that are sums of coordinates, so that a wrong column would show. *)
Definition E0 : cli_ext := {|
  x_sci := fun x => (digits (trunc x) ++ ".")%string;
  x_dec := digits;
  x_integrate := fun r z zmin zmax sep mu l t o => fadd sep z;
  x_mid := fun a b => fdiv (fadd a b) f2;
  x_covariance := fun r i => of_Z (Z.of_nat i);
  x_background := fun core w z => of_Z w |}.
Definition mp_of (x : state * res) : option (list string) :=
  match x with
  | (s, Ok _) => match compute_bulk cl0 SMult false s with (_, Ok r) => contents E0 Mp s r | _ => None end
  | _ => None
  end.
Definition t4 (a b c d : string) : string := String.concat tab [a; b; c; d].
Definition mp_lines : list string :=
  [("# " ++ t4 "r[Mpc]" "l" "z" "multipoles_value")%string;
   t4 "50." "0" "1." "153."; t4 "100." "0" "1." "303."; t4 "50." "2" "1." "153."; t4 "100." "2" "1." "303."].
Example C85_met : exists s x, from_file X0 source_order sample = (s, Ok x) /\ fits Mp (sp s) /\
  careful cl0 (OpBulk SMult false) s = true /\
  tool E0 X0 source_order cl0 sample Mp
    (Wrote mp_lines).
Proof.
  destruct (from_file X0 source_order sample) as [s r] eqn:F.
  assert (O : load_outcome (s, r) = None /\ pl (sp s) L_z_mean = [f1] /\ pm (sp s) = [0; 2]%Z /\ pl (sp s) L_sep = [of_Z 50; of_Z 100]
              /\ careful cl0 (OpBulk SMult false) s = true).
  { change s with (fst (s, r)) at 2 3 4 5. rewrite <- F. vm_compute. repeat split; reflexivity. }
  assert (R : mp_of (s, r) = Some mp_lines) by (rewrite <- F; vm_compute; reflexivity).
  destruct O as (O & Oz & Om & Os & Oc). destruct r as [x|e|]; try discriminate O.
  assert (Fi : fits Mp (sp s)) by (unfold fits; rewrite Oz, Om, Os; reflexivity).
  exists s, x. split; [reflexivity|]. split; [exact Fi|]. split; [exact Oc|].
  apply (C85_tool E0 X0 source_order cl0 sample Mp s x _ F Fi). unfold ends. cbn [bulk_kind step].
  unfold mp_of in R. destruct (compute_bulk cl0 SMult false s) as [s1 [o|y|]]; [|discriminate R..].
  exists mp_lines. split; [exact R|reflexivity].
Qed.
(** Fewer than five background points: the kind "bg" kills the process. *)
Definition too_few : file := [("background_sampling", VInt 4)].
Example C85_killed : tool E0 X0 source_order cl0 too_few Bg Killed.
Proof.
  destruct (from_file X0 source_order too_few) as [s r] eqn:F.
  assert (O : load_outcome (s, r) = None /\ pi (sp s) I_background_bins = 4%Z).
  { change s with (fst (s, r)) at 2. rewrite <- F. vm_compute. split; reflexivity. }
  destruct O as (O & Ob). destruct r as [x|e|]; try discriminate O.
  apply (C85_tool E0 X0 source_order cl0 too_few Bg s x _ F eq_refl). unfold ends. cbn [bulk_kind]. rewrite Ob. reflexivity.
Qed.
