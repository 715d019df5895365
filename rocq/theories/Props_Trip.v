(** * C12: to_file followed by from_file. *)
From Coq Require Import ZArith Bool List String Lia Permutation.
From Coq Require Import Floats.SpecFloat.
From Verif Require Import F64 PyParams PySet PyState PyWrites PyValid Config ConfigLemmas Trip Props_Config.
Import ListNotations.
Open Scope Z_scope.
Open Scope string_scope.

Lemma to_file_written : forall X s s1 f, to_file X s = (s1, Written f) -> written_file X (sp s1) = Written f.
Proof.
  intros X s s1 f H. rewrite <- to_file_eq in H. revert H. generalize (read_parameters s). intros [s' [r|e|]] H.
  - destruct (write_out_ok _ _ _ _ _ H) as [<- K]. exact K.
  - discriminate H.
  - discriminate H.
Qed.

(** What the property asks for: the loaded object has the same value under every
    attribute that is written. *)
Definition round_trips : Prop :=
  forall X v s s1 f, is_visit v -> (exists cl l, run cl l coffe0 = Some s) ->
  to_file X s = (s1, Written f) ->
  exists s' r, from_file X v f = (s', Ok r) /\
    forall a, In a written_attrs -> get_attr a (sp s') = get_attr a (sp s).

(** What is true.  [settled]: every value is one its own setter accepts
    (C11).  The lists, the multipoles, the flags, the counts, the methods, the
    wavenumber range, A_s and the precision parameters of [exact_attrs] come back
    as they were; every cosmological number of [close_attrs] comes back, or is
    left at the default value NumPy calls close to it; every bias comes back as
    the table of its values at evenly spaced redshifts. *)
Theorem C12_round_trip_partial : forall X v s s1 f s' r,
  is_visit v -> settled (sp s) -> to_file X s = (s1, Written f) -> from_file X v f = (s', Ok r) ->
  (forall a, In a exact_attrs -> get_attr a (sp s') = get_attr a (sp s)) /\
  (forall a, In a close_attrs ->
     get_attr a (sp s') = get_attr a (sp s) \/
     (get_attr a (sp s') = get_attr a default_params /\
      allclose (number_of (get_attr a (sp s))) (number_of (get_attr a default_params)) = true)) /\
  (forall k, exists ys, bias_values X (psp (sp s) k) = inl ys /\
     psp (sp s') k = combine (bias_redshifts (psp (sp s) k)) ys) /\
  no_cache s'.
Proof.
  intros X v s s1 f s' r V S H L.
  destruct (to_file_shape X s s1 f H S) as [E W].
  assert (S1 : settled (sp s1)) by (exact (settled_eq _ _ E S)).
  destruct (round_trip X v (sp s1) f s' r V (se_ranges _ S1) W L) as (R1 & R2 & R3).
  assert (G : forall a, a <> A_integrals_fftlog_sampling -> a <> A_readonly -> get_attr a (sp s1) = get_attr a (sp s)).
  { intros a N1 N2. apply get_attr_own; [exact N1|exact N2|]. intros x _. apply E. }
  assert (PE : forall k, psp (sp s1) k = psp (sp s) k).
  { intros k. specialize (E (FS k)). simpl in E. congruence. }
  split; [|split; [|split]].
  - intros a I. rewrite (R1 a I). apply G.
    + intros ->. revert I. vm_compute. intuition discriminate.
    + intros ->. revert I. vm_compute. intuition discriminate.
  - intros a I. rewrite <- (G a). exact (R2 a I).
    + intros ->. revert I. vm_compute. intuition discriminate.
    + intros ->. revert I. vm_compute. intuition discriminate.
  - intros k. rewrite <- (PE k). exact (R3 k).
  - apply (from_file_untouched _ _ _ _ _ L).
Qed.
Print Assumptions C12_round_trip_partial.

(** The names of the bias tables in a settings file.  Specification or proof only; nothing in the code. *)
Definition documented_table : list (sfield * string) :=
  [(S_galaxy_bias1, "galaxy_bias1"); (S_galaxy_bias2, "galaxy_bias2"); (S_galaxy_bias3, "galaxy_bias3");
   (S_galaxy_bias4, "galaxy_bias4"); (S_magnification_bias1, "magnification_bias1");
   (S_magnification_bias2, "magnification_bias2"); (S_evolution_bias1, "evolution_bias1");
   (S_evolution_bias2, "evolution_bias2")].
(** Each bias is written under its own name, as a table of redshifts and values. *)
Theorem C12_tables : forall X s s1 f k n, to_file X s = (s1, Written f) -> In (k, n) documented_table ->
  exists ys, bias_values X (psp (sp s1) k) = inl ys /\
    entry (n ++ "_redshifts") f = Some (floats (bias_redshifts (psp (sp s1) k))) /\
    entry (n ++ "_values") f = Some (floats ys).
Proof.
  intros X s s1 f k n H I. pose proof (written_table X (sp s1) f k (to_file_written X s s1 f H)) as T.
  assert (N : bias_name k = n).
  { repeat (destruct I as [I|I]; [injection I as <- <-; reflexivity|]). contradiction. }
  rewrite N in T. exact T.
Qed.
Print Assumptions C12_tables.

(** And the file does load, in every order, when no list is empty, every mixture
    of the default and the written densities leaves room for dark energy, h is
    not zero and the bias tables are acceptable. *)
Lemma roomy_eq : forall p q, params_eq p q -> roomy q -> roomy p.
Proof.
  intros p q E R. pose proof (params_eq_f _ _ E) as Ef. unfold roomy, either in *. rewrite !Ef. exact R.
Qed.
Theorem C12_loads_partial : forall X v s s1 f,
  is_visit v -> settled (sp s) -> lists_given (sp s) -> roomy (sp s) -> tables_accepted X (sp s) ->
  to_file X s = (s1, Written f) -> exists s' r, from_file X v f = (s', Ok r).
Proof.
  intros X v s s1 f V S L R T H. destruct (to_file_shape X s s1 f H S) as [E W].
  apply (written_loads X v (sp s1) f V); [exact (settled_eq _ _ E S)| |exact (roomy_eq _ _ E R)| |exact W].
  - split; [intros k; rewrite (params_eq_l _ _ E k); apply L|rewrite (params_eq_m _ _ E); apply L].
  - intros k. assert (PE : psp (sp s1) k = psp (sp s) k). { specialize (E (FS k)). simpl in E. congruence. }
    rewrite PE. exact (T k).
Qed.
Print Assumptions C12_loads_partial.

(** A configuration far from the default one that meets every hypothesis. *)
Definition assignments : list (attr * pyval) :=
  [(A_omega_m, VFloat (lit 32 100)); (A_h, VFloat (lit 7 10)); (A_m_ncdm, VFloat (lit 6 100));
   (A_sep, VList [VFloat (of_Z 50); VInt 100]); (A_l, VList [VInt 0; VInt 2]); (A_has_lensing, VBool true);
   (A_pk_type, VStr "halofit"); (A_l_max_g, VInt 20); (A_k_max, VFloat (of_Z 20))].
Definition changed : state :=
  fold_left (fun s av => fst (set_attr (fst av) (snd av) s)) assignments coffe0.
Definition is_written (w : state * written) : bool := match snd w with Written _ => true | _ => false end.
Lemma changed_run : forall cl, run cl (map (fun av => OpSet (fst av) (snd av)) assignments) coffe0 = Some changed.
Proof. intros cl. vm_compute. reflexivity. Qed.
Lemma changed_settled : settled (sp changed).
Proof.
  split.
  - intros a f lo hi A R. destruct f; try discriminate R; vm_compute; reflexivity.
  - intros f H. simpl in H. repeat destruct H as [<-|H]; try destruct H; vm_compute; auto.
  - repeat split; vm_compute; reflexivity.
  - split; vm_compute; reflexivity.
  - split.
    + intros f lo hi H. right.
      destruct f; try discriminate H; injection H as <- <-; split; vm_compute; reflexivity.
    + intros i lo hi H. destruct i; try discriminate H; injection H as <- <-; split; vm_compute; discriminate.
    + intros l. destruct l; match goal with |- Forall _ ?x => let y := eval vm_compute in x in
        replace x with y by (vm_compute; reflexivity) end;
      repeat (constructor; [split; vm_compute; reflexivity|]); constructor.
    + repeat constructor; vm_compute; discriminate.
Qed.
Lemma changed_tables : forall k, psp (sp changed) k <> [] /\ forall ys,
  bias_values X0 (psp (sp changed) k) = inl ys ->
  exists s r, set_bias k (bias_redshifts (psp (sp changed) k)) ys coffe0 = (s, Ok r).
Proof.
  intros k. split; [destruct k; vm_compute; discriminate|].
  intros ys H.
  assert (E : exists ys', bias_values X0 (psp (sp changed) k) = inl ys' /\
     load_outcome (set_bias k (bias_redshifts (psp (sp changed) k)) ys' coffe0) = None).
  { destruct (bias_values X0 (psp (sp changed) k)) as [ys'|e] eqn:B; [|discriminate].
    exists ys'. split; [reflexivity|].
    assert (L : match bias_values X0 (psp (sp changed) k) with
                | inl ys' => load_outcome (set_bias k (bias_redshifts (psp (sp changed) k)) ys' coffe0)
                | inr _ => None end = None) by (destruct k; vm_compute; reflexivity).
    rewrite B in L. exact L. }
  destruct E as (ys' & E1 & E2). assert (ys' = ys) by congruence. subst ys'.
  destruct (set_bias k _ ys coffe0) as [s [r|e|]]; try discriminate E2. eauto.
Qed.
Example C12_nonvacuous :
  (forall cl, exists l, run cl l coffe0 = Some changed) /\ settled (sp changed) /\ lists_given (sp changed) /\
  roomy (sp changed) /\ tables_accepted X0 (sp changed) /\ is_visit source_order /\
  exists s1 f, to_file X0 changed = (s1, Written f).
Proof.
  split; [intros cl; eexists; apply changed_run|]. split; [exact changed_settled|].
  split; [split; [intros []; vm_compute; discriminate|vm_compute; discriminate]|].
  split.
  { split; [vm_compute; reflexivity|]. intros m b g n M B G N. unfold either in *.
    destruct M as [<-|[<-|[]]]; destruct B as [<-|[<-|[]]]; destruct G as [<-|[<-|[]]]; destruct N as [<-|[<-|[<-|[]]]];
      repeat split; vm_compute; reflexivity. }
  split; [exact changed_tables|]. split; [repeat split; apply Permutation_refl|].
  assert (E : is_written (to_file X0 changed) = true) by (vm_compute; reflexivity).
  destruct (to_file X0 changed) as [s1 [f|e|]]; try discriminate E. eauto.
Qed.

(** *** What is lost *)

(** Six attributes are written but never read: the loaded object has their default
    values whatever was written (has_g2 is missing from the list of integers,
    start_large_k_at_tau_h_over_tau_k is misspelt in the list of floats). *)
Definition lost : list attr :=
  [A_has_g2; A_has_only_cross_correlations; A_covariance_populations; A_integration_1d_prec;
   A_verbose; A_start_large_k_at_tau_h_over_tau_k].
Theorem C12_lost : forall X v s s1 f s' r a, is_visit v -> to_file X s = (s1, Written f) ->
  from_file X v f = (s', Ok r) -> In a lost ->
  In a written_attrs /\ get_attr a (sp s') = get_attr a default_params.
Proof.
  intros X v s s1 f s' r a V H L I.
  pose proof (to_file_written X s s1 f H) as W.
  split; [clear -I; simpl in I; repeat (destruct I as [<-|I]; [vm_compute; tauto|]); destruct I|].
  destruct (from_file_run X v f s' r (written_no_legacy X _ f W) L) as (s5 & H5 & _ & HE).
  assert (C : forallb (fun o => disjointb (owns o) (attr_writes a)) all_options = true).
  { clear -I. simpl in I. repeat (destruct I as [<-|I]; [vm_compute; reflexivity|]). destruct I. }
  apply get_attr_own.
  - intros ->. revert I. vm_compute. intuition discriminate.
  - intros ->. revert I. vm_compute. intuition discriminate.
  - intros x Hx. rewrite HE.
    + apply (opts_else _ _ _ _ _ H5). intros o J M.
      apply (Permutation_in o (Permutation_sym (loaded_perm v V))) in J.
      rewrite forallb_forall in C. specialize (C o J). unfold disjointb in C. rewrite forallb_forall in C.
      specialize (C x Hx). apply negb_true_iff in C. apply memb_In in M. congruence.
    + intros k ->. clear -I Hx. simpl in I. repeat (destruct I as [<-|I]; [simpl in Hx; intuition discriminate|]). destruct I.
Qed.
Print Assumptions C12_lost.

(** So the property fails for the object whose only change is has_g2. *)
Definition with_g2 : state := fst (set_attr A_has_g2 (VBool true) coffe0).
Theorem C12_has_g2_refuted : ~ round_trips.
Proof.
  intros R. pose (cl := mkClass (fun _ => lit 1 100000) (fun _ => of_Z 300)).
  assert (E : is_written (to_file X0 with_g2) = true) by (vm_compute; reflexivity).
  destruct (to_file X0 with_g2) as [s1 [f|e|]] eqn:T; try discriminate E.
  assert (V : is_visit source_order) by (repeat split; apply Permutation_refl).
  destruct (R X0 source_order with_g2 s1 f V) as (s' & r & L & G); [|exact T|].
  { exists cl, [OpSet A_has_g2 (VBool true)]. vm_compute. reflexivity. }
  destruct (C12_lost X0 source_order with_g2 s1 f s' r A_has_g2 V T L ltac:(simpl; tauto)) as [I D].
  rewrite (G A_has_g2 I) in D. vm_compute in D. discriminate D.
Qed.
Print Assumptions C12_has_g2_refuted.

(** A configuration with an empty list is written but never loads. *)
Theorem C12_empty_refuted : forall X v s s1 f a k, is_visit v -> settled (sp s) -> In a exact_arrays ->
  (forall p, get_attr a p = floats (pl p k)) -> pl (sp s) k = [] ->
  to_file X s = (s1, Written f) -> forall s' r, from_file X v f <> (s', Ok r).
Proof.
  intros X v s s1 f a k V S I G N H s' r L. destruct (to_file_shape X s s1 f H S) as [E W].
  destruct (from_file_run X v f s' r (written_no_legacy X _ f W) L) as (s5 & H5 & _ & _).
  assert (C : In (own_opt KFloatArray a) all_options /\
    local (own_opt KFloatArray a) && separateb (own_opt KFloatArray a) all_options = true /\ In a written_attrs /\
    a <> A_integrals_fftlog_sampling /\ a <> A_readonly).
  { clear -I. unfold exact_arrays in I. repeat (destruct I as [<-|I]; [
      split; [simpl; tauto|]; split; [vm_compute; reflexivity|]; split; [vm_compute; tauto|split; discriminate]|]). destruct I. }
  destruct C as (C1 & C2 & C3 & C4 & C5).
  destruct (local_result v f (sp s5) a KFloatArray V C1 C2 C4 C5 H5) as (q & Q & _).
  unfold opt_after in Q. cbn [own_opt o_key o_kind o_attr] in Q. rewrite (written_entry X _ f a W C3), G in Q.
  rewrite (params_eq_l _ _ E k), N in Q. discriminate Q.
Qed.
Print Assumptions C12_empty_refuted.
Example C12_empty_nonvacuous : exists s s1 f,
  set_attr A_mu (VList []) coffe0 = (s, Ok ONone) /\ pl (sp s) L_mu = [] /\ settled (sp s) /\
  to_file X0 s = (s1, Written f).
Proof.
  set (s := fst (set_attr A_mu (VList []) coffe0)). exists s.
  assert (E : is_written (to_file X0 s) = true) by (vm_compute; reflexivity).
  destruct (to_file X0 s) as [s1 [f|e|]] eqn:T; try discriminate E. exists s1, f.
  split; [reflexivity|]. split; [reflexivity|]. split; [|reflexivity].
  destruct settled_default as [H1 H2 H3 H4 [R1 R2 R3 R4]]. split; [exact H1|exact H2|exact H3|exact H4|].
  split; [exact R1|exact R2| |exact R4]. intros l. specialize (R3 l).
  destruct l; try exact R3. constructor.
Qed.

(** Cold dark matter assigned while neutrinos are massive does not come back: the
    setter of omega_cdm leaves the neutrinos out of omega_m, loading subtracts them. *)
Definition heavy : state :=
  fst (set_attr A_omega_cdm (VFloat (lit 26 100)) (fst (set_attr A_m_ncdm (VFloat (lit 6 100)) coffe0))).
Theorem C12_omega_cdm_refuted : exists f s1 s' r,
  to_file X0 heavy = (s1, Written f) /\ from_file X0 source_order f = (s', Ok r) /\
  get_attr A_omega_cdm (sp heavy) = VFloat (lit 26 100) /\
  allclose (pf (sp s') Omega0_cdm) (lit 26 100) = false.
Proof.
  destruct (to_file X0 heavy) as [s1 w] eqn:T.
  assert (E : match w with
              | Written f => load_outcome (from_file X0 source_order f) = None /\
                 allclose (pf (sp (fst (from_file X0 source_order f))) Omega0_cdm) (lit 26 100) = false
              | _ => False end).
  { change w with (snd (s1, w)). rewrite <- T. vm_compute. split; reflexivity. }
  destruct w as [f|e|]; try contradiction. destruct E as [E1 E2].
  destruct (from_file X0 source_order f) as [s' [r|e|]] eqn:L; try discriminate E1.
  exists f, s1, s', r. refine (conj eq_refl (conj L (conj _ E2))). vm_compute. reflexivity.
Qed.
Print Assumptions C12_omega_cdm_refuted.
