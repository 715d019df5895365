(** * What CLASS is told (C53) and which amplitude it uses (C55). *)
From Coq Require Import ZArith Bool List String Lia FinFun.
From Verif Require Import F64 PyParams PySet Integrals PyState PySpec PyWrites PyCoherence PyAlways
  ClassConfig PyKeep.
Import ListNotations.
Open Scope string_scope.
Open Scope list_scope.

(** ** Specification *)

(** The value stored under a name: that of the first slot with that name
    (CLASS refuses a name that occurs twice). *)
Fixpoint value_of (mem : list slot) (n : string) : option cvalue :=
  match mem with
  | [] => None
  | s :: t => match s_name s with
              | Some m => if String.eqb m n then s_value s else value_of t n
              | None => value_of t n
              end
  end.

(** The name under which CLASS knows each parameter of the user. *)
Definition class_doubles : list (string * ffield) :=
  [("h", F_h); ("T_cmb", F_T_cmb); ("Omega_b", Omega0_baryon); ("N_ur", F_N_ur);
   ("Omega_cdm", Omega0_cdm); ("w0_fld", F_w0); ("wa_fld", F_wa); ("m_ncdm", F_m_ncdm);
   ("n_s", F_n_s); ("P_k_max_h/Mpc", F_k_max);
   ("k_per_decade_for_bao", F_k_per_decade_for_bao);
   ("k_per_decade_for_pk", F_k_per_decade_for_pk);
   ("start_large_k_at_tau_h_over_tau_k", F_start_large_k_at_tau_h_over_tau_k);
   ("tol_perturb_integration", F_tol_perturb_integration);
   ("radiation_streaming_trigger_tau_over_tau_k", F_radiation_streaming_trigger);
   ("ur_fluid_trigger_tau_over_tau_k", F_ur_fluid_trigger)].
Definition class_ints : list (string * ifield) :=
  [("N_ncdm", I_N_ncdm); ("l_max_g", I_l_max_g); ("l_max_ur", I_l_max_ur)].
Definition class_constants : list (string * cvalue) :=
  [("Omega_k", CE (of_Z 0)); ("output", CS "mPk"); ("gauge", CS "synchronous");
   ("P_k_ini type", CS "analytic_Pk"); ("alpha_s", CE (of_Z 0)); ("z_pk", CE (of_Z 0));
   ("z_max_pk", CE (of_Z 3)); ("k_pivot", CE (lit 5 100))].

(** Larger than the threshold below which a number counts as not given. *)
Definition given (x : f64) : bool := fltb (lit 1 10000000000) (fabs x).

(** The normalisations a configuration contains. *)
Definition amplitudes (p : params) : list (string * cvalue) :=
  match class_config p with
  | Some (mem, _) =>
      flat_map (fun n => match value_of mem n with Some v => [(n, v)] | None => [] end)
        ["A_s"; "sigma8"]
  | None => []
  end.

(** ** C53 *)

Lemma config_shape : forall p, exists mem n, class_config p = Some (mem, n) /\
  mem = map (fun e => mkSlot (Some (fst e)) (snd e)) (class_entries p)
        ++ repeat (mkSlot None None) (35 - List.length (class_entries p)) /\
  n = List.length (class_entries p).
Proof.
  intros p. unfold class_config, class_entries.
  destruct (fltb epsilon_abs (fabs (pf p F_YHe))), (fltb epsilon_abs (fabs (pf p F_A_s)));
    do 2 eexists; repeat split; reflexivity.
Qed.

Definition used (p : params) : nat := if given (pf p F_YHe) then 32 else 31.

Lemma entries_length : forall p, List.length (class_entries p) = used p.
Proof.
  intros p. unfold class_entries, used, given. fold epsilon_abs.
  destruct (fltb epsilon_abs (fabs (pf p F_YHe))), (fltb epsilon_abs (fabs (pf p F_A_s))); reflexivity.
Qed.

(** Nothing is written outside the 35 slots. *)
Theorem C53_in_bounds : forall p, exists mem,
  class_config p = Some (mem, used p) /\ List.length mem = 35%nat.
Proof.
  intros p. destruct (config_shape p) as (mem & n & E & Em & En). exists mem. split.
  - rewrite E, En, entries_length. reflexivity.
  - rewrite Em, app_length, map_length, repeat_length, entries_length. unfold used.
    destruct (given _); reflexivity.
Qed.

(** Every slot that was reached has a name, no two have the same, and each has
    a value unless it is "non linear" and the spectrum is a linear one.
    Missing from the full claim: the slots that are not reached. *)
Theorem C53_complete_partial : forall p mem n,
  class_config p = Some (mem, n) ->
  Forall (fun s => exists m, s_name s = Some m /\
            (s_value s <> None \/ m = "non linear" /\ pi p I_pk_type <> 2%Z /\ pi p I_pk_type <> 3%Z))
         (firstn n mem) /\
  NoDup (map s_name (firstn n mem)).
Proof.
  intros p mem n E. destruct (config_shape p) as (mem' & n' & E' & Em & En).
  rewrite E' in E. injection E as <- <-. subst mem' n'.
  rewrite firstn_app, firstn_all2 by (rewrite map_length; lia).
  rewrite map_length, Nat.sub_diag. cbn [firstn]. rewrite app_nil_r. clear E'. split.
  - apply Forall_forall. intros s H. apply in_map_iff in H. destruct H as ([m v] & <- & H).
    exists m. split; [reflexivity|]. cbn [s_value snd].
    assert (F : forallb (fun e => match snd e with
                 | Some _ => true
                 | None => (String.eqb (fst e) "non linear" && negb (pi p I_pk_type =? 2)%Z
                            && negb (pi p I_pk_type =? 3)%Z)%bool end) (class_entries p) = true).
    { unfold class_entries. destruct (fltb _ _), (fltb _ _), (_ =? 2)%Z, (_ =? 3)%Z; reflexivity. }
    rewrite forallb_forall in F. specialize (F _ H). cbn [snd fst] in F. destruct v as [v|].
    + left. discriminate.
    + right. apply andb_prop in F. destruct F as [F F3]. apply andb_prop in F. destruct F as [F1 F2].
      apply String.eqb_eq in F1. split; [exact F1|].
      destruct (Z.eqb_spec (pi p I_pk_type) 2); [discriminate|].
      destruct (Z.eqb_spec (pi p I_pk_type) 3); [discriminate|]. split; assumption.
  - rewrite map_map. cbn [s_name].
    assert (ND : NoDup (map fst (class_entries p))).
    { unfold class_entries. destruct (fltb _ _), (fltb _ _); cbn [app map fst];
        repeat (constructor; [cbn [In]; intuition discriminate|]); constructor. }
    rewrite <- (map_map fst Some). apply Injective_map_NoDup; [|exact ND].
    intros a b H. congruence.
Qed.

(** Each value is that of the parameter the name stands for. *)
Theorem C53_values : forall p mem n,
  class_config p = Some (mem, n) ->
  (forall m k, In (m, k) class_doubles -> value_of mem m = Some (CE (pf p k))) /\
  (forall m k, In (m, k) class_ints -> value_of mem m = Some (CD (pi p k))) /\
  (forall m v, In (m, v) class_constants -> value_of mem m = Some v) /\
  value_of mem "YHe" = (if given (pf p F_YHe) then Some (CE (pf p F_YHe)) else None) /\
  value_of mem "A_s" = (if given (pf p F_A_s) then Some (CE (pf p F_A_s)) else None) /\
  value_of mem "sigma8" = (if given (pf p F_A_s) then None else Some (CE (pf p F_sigma8))) /\
  value_of mem "non linear" =
    (if (pi p I_pk_type =? 2)%Z then Some (CS "halofit")
     else if (pi p I_pk_type =? 3)%Z then Some (CS "hmcode") else None).
Proof.
  intros p mem n E. destruct (config_shape p) as (mem' & n' & E' & Em & En).
  rewrite E' in E. injection E as <- <-. subst mem' n'. clear E'.
  unfold class_entries, given. fold epsilon_abs.
  repeat split; try (intros m k H; cbn [class_doubles class_ints class_constants In] in H;
    repeat (destruct H as [H|H]; [injection H as <- <-|]); try destruct H);
    destruct (fltb epsilon_abs (fabs (pf p F_YHe))), (fltb epsilon_abs (fabs (pf p F_A_s))); reflexivity.
Qed.

(** What CLASS is told depends only on the fields the cache model lists for it
    ([class_fields], PyState.v). *)
Theorem C53_fields : forall p q,
  view p class_fields = view q class_fields -> class_config p = class_config q.
Proof.
  intros p q H. unfold view, class_fields in H. cbn [map getf] in H.
  injection H. intros. unfold class_config. f_equal. unfold class_entries.
  repeat match goal with E : pf p _ = pf q _ |- _ => rewrite E; clear E
                       | E : pi p _ = pi q _ |- _ => rewrite E; clear E end.
  reflexivity.
Qed.

(** Whatever the parameters, three slots have neither a name nor a value, and
    for the linear spectra the slot "non linear" has no value. *)
Theorem C53_complete_refuted : forall p mem n,
  class_config p = Some (mem, n) ->
  (exists s, In s mem /\ s_name s = None) /\
  (3 <= List.length (filter (fun s => match s_name s with None => true | _ => false end) mem))%nat /\
  (pi p I_pk_type = 0%Z \/ pi p I_pk_type = 1%Z ->
     In (mkSlot (Some "non linear") None) mem).
Proof.
  intros p mem n E. destruct (config_shape p) as (mem' & n' & E' & Em & En).
  rewrite E' in E. injection E as <- <-. subst mem' n'. clear E'.
  pose proof (entries_length p) as L.
  assert (U : exists r, (35 - List.length (class_entries p))%nat = S (S (S r))).
  { rewrite L. unfold used. destruct (given _); eexists; reflexivity. }
  destruct U as [r ->]. split; [|split].
  - exists (mkSlot None None). split; [|reflexivity]. apply in_or_app. right. left. reflexivity.
  - rewrite filter_app, app_length. cbn [repeat filter s_name List.length]. lia.
  - intros K. apply in_or_app. left. apply in_map_iff. exists ("non linear", None).
    split; [reflexivity|]. unfold class_entries. do 4 (apply in_or_app; right).
    destruct K as [-> | ->]; apply (nth_error_In _ 14); reflexivity.
Qed.

Example C53_nonvacuous :
  class_config default_params <> None /\
  value_of (match class_config default_params with Some (m, _) => m | None => [] end) "Omega_b"
    = Some (CE (lit 5 100)) /\
  used default_params = 31%nat /\ used (setF default_params F_YHe (lit 24 100)) = 32%nat.
Proof. repeat split; try (intros C; discriminate C); vm_compute; reflexivity. Qed.

(** ** C55 *)

Section Amplitude.
Variable cl : class_lib.

Lemma amplitudes_given : forall p,
  amplitudes p = if given (pf p F_A_s) then [("A_s", CE (pf p F_A_s))]
                 else [("sigma8", CE (pf p F_sigma8))].
Proof.
  intros p. unfold amplitudes. destruct (C53_in_bounds p) as (mem & E & _). rewrite E.
  destruct (C53_values p mem _ E) as (_ & _ & _ & _ & A & S & _).
  cbn [flat_map]. rewrite A, S. destruct (given _); reflexivity.
Qed.

Lemma kept_As : forall x, kept cl A_A_s (fun p => pf p F_A_s = x).
Proof.
  intros x. apply kept_float; [reflexivity| |].
  - intros b N. destruct b; try reflexivity. congruence.
  - intros p p' E. cbn [attr_update get_attr] in E. unfold check_num in E. cbn [as_num] in E.
    destruct (fltb _ _); [discriminate|]. destruct (fltb _ _); [discriminate|]. injection E as <-. reflexivity.
Qed.

Lemma kept_sigma8 : forall x, kept cl A_sigma8 (fun p => pf p F_sigma8 = x).
Proof.
  intros x. apply kept_float; [reflexivity| |].
  - intros b N. destruct b; try reflexivity. congruence.
  - intros p p' E. cbn [attr_update get_attr] in E. unfold upd_close, check_num in E. cbn [as_num] in E.
    destruct (fltb _ _); [discriminate|]. destruct (fltb _ _); [discriminate|].
    destruct (allclose _ _); [discriminate|]. injection E as <-. reflexivity.
Qed.

(** Once A_s has been assigned a value above the threshold, CLASS is given that
    value and nothing else, until A_s is assigned again; sigma8 may be assigned
    meanwhile. *)
Theorem C55_A_s : forall s v x s1 o l s2,
  as_num v = Some x -> set_attr A_A_s v s = (s1, Ok o) -> given x = true ->
  Forall (fun o => ~ assigns A_A_s o) l -> run cl l s1 = Some s2 ->
  amplitudes (sp s2) = [("A_s", CE x)].
Proof.
  intros s v x s1 o l s2 Hv Hs Hx Hl Hr.
  assert (E1 : pf (sp s1) F_A_s = x).
  { unfold set_attr in Hs. cbn [attr_update] in Hs. unfold check_num in Hs. rewrite Hv in Hs.
    destruct (fltb _ _); [discriminate|]. destruct (fltb _ _); [discriminate|].
    injection Hs as <- _. reflexivity. }
  pose proof (run_K cl A_A_s _ (kept_As x) l s1 s2 Hl E1 Hr) as E2. cbv beta in E2.
  rewrite amplitudes_given, E2, Hx. reflexivity.
Qed.

(** While A_s has never been assigned, CLASS is given the sigma8 assigned last,
    or one that NumPy's [allclose] takes for the same.  Missing from the full
    claim: histories in which A_s was assigned earlier. *)
Theorem C55_last_amplitude_partial : forall l s v x s1 o l' s2,
  Forall (fun o => ~ assigns A_A_s o) l -> run cl l coffe0 = Some s ->
  as_num v = Some x -> set_attr A_sigma8 v s = (s1, Ok o) ->
  Forall (fun o => ~ assigns A_A_s o /\ ~ assigns A_sigma8 o) l' -> run cl l' s1 = Some s2 ->
  exists y, amplitudes (sp s2) = [("sigma8", CE y)] /\ (y = x \/ allclose x y = true).
Proof.
  intros l s v x s1 o l' s2 Hl Hr Hv Hs Hl' Hr'.
  assert (A0 : pf (sp s) F_A_s = f0).
  { exact (run_K cl A_A_s _ (kept_As f0) l coffe0 s Hl eq_refl Hr). }
  assert (A1 : pf (sp s1) F_A_s = f0 /\ (pf (sp s1) F_sigma8 = x \/ allclose x (pf (sp s1) F_sigma8) = true)).
  { unfold set_attr in Hs. cbn [attr_update] in Hs. unfold upd_close, check_num in Hs. rewrite Hv in Hs.
    destruct (fltb _ _); [discriminate|]. destruct (fltb _ _); [discriminate|].
    destruct (allclose x (pf (sp s) F_sigma8)) eqn:EA; injection Hs as <- _; (split; [exact A0|]);
      [right; exact EA|left; reflexivity]. }
  destruct A1 as [A1 B1].
  assert (F1 : Forall (fun o => ~ assigns A_A_s o) l') by (eapply Forall_impl; [|exact Hl']; tauto).
  assert (F2 : Forall (fun o => ~ assigns A_sigma8 o) l') by (eapply Forall_impl; [|exact Hl']; tauto).
  pose proof (run_K cl A_A_s _ (kept_As f0) l' s1 s2 F1 A1 Hr') as A2. cbv beta in A2.
  pose proof (run_K cl A_sigma8 _ (kept_sigma8 (pf (sp s1) F_sigma8)) l' s1 s2 F2 eq_refl Hr') as B2.
  cbv beta in B2. exists (pf (sp s1) F_sigma8). split; [|exact B1].
  rewrite amplitudes_given, A2, B2. reflexivity.
Qed.

(** A sigma8 assigned after A_s has no effect. *)
Theorem C55_last_amplitude_refuted : exists s,
  run cl [OpSet A_A_s (VFloat (lit 2 1000000000)); OpSet A_sigma8 (VFloat (lit 9 10))] coffe0 = Some s /\
  amplitudes (sp s) = [("A_s", CE (lit 2 1000000000))].
Proof.
  destruct (run cl _ coffe0) as [s|] eqn:E.
  - exists s. split; [reflexivity|].
    assert (E' : pf (sp s) F_A_s = lit 2 1000000000).
    { vm_compute in E. injection E as <-. vm_compute. reflexivity. }
    rewrite amplitudes_given, E'. vm_compute. reflexivity.
  - vm_compute in E. discriminate.
Qed.

(** An A_s of at most 1e-10 assigned after sigma8 has no effect. *)
Theorem C55_small_A_s_refuted : exists s,
  run cl [OpSet A_sigma8 (VFloat (lit 9 10)); OpSet A_A_s (VFloat (lit 1 20000000000))] coffe0 = Some s /\
  amplitudes (sp s) = [("sigma8", CE (lit 9 10))].
Proof.
  destruct (run cl _ coffe0) as [s|] eqn:E.
  - exists s. split; [reflexivity|].
    assert (E' : pf (sp s) F_A_s = lit 1 20000000000 /\ pf (sp s) F_sigma8 = lit 9 10).
    { vm_compute in E. injection E as <-. vm_compute. split; reflexivity. }
    destruct E' as [E1 E2]. rewrite amplitudes_given, E1, E2. vm_compute. reflexivity.
  - vm_compute in E. discriminate.
Qed.

Example C55_nonvacuous :
  (exists s1 o s2, set_attr A_A_s (VFloat (lit 3 1000000000)) coffe0 = (s1, Ok o) /\
     given (lit 3 1000000000) = true /\
     run cl [OpSet A_sigma8 (VFloat (lit 7 10)); OpParameters] s1 = Some s2) /\
  (exists s o s2, run cl [OpSet A_h (VFloat (lit 7 10)); OpParameters] coffe0 = Some s /\
     set_attr A_sigma8 (VFloat (lit 7 10)) s = (s2, Ok o) /\
     amplitudes (sp s2) = [("sigma8", CE (lit 7 10))]).
Proof.
  split.
  - destruct (set_attr A_A_s (VFloat (lit 3 1000000000)) coffe0) as [s1 [o|e|]] eqn:E;
      try (vm_compute in E; discriminate).
    exists s1, o. vm_compute in E. injection E as <- _.
    match goal with |- exists s2, _ /\ _ /\ ?r = Some s2 =>
      assert (X : match r with Some _ => true | None => false end = true) by (vm_compute; reflexivity);
      destruct r as [s2|]; [|discriminate X] end.
    exists s2. split; [reflexivity|]. split; [vm_compute; reflexivity|reflexivity].
  - assert (X : match run cl [OpSet A_h (VFloat (lit 7 10)); OpParameters] coffe0 with
                | Some s => match set_attr A_sigma8 (VFloat (lit 7 10)) s with
                            | (s2, Ok _) => (pf (sp s2) F_A_s, pf (sp s2) F_sigma8)
                            | _ => (f0, f0) end
                | None => (f0, f0) end = (f0, lit 7 10)) by (vm_compute; reflexivity).
    destruct (run cl _ coffe0) as [s|]; [|vm_compute in X; discriminate].
    destruct (set_attr A_sigma8 _ s) as [s2 [o|e|]] eqn:E; try (vm_compute in X; discriminate).
    exists s, o, s2. split; [reflexivity|]. split; [exact E|].
    injection X as X1 X2. rewrite amplitudes_given, X1, X2. vm_compute. reflexivity.
Qed.
End Amplitude.

Print Assumptions C53_in_bounds.
Print Assumptions C53_complete_partial.
Print Assumptions C53_values.
Print Assumptions C53_fields.
Print Assumptions C53_complete_refuted.
Print Assumptions C55_A_s.
Print Assumptions C55_last_amplitude_partial.
Print Assumptions C55_last_amplitude_refuted.
Print Assumptions C55_small_A_s_refuted.
