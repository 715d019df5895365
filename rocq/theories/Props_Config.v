(** * Configuration files: C12 (round trip) and C13 (order of the options). *)
From Coq Require Import ZArith Bool List String Lia Permutation.
From Coq Require Import Floats.SpecFloat.
From Verif Require Import F64 PyParams PySet PyState PyWrites PyValid Config ConfigLemmas.
Import ListNotations.
Open Scope Z_scope.
Open Scope string_scope.

(** ** C13: the order in which the options are visited *)

(** [from_file] visits four Python sets; [is_visit v] says that [v] is a possible
    order of all four. *)
Definition order_independent : Prop :=
  forall X f v1 v2, is_visit v1 -> is_visit v2 ->
  (forall s1 r1, from_file X v1 f = (s1, Ok r1) ->
   exists s2 r2, from_file X v2 f = (s2, Ok r2) /\ params_eq (sp s1) (sp s2)).

(** The number a file gives under a name is one the default value is not
    distinguished from. *)
Definition keeps_default (f : file) (k : string) (d : f64) : Prop :=
  forall x, number f k = Some x -> allclose x d = true.

Lemma phase_ok : forall l0, forallb (fun o => local o && separateb o l0) l0 = true ->
  (fix go l := match l with [] => true | x :: r => negb (existsb (String.eqb x) r) && go r end) (map o_key l0) = true ->
  forall f l1 l2 p q p' q', Permutation l0 l1 -> Permutation l0 l2 -> params_eq p q ->
  opts_after f l1 p = Some p' -> opts_after f l2 q = Some q' -> params_eq p' q'.
Proof. intros l0 S N f l1 l2 p q p' q'. apply phase_agree; [exact S|apply nodupb; exact N]. Qed.

(** Two runs that both load the file, in whatever orders, give the same parameters
    (and no cached result), provided the file does not change both h and m_ncdm. *)
Theorem C13_order_partial : forall X f v1 v2 s1 s2 r1 r2,
  is_visit v1 -> is_visit v2 ->
  keeps_default f "h" default_h \/ keeps_default f "m_ncdm" f0 ->
  from_file X v1 f = (s1, Ok r1) -> from_file X v2 f = (s2, Ok r2) ->
  params_eq (sp s1) (sp s2) /\ no_cache s1 /\ no_cache s2.
Proof.
  intros X f v1 v2 s1 s2 r1 r2 (V1 & V2 & V3 & V4) (W1 & W2 & W3 & W4) K H1 H2.
  split; [|split; [apply (from_file_untouched _ _ _ _ _ H1)|apply (from_file_untouched _ _ _ _ _ H2)]].
  destruct (from_file_phases _ _ _ _ _ H1) as (a0 & a1 & a2 & a3 & a4 & a5 & q0 & q1 & q2 & q3 & q4 & q5 & A0 & A1 & A2 & A3 & A4 & A5 & A6).
  destruct (from_file_phases _ _ _ _ _ H2) as (b0 & b1 & b2 & b3 & b4 & b5 & t0 & t1 & t2 & t3 & t4 & t5 & B0 & B1 & B2 & B3 & B4 & B5 & B6).
  rewrite A0 in B0. injection B0 as <- <-.
  assert (E1 : params_eq (sp a1) (sp b1)).
  { eapply (phase_ok float_array_options); [vm_compute; reflexivity|vm_compute; reflexivity|exact V1|exact W1| |
      apply (seqr_after _ _ _ _ _ A1)|apply (seqr_after _ _ _ _ _ B1)]. apply params_eq_refl. }
  assert (E2 : params_eq (sp a2) (sp b2)).
  { eapply (phase_ok [own_opt KIntArray A_l] eq_refl eq_refl f [own_opt KIntArray A_l] [own_opt KIntArray A_l]);
      [apply Permutation_refl|apply Permutation_refl|exact E1| |].
    - simpl. rewrite (read_option_after _ _ _ _ _ A2). reflexivity.
    - simpl. rewrite (read_option_after _ _ _ _ _ B2). reflexivity. }
  pose proof (before_floats f _ _ _ _ _ _ _ V1 A0 A1 A2) as D.
  assert (E3 : params_eq (sp a3) (sp b3)).
  { eapply float_phase_agree; [exact V2|exact W2|exact E2| |apply (seqr_after _ _ _ _ _ A3)|apply (seqr_after _ _ _ _ _ B3)|].
    - unfold cdm_ok. rewrite !D by (simpl; tauto). reflexivity.
    - assert (G : forall a k d, own_field a = Some k -> pf default_params k = d -> keeps_default f (attr_key a) d ->
        forall o, In o float_options -> o_attr o = Some a -> changes f (sp a2) o = false).
      { intros a k d O Dk Kd o I A. unfold changes. rewrite A, O.
        pose proof (float_options_like o I) as [_ L]. rewrite A in L. destruct L as [L _]. rewrite L.
        destruct (number f (attr_key a)) as [x|] eqn:N; [|reflexivity].
        rewrite D by (apply own_coupled; exact (own_in _ _ O)). rewrite Dk, (Kd x N). reflexivity. }
      destruct K as [K|K]; [left|right].
      + exact (G A_h F_h default_h eq_refl eq_refl K).
      + exact (G A_m_ncdm F_m_ncdm f0 eq_refl eq_refl K). }
  assert (E4 : params_eq (sp a4) (sp b4)).
  { eapply (phase_ok int_options); [vm_compute; reflexivity|vm_compute; reflexivity|exact V3|exact W3|exact E3|
      apply (seqr_after _ _ _ _ _ A4)|apply (seqr_after _ _ _ _ _ B4)]. }
  assert (E5 : params_eq (sp a5) (sp b5)).
  { eapply (phase_ok int_or_string_options); [vm_compute; reflexivity|vm_compute; reflexivity|exact V4|exact W4|exact E4|
      apply (seqr_after _ _ _ _ _ A5)|apply (seqr_after _ _ _ _ _ B5)]. }
  destruct (biases_agree X f _ _ _ _ _ A6 E5) as (t & r & T & Q). rewrite B6 in T. injection T as <- _. exact Q.
Qed.
Print Assumptions C13_order_partial.

(** If the file names at most one of the five quantities whose setters depend on
    one another, loading succeeds in every order or in none, with the same result. *)
Definition one_coupled (f : file) : Prop :=
  forall a b, In a [A_omega_m; A_omega_baryon; A_omega_gamma; A_h; A_m_ncdm] ->
    In b [A_omega_m; A_omega_baryon; A_omega_gamma; A_h; A_m_ncdm] -> a <> b ->
    entry (attr_key a) f = None \/ entry (attr_key b) f = None.

Definition full (o : opt) : list field :=
  match o_attr o with
  | Some a => if coupled a then map FF coupled_fields else attr_writes a
  | None => []
  end.
Lemma touched_full : forall f o x, In x (touched f o) -> In x (full o) /\ entry (o_key o) f <> None.
Proof. intros f o x I. unfold touched in I. unfold full. destruct (entry _ f); [split; [exact I|discriminate]|destruct I]. Qed.
Definition both_coupled (o o' : opt) : bool :=
  match o_attr o, o_attr o' with Some a, Some b => coupled a && coupled b | _, _ => false end.
Definition apartb (l : list opt) : bool :=
  forallb (fun o => forallb (fun o' => String.eqb (o_key o) (o_key o') || both_coupled o o' ||
                                       disjointb (full o') (full o)) l) l.
Lemma apartb_spec : forall f l l', Permutation l l' -> apartb l = true ->
  (forall o o', In o l -> In o' l -> o_key o <> o_key o' -> both_coupled o o' = true ->
     entry (o_key o) f = None \/ entry (o_key o') f = None) -> apart f l'.
Proof.
  intros f l l' P A C o o' x I I' N T T'.
  apply (Permutation_in o (Permutation_sym P)) in I. apply (Permutation_in o' (Permutation_sym P)) in I'.
  apply touched_full in T as [T Te]. apply touched_full in T' as [T' Te'].
  unfold apartb in A. rewrite forallb_forall in A. specialize (A o I). rewrite forallb_forall in A. specialize (A o' I').
  apply orb_prop in A as [A|A].
  - apply orb_prop in A as [A|A]; [apply String.eqb_eq in A; contradiction|].
    destruct (C o o' I I' N A); contradiction.
  - unfold disjointb in A. rewrite forallb_forall in A. specialize (A x T). apply negb_true_iff in A.
    apply memb_In in T'. congruence.
Qed.

Lemma no_cdm : forall l l', Permutation l l' ->
  forallb (fun o => match o_attr o with Some A_omega_cdm => false | _ => true end) l = true ->
  forall o, In o l' -> o_attr o <> Some A_omega_cdm.
Proof.
  intros l l' P H o I E. apply (Permutation_in o (Permutation_sym P)) in I.
  rewrite forallb_forall in H. specialize (H o I). rewrite E in H. discriminate.
Qed.

Lemma phase_success : forall f l0 l1 l2 s t s' r, Permutation l0 l1 -> Permutation l0 l2 ->
  apartb l0 = true ->
  (fix go l := match l with [] => true | x :: r => negb (existsb (String.eqb x) r) && go r end) (map o_key l0) = true ->
  forallb (fun o => match o_attr o with Some A_omega_cdm => false | _ => true end) l0 = true ->
  (forall o o', In o l0 -> In o' l0 -> o_key o <> o_key o' -> both_coupled o o' = true ->
     entry (o_key o) f = None \/ entry (o_key o') f = None) ->
  params_eq (sp s) (sp t) -> seqr (read_option f) l1 s = (s', Ok r) ->
  exists t' r', seqr (read_option f) l2 t = (t', Ok r').
Proof.
  intros f l0 l1 l2 s t s' r P1 P2 A N NC C E H. apply seqr_after in H.
  assert (X : exists q', opts_after f l2 (sp t) = Some q').
  { apply (opts_order_success f l1 l2 (sp s) (sp t) (sp s')).
    - exact (Permutation_trans (Permutation_sym P1) P2).
    - eapply Permutation_NoDup; [apply Permutation_map; exact P1|apply nodupb; exact N].
    - exact (apartb_spec f l0 l1 P1 A C).
    - exact (no_cdm l0 l1 P1 NC).
    - exact E.
    - exact H. }
  destruct X as (q' & Q). destruct (after_seqr f l2 t q' Q) as (t' & r' & T & _). eauto.
Qed.

Lemma local_pairs : forall l, forallb (fun o => local o) l = true ->
  forall f o o', In o l -> In o' l -> o_key o <> o_key o' -> both_coupled o o' = true ->
  entry (o_key o) f = None \/ entry (o_key o') f = None.
Proof.
  intros l H f o o' I _ _ B. rewrite forallb_forall in H. specialize (H o I). unfold local in H. unfold both_coupled in B.
  destruct (o_attr o) as [a|]; [|discriminate]. destruct (o_attr o'); [|discriminate].
  apply andb_prop in B as [B _]. rewrite B in H. discriminate.
Qed.

Theorem C13_one_coupled : forall X f v1 v2 s1 r1, is_visit v1 -> is_visit v2 -> one_coupled f ->
  from_file X v1 f = (s1, Ok r1) ->
  exists s2 r2, from_file X v2 f = (s2, Ok r2) /\ params_eq (sp s1) (sp s2).
Proof.
  intros X f v1 v2 s1 r1 V W O H1.
  assert (K : keeps_default f "h" default_h \/ keeps_default f "m_ncdm" f0).
  { destruct (O A_h A_m_ncdm) as [E|E]; try (simpl; tauto); try discriminate; [left|right];
      intros x N; unfold number in N; cbn [attr_key] in E; rewrite E in N; discriminate. }
  assert (Z : exists s2 r2, from_file X v2 f = (s2, Ok r2)).
  2:{ destruct Z as (s2 & r2 & H2). exists s2, r2. split; [exact H2|].
      exact (proj1 (C13_order_partial X f v1 v2 s1 s2 r1 r2 V W K H1 H2)). }
  destruct V as (V1 & V2 & V3 & V4). destruct W as (W1 & W2 & W3 & W4).
  destruct (from_file_phases _ _ _ _ _ H1) as (a0 & a1 & a2 & a3 & a4 & a5 & q0 & q1 & q2 & q3 & q4 & q5 & A0 & A1 & A2 & A3 & A4 & A5 & A6).
  destruct (phase_success f float_array_options _ _ a0 a0 a1 q1 V1 W1) as (b1 & t1 & B1);
    [vm_compute; reflexivity|vm_compute; reflexivity|vm_compute; reflexivity|apply local_pairs; vm_compute; reflexivity|apply params_eq_refl|exact A1|].
  assert (E1 : params_eq (sp a1) (sp b1)).
  { eapply (phase_ok float_array_options); [vm_compute; reflexivity|vm_compute; reflexivity|exact V1|exact W1| |
      apply (seqr_after _ _ _ _ _ A1)|apply (seqr_after _ _ _ _ _ B1)]. apply params_eq_refl. }
  assert (B2 : exists b2 t2, read_option f (own_opt KIntArray A_l) b1 = (b2, Ok t2)).
  { pose proof (read_option_after _ _ _ _ _ A2) as Q.
    destruct (opt_transfer f (own_opt KIntArray A_l) (sp a1) (sp b1) (sp a2)) as (q' & Q'); [discriminate|intros x _; apply E1|exact Q|].
    destruct (after_read_option _ _ _ _ Q') as (b2 & t2 & T & _). eauto. }
  destruct B2 as (b2 & t2 & B2).
  assert (E2 : params_eq (sp a2) (sp b2)).
  { eapply (phase_ok [own_opt KIntArray A_l] eq_refl eq_refl f [own_opt KIntArray A_l] [own_opt KIntArray A_l]);
      [apply Permutation_refl|apply Permutation_refl|exact E1| |].
    - simpl. rewrite (read_option_after _ _ _ _ _ A2). reflexivity.
    - simpl. rewrite (read_option_after _ _ _ _ _ B2). reflexivity. }
  destruct (phase_success f float_options _ _ a2 b2 a3 q3 V2 W2) as (b3 & t3 & B3);
    [vm_compute; reflexivity|vm_compute; reflexivity|vm_compute; reflexivity| |exact E2|exact A3|].
  { intros o o' I I' N B. pose proof (float_options_like o I) as [_ L]. pose proof (float_options_like o' I') as [_ L'].
    unfold both_coupled in B. destruct (o_attr o) as [a|] eqn:Ao; [|discriminate]. destruct (o_attr o') as [b|] eqn:Bo; [|discriminate].
    destruct L as [L _]. destruct L' as [L' _]. rewrite L, L'. apply andb_prop in B as [B1' B2'].
    assert (NC : o_attr o <> Some A_omega_cdm /\ o_attr o' <> Some A_omega_cdm).
    { split; apply (no_cdm float_options float_options (Permutation_refl _)); try assumption; vm_compute; reflexivity. }
    destruct NC as [NC NC']. rewrite Ao in NC. rewrite Bo in NC'.
    apply O.
    - destruct a; try discriminate B1'; simpl; try tauto.
    - destruct b; try discriminate B2'; simpl; try tauto.
    - intros ->. apply N. rewrite L, L'. reflexivity. }
  pose proof (before_floats f _ _ _ _ _ _ _ V1 A0 A1 A2) as D.
  assert (E3 : params_eq (sp a3) (sp b3)).
  { eapply float_phase_agree; [exact V2|exact W2|exact E2| |apply (seqr_after _ _ _ _ _ A3)|apply (seqr_after _ _ _ _ _ B3)|].
    - unfold cdm_ok. rewrite !D by (simpl; tauto). reflexivity.
    - assert (G : forall a, entry (attr_key a) f = None ->
        forall o, In o float_options -> o_attr o = Some a -> changes f (sp a2) o = false).
      { intros a Ea o I A. unfold changes. rewrite A. destruct (own_field a); [|reflexivity].
        pose proof (float_options_like o I) as [_ L]. rewrite A in L. destruct L as [L _]. rewrite L.
        unfold number. rewrite Ea. reflexivity. }
      destruct (O A_h A_m_ncdm) as [E|E]; try (simpl; tauto); try discriminate; [left|right]; apply G; exact E. }
  destruct (phase_success f int_options _ _ a3 b3 a4 q4 V3 W3) as (b4 & t4 & B4);
    [vm_compute; reflexivity|vm_compute; reflexivity|vm_compute; reflexivity|apply local_pairs; vm_compute; reflexivity|exact E3|exact A4|].
  assert (E4 : params_eq (sp a4) (sp b4)).
  { eapply (phase_ok int_options); [vm_compute; reflexivity|vm_compute; reflexivity|exact V3|exact W3|exact E3|
      apply (seqr_after _ _ _ _ _ A4)|apply (seqr_after _ _ _ _ _ B4)]. }
  destruct (phase_success f int_or_string_options _ _ a4 b4 a5 q5 V4 W4) as (b5 & t5 & B5);
    [vm_compute; reflexivity|vm_compute; reflexivity|vm_compute; reflexivity|apply local_pairs; vm_compute; reflexivity|exact E4|exact A5|].
  assert (E5 : params_eq (sp a5) (sp b5)).
  { eapply (phase_ok int_or_string_options); [vm_compute; reflexivity|vm_compute; reflexivity|exact V4|exact W4|exact E4|
      apply (seqr_after _ _ _ _ _ A5)|apply (seqr_after _ _ _ _ _ B5)]. }
  destruct (biases_agree X f _ _ _ _ _ A6 E5) as (b6 & t6 & B6 & _).
  exists b6, t6. exact (phases_from_file X v2 f b6 t6 a0 b1 b2 b3 b4 b5 q0 t1 t2 t3 t4 t5 A0 B1 B2 B3 B4 B5 B6).
Qed.
Print Assumptions C13_one_coupled.

(** *** The order does matter *)
Definition X0 : cfg_ext := {| x_loadtxt := fun _ => inr ValueError; x_interp := fun _ _ => f1 |}.
Definition rest_floats : list attr :=
  [A_omega_gamma; A_w0; A_wa; A_sigma8; A_n_s; A_T_cmb;
   A_A_s; A_k_per_decade_for_bao; A_k_per_decade_for_pk; A_l_max_g; A_l_max_ur;
   A_tol_perturb_integration; A_radiation_streaming_trigger_tau_over_tau_k;
   A_ur_fluid_trigger_tau_over_tau_k; A_N_ur; A_k_min; A_k_max; A_YHe].
(** The visit in which the given floats come first. *)
Definition floats_first (l : list attr) : visit :=
  {| v_float_array := float_array_options;
     v_float := {| o_key := "start_large_k_at_tau_c_over_tau_h"; o_kind := KFloat; o_attr := None |} ::
       map (own_opt KFloat) (l ++ rest_floats);
     v_int := int_options; v_enum := int_or_string_options |}.
Lemma floats_first_visit : forall l, Permutation [A_omega_m; A_omega_baryon; A_h; A_m_ncdm] l ->
  is_visit (floats_first l).
Proof.
  intros l P. repeat split; try apply Permutation_refl.
  apply perm_skip. apply Permutation_map.
  apply (Permutation_trans (l' := [A_omega_m; A_omega_baryon; A_h; A_m_ncdm] ++ rest_floats)%list);
    [|apply Permutation_app_tail; exact P].
  unfold rest_floats. simpl app. do 2 apply perm_skip.
  apply (Permutation_trans (Permutation_sym (Permutation_middle [A_omega_gamma; A_w0; A_wa] _ A_h))). apply perm_skip.
  symmetry. exact (Permutation_middle [A_omega_gamma; A_w0; A_wa; A_sigma8; A_n_s; A_T_cmb;
   A_A_s; A_k_per_decade_for_bao; A_k_per_decade_for_pk; A_l_max_g; A_l_max_ur;
   A_tol_perturb_integration; A_radiation_streaming_trigger_tau_over_tau_k;
   A_ur_fluid_trigger_tau_over_tau_k; A_N_ur] [A_k_min; A_k_max; A_YHe] A_m_ncdm).
Qed.

(** A universe with omega_m = 0.9 and omega_baryon = 0.2: when omega_baryon is
    visited first the file loads; when omega_m is visited first, the new baryons
    and the cold matter that belongs to the old baryons exceed one and ValueError
    is raised. *)
Definition baryons : file := [("omega_m", VFloat (lit 9 10)); ("omega_baryon", VFloat (lit 2 10))].
Definition load_outcome (x : state * res) : option exn :=
  match snd x with Ok _ => None | Raise e => Some e | Crash => Some TypeError end.


Definition m_first := floats_first [A_omega_m; A_omega_baryon; A_h; A_m_ncdm].
Definition b_first := floats_first [A_omega_baryon; A_omega_m; A_h; A_m_ncdm].
Lemma visit_m : is_visit m_first. Proof. apply floats_first_visit, Permutation_refl. Qed.
Lemma visit_b : is_visit b_first. Proof. apply floats_first_visit, perm_swap. Qed.
Theorem C13_raises_refuted : ~ order_independent.
Proof.
  intros H.
  destruct (from_file X0 b_first baryons) as [s1 r1] eqn:E1.
  assert (O1 : load_outcome (s1, r1) = None) by (rewrite <- E1; vm_compute; reflexivity).
  destruct r1 as [r1|e|]; try discriminate O1.
  destruct (H _ _ _ _ visit_b visit_m _ _ E1) as (s2 & r2 & E2 & _).
  assert (O2 : load_outcome (s2, Ok r2) = Some ValueError) by (rewrite <- E2; vm_compute; reflexivity).
  discriminate O2.
Qed.
Print Assumptions C13_raises_refuted.

(** Even two orders that both load the file can disagree: the neutrino density is
    computed with whichever h was stored when m_ncdm was assigned. *)
Definition agreement : Prop :=
  forall X f v1 v2 s1 s2 r1 r2, is_visit v1 -> is_visit v2 ->
  from_file X v1 f = (s1, Ok r1) -> from_file X v2 f = (s2, Ok r2) ->
  pf (sp s1) Omega0_nu = pf (sp s2) Omega0_nu.
Definition neutrinos : file := [("h", VFloat (lit 7 10)); ("m_ncdm", VFloat (lit 6 100))].
Definition nu_first := floats_first [A_omega_m; A_omega_baryon; A_m_ncdm; A_h].
Lemma visit_nu : is_visit nu_first. Proof. apply floats_first_visit. do 2 apply perm_skip. apply perm_swap. Qed.
Theorem C13_neutrinos_refuted : ~ agreement.
Proof.
  intros H.
  destruct (from_file X0 m_first neutrinos) as [s1 r1] eqn:E1.
  destruct (from_file X0 nu_first neutrinos) as [s2 r2] eqn:E2.
  assert (O1 : load_outcome (s1, r1) = None /\ feqb (pf (sp s1) Omega0_nu) (nu_of (lit 6 100) (lit 7 10)) = true).
  { change s1 with (fst (s1, r1)) at 2. rewrite <- E1. vm_compute. split; reflexivity. }
  assert (O2 : load_outcome (s2, r2) = None /\ feqb (pf (sp s2) Omega0_nu) (nu_of (lit 6 100) (lit 7 10)) = false).
  { change s2 with (fst (s2, r2)) at 2. rewrite <- E2. vm_compute. split; reflexivity. }
  destruct O1 as [O1 N1]. destruct O2 as [O2 N2].
  destruct r1 as [r1|e|]; try discriminate O1. destruct r2 as [r2|e|]; try discriminate O2.
  rewrite (H _ _ _ _ _ _ _ _ visit_m visit_nu E1 E2) in N1. congruence.
Qed.
Print Assumptions C13_neutrinos_refuted.

(** A file the theorems apply to: it changes several parameters. *)
Definition sample : file :=
  [("omega_m", VFloat (lit 32 100)); ("sigma8", VFloat (lit 81 100)); ("has_lensing", VInt 1);
   ("sep", VList [VFloat (of_Z 50); VFloat (of_Z 100)]); ("l", VList [VInt 0; VInt 2]);
   ("pk_type", VStr "halofit"); ("galaxy_bias1_redshifts", floats [of_Z 0; of_Z 1; of_Z 2; of_Z 3; of_Z 4]);
   ("galaxy_bias1_values", floats [of_Z 1; of_Z 2; of_Z 2; of_Z 3; of_Z 4])].
Example C13_nonvacuous :
  one_coupled sample /\ is_visit source_order /\
  (exists s r, from_file X0 source_order sample = (s, Ok r) /\
     pf (sp s) Omega0_m = lit 32 100 /\ pl (sp s) L_sep = [of_Z 50; of_Z 100] /\ pb (sp s) B_len = true) /\
  keeps_default baryons "h" default_h.
Proof.
  split; [|split; [|split]].
  - intros a b Ia Ib N. simpl in Ia, Ib.
    repeat (destruct Ia as [<-|Ia]; [repeat (destruct Ib as [<-|Ib]; [first [congruence|left; reflexivity|right; reflexivity]|]); destruct Ib|]). destruct Ia.
  - repeat split; apply Permutation_refl.
  - destruct (from_file X0 source_order sample) as [s r] eqn:E.
    assert (O : load_outcome (s, r) = None /\ pf (sp s) Omega0_m = lit 32 100 /\ pl (sp s) L_sep = [of_Z 50; of_Z 100] /\ pb (sp s) B_len = true).
    { change s with (fst (s, r)) at 2 3 4. rewrite <- E. vm_compute. repeat split; reflexivity. }
    destruct O as [O1 O2]. destruct r as [r|e|]; try discriminate O1. exists s, r. split; [reflexivity|exact O2].
  - intros x N. discriminate N.
Qed.
