(** * Writing a configuration and loading it: what comes back. *)
From Coq Require Import ZArith Bool List String Lia Permutation.
From Coq Require Import Floats.SpecFloat Zpower.
From Verif Require Import F64 PyParams PySet PyState PyWrites PyValid Config ConfigLemmas.
Import ListNotations.
Open Scope Z_scope.

(** ** A C int survives the passage through a double *)
Lemma digits_shift : forall n m, digits2_pos (shift_pos n m) = (n + digits2_pos m)%positive.
Proof.
  intros n m. unfold shift_pos. induction n using Pos.peano_ind.
  - simpl Pos.iter. cbn [digits2_pos]. lia.
  - rewrite Pos.iter_succ. cbn [digits2_pos]. rewrite IHn. lia.
Qed.
Lemma digits_bound : forall m, Zpos m < 2 ^ Zpos (digits2_pos m).
Proof.
  induction m; cbn [digits2_pos].
  - rewrite Pos2Z.inj_succ, Z.pow_succ_r by lia. lia.
  - rewrite Pos2Z.inj_succ, Z.pow_succ_r by lia. lia.
  - reflexivity.
Qed.
Lemma digits_low : forall m, 2 ^ (Zpos (digits2_pos m) - 1) <= Zpos m.
Proof.
  induction m; cbn [digits2_pos].
  - rewrite Pos2Z.inj_succ. replace (Z.succ (Zpos (digits2_pos m)) - 1) with (Z.succ (Zpos (digits2_pos m) - 1)) by lia.
    rewrite Z.pow_succ_r by lia. lia.
  - rewrite Pos2Z.inj_succ. replace (Z.succ (Zpos (digits2_pos m)) - 1) with (Z.succ (Zpos (digits2_pos m) - 1)) by lia.
    rewrite Z.pow_succ_r by lia. lia.
  - reflexivity.
Qed.
Lemma digits_small : forall m, Zpos m < 2 ^ 52 -> (digits2_pos m <= 52)%positive.
Proof.
  intros m H. destruct (Pos.leb_spec (digits2_pos m) 52) as [L|L]; [exact L|exfalso].
  pose proof (digits_low m) as D. assert (2 ^ 52 <= 2 ^ (Zpos (digits2_pos m) - 1)) by (apply Z.pow_le_mono_r; lia). lia.
Qed.

Lemma round_exact : forall s m e, (digits2_pos m = 53)%positive -> -1000 <= e <= 900 ->
  binary_round_aux 53 1024 s (Zpos m) e loc_Exact = S754_finite s m e.
Proof.
  intros s m e D E. unfold binary_round_aux, shr_fexp, Zdigits2, fexp, emin. rewrite D.
  replace (Z.max (53 + e - 53) (3 - 1024 - 53) - e) with 0 by lia.
  cbn [shr shr_record_of_loc shr_m loc_of_shr_record round_nearest_even Zdigits2]. 
  unfold Zdigits2. rewrite D. replace (Z.max (53 + e - 53) (3 - 1024 - 53) - e) with 0 by lia.
  cbn [shr shr_record_of_loc shr_m]. destruct (Z.leb_spec e (1024 - 53)); [reflexivity|lia].
Qed.

Lemma trunc_of_Z : forall z, Z.abs z < 2 ^ 52 -> trunc (of_Z z) = z /\ is_finite (of_Z z) = true.
Proof.
  assert (P : forall s m, Zpos m < 2 ^ 52 -> exists n, (n + digits2_pos m = 53)%positive /\
    binary_round 53 1024 s m 0 = S754_finite s (shift_pos n m) (Zneg n)).
  { intros s m H. apply digits_small in H. exists (53 - digits2_pos m)%positive. split; [lia|].
    unfold binary_round, fexp, emin.
    replace (Z.max (Zpos (digits2_pos m) + 0 - 53) (3 - 1024 - 53)) with (Zneg (53 - digits2_pos m)) by lia.
    unfold shl_align. rewrite Z.sub_0_r. apply round_exact; [rewrite digits_shift; lia|lia]. }
  assert (T : forall n m, Zpos (shift_pos n m) / 2 ^ (- Zneg n) = Zpos m).
  { intros n m. rewrite shift_pos_correct. change (- Zneg n) with (Zpos n). rewrite Z.pow_pos_fold.
    rewrite Z.mul_comm. apply Z.div_mul. apply Z.pow_nonzero; lia. }
  intros [|m|m] H; unfold of_Z, binary_normalize.
  - split; reflexivity.
  - destruct (P false m H) as (n & _ & ->). split; [|reflexivity]. cbn [trunc]. exact (T n m).
  - destruct (P true m H) as (n & _ & ->). split; [|reflexivity]. cbn [trunc].
    change (Zpos (shift_pos n m) / 2 ^ - Zneg n) with (Zpos (shift_pos n m) / 2 ^ (- Zneg n)).
    change (0 <=? Zneg n) with false. cbv iota. rewrite T. reflexivity.
Qed.

(** ** The entries of a written file *)
Open Scope string_scope.
Lemma entry_app : forall k f g, entry k (f ++ g)%list = match entry k f with Some v => Some v | None => entry k g end.
Proof.
  intros k f g. unfold entry. induction f as [|e f IH]; [reflexivity|].
  simpl. destruct (String.eqb (fst e) k); [reflexivity|exact IH].
Qed.
Lemma entry_none : forall k f, ~ In k (map fst f) -> entry k f = None.
Proof.
  intros k f. unfold entry. induction f as [|e f IH]; intros N; [reflexivity|]. simpl.
  destruct (String.eqb_spec (fst e) k) as [E|E]; [exfalso; apply N; left; exact E|].
  apply IH. intros I. apply N. right. exact I.
Qed.
Lemma entry_map : forall (g : attr -> pyval) l a, NoDup (map attr_key l) -> In a l ->
  entry (attr_key a) (map (fun a => (attr_key a, g a)) l) = Some (g a).
Proof.
  intros g. induction l as [|b l IH]; intros a N I; [destruct I|].
  simpl in N. inversion N as [|? ? N1 N2]; subst. unfold entry. simpl.
  destruct I as [->|I]; [rewrite String.eqb_refl; reflexivity|].
  destruct (String.eqb_spec (attr_key b) (attr_key a)) as [E|E].
  - exfalso. apply N1. rewrite E. apply in_map. exact I.
  - exact (IH a N2 I).
Qed.

Lemma written_keys_nodup : NoDup (map attr_key written_attrs).
Proof. apply nodupb. vm_compute. reflexivity. Qed.

(** Specification or proof only; nothing in the code. *)
Definition table_keys (l : list sfield) : list string :=
  flat_map (fun s => [bias_name s ++ "_redshifts"; bias_name s ++ "_values"]) l.
Lemma written_biases_keys : forall X p l b, written_biases X p l = inl b -> map fst b = table_keys l.
Proof.
  intros X p. induction l as [|s l IH]; intros b H; simpl in H; [injection H as <-; reflexivity|].
  destruct (bias_values X (psp p s)) as [ys|]; [|discriminate].
  destruct (written_biases X p l) as [r|] eqn:E; [|discriminate].
  injection H as <-. simpl. rewrite (IH r eq_refl). reflexivity.
Qed.
Lemma written_biases_entry : forall X p l b s, NoDup (table_keys l) -> written_biases X p l = inl b -> In s l ->
  exists ys, bias_values X (psp p s) = inl ys /\
    entry (bias_name s ++ "_redshifts") b = Some (floats (bias_redshifts (psp p s))) /\
    entry (bias_name s ++ "_values") b = Some (floats ys).
Proof.
  intros X p. induction l as [|t l IH]; intros b s N H I; [destruct I|].
  simpl in H. destruct (bias_values X (psp p t)) as [ys|] eqn:B; [|discriminate].
  destruct (written_biases X p l) as [r|] eqn:E; [|discriminate]. injection H as <-.
  change (table_keys (t :: l)) with ((bias_name t ++ "_redshifts") :: (bias_name t ++ "_values") :: table_keys l) in N.
  inversion N as [|? ? N1 N']; subst. inversion N' as [|? ? N2 N3]; subst.
  unfold entry. cbn [find fst snd].
  destruct I as [->|I].
  - exists ys. split; [exact B|]. rewrite String.eqb_refl. split; [reflexivity|].
    destruct (String.eqb_spec (bias_name s ++ "_redshifts") (bias_name s ++ "_values")) as [C|C].
    + exfalso. apply N1. left. symmetry. exact C.
    + rewrite String.eqb_refl. reflexivity.
  - destruct (IH r s N3 eq_refl I) as (zs & Z1 & Z2 & Z3). exists zs. split; [exact Z1|].
    assert (Q : forall k, In k [bias_name s ++ "_redshifts"; bias_name s ++ "_values"] ->
       bias_name t ++ "_redshifts" <> k /\ bias_name t ++ "_values" <> k).
    { intros k K. assert (J : In k (table_keys l)) by (apply in_flat_map; exists s; split; assumption).
      split; intros C; rewrite <- C in J; [apply N1; right|apply N2]; exact J. }
    destruct (Q _ (or_introl eq_refl)) as [Q1 Q2]. destruct (Q _ (or_intror (or_introl eq_refl))) as [Q3 Q4].
    apply String.eqb_neq in Q1, Q2, Q3, Q4. rewrite Q1, Q2, Q3, Q4. split; assumption.
Qed.

(** The shape of a written file. *)
Lemma written_shape : forall X p f, written_file X p = Written f ->
  exists b, written_biases X p all_biases = inl b /\
  f = (map (fun a => (attr_key a, written_value (get_attr a p))) written_attrs ++ b)%list.
Proof.
  intros X p f. unfold written_file. generalize written_attrs all_biases. intros l l' H.
  destruct (written_biases X p l') as [b|]; [|discriminate]. injection H as <-. eauto.
Qed.
Lemma write_out_ok : forall X s' r s1 f, write_out X (s', Ok r) = (s1, Written f) ->
  s' = s1 /\ written_file X (sp s') = Written f.
Proof.
  intros X s' r s1 f. unfold write_out. generalize (written_file X). intros w H. split; congruence.
Qed.
Lemma to_file_eq : forall X s, write_out X (read_parameters s) = to_file X s.
Proof. intros. exact eq_refl. Qed.
Lemma to_file_shape : forall X s s1 f, to_file X s = (s1, Written f) -> settled (sp s) ->
  params_eq (sp s1) (sp s) /\ written_file X (sp s1) = Written f.
Proof.
  intros X s s1 f H S. destruct (read_parameters_settled s S) as (s' & R & E).
  rewrite <- to_file_eq, R in H. destruct (write_out_ok _ _ _ _ _ H) as [<- K].
  split; [exact (proj1 E)|exact K].
Qed.

(** ** Loading a written file *)
(** Specification or proof only; nothing in the code. *)
Definition loaded_options (v : visit) : list opt :=
  (v_float_array v ++ own_opt KIntArray A_l :: v_float v ++ v_int v ++ v_enum v)%list.
Definition all_options : list opt := loaded_options source_order.

Lemma opts_app : forall f l1 l2 p, opts_after f (l1 ++ l2)%list p =
  match opts_after f l1 p with Some q => opts_after f l2 q | None => None end.
Proof.
  induction l1 as [|o l1 IH]; intros l2 p; [reflexivity|]. simpl.
  destruct (opt_after f o p); [apply IH|reflexivity].
Qed.
Lemma loaded_perm : forall v, is_visit v -> Permutation all_options (loaded_options v).
Proof.
  intros v (P1 & P2 & P3 & P4). unfold all_options, loaded_options.
  apply Permutation_app; [exact P1|]. apply perm_skip. apply Permutation_app; [exact P2|].
  apply Permutation_app; [exact P3|exact P4].
Qed.

Lemma seqr_none : forall f l s, (forall o, In o l -> entry (o_key o) f = None) ->
  seqr (read_option f) l s = (s, Ok ONone).
Proof.
  induction l as [|o l IH]; intros s N; [reflexivity|]. simpl. unfold bindr, read_option.
  rewrite N by (left; reflexivity). apply IH. intros o' I. apply N. right. exact I.
Qed.

Definition no_legacy (f : file) : Prop :=
  (forall o, In o legacy_options -> entry (o_key o) f = None) /\ entry "correlation_contributions" f = None.

Lemma preamble_none : forall f, no_legacy f -> preamble f = (coffe0, Ok ONone).
Proof.
  intros f [N1 N2]. unfold preamble, bindr. rewrite (seqr_none _ _ _ N1). unfold read_contributions. rewrite N2. reflexivity.
Qed.

Lemma biases_else : forall X f l s s' r x, seqr (read_bias X f) l s = (s', Ok r) -> (forall k, x <> FS k) ->
  getf (sp s') x = getf (sp s) x.
Proof.
  intros X f. induction l as [|k l IH]; intros s s' r x H N; simpl in H; [injection H as <- _; reflexivity|].
  unfold bindr in H. destruct (read_bias X f k s) as [s1 [z|e|]] eqn:R; try discriminate.
  rewrite (IH _ _ _ _ H N). destruct (read_bias_spec _ _ _ _ _ _ R) as [[A _]|(tab & A & _)]; rewrite A; [reflexivity|].
  destruct x as [j|j|j|j| |j]; try reflexivity. exfalso. exact (N j eq_refl).
Qed.

Lemma from_file_run : forall X v f s r, no_legacy f -> from_file X v f = (s, Ok r) ->
  exists s5, opts_after f (loaded_options v) default_params = Some (sp s5) /\
    seqr (read_bias X f) bias_order s5 = (s, Ok r) /\
    forall x, (forall k, x <> FS k) -> getf (sp s) x = getf (sp s5) x.
Proof.
  intros X v f s r NL H.
  destruct (from_file_phases _ _ _ _ _ H) as (a0 & a1 & a2 & a3 & a4 & a5 & q0 & q1 & q2 & q3 & q4 & q5 & A0 & A1 & A2 & A3 & A4 & A5 & A6).
  rewrite (preamble_none f NL) in A0. injection A0 as <- _.
  exists a5. split; [|split; [exact A6|intros x N; exact (biases_else _ _ _ _ _ _ _ A6 N)]].
  unfold loaded_options. rewrite opts_app. apply seqr_after in A1. change (sp coffe0) with default_params in A1. rewrite A1.
  cbn [opts_after]. rewrite (read_option_after _ _ _ _ _ A2). rewrite opts_app, (seqr_after _ _ _ _ _ A3).
  rewrite opts_app, (seqr_after _ _ _ _ _ A4). exact (seqr_after _ _ _ _ _ A5).
Qed.

(** A getter reads only fields its setter owns. *)
Lemma get_attr_own : forall a p q, a <> A_integrals_fftlog_sampling -> a <> A_readonly ->
  (forall x, In x (attr_writes a) -> getf p x = getf q x) -> get_attr a p = get_attr a q.
Proof.
  intros a p q N1 N2 E.
  destruct a; try congruence; cbn [attr_writes] in E;
  try (pose proof (E _ (or_introl eq_refl)) as E1; cbn [getf] in E1; injection E1 as E1; cbn [get_attr]; rewrite E1; reflexivity).
  (* populations *)
  pose proof (E _ (or_introl eq_refl)) as E1. pose proof (E _ (or_intror (or_introl eq_refl))) as E2.
  pose proof (E _ (or_intror (or_intror (or_introl eq_refl)))) as E3.
  pose proof (E _ (or_intror (or_intror (or_intror (or_introl eq_refl))))) as E4.
  cbn [getf] in *. injection E1 as E1. injection E2 as E2. injection E3 as E3. injection E4 as E4.
  cbn [get_attr]. rewrite E1, E2, E3, E4. reflexivity.
Qed.

Lemma all_options_nodup : NoDup (map o_key all_options).
Proof. apply nodupb. vm_compute. reflexivity. Qed.

(** What a local option leaves, whatever the order. *)
Lemma local_result : forall v f p' a k, is_visit v -> In (own_opt k a) all_options ->
  local (own_opt k a) && separateb (own_opt k a) all_options = true ->
  a <> A_integrals_fftlog_sampling -> a <> A_readonly ->
  opts_after f (loaded_options v) default_params = Some p' ->
  exists q, opt_after f (own_opt k a) default_params = Some q /\ get_attr a p' = get_attr a q.
Proof.
  intros v f p' a k V I L N1 N2 H. apply andb_prop in L as [L S].
  pose proof (loaded_perm v V) as P.
  destruct (opts_own f (loaded_options v) default_params p' (own_opt k a)) as (q & Q1 & Q2).
  - eapply Permutation_NoDup; [apply Permutation_map; exact P|exact all_options_nodup].
  - exact H.
  - exact (Permutation_in _ P I).
  - exact L.
  - apply separateb_spec. exact (separateb_perm _ _ _ P S).
  - exists q. split; [exact Q1|]. apply get_attr_own; assumption.
Qed.

(** ** Values that come back exactly *)
(** Specification or proof only; nothing in the code. *)
Definition exact_floats : list attr :=
  [A_A_s; A_k_per_decade_for_bao; A_k_per_decade_for_pk; A_tol_perturb_integration;
   A_radiation_streaming_trigger_tau_over_tau_k; A_ur_fluid_trigger_tau_over_tau_k; A_k_min; A_k_max].
Definition exact_arrays : list attr :=
  [A_sep; A_z_mean; A_deltaz; A_z_min; A_z_max; A_mu; A_number_density1; A_number_density2; A_pixelsize; A_fsky].
Definition exact_flags : list attr :=
  [A_has_density; A_has_lensing; A_has_rsd; A_has_d1; A_has_d2; A_has_g1; A_has_g3; A_has_g4; A_has_g5;
   A_has_binned_covariance; A_has_flatsky_local; A_has_flatsky_nonlocal; A_has_flatsky_local_nonlocal;
   A_covariance_cosmic; A_covariance_mixed; A_covariance_poisson].
Definition exact_ints : list attr :=
  [A_integration_sampling; A_background_sampling; A_covariance_integration_sampling; A_N_ncdm].
Definition exact_enums : list attr :=
  [A_covariance_integration_method; A_pk_type; A_covariance_interpolation_method; A_integration_1d_type].

Lemma check_num_eq : forall x lo hi y, check_num (VFloat x) lo hi = inl y -> y = x.
Proof.
  intros x lo hi y C. unfold check_num in C. cbn [as_num] in C.
  destruct (fltb x lo); [discriminate|]. destruct (fltb hi x); [discriminate|]. congruence.
Qed.

Lemma exact_float : forall a p q d, In a exact_floats ->
  after a (match convert KFloat (written_value (get_attr a p)) with inl w => w | inr _ => VOther end) d = Some q ->
  get_attr a q = get_attr a p.
Proof.
  intros a p q d I H. unfold after in H.
  unfold exact_floats in I. repeat (destruct I as [<-|I]; [
    cbv beta iota zeta delta [attr_update upd_double upd_k c_double get_attr written_value convert text_float as_num] in H;
    try (match type of H with context [check_num ?v ?lo ?hi] => destruct (check_num v lo hi) as [y|] eqn:C; [|discriminate H]; apply check_num_eq in C; subst y end);
    injection H as <-; reflexivity|]); destruct I.
Qed.

Lemma map_res_floats : forall l, map_res text_float (map VFloat l) = inl l.
Proof. induction l as [|x l IH]; [reflexivity|]. simpl. rewrite IH. reflexivity. Qed.
Lemma map_res_as_float : forall l, map_res as_float (map VFloat l) = inl l.
Proof. induction l as [|x l IH]; [reflexivity|]. simpl. rewrite IH. reflexivity. Qed.
Lemma convert_floats : forall l, l <> [] -> convert KFloatArray (floats l) = inl (floats l).
Proof.
  intros l N. unfold convert. assert (E : split_elements (floats l) = map VFloat l) by (destruct l; [congruence|reflexivity]).
  rewrite E, map_res_floats. reflexivity.
Qed.
Lemma convert_empty : convert KFloatArray (floats []) = inr ValueError.
Proof. reflexivity. Qed.
Lemma list_stored : forall k ok l p q, match upd_list k ok (floats l) p with Keep => Some p | Put q => Some q | _ => None end = Some q ->
  pl q k = l.
Proof.
  intros k ok l p q H. unfold upd_list, check_list, elements, floats in H. rewrite map_res_as_float in H.
  destruct (forallb ok l); [|discriminate]. injection H as <-. simpl. rewrite (internal_lfield_dec_lb k k eq_refl). reflexivity.
Qed.
Lemma exact_array : forall a p q d w, In a exact_arrays ->
  convert KFloatArray (written_value (get_attr a p)) = inl w -> after a w d = Some q ->
  get_attr a q = get_attr a p.
Proof.
  intros a p q d w I C H. unfold exact_arrays in I.
  repeat (destruct I as [<-|I]; [
    cbn [get_attr written_value floats] in C |- *;
    match type of C with context [floats ?l] => destruct l as [|x r] eqn:E; [discriminate C|] end;
    rewrite convert_floats in C by discriminate; injection C as <-;
    unfold after in H; cbn [attr_update] in H; apply list_stored in H; rewrite H; reflexivity|]); destruct I.
Qed.
Lemma exact_flag : forall a p q d w, In a exact_flags ->
  convert KInt (written_value (get_attr a p)) = inl w -> after a w d = Some q ->
  get_attr a q = get_attr a p.
Proof.
  intros a p q d w I C H. unfold exact_flags in I.
  repeat (destruct I as [<-|I]; [
    cbn [get_attr written_value convert text_int] in C |- *; injection C as <-;
    unfold after in H; cbn [attr_update upd_bool] in H; injection H as <-;
    match goal with |- context [VBool (pb p ?b)] => destruct (pb p b); reflexivity end|]); destruct I.
Qed.

(** Two counts of neutrino species that differ are told apart. *)
Lemma species_apart : forall z, -100 <= z <= 100 -> allclose (of_Z z) (of_Z (default_pi I_N_ncdm)) = true -> z = default_pi I_N_ncdm.
Proof.
  intros z R H.
  assert (E : forallb (fun i => negb (allclose (of_Z (Z.of_nat i - 100)) (of_Z (default_pi I_N_ncdm))) ||
                (Z.of_nat i - 100 =? default_pi I_N_ncdm)%Z) (seq 0 201) = true) by (vm_compute; reflexivity).
  rewrite forallb_forall in E. specialize (E (Z.to_nat (z + 100))).
  rewrite Z2Nat.id in E by lia. replace (z + 100 - 100) with z in E by lia. rewrite H in E. cbn [negb orb] in E.
  apply Z.eqb_eq. apply E. clear E. apply in_seq. lia.
Qed.
Lemma exact_int : forall a p q w, In a exact_ints ->
  convert KInt (written_value (get_attr a p)) = inl w -> after a w default_params = Some q ->
  get_attr a q = get_attr a p.
Proof.
  intros a p q w I C H. unfold exact_ints in I.
  repeat (destruct I as [<-|I]; [
    cbn [get_attr written_value convert text_int] in C |- *; injection C as <-;
    unfold after in H; cbv beta iota zeta delta [attr_update upd_int upd_N_ncdm check_int as_int] in H;
    repeat (match type of H with context [if (?x <? ?y)%Z then _ else _] => destruct (Z.ltb_spec x y); [discriminate H|] end);
    try (match type of H with context [allclose ?u ?v] => destruct (allclose u v) eqn:A end);
    injection H as <-; try reflexivity|]); [|destruct I].
  apply species_apart in A; [|lia]. simpl. rewrite A. reflexivity.
Qed.

Lemma name_code : forall tbl, (forall z n, lookup_code tbl z = Some n -> lookup_name tbl n = Some z) ->
  forall k p q d w, convert KIntOrString (written_value (enum_name tbl (pi p k))) = inl w ->
  match upd_enum k tbl w d with Keep => Some d | Put q => Some q | _ => None end = Some q ->
  pi q k = pi p k.
Proof.
  intros tbl T k p q d w C H. unfold enum_name in C. destruct (lookup_code tbl (pi p k)) as [n|] eqn:E.
  - simpl in C. injection C as <-. unfold upd_enum, check_discrete in H. rewrite (T _ _ E) in H.
    injection H as <-. simpl. rewrite (internal_ifield_dec_lb k k eq_refl). reflexivity.
  - simpl in C. injection C as <-. discriminate H.
Qed.
Lemma table_names : forall tbl, In tbl [allowed_pk_types; allowed_integration_1d_types;
  allowed_covariance_integration_methods; allowed_interpolation_2d_methods] ->
  forall z n, lookup_code tbl z = Some n -> lookup_name tbl n = Some z.
Proof.
  intros tbl I z n H. unfold lookup_code in H. simpl in I.
  repeat (destruct I as [<-|I]; [unfold allowed_pk_types, allowed_integration_1d_types, allowed_covariance_integration_methods,
      allowed_interpolation_2d_methods in H; cbn [find fst snd] in H;
    repeat (match type of H with context [if ?b then _ else _] => destruct b eqn:E; [apply Z.eqb_eq in E; subst z; injection H as <-; reflexivity|clear E] end); discriminate H|]); destruct I.
Qed.
Lemma exact_enum : forall a p q d w, In a exact_enums ->
  convert KIntOrString (written_value (get_attr a p)) = inl w -> after a w d = Some q ->
  get_attr a q = get_attr a p.
Proof.
  intros a p q d w I C H. unfold exact_enums in I.
  repeat (destruct I as [<-|I]; [
    unfold after in H; cbn [attr_update get_attr] in H, C |- *;
    match type of C with context [enum_name ?t _] =>
      rewrite (name_code t (table_names t ltac:(simpl; tauto)) _ p q d w C H) end; reflexivity|]); destruct I.
Qed.
Lemma exact_l : forall p q d w,
  convert KIntArray (written_value (get_attr A_l p)) = inl w -> after A_l w d = Some q ->
  get_attr A_l q = get_attr A_l p.
Proof.
  intros p q d w C H. cbn [get_attr written_value] in *. unfold convert in C.
  destruct (pm p) as [|z l] eqn:E; [discriminate C|].
  change (split_elements (VList (map VInt (z :: l)))) with (map VInt (z :: l)) in C.
  assert (M : forall l, map_res text_int (map VInt l) = inl l).
  { clear. induction l as [|x l IH]; [reflexivity|]. simpl. rewrite IH. reflexivity. }
  rewrite M in C. injection C as <-. unfold after in H. cbn [attr_update] in H. unfold check_multipoles, elements in H.
  assert (M' : forall l, map_res (fun x => match as_int x with Some z => inl z | None => inr TypeError end) (map VInt l) = inl l).
  { clear. induction l as [|x l IH]; [reflexivity|]. simpl. rewrite IH. reflexivity. }
  change (VInt z :: map VInt l) with (map VInt (z :: l)) in H. rewrite M' in H.
  destruct (forallb _ (z :: l)); [|discriminate]. injection H as <-. reflexivity.
Qed.
Lemma exact_cint : forall a p q d w, In a [A_l_max_g; A_l_max_ur] -> ranges_ok p ->
  convert KFloat (written_value (get_attr a p)) = inl w -> after a w d = Some q ->
  get_attr a q = get_attr a p.
Proof.
  intros a p q d w I R C H.
  assert (B : forall k, In k [I_l_max_g; I_l_max_ur] -> Z.abs (pi p k) < 2 ^ 52).
  { intros k K. assert (-2147483648 <= pi p k <= 2147483647).
    { simpl in K. destruct K as [<-|[<-|[]]]; apply (ro_int p R); reflexivity. } lia. }
  simpl in I. repeat (destruct I as [<-|I]; [
    cbn [get_attr written_value convert text_float] in C |- *; injection C as <-;
    unfold after in H; cbn [attr_update] in H; unfold upd_cint, PySet.c_int in H;
    match type of H with context [of_Z (pi p ?k)] => destruct (trunc_of_Z (pi p k) (B k ltac:(simpl; tauto))) as [T1 T2] end;
    rewrite T1, T2 in H; unfold int32 in H;
    match type of H with context [if ?b then _ else _] => destruct b; [|discriminate H] end;
    injection H as <-; reflexivity|]); destruct I.
Qed.

(** ** Values compared with the default first *)
(** Specification or proof only; nothing in the code. *)
Definition close_local : list attr := [A_N_ur; A_T_cmb; A_YHe; A_n_s; A_sigma8; A_w0; A_wa].
Definition close_coupled : list attr := [A_omega_m; A_omega_baryon; A_omega_gamma; A_h; A_m_ncdm].
Definition close_attrs : list attr := (close_local ++ close_coupled)%list.
Definition number_of (v : pyval) : f64 := match v with VFloat x => x | _ => S754_nan end.
Definition back (a : attr) (p q : params) : Prop :=
  get_attr a q = get_attr a p \/
  (get_attr a q = get_attr a default_params /\
   allclose (number_of (get_attr a p)) (number_of (get_attr a default_params)) = true).
Lemma close_back : forall a p q w, In a close_local ->
  convert KFloat (written_value (get_attr a p)) = inl w -> after a w default_params = Some q -> back a p q.
Proof.
  intros a p q w I C H. unfold close_local in I. unfold back.
  repeat (destruct I as [<-|I]; [
    cbn [get_attr written_value convert text_float number_of] in C |- *; injection C as <-;
    unfold after in H; cbn [attr_update] in H; unfold upd_close in H;
    match type of H with context [check_num ?v ?lo ?hi] => destruct (check_num v lo hi) as [y|] eqn:K; [|discriminate H]; apply check_num_eq in K; subst y end;
    match type of H with context [allclose ?u ?v] => destruct (allclose u v) eqn:A end;
    injection H as <-; [right; split; reflexivity|left; reflexivity]|]); destruct I.
Qed.

(** ** Putting it together *)
Lemma written_entry : forall X p f a, written_file X p = Written f -> In a written_attrs ->
  entry (attr_key a) f = Some (written_value (get_attr a p)).
Proof.
  intros X p f a W I. destruct (written_shape X p f W) as (b & _ & ->). rewrite entry_app.
  rewrite (entry_map (fun a => written_value (get_attr a p)) written_attrs a written_keys_nodup I). reflexivity.
Qed.
Lemma written_missing : forall X p f k, written_file X p = Written f ->
  existsb (String.eqb k) (map attr_key written_attrs ++ table_keys all_biases)%list = false -> entry k f = None.
Proof.
  intros X p f k W N. destruct (written_shape X p f W) as (b & B & ->). apply entry_none.
  rewrite map_app, map_map, (written_biases_keys X p all_biases b B). cbn [fst]. intros I.
  change (map (fun x => attr_key x) written_attrs) with (map attr_key written_attrs) in I.
  assert (existsb (String.eqb k) (map attr_key written_attrs ++ table_keys all_biases)%list = true); [|congruence].
  apply existsb_exists. exists k. split; [exact I|apply String.eqb_refl].
Qed.
Lemma written_no_legacy : forall X p f, written_file X p = Written f -> no_legacy f.
Proof.
  intros X p f W. split.
  - assert (E : forallb (fun o => negb (existsb (String.eqb (o_key o)) (map attr_key written_attrs ++ table_keys all_biases)%list)) legacy_options = true)
      by (vm_compute; reflexivity).
    rewrite forallb_forall in E. intros o I. apply (written_missing X p f _ W). specialize (E o I). apply negb_true_iff in E. exact E.
  - apply (written_missing X p f _ W). vm_compute. reflexivity.
Qed.

Lemma table_keys_nodup : NoDup (table_keys all_biases).
Proof. apply nodupb. vm_compute. reflexivity. Qed.
Lemma written_table : forall X p f s, written_file X p = Written f ->
  exists ys, bias_values X (psp p s) = inl ys /\
    entry (bias_name s ++ "_redshifts") f = Some (floats (bias_redshifts (psp p s))) /\
    entry (bias_name s ++ "_values") f = Some (floats ys).
Proof.
  intros X p f s W. destruct (written_shape X p f W) as (b & B & ->).
  destruct (written_biases_entry X p all_biases b s table_keys_nodup B ltac:(destruct s; simpl; tauto)) as (ys & Y1 & Y2 & Y3).
  exists ys. split; [exact Y1|]. rewrite !entry_app.
  assert (N : forall t, In t ["_redshifts"; "_values"] -> entry (bias_name s ++ t) (map (fun a => (attr_key a, written_value (get_attr a p))) written_attrs) = None).
  { intros t T. apply entry_none. rewrite map_map. cbn [fst].
    intros I. change (map (fun x => attr_key x) written_attrs) with (map attr_key written_attrs) in I.
    assert (E : existsb (String.eqb (bias_name s ++ t)) (map attr_key written_attrs) = false).
    { simpl in T. destruct T as [<-|[<-|[]]]; destruct s; vm_compute; reflexivity. }
    assert (existsb (String.eqb (bias_name s ++ t)) (map attr_key written_attrs) = true); [|congruence].
    apply existsb_exists. eexists. split; [exact I|apply String.eqb_refl]. }
  rewrite !N by (simpl; tauto). split; assumption.
Qed.

Lemma written_source : forall X p f s, written_file X p = Written f ->
  exists ys, bias_values X (psp p s) = inl ys /\
   (bias_source X f s = inl (Some (bias_redshifts (psp p s), ys)) \/
    (psp p s = [] /\ bias_source X f s = inr ValueError)).
Proof.
  intros X p f s W. destruct (written_table X p f s W) as (ys & Y1 & Y2 & Y3). exists ys. split; [exact Y1|].
  assert (N : forall t, In t ["read_"; "input_"] -> entry (t ++ bias_name s) f = None).
  { intros t T. apply (written_missing X p f _ W). simpl in T. destruct T as [<-|[<-|[]]]; destruct s; vm_compute; reflexivity. }
  unfold bias_source. rewrite !N by (simpl; tauto). rewrite Y2, Y3.
  assert (L : List.length ys = List.length (bias_redshifts (psp p s))).
  { clear Y2 Y3. unfold bias_values in Y1. destruct (psp p s) as [|n r]; [injection Y1 as <-; reflexivity|].
    revert Y1. generalize (bias_redshifts (n :: r)). intros l. revert ys. clear.
    induction l as [|x l IH]; intros ys H; simpl in H; [injection H as <-; reflexivity|].
    destruct (fltb x (fst n)); [discriminate|]. destruct (fltb _ x); [discriminate|].
    destruct (map_res _ l) as [zs|]; [|discriminate]. injection H as <-. simpl. rewrite (IH zs eq_refl). reflexivity. }
  destruct (psp p s) as [|n r] eqn:E.
  - right. split; reflexivity.
  - left. assert (S : forall l : list f64, l <> [] -> map_res text_float (split_elements (floats l)) = inl l).
    { intros l Hl. assert (K : split_elements (floats l) = map VFloat l) by (destruct l; [congruence|reflexivity]).
      rewrite K. apply map_res_floats. }
    assert (NE : bias_redshifts (n :: r) <> []).
    { unfold bias_redshifts, linspace. destruct r as [|m r]; [discriminate|]. cbn [List.length]. intros C. symmetry in C. exact (app_cons_not_nil _ _ _ C). }
    rewrite (S _ NE). rewrite S; [reflexivity|]. intros ->. apply NE. destruct (bias_redshifts (n :: r)); [reflexivity|discriminate].
Qed.

(** The tables after the biases are read. *)
Lemma biases_read : forall X f p l s s' r, written_file X p = Written f -> NoDup l ->
  seqr (read_bias X f) l s = (s', Ok r) -> forall k,
  (In k l -> exists ys, bias_values X (psp p k) = inl ys /\ psp (sp s') k = combine (bias_redshifts (psp p k)) ys) /\
  (~ In k l -> psp (sp s') k = psp (sp s) k).
Proof.
  intros X f p. induction l as [|j l IH]; intros s s' r W ND H k; simpl in H.
  - injection H as <- _. split; [intros []|reflexivity].
  - unfold bindr in H. destruct (read_bias X f j s) as [s1 [z|e|]] eqn:R; try discriminate.
    inversion ND as [|? ? N1 N2]; subst. destruct (IH s1 s' r W N2 H k) as [J1 J2].
    destruct (written_source X p f j W) as (ys & Y1 & [Y2|[Y2 Y3]]);
      unfold read_bias in R; [rewrite Y2 in R|rewrite Y3 in R; discriminate].
    destruct (set_bias_spec _ _ _ _ _ _ R) as [A _].
    split.
    + intros [->|I]; [|exact (J1 I)]. exists ys. split; [exact Y1|]. rewrite (J2 N1), A. simpl.
      rewrite (internal_sfield_dec_lb k k eq_refl). reflexivity.
    + intros N. rewrite J2 by (intros I; apply N; right; exact I). rewrite A. simpl.
      destruct (sfield_beq j k) eqn:E; [|reflexivity]. apply internal_sfield_dec_bl in E. subst. exfalso. apply N. left. reflexivity.
Qed.

Lemma coupled_back : forall X v p f s' r a, is_visit v -> written_file X p = Written f ->
  from_file X v f = (s', Ok r) -> In a close_coupled -> back a p (sp s').
Proof.
  intros X v p f s' r a V W H I.
  destruct V as (V1 & V2 & V3 & V4).
  destruct (from_file_phases _ _ _ _ _ H) as (a0 & a1 & a2 & a3 & a4 & a5 & q0 & q1 & q2 & q3 & q4 & q5 & A0 & A1 & A2 & A3 & A4 & A5 & A6).
  pose proof (before_floats f _ _ _ _ _ _ _ V1 A0 A1 A2) as D.
  assert (NDf : NoDup (map o_key (v_float v))).
  { eapply Permutation_NoDup; [apply Permutation_map; exact V2|]. apply nodupb. vm_compute. reflexivity. }
  assert (LL : forall o, In o (v_float v) -> float_like o).
  { intros o J. apply float_options_like. exact (Permutation_in o (Permutation_sym V2) J). }
  assert (K : exists k, own_field a = Some k /\ (forall q, get_attr a q = VFloat (pf q k)) /\ In a written_attrs /\ In (own_opt KFloat a) float_options).
  { unfold close_coupled in I. repeat (destruct I as [<-|I]; [eexists; split; [reflexivity|]; split; [reflexivity|]; split; [vm_compute; tauto|simpl; tauto]|]). destruct I. }
  destruct K as (k & O & G & IW & IF).
  pose proof (written_entry X p f a W IW) as E. rewrite G in E. cbn [written_value] in E.
  assert (N : number f (attr_key a) = Some (pf p k)) by (unfold number; rewrite E; reflexivity).
  destruct (run_own_field f a k (v_float v) (sp a2) (sp a3) O NDf LL (seqr_after _ _ _ _ _ A3)) as [R1 R2].
  assert (F : pf (sp s') k = pf (sp a3) k).
  { apply getf_pf. rewrite (biases_else _ _ _ _ _ _ _ A6) by discriminate.
    rewrite (opts_else _ _ _ _ _ (seqr_after _ _ _ _ _ A5)), (opts_else _ _ _ _ _ (seqr_after _ _ _ _ _ A4)); [reflexivity| |].
    - intros o J. apply (else_check int_options); [|exact (Permutation_in o (Permutation_sym V3) J)].
      apply own_in in O. simpl in O. clear - O. repeat (destruct O as [<-|O]; [vm_compute; reflexivity|]). destruct O.
    - intros o J. apply (else_check int_or_string_options); [|exact (Permutation_in o (Permutation_sym V4) J)].
      apply own_in in O. simpl in O. clear - O. repeat (destruct O as [<-|O]; [vm_compute; reflexivity|]). destruct O. }
  assert (Dk : pf (sp a2) k = pf default_params k) by (apply D, own_coupled, (own_in _ _ O)).
  assert (C : forall o, In o (v_float v) -> o_attr o = Some a -> changes f (sp a2) o = negb (allclose (pf p k) (pf default_params k))).
  { intros o J A. unfold changes. rewrite A, O. destruct (LL o J) as [_ L]. rewrite A in L. destruct L as [L _]. rewrite L, N, Dk. reflexivity. }
  unfold back. rewrite !G. cbn [number_of]. rewrite F.
  destruct (allclose (pf p k) (pf default_params k)) eqn:AC.
  - right. rewrite R2; [rewrite Dk; split; reflexivity|]. intros o J A. rewrite (C o J A). reflexivity.
  - left. rewrite (R1 (own_opt KFloat a) (pf p k)); [reflexivity|exact (Permutation_in _ V2 IF)|reflexivity| |exact N].
    rewrite (C (own_opt KFloat a)); [reflexivity|exact (Permutation_in _ V2 IF)|reflexivity].
Qed.

(** Specification or proof only; nothing in the code. *)
Definition exact_attrs : list attr :=
  (exact_floats ++ exact_arrays ++ exact_flags ++ exact_ints ++ exact_enums ++ [A_l; A_l_max_g; A_l_max_ur])%list.

Lemma round_trip : forall X v p f s' r, is_visit v -> ranges_ok p -> written_file X p = Written f ->
  from_file X v f = (s', Ok r) ->
  (forall a, In a exact_attrs -> get_attr a (sp s') = get_attr a p) /\
  (forall a, In a close_attrs -> back a p (sp s')) /\
  (forall k, exists ys, bias_values X (psp p k) = inl ys /\ psp (sp s') k = combine (bias_redshifts (psp p k)) ys).
Proof.
  intros X v p f s' r V R W H.
  destruct (from_file_run X v f s' r (written_no_legacy X p f W) H) as (s5 & H5 & HB & HE).
  assert (G : forall a kd, In (own_opt kd a) all_options ->
    local (own_opt kd a) && separateb (own_opt kd a) all_options = true -> In a written_attrs ->
    a <> A_integrals_fftlog_sampling -> a <> A_readonly ->
    exists q w, convert kd (written_value (get_attr a p)) = inl w /\ after a w default_params = Some q /\ get_attr a (sp s') = get_attr a q).
  { intros a kd I L IW N1 N2. destruct (local_result v f (sp s5) a kd V I L N1 N2 H5) as (q & Q1 & Q2).
    unfold opt_after in Q1. cbn [own_opt o_key o_kind o_attr] in Q1. rewrite (written_entry X p f a W IW) in Q1.
    destruct (convert kd (written_value (get_attr a p))) as [w|]; [|discriminate].
    exists q, w. split; [reflexivity|]. split; [exact Q1|]. rewrite <- Q2. apply get_attr_own; [exact N1|exact N2|].
    intros x Hx. apply HE. intros k ->. revert Hx. clear. destruct a; simpl; intros J; repeat (destruct J as [J|J]; [discriminate J|]); exact J. }
  assert (B : forall l kd, forallb (fun a => (existsb (fun o => String.eqb (o_key o) (attr_key a) &&
        match o_attr o with Some b => attr_beq a b | None => false end &&
        match o_kind o, kd with KFloat, KFloat => true | KInt, KInt => true | KFloatArray, KFloatArray => true
                             | KIntArray, KIntArray => true | KIntOrString, KIntOrString => true | _, _ => false end) all_options) &&
      (local (own_opt kd a) && separateb (own_opt kd a) all_options) &&
      existsb (attr_beq a) written_attrs && negb (attr_beq a A_integrals_fftlog_sampling) && negb (attr_beq a A_readonly)) l = true ->
    forall a, In a l -> exists q w, convert kd (written_value (get_attr a p)) = inl w /\ after a w default_params = Some q /\ get_attr a (sp s') = get_attr a q).
  { intros l kd E a I. rewrite forallb_forall in E. specialize (E a I).
    apply andb_prop in E as [E E5]. apply andb_prop in E as [E E4]. apply andb_prop in E as [E E3]. apply andb_prop in E as [E1 E2].
    apply (G a kd).
    - apply existsb_exists in E1 as (o & J & K). apply andb_prop in K as [K K3]. apply andb_prop in K as [K1 K2].
      apply String.eqb_eq in K1. destruct o as [ok okd oa]. cbn [o_key o_kind o_attr] in *.
      destruct oa as [b|]; [|discriminate]. apply internal_attr_dec_bl in K2. subst b ok.
      replace kd with okd; [exact J|]. destruct okd, kd; try discriminate K3; reflexivity.
    - exact E2.
    - apply existsb_exists in E3 as (b & J & K). apply internal_attr_dec_bl in K. subst. exact J.
    - intros ->. discriminate E4.
    - intros ->. discriminate E5. }
  split; [|split].
  - intros a I. unfold exact_attrs in I. rewrite !in_app_iff in I.
    destruct I as [I|[I|[I|[I|[I|I]]]]].
    + destruct (B exact_floats KFloat ltac:(vm_compute; reflexivity) a I) as (q & w & C & A & ->).
      apply (exact_float a p q default_params I). rewrite C. exact A.
    + destruct (B exact_arrays KFloatArray ltac:(vm_compute; reflexivity) a I) as (q & w & C & A & ->).
      exact (exact_array a p q _ w I C A).
    + destruct (B exact_flags KInt ltac:(vm_compute; reflexivity) a I) as (q & w & C & A & ->).
      exact (exact_flag a p q _ w I C A).
    + destruct (B exact_ints KInt ltac:(vm_compute; reflexivity) a I) as (q & w & C & A & ->).
      exact (exact_int a p q w I C A).
    + destruct (B exact_enums KIntOrString ltac:(vm_compute; reflexivity) a I) as (q & w & C & A & ->).
      exact (exact_enum a p q _ w I C A).
    + simpl in I. destruct I as [<-|I].
      * destruct (B [A_l] KIntArray ltac:(vm_compute; reflexivity) A_l (or_introl eq_refl)) as (q & w & C & A & ->).
        exact (exact_l p q _ w C A).
      * destruct (B [A_l_max_g; A_l_max_ur] KFloat ltac:(vm_compute; reflexivity) a I) as (q & w & C & A & ->).
        exact (exact_cint a p q _ w I R C A).
  - intros a I. unfold close_attrs in I. apply in_app_iff in I as [I|I].
    + destruct (B close_local KFloat ltac:(vm_compute; reflexivity) a I) as (q & w & C & A & E).
      pose proof (close_back a p q w I C A) as K. unfold back in *. rewrite E. exact K.
    + exact (coupled_back X v p f s' r a V W H I).
  - intros k. apply (biases_read X f p bias_order s5 s' r W); [|exact HB|destruct k; simpl; tauto].
    repeat constructor; simpl; intuition discriminate.
Qed.

(** ** When a written file loads *)
Lemma progress : forall (Inv : params -> Prop) f l p, Inv p ->
  (forall o q, In o l -> Inv q -> exists q', opt_after f o q = Some q' /\ Inv q') ->
  exists p', opts_after f l p = Some p' /\ Inv p'.
Proof.
  intros Inv f. induction l as [|o l IH]; intros p H S; [exists p; split; [reflexivity|exact H]|].
  destruct (S o p (or_introl eq_refl) H) as (q & Q & Hq). simpl. rewrite Q.
  apply IH; [exact Hq|]. intros o' q' I. apply S. right. exact I.
Qed.

Lemma field_ok : forall p k lo hi, settled p ->
  In k [F_A_s; F_N_ur; F_T_cmb; F_YHe; F_n_s; F_sigma8; F_w0; F_wa; F_h; F_m_ncdm; Omega0_gamma] ->
  documented_range k = Some (lo, hi) -> check_num (VFloat (pf p k)) lo hi = inl (pf p k).
Proof.
  intros p k lo hi S I D.
  assert (A : exists a, float_attr a = Some k).
  { simpl in I. repeat (destruct I as [<-|I]; [match goal with |- exists a, float_attr a = Some ?k =>
      first [exists A_A_s; reflexivity|exists A_N_ur; reflexivity|exists A_T_cmb; reflexivity|exists A_YHe; reflexivity
        |exists A_n_s; reflexivity|exists A_sigma8; reflexivity|exists A_w0; reflexivity|exists A_wa; reflexivity
        |exists A_h; reflexivity|exists A_m_ncdm; reflexivity|exists A_omega_gamma; reflexivity] end|]). destruct I. }
  destruct A as [a A]. exact (proj1 (settled_num p a k lo hi S A D)).
Qed.
Lemma loads_floats : forall a p, settled p -> In a (exact_floats ++ close_local)%list ->
  exists w, convert KFloat (written_value (get_attr a p)) = inl w /\ forall q, exists q', after a w q = Some q'.
Proof.
  intros a p S I. destruct (se_k p S) as (K1 & K2 & K3 & K4). unfold exact_floats, close_local in I. simpl app in I.
  repeat (destruct I as [<-|I]; [eexists; (split; [reflexivity|]); intros q;
    unfold after; cbn [attr_update]; unfold upd_double, upd_k, upd_close; cbn [c_double as_num];
    try (rewrite field_ok by (first [exact S|reflexivity|simpl; tauto]));
    try (rewrite check_num_ok by assumption);
    try (match goal with |- context [allclose ?u ?v] => destruct (allclose u v) end); eexists; reflexivity|]). destruct I.
Qed.
(** Specification or proof only; nothing in the code. *)
Definition lists_given (p : params) : Prop := (forall k, pl p k <> []) /\ pm p <> [].
Lemma list_accepted : forall k ok l q, forallb ok l = true ->
  exists q', match upd_list k ok (floats l) q with Keep => Some q | Put q' => Some q' | _ => None end = Some q'.
Proof.
  intros k ok l q F. unfold upd_list, check_list, elements, floats. rewrite map_res_as_float, F. eauto.
Qed.
Lemma loads_arrays : forall a p, settled p -> lists_given p -> In a exact_arrays ->
  exists w, convert KFloatArray (written_value (get_attr a p)) = inl w /\ forall q, exists q', after a w q = Some q'.
Proof.
  intros a p S [L _] I. pose proof (ro_list p (se_ranges p S)) as R.
  assert (F : forall k ok, (forall x, documented_element k x -> ok x = true) -> forallb ok (pl p k) = true).
  { intros k ok H. apply forallb_forall. intros x Hx. apply H. specialize (R k). rewrite Forall_forall in R. auto. }
  unfold exact_arrays in I.
  repeat (destruct I as [<-|I]; [eexists; (split; [exact (convert_floats _ (L _))|]); intros q;
    unfold after; cbn [attr_update]; apply list_accepted; apply F; intros x [H1 H2];
    cbv beta delta [ok_sep ok_mu ok_redshift ok_pixelsize ok_fsky f0 f1]; rewrite H1, H2; reflexivity|]); destruct I.
Qed.
Lemma loads_flags : forall a p, In a exact_flags ->
  exists w, convert KInt (written_value (get_attr a p)) = inl w /\ forall q, exists q', after a w q = Some q'.
Proof.
  intros a p I. unfold exact_flags in I.
  repeat (destruct I as [<-|I]; [eexists; (split; [reflexivity|]); intros q; eexists; reflexivity|]); destruct I.
Qed.
Lemma loads_ints : forall a p, settled p -> In a exact_ints ->
  exists w, convert KInt (written_value (get_attr a p)) = inl w /\ forall q, exists q', after a w q = Some q'.
Proof.
  intros a p S I. pose proof (ro_int p (se_ranges p S)) as R. unfold exact_ints in I.
  repeat (destruct I as [<-|I]; [eexists; (split; [reflexivity|]); intros q;
    unfold after; cbv beta iota zeta delta [attr_update upd_int upd_N_ncdm check_int as_int];
    match goal with |- context [(pi p ?i <? _)%Z] => pose proof (R i _ _ eq_refl) as RR end;
    repeat (match goal with |- context [if (?x <? ?y)%Z then _ else _] => destruct (Z.ltb_spec x y); [lia|] end);
    try (match goal with |- context [allclose ?u ?v] => destruct (allclose u v) end); eexists; reflexivity|]). destruct I.
Qed.
Lemma loads_enums : forall a p, settled p -> In a exact_enums ->
  exists w, convert KIntOrString (written_value (get_attr a p)) = inl w /\ forall q, exists q', after a w q = Some q'.
Proof.
  intros a p S I. pose proof (ro_int p (se_ranges p S)) as R. unfold exact_enums in I.
  repeat (destruct I as [<-|I]; [
    cbn [get_attr];
    match goal with |- context [enum_name ?t (pi p ?i)] => pose proof (R i _ _ eq_refl) as RR;
      assert (E : exists n, lookup_code t (pi p i) = Some n) by
       (let z := fresh "z" in set (z := pi p i) in *; clearbody z;
        assert (z = 0 \/ z = 1 \/ z = 2 \/ z = 3) as Z by lia; destruct Z as [Z|[Z|[Z|Z]]]; subst z; try lia; eexists; reflexivity);
      destruct E as [n E]; unfold enum_name; rewrite E; pose proof (table_names t ltac:(simpl; tauto) _ _ E) as N end;
    eexists; (split; [reflexivity|]); intros q; unfold after; cbn [attr_update]; unfold upd_enum, check_discrete; rewrite N;
    eexists; reflexivity|]); destruct I.
Qed.
Lemma loads_l : forall p, settled p -> lists_given p ->
  exists w, convert KIntArray (written_value (get_attr A_l p)) = inl w /\ forall q, exists q', after A_l w q = Some q'.
Proof.
  intros p S [_ L]. cbn [get_attr written_value].
  assert (M : forall l, map_res text_int (map VInt l) = inl l).
  { clear. induction l as [|x l IH]; [reflexivity|]. simpl. rewrite IH. reflexivity. }
  assert (M' : forall l, map_res (fun x => match as_int x with Some z => inl z | None => inr TypeError end) (map VInt l) = inl l).
  { clear. induction l as [|x l IH]; [reflexivity|]. simpl. rewrite IH. reflexivity. }
  exists (VList (map VInt (pm p))). split.
  - unfold convert. assert (E : split_elements (VList (map VInt (pm p))) = map VInt (pm p)) by (destruct (pm p); [congruence|reflexivity]).
    rewrite E, M. reflexivity.
  - intros q. unfold after. cbn [attr_update]. unfold check_multipoles, elements. rewrite M'.
    assert (F : forallb (fun z => (0 <=? z)%Z && (z <? 10)%Z) (pm p) = true).
    { apply forallb_forall. intros z Hz. pose proof (ro_multipoles p (se_ranges p S)) as R. rewrite Forall_forall in R.
      specialize (R z Hz). apply andb_true_intro. split; [apply Z.leb_le|apply Z.ltb_lt]; lia. }
    rewrite F. eexists; reflexivity.
Qed.
Lemma loads_cints : forall a p, settled p -> In a [A_l_max_g; A_l_max_ur] ->
  exists w, convert KFloat (written_value (get_attr a p)) = inl w /\ forall q, exists q', after a w q = Some q'.
Proof.
  intros a p S I. pose proof (ro_int p (se_ranges p S)) as R. simpl in I.
  repeat (destruct I as [<-|I]; [eexists; (split; [reflexivity|]); intros q;
    unfold after; cbn [attr_update]; unfold upd_cint, PySet.c_int;
    match goal with |- context [of_Z (pi p ?k)] =>
      pose proof (R k _ _ eq_refl) as RR; destruct (trunc_of_Z (pi p k) ltac:(lia)) as [T1 T2] end;
    rewrite T1, T2; unfold int32;
    match goal with |- context [if ?b then _ else _] => assert (B : b = true) by (apply andb_true_intro; split; apply Z.leb_le; lia); rewrite B end;
    eexists; reflexivity|]); destruct I.
Qed.

(** Every mixture of the default and the written densities leaves room for dark
    energy, and h is not zero: then the file loads in every order.
    Specification or proof only; nothing in the code. *)
Definition either (k : ffield) (p : params) : list f64 := [pf default_params k; pf p k].
Definition roomy (p : params) : Prop :=
  feqb (pf p F_h) f0 = false /\
  forall m b g n, In m (either Omega0_m p) -> In b (either Omega0_baryon p) -> In g (either Omega0_gamma p) ->
    In n [default_nu; nu_of (pf p F_m_ncdm) default_h; nu_of (pf p F_m_ncdm) (pf p F_h)] ->
    check_omegas [pf p Omega0_m; g] = true /\ check_omegas [pf p Omega0_gamma; m] = true /\
    check_omegas [pf p Omega0_baryon; fsub (fsub m b) n; g] = true.
Definition mixed (p q : params) : Prop :=
  (forall k, In k own_fields -> In (pf q k) (either k p)) /\
  In (pf q Omega0_nu) [default_nu; nu_of (pf p F_m_ncdm) default_h; nu_of (pf p F_m_ncdm) (pf p F_h)] /\
  cdm_ok q.

Lemma coupled_loads : forall a p q, settled p -> roomy p -> In a close_coupled -> mixed p q ->
  exists q', after a (VFloat (number_of (get_attr a p))) q = Some q' /\ mixed p q'.
Proof.
  intros a p q S [H0 RO] I (M1 & M2 & M3).
  assert (C : exists q', after a (VFloat (number_of (get_attr a p))) q = Some q').
  { destruct (RO _ _ _ _ (M1 Omega0_m ltac:(simpl; tauto)) (M1 Omega0_baryon ltac:(simpl; tauto)) (M1 Omega0_gamma ltac:(simpl; tauto)) M2) as (R1 & R2 & R3).
    unfold cdm_ok in M3. rewrite <- M3 in R3.
    assert (HQ : feqb (pf q F_h) f0 = false).
    { destruct (M1 F_h ltac:(simpl; tauto)) as [<-|[<-|[]]]; [vm_compute; reflexivity|exact H0]. }
    assert (OM : forall k, In k [Omega0_m; Omega0_baryon; Omega0_gamma; F_m_ncdm] ->
        check_num (VFloat (pf p k)) m100 p100 = inl (pf p k)).
    { intros k K. destruct (se_omega p S k) as (_ & L1 & L2); [simpl in *; tauto|]. apply check_num_ok; assumption. }
    unfold close_coupled in I.
    repeat (destruct I as [<-|I]; [unfold after; cbn [attr_update get_attr number_of];
      unfold upd_omega_m, upd_omega_baryon, upd_omega_gamma, upd_h, upd_m_ncdm;
      first [rewrite OM by (simpl; tauto)|rewrite field_ok by (first [exact S|reflexivity|simpl; tauto])];
      (match goal with |- context [allclose ?u ?v] => destruct (allclose u v) end); [eexists; reflexivity|];
      rewrite ?R1, ?R2, ?R3, ?HQ; eexists; reflexivity|]). destruct I. }
  destruct C as (q' & C). exists q'. split; [exact C|].
  assert (K : exists k, own_field a = Some k /\ get_attr a p = VFloat (pf p k)).
  { unfold close_coupled in I. repeat (destruct I as [<-|I]; [eexists; split; reflexivity|]). destruct I. }
  destruct K as (k & O & G). rewrite G in C. cbn [number_of] in C.
  pose proof (coupled_step a k (pf p k) q q' O C) as T.
  destruct (allclose (pf p k) (pf q k)); [subst q'; repeat split; assumption|].
  destruct T as (T1 & T2 & _ & T4 & T5). split; [|split; [|exact (T4 M3)]].
  - intros j J. destruct (ffield_eq_dec j k) as [->|N]; [rewrite T1; right; left; reflexivity|].
    rewrite (T2 j J N). exact (M1 j J).
  - rewrite T5. destruct (attr_beq a A_m_ncdm) eqn:E; [|exact M2]. apply internal_attr_dec_bl in E. subst a.
    injection O as <-. destruct (M1 F_h ltac:(simpl; tauto)) as [<-|[<-|[]]]; simpl; tauto.
Qed.

Lemma mixed_else : forall p q q', (forall k, In k coupled_fields -> pf q' k = pf q k) -> mixed p q -> mixed p q'.
Proof.
  intros p q q' E (M1 & M2 & M3). unfold mixed, cdm_ok in *. rewrite !E by (simpl; tauto).
  split; [|split; assumption]. intros k K. rewrite E by (apply own_coupled; exact K). exact (M1 k K).
Qed.

(** One option of a written file, whatever came before it. *)
Lemma written_step : forall X p f o q, written_file X p = Written f -> settled p -> lists_given p -> roomy p ->
  In o all_options -> mixed p q -> exists q', opt_after f o q = Some q' /\ mixed p q'.
Proof.
  intros X p f o q W S L RO I M.
  assert (ABS : forall o, existsb (String.eqb (o_key o)) (map attr_key written_attrs ++ table_keys all_biases)%list = false ->
    exists q', opt_after f o q = Some q' /\ mixed p q').
  { intros o' N. exists q. unfold opt_after. rewrite (written_missing X p f _ W N). split; [reflexivity|exact M]. }
  assert (LOC : forall kd a, In a written_attrs -> disjointb (attr_writes a) (map FF coupled_fields) = true ->
    (exists w, convert kd (written_value (get_attr a p)) = inl w /\ forall q, exists q', after a w q = Some q') ->
    exists q', opt_after f (own_opt kd a) q = Some q' /\ mixed p q').
  { intros kd a IW D (w & C & A). destruct (A q) as (q' & Q). exists q'. split.
    - unfold opt_after. cbn [own_opt o_key o_kind o_attr]. rewrite (written_entry X p f a W IW), C. exact Q.
    - apply (mixed_else p q); [|exact M]. intros k K. apply getf_pf. apply (after_else _ _ _ _ _ Q).
      intros J. unfold disjointb in D. rewrite forallb_forall in D. specialize (D (FF k) (in_map FF _ _ K)).
      apply negb_true_iff in D. apply memb_In in J. congruence. }
  assert (CPL : forall a, In a close_coupled -> In a written_attrs -> exists q', opt_after f (own_opt KFloat a) q = Some q' /\ mixed p q').
  { intros a J IW. destruct (coupled_loads a p q S RO J M) as (q' & Q1 & Q2). exists q'. split; [|exact Q2].
    unfold opt_after. cbn [own_opt o_key o_kind o_attr]. rewrite (written_entry X p f a W IW).
    assert (G : get_attr a p = VFloat (number_of (get_attr a p))).
    { clear - J. unfold close_coupled in J. repeat (destruct J as [<-|J]; [reflexivity|]). destruct J. }
    rewrite G in *. cbn [number_of written_value convert text_float] in *. exact Q1. }
  assert (IW : forall a, existsb (attr_beq a) written_attrs = true -> In a written_attrs).
  { intros a E. apply existsb_exists in E as (b & J & K). apply internal_attr_dec_bl in K. subst. exact J. }
  unfold all_options, loaded_options, source_order in I. cbn [v_float_array v_float v_int v_enum] in I.
  rewrite in_app_iff in I. destruct I as [I|[I|I]].
  - unfold float_array_options in I. apply in_map_iff in I as (a & <- & I).
    apply LOC; [apply IW|destruct (in_split a _ I)|apply loads_arrays; assumption].
    + simpl in I. repeat (destruct I as [<-|I]; [vm_compute; reflexivity|]). destruct I.
    + simpl in I. repeat (destruct I as [<-|I]; [vm_compute; reflexivity|]). destruct I.
  - rewrite <- I. apply LOC; [apply IW; vm_compute; reflexivity|vm_compute; reflexivity|apply loads_l; assumption].
  - rewrite !in_app_iff in I. destruct I as [I|[I|I]].
    + unfold float_options in I. destruct I as [<-|I]; [apply ABS; vm_compute; reflexivity|].
      apply in_map_iff in I as (a & <- & I).
      assert (D : In a close_coupled \/ In a (exact_floats ++ close_local)%list \/ In a [A_l_max_g; A_l_max_ur]).
      { clear - I. simpl in I. repeat (destruct I as [<-|I]; [simpl; tauto|]). destruct I. }
      destruct D as [D|[D|D]].
      * apply CPL; [exact D|]. apply IW. clear - D. simpl in D. repeat (destruct D as [<-|D]; [vm_compute; reflexivity|]). destruct D.
      * apply LOC; [apply IW| |apply loads_floats; assumption].
        -- clear - D. simpl in D. repeat (destruct D as [<-|D]; [vm_compute; reflexivity|]). destruct D.
        -- clear - D. simpl in D. repeat (destruct D as [<-|D]; [vm_compute; reflexivity|]). destruct D.
      * apply LOC; [apply IW| |apply loads_cints; assumption].
        -- clear - D. simpl in D. repeat (destruct D as [<-|D]; [vm_compute; reflexivity|]). destruct D.
        -- clear - D. simpl in D. repeat (destruct D as [<-|D]; [vm_compute; reflexivity|]). destruct D.
    + unfold int_options in I. apply in_map_iff in I as (a & <- & I).
      assert (D : In a exact_flags \/ In a exact_ints \/ a = A_integrals_fftlog_sampling).
      { clear - I. simpl in I. repeat (destruct I as [<-|I]; [simpl; tauto|]). destruct I. }
      destruct D as [D|[D|D]].
      * apply LOC; [apply IW| |apply loads_flags; assumption].
        -- clear - D. simpl in D. repeat (destruct D as [<-|D]; [vm_compute; reflexivity|]). destruct D.
        -- clear - D. simpl in D. repeat (destruct D as [<-|D]; [vm_compute; reflexivity|]). destruct D.
      * apply LOC; [apply IW| |apply loads_ints; assumption].
        -- clear - D. simpl in D. repeat (destruct D as [<-|D]; [vm_compute; reflexivity|]). destruct D.
        -- clear - D. simpl in D. repeat (destruct D as [<-|D]; [vm_compute; reflexivity|]). destruct D.
      * subst a. apply ABS. vm_compute. reflexivity.
    + unfold int_or_string_options in I. apply in_map_iff in I as (a & <- & I).
      assert (D : In a exact_enums) by (clear - I; simpl in I; repeat (destruct I as [<-|I]; [simpl; tauto|]); destruct I).
      apply LOC; [apply IW| |apply loads_enums; assumption].
      * clear - D. simpl in D. repeat (destruct D as [<-|D]; [vm_compute; reflexivity|]). destruct D.
      * clear - D. simpl in D. repeat (destruct D as [<-|D]; [vm_compute; reflexivity|]). destruct D.
Qed.

(** The bias tables to_file writes are ones set_bias accepts.  Specification or proof only; nothing in the code. *)
Definition tables_accepted (X : cfg_ext) (p : params) : Prop :=
  forall k, psp p k <> [] /\ forall ys, bias_values X (psp p k) = inl ys ->
  exists s r, set_bias k (bias_redshifts (psp p k)) ys coffe0 = (s, Ok r).

Lemma biases_load : forall X f p l s, written_file X p = Written f -> tables_accepted X p ->
  exists s' r, seqr (read_bias X f) l s = (s', Ok r).
Proof.
  intros X f p. induction l as [|k l IH]; intros s W T; [eexists _, _; reflexivity|].
  destruct (T k) as [NE A]. destruct (written_source X p f k W) as (ys & Y1 & [Y2|[Y2 _]]); [|contradiction].
  destruct (A ys Y1) as (s0 & r0 & B). destruct (set_bias_spec _ _ _ _ _ _ B) as [_ G].
  destruct (G s) as (s1 & r1 & E & _). simpl. unfold bindr, read_bias. rewrite Y2, E. exact (IH s1 W T).
Qed.

Lemma written_loads : forall X v p f, is_visit v -> settled p -> lists_given p -> roomy p -> tables_accepted X p ->
  written_file X p = Written f -> exists s r, from_file X v f = (s, Ok r).
Proof.
  intros X v p f V S L RO T W. pose proof V as (V1 & V2 & V3 & V4).
  assert (ST : forall l, (forall o, In o l -> In o all_options) -> forall s, mixed p (sp s) ->
    exists s' r, seqr (read_option f) l s = (s', Ok r) /\ mixed p (sp s')).
  { intros l I s M. destruct (progress (mixed p) f l (sp s) M) as (q & Q & Mq).
    - intros o q J. apply (written_step X p f o q W S L RO (I o J)).
    - destruct (after_seqr f l s q Q) as (s' & r & E & <-). eauto. }
  assert (M0 : mixed p (sp coffe0)).
  { split; [|split].
    - intros k _. left. reflexivity.
    - left. reflexivity.
    - unfold cdm_ok. vm_compute. reflexivity. }
  assert (IN : forall l0 l, Permutation l0 l -> (forall o, In o l0 -> In o all_options) -> forall o, In o l -> In o all_options).
  { intros l0 l P J o I. apply J. exact (Permutation_in o (Permutation_sym P) I). }
  unfold all_options, loaded_options, source_order in IN. cbn [v_float_array v_float v_int v_enum] in IN.
  destruct (ST (v_float_array v)) with (s := coffe0) as (s1 & r1 & E1 & M1); [|exact M0|].
  { apply (IN _ _ V1). intros o J. rewrite !in_app_iff. tauto. }
  destruct (ST [own_opt KIntArray A_l]) with (s := s1) as (s2 & r2 & E2 & M2); [|exact M1|].
  { intros o [<-|[]]. unfold all_options, loaded_options. rewrite !in_app_iff. right. left. reflexivity. }
  destruct (ST (v_float v)) with (s := s2) as (s3 & r3 & E3 & M3); [|exact M2|].
  { apply (IN _ _ V2). intros o J. rewrite in_app_iff. right. right. rewrite !in_app_iff. tauto. }
  destruct (ST (v_int v)) with (s := s3) as (s4 & r4 & E4 & M4); [|exact M3|].
  { apply (IN _ _ V3). intros o J. rewrite in_app_iff. right. right. rewrite !in_app_iff. tauto. }
  destruct (ST (v_enum v)) with (s := s4) as (s5 & r5 & E5 & M5); [|exact M4|].
  { apply (IN _ _ V4). intros o J. rewrite in_app_iff. right. right. rewrite !in_app_iff. tauto. }
  destruct (biases_load X f p bias_order s5 W T) as (s6 & r6 & E6).
  assert (E2' : exists r, read_option f (own_opt KIntArray A_l) s1 = (s2, Ok r)).
  { cbn [seqr] in E2. unfold bindr in E2. destruct (read_option f (own_opt KIntArray A_l) s1) as [s2' [x|e|]]; try discriminate.
    injection E2 as <- _. eauto. }
  destruct E2' as (r2' & E2').
  exists s6, r6. exact (phases_from_file X v f s6 r6 _ _ _ _ _ _ _ _ _ _ _ _ (preamble_none f (written_no_legacy X p f W)) E1 E2' E3 E4 E5 E6).
Qed.
