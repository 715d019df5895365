(** * Which fields an assignment writes. *)
From Coq Require Import ZArith Bool List String Lia.
From Verif Require Import F64 PyParams PySet Integrals PyState PySpec.
Import ListNotations.
Open Scope Z_scope.

Scheme Equality for field.

Lemma field_beq_eq : forall a b, field_beq a b = true <-> a = b.
Proof.
  intros a b; split.
  - apply internal_field_dec_bl.
  - apply internal_field_dec_lb.
Qed.

(** Specification or proof only; nothing in the code. *)
Definition memb (x : field) (l : list field) : bool := existsb (field_beq x) l.

Lemma memb_In : forall x l, memb x l = true <-> In x l.
Proof.
  intros x l. unfold memb. rewrite existsb_exists. split.
  - intros [y [Hy He]]. apply field_beq_eq in He. subst. exact Hy.
  - intros H. exists x. split; [exact H | apply field_beq_eq; reflexivity].
Qed.

Definition disjointb (w fs : list field) : bool := forallb (fun x => negb (memb x w)) fs.

Lemma same_except_view :
  forall w q p fs, same_except w q p -> disjointb w fs = true -> view q fs = view p fs.
Proof.
  intros w q p fs H D. unfold view. apply map_ext_in. intros x Hx.
  apply H. intros Hw. unfold disjointb in D. rewrite forallb_forall in D.
  specialize (D x Hx). apply memb_In in Hw. rewrite Hw in D. discriminate.
Qed.

Lemma disjoint_memb : forall w fs x,
  disjointb w fs = true -> memb x fs = true -> memb x w = false.
Proof.
  intros w fs x D M. unfold disjointb in D. rewrite forallb_forall in D.
  apply memb_In in M. specialize (D x M). destruct (memb x w); [discriminate|reflexivity].
Qed.

Lemma disjoint_sub : forall w fs gs,
  disjointb w fs = true -> forallb (fun x => memb x fs) gs = true -> disjointb w gs = true.
Proof.
  intros w fs gs D M. unfold disjointb. apply forallb_forall. intros x Hx.
  rewrite forallb_forall in M. rewrite (disjoint_memb w fs x D (M x Hx)). reflexivity.
Qed.

Lemma same_except_get :
  forall w q p x, same_except w q p -> memb x w = false -> getf q x = getf p x.
Proof.
  intros w q p x H M. apply H. intros Hx. apply memb_In in Hx. congruence.
Qed.

Lemma same_except_pf : forall w q p k,
  same_except w q p -> memb (FF k) w = false -> pf q k = pf p k.
Proof. intros w q p k H M. pose proof (same_except_get _ _ _ _ H M) as E. simpl in E. congruence. Qed.
Lemma same_except_pi : forall w q p k,
  same_except w q p -> memb (FI k) w = false -> pi q k = pi p k.
Proof. intros w q p k H M. pose proof (same_except_get _ _ _ _ H M) as E. simpl in E. congruence. Qed.
Lemma same_except_pb : forall w q p k,
  same_except w q p -> memb (FB k) w = false -> pb q k = pb p k.
Proof. intros w q p k H M. pose proof (same_except_get _ _ _ _ H M) as E. simpl in E. congruence. Qed.
Lemma same_except_pl : forall w q p k,
  same_except w q p -> memb (FL k) w = false -> pl q k = pl p k.
Proof. intros w q p k H M. pose proof (same_except_get _ _ _ _ H M) as E. simpl in E. congruence. Qed.
Lemma same_except_pm : forall w q p,
  same_except w q p -> memb FM w = false -> pm q = pm p.
Proof. intros w q p H M. pose proof (same_except_get _ _ _ _ H M) as E. simpl in E. congruence. Qed.

Lemma same_except_refl : forall w p, same_except w p p.
Proof. intros w p x _. reflexivity. Qed.

Lemma same_except_sym : forall w p q, same_except w p q -> same_except w q p.
Proof. intros w p q H x Hx. symmetry. apply H. exact Hx. Qed.

Lemma same_except_trans : forall w p q r,
  same_except w p q -> same_except w q r -> same_except w p r.
Proof. intros w p q r H1 H2 x Hx. rewrite (H1 x Hx). apply H2. exact Hx. Qed.

Lemma same_except_incl : forall w w' p q,
  same_except w p q -> incl w w' -> same_except w' p q.
Proof. intros w w' p q H I x Hx. apply H. intros Hw. apply Hx. apply I. exact Hw. Qed.

Lemma params_eq_same : forall w p q, params_eq p q -> same_except w p q.
Proof. intros w p q H x _. apply H. Qed.

Lemma setF_same : forall p k v, same_except [FF k] (setF p k v) p.
Proof.
  intros p k v [f|i|b|l| |s] H; simpl; try reflexivity.
  destruct (ffield_beq k f) eqn:E; [|reflexivity].
  apply internal_ffield_dec_bl in E. subst. exfalso. apply H. left. reflexivity.
Qed.
Lemma setI_same : forall p k v, same_except [FI k] (setI p k v) p.
Proof.
  intros p k v [f|i|b|l| |s] H; simpl; try reflexivity.
  destruct (ifield_beq k i) eqn:E; [|reflexivity].
  apply internal_ifield_dec_bl in E. subst. exfalso. apply H. left. reflexivity.
Qed.
Lemma setB_same : forall p k v, same_except [FB k] (setB p k v) p.
Proof.
  intros p k v [f|i|b|l| |s] H; simpl; try reflexivity.
  destruct (bfield_beq k b) eqn:E; [|reflexivity].
  apply internal_bfield_dec_bl in E. subst. exfalso. apply H. left. reflexivity.
Qed.
Lemma setL_same : forall p k v, same_except [FL k] (setL p k v) p.
Proof.
  intros p k v [f|i|b|l| |s] H; simpl; try reflexivity.
  destruct (lfield_beq k l) eqn:E; [|reflexivity].
  apply internal_lfield_dec_bl in E. subst. exfalso. apply H. left. reflexivity.
Qed.
Lemma setM_same : forall p v, same_except [FM] (setM p v) p.
Proof.
  intros p v [f|i|b|l| |s] H; simpl; try reflexivity. exfalso. apply H. left. reflexivity.
Qed.
Lemma setS_same : forall p k v, same_except [FS k] (setS p k v) p.
Proof.
  intros p k v [f|i|b|l| |s] H; simpl; try reflexivity.
  destruct (sfield_beq k s) eqn:E; [|reflexivity].
  apply internal_sfield_dec_bl in E. subst. exfalso. apply H. left. reflexivity.
Qed.

(** Step rules used to follow a chain of field updates. *)
Ltac in_list := apply memb_In; reflexivity.
Lemma se_setF : forall w p q k v, same_except w p q -> In (FF k) w -> same_except w (setF p k v) q.
Proof.
  intros w p q k v H I. apply (same_except_trans w _ p); [|exact H].
  apply (same_except_incl [FF k]); [apply setF_same|]. intros x [<-|[]]. exact I.
Qed.
Lemma se_setI : forall w p q k v, same_except w p q -> In (FI k) w -> same_except w (setI p k v) q.
Proof.
  intros w p q k v H I. apply (same_except_trans w _ p); [|exact H].
  apply (same_except_incl [FI k]); [apply setI_same|]. intros x [<-|[]]. exact I.
Qed.
Lemma se_setB : forall w p q k v, same_except w p q -> In (FB k) w -> same_except w (setB p k v) q.
Proof.
  intros w p q k v H I. apply (same_except_trans w _ p); [|exact H].
  apply (same_except_incl [FB k]); [apply setB_same|]. intros x [<-|[]]. exact I.
Qed.
Lemma se_setL : forall w p q k v, same_except w p q -> In (FL k) w -> same_except w (setL p k v) q.
Proof.
  intros w p q k v H I. apply (same_except_trans w _ p); [|exact H].
  apply (same_except_incl [FL k]); [apply setL_same|]. intros x [<-|[]]. exact I.
Qed.
Lemma se_setM : forall w p q v, same_except w p q -> In FM w -> same_except w (setM p v) q.
Proof.
  intros w p q v H I. apply (same_except_trans w _ p); [|exact H].
  apply (same_except_incl [FM]); [apply setM_same|]. intros x [<-|[]]. exact I.
Qed.
Lemma se_setS : forall w p q k v, same_except w p q -> In (FS k) w -> same_except w (setS p k v) q.
Proof.
  intros w p q k v H I. apply (same_except_trans w _ p); [|exact H].
  apply (same_except_incl [FS k]); [apply setS_same|]. intros x [<-|[]]. exact I.
Qed.

(** The fields an assignment may write.  Specification or proof only; nothing in the code. *)
Definition attr_writes (a : attr) : list field :=
  match a with
  | A_A_s => [FF F_A_s]
  | A_N_ncdm => [FI I_N_ncdm]
  | A_N_ur => [FF F_N_ur]
  | A_T_cmb => [FF F_T_cmb]
  | A_YHe => [FF F_YHe]
  | A_background_sampling => [FI I_background_bins]
  | A_covariance_cosmic => [FB B_covariance_cosmic]
  | A_covariance_integration_method => [FI I_covariance_integration_method]
  | A_covariance_integration_sampling => [FI I_covariance_integration_bins]
  | A_covariance_interpolation_method => [FI I_covariance_interpolation_method]
  | A_covariance_mixed => [FB B_covariance_mixed]
  | A_covariance_poisson => [FB B_covariance_poisson]
  | A_covariance_populations => [FI I_pop1; FI I_pop2; FI I_pop3; FI I_pop4]
  | A_deltaz => [FL L_deltaz]
  | A_fsky => [FL L_fsky]
  | A_h => [FF F_h; FF Omega0_de]
  | A_has_binned_covariance => [FB B_covariance_window]
  | A_has_d1 => [FB B_d1]
  | A_has_d2 => [FB B_d2]
  | A_has_density => [FB B_den]
  | A_has_flatsky_local => [FB B_flatsky_local]
  | A_has_flatsky_local_nonlocal => [FB B_flatsky_local_nonlocal]
  | A_has_flatsky_nonlocal => [FB B_flatsky_nonlocal]
  | A_has_g1 => [FB B_g1]
  | A_has_g2 => [FB B_g2]
  | A_has_g3 => [FB B_g3]
  | A_has_g4 => [FB B_g4]
  | A_has_g5 => [FB B_g5]
  | A_has_lensing => [FB B_len]
  | A_has_only_cross_correlations => [FB B_only_cross]
  | A_has_rsd => [FB B_rsd]
  | A_integrals_fftlog_sampling => []
  | A_integration_1d_prec => [FF F_integration_1d_prec]
  | A_integration_1d_type => [FI I_integration_1d_type]
  | A_integration_sampling => [FI I_integration_bins]
  | A_k_max => [FF F_k_max; FF F_k_max_norm]
  | A_k_min => [FF F_k_min; FF F_k_min_norm]
  | A_k_per_decade_for_bao => [FF F_k_per_decade_for_bao]
  | A_k_per_decade_for_pk => [FF F_k_per_decade_for_pk]
  | A_l => [FM]
  | A_l_max_g => [FI I_l_max_g]
  | A_l_max_ur => [FI I_l_max_ur]
  | A_m_ncdm => [FF F_m_ncdm; FF Omega0_nu; FF Omega0_cdm; FF Omega0_de]
  | A_mu => [FL L_mu]
  | A_n_s => [FF F_n_s]
  | A_number_density1 => [FL L_density1]
  | A_number_density2 => [FL L_density2]
  | A_omega_baryon => [FF Omega0_baryon; FF Omega0_cdm; FF Omega0_de]
  | A_omega_cdm => [FF Omega0_cdm; FF Omega0_m; FF Omega0_de]
  | A_omega_gamma => [FF Omega0_gamma; FF Omega0_de]
  | A_omega_m => [FF Omega0_m; FF Omega0_cdm; FF Omega0_de]
  | A_pixelsize => [FL L_pixelsize]
  | A_pk_type => [FI I_pk_type]
  | A_radiation_streaming_trigger_tau_over_tau_k => [FF F_radiation_streaming_trigger]
  | A_sep => [FL L_sep]
  | A_sigma8 => [FF F_sigma8]
  | A_start_large_k_at_tau_h_over_tau_k => [FF F_start_large_k_at_tau_h_over_tau_k]
  | A_tol_perturb_integration => [FF F_tol_perturb_integration]
  | A_ur_fluid_trigger_tau_over_tau_k => [FF F_ur_fluid_trigger]
  | A_verbose => [FB B_verbose]
  | A_w0 => [FF F_w0]
  | A_wa => [FF F_wa]
  | A_z_max => [FL L_zmax]
  | A_z_mean => [FL L_z_mean]
  | A_z_min => [FL L_zmin]
  | A_readonly => []
  end.

Ltac updates :=
  repeat (first
    [ apply same_except_refl
    | apply se_setF; [|in_list] | apply se_setI; [|in_list]
    | apply se_setB; [|in_list] | apply se_setL; [|in_list]
    | apply se_setM; [|in_list] | apply se_setS; [|in_list] ]).

Lemma attr_update_Put :
  forall a v p p', attr_update a v p = Put p' -> same_except (attr_writes a) p' p.
Proof.
  intros a v p p' H.
  destruct a; cbv beta iota zeta delta [attr_update attr_writes
    upd_close upd_double upd_cint upd_int upd_bool upd_enum upd_list upd_omega_cdm
    upd_omega_m upd_omega_baryon upd_omega_gamma upd_h upd_m_ncdm upd_N_ncdm upd_k
    upd_populations upd_integrals_fftlog_sampling rebalance_cdm balance] in *;
  repeat match type of H with
         | context [match ?x with _ => _ end] => destruct x; try discriminate H
         end; try discriminate H; injection H as <-; updates.
Qed.

(** Only m_ncdm can be left half-assigned, and only when h is zero. *)
Lemma attr_update_Part :
  forall a v p p' e, attr_update a v p = Part p' e ->
  a = A_m_ncdm /\ feqb (pf p F_h) f0 = true /\ same_except [FF F_m_ncdm] p' p
  /\ e = ZeroDivisionError.
Proof.
  intros a v p p' e H.
  destruct a; cbv beta iota zeta delta [attr_update
    upd_close upd_double upd_cint upd_int upd_bool upd_enum upd_list upd_omega_cdm
    upd_omega_m upd_omega_baryon upd_omega_gamma upd_h upd_m_ncdm upd_N_ncdm upd_k
    upd_populations upd_integrals_fftlog_sampling] in H;
  repeat match type of H with
         | context [match ?x with _ => _ end] => destruct x eqn:?; try discriminate H
         end; try discriminate H.
  injection H as <- <-. repeat split; try assumption. updates.
Qed.
