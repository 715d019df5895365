(** * Properties C06-C10, C50, C51: assignments, validation, density budgets. *)
From Coq Require Import ZArith Bool List String Lia.
From Verif Require Import F64 PyParams PySet Integrals PyState PySpec PyWrites PyCoherence PyAlways
  PyValid Props_Cache.
Import ListNotations.
Open Scope Z_scope.

(** ** C06: a rejected assignment changes nothing *)

(** The full property, for every assignment interface. *)
Definition rejection_is_harmless : Prop :=
  (forall a v s s' e, set_attr a v s = (s', Raise e) -> s' = s) /\
  (forall b x y s s' e, set_bias b x y s = (s', Raise e) -> s' = s) /\
  (forall k pk s s' e, set_power_spectrum k pk s = (s', Raise e) -> s' = s).

Theorem C06_rejected_assignment_partial :
  (forall a v s s' e, ~ (a = A_m_ncdm /\ feqb (pf (sp s) F_h) f0 = true) ->
     set_attr a v s = (s', Raise e) -> s' = s) /\
  (forall b x y s s' e, set_bias b x y s = (s', Raise e) -> s' = s) /\
  (forall k pk s s' e, k <> [] -> set_power_spectrum k pk s = (s', Raise e) -> s' = s).
Proof.
  split; [|split].
  - intros a v s s' e N H. exact (set_attr_reject a v s s' e H N).
  - exact set_bias_reject.
  - intros k pk s s' e N H. exact (set_pk_reject k pk s s' e H N).
Qed.
Print Assumptions C06_rejected_assignment_partial.
Example C06_nonvacuous :
  set_attr A_omega_m (VFloat (of_Z 2)) coffe0 = (coffe0, Raise ValueError) /\
  set_attr A_sep (VStr "50") coffe0 = (coffe0, Raise ValueError) /\
  set_attr A_pk_type (VStr "nonsense") coffe0 = (coffe0, Raise ValueError) /\
  set_bias S_galaxy_bias1 [f1; f0] [f1; f1] coffe0 = (coffe0, Raise ValueError) /\
  set_power_spectrum [f1; of_Z 2] [f1] coffe0 = (coffe0, Raise ValueError).
Proof. repeat split; vm_compute; reflexivity. Qed.

(** With h = 0 an assignment to m_ncdm raises ZeroDivisionError and is stored
    all the same; an empty spectrum raises IndexError and drops the computed results. *)
Theorem C06_m_ncdm_refuted : exists l s s',
  run cl0 l coffe0 = Some s /\
  set_attr A_m_ncdm (VFloat (lit 6 100)) s = (s', Raise ZeroDivisionError) /\
  pf (sp s') F_m_ncdm <> pf (sp s) F_m_ncdm.
Proof.
  exists [OpSet A_h (VFloat f0)]. eexists. eexists. split; [|split].
  - vm_compute. reflexivity.
  - vm_compute. reflexivity.
  - vm_compute. discriminate.
Qed.
Theorem C06_rejected_assignment_refuted : ~ rejection_is_harmless.
Proof.
  intros (H & _ & _). destruct C06_m_ncdm_refuted as (l & s & s' & _ & E & N).
  apply N. rewrite (H _ _ _ _ _ E). reflexivity.
Qed.
Print Assumptions C06_rejected_assignment_refuted.
Theorem C06_empty_spectrum_refuted :
  after cl0 [OpBulk SMult false] (fun s =>
    match set_power_spectrum [] [] s with
    | (s', Raise IndexError) => is_some (c_pk s) && negb (is_some (c_pk s'))
    | _ => false end) = true.
Proof. vm_compute. reflexivity. Qed.

(** ** C07: documented ranges *)

(** Every value handed out lies in the range its setter announces. *)
Definition always_in_range : Prop :=
  forall cl l s f lo hi, run cl l coffe0 = Some s -> documented_range f = Some (lo, hi) ->
    fleb lo (pf (sp s) f) = true /\ fleb (pf (sp s) f) hi = true.

(** NaN excepted. *)
Theorem C07_ranges_partial : forall cl l s, run cl l coffe0 = Some s -> ranges_ok (sp s).
Proof. exact run_ranges_ok. Qed.
Print Assumptions C07_ranges_partial.
(** Spelled out: every separation, angle, redshift, density, pixel size, sky
    fraction and multipole, after every history. *)
Theorem C07_lists : forall cl l s, run cl l coffe0 = Some s ->
  Forall (fun x => fltb (of_Z 0) x = true /\ fltb x (of_Z 10000) = true) (pl (sp s) L_sep) /\
  Forall (fun x => fltb (of_Z (-1)) x = true /\ fltb x (of_Z 1) = true) (pl (sp s) L_mu) /\
  Forall (fun x => fleb (of_Z 0) x = true /\ fltb x (of_Z 10) = true) (pl (sp s) L_z_mean) /\
  Forall (fun x => fltb (of_Z 0) x = true /\ fltb x (of_Z 1000) = true) (pl (sp s) L_pixelsize) /\
  Forall (fun x => fltb (of_Z 0) x = true /\ fleb x (of_Z 1) = true) (pl (sp s) L_fsky) /\
  Forall (fun x => 0 <= x <= 9) (pm (sp s)).
Proof.
  intros cl l s H. destruct (run_ranges_ok cl l s H) as [_ _ R M].
  repeat split; [exact (R L_sep)|exact (R L_mu)|exact (R L_z_mean)|exact (R L_pixelsize)|exact (R L_fsky)|exact M].
Qed.
Print Assumptions C07_lists.
Example C07_nonvacuous :
  after cl0 [OpSet A_sep (floats [of_Z 50]); OpSet A_l (VList [VInt 9]); OpSet A_mu (floats [lit 5 10])]
    (fun s => Nat.eqb (List.length (pl (sp s) L_sep)) 1) = true.
Proof. vm_compute. reflexivity. Qed.

Theorem C07_ranges_refuted : ~ always_in_range.
Proof.
  intros H.
  destruct (run cl0 [OpSet A_w0 (VFloat SpecFloat.S754_nan)] coffe0) as [s|] eqn:E; [|vm_compute in E; discriminate].
  destruct (H cl0 _ s F_w0 _ _ E eq_refl) as [X _]. revert X.
  assert (Y : after cl0 [OpSet A_w0 (VFloat SpecFloat.S754_nan)] (fun s => negb (fleb (of_Z (-100)) (pf (sp s) F_w0))) = true)
    by (vm_compute; reflexivity).
  unfold after in Y. rewrite E in Y. destruct (fleb _ _); [discriminate Y|discriminate].
Qed.
(** Values derived by another setter, and the wavenumber range taken from a
    supplied spectrum, are not checked: omega_cdm = -99.9 (accepted range
    [-100, 100] for omega_baryon gives a dark matter density of -0.7 or 100.2),
    k_min = 1 where the setter allows at most 0.001. *)
Theorem C07_derived_out_of_range :
  after cl0 [OpSet A_omega_baryon (VFloat (lit 5 10))] (fun s => fltb (pf (sp s) Omega0_cdm) f0) = true /\
  after cl0 [OpSet A_omega_baryon (VFloat (of_Z (-100)))] (fun s => fltb (of_Z 100) (pf (sp s) Omega0_cdm)) = true /\
  after cl0 [OpSetPk (map of_Z [1; 2; 3; 4; 5]) (map of_Z [1; 1; 1; 1; 1])]
    (fun s => fltb (lit 1 1000) (pf (sp s) F_k_min)) = true.
Proof. repeat split; vm_compute; reflexivity. Qed.

(** ** C08: the energy budget *)

(** Exactly, in floating point: the stored value is what the formula
    1 - omega_m - omega_gamma gives from the stored densities; the object as
    constructed has 1 - (omega_m + omega_gamma), same densities. *)
Theorem C08_energy_budget : forall cl l s, run cl l coffe0 = Some s ->
  pf (sp s) Omega0_de = fsub (fsub (of_Z 1) (pf (sp s) Omega0_m)) (pf (sp s) Omega0_gamma) \/
  (pf (sp s) Omega0_m = lit 3 10 /\ pf (sp s) Omega0_gamma = lit 9 100000 /\
   pf (sp s) Omega0_de = fsub (of_Z 1) (fadd (lit 3 10) (lit 9 100000))).
Proof. exact run_de_budget. Qed.
Print Assumptions C08_energy_budget.
Example C08_nonvacuous :
  after cl0 [OpSet A_omega_m (VFloat (lit 4 10)); OpSet A_omega_gamma (VFloat f0)]
    (fun s => feqb (pf (sp s) Omega0_de) (fsub f1 (lit 4 10))) = true.
Proof. vm_compute. reflexivity. Qed.

(** ** C09: the matter budget *)

Definition matter_budget : Prop :=
  forall cl l s, run cl l coffe0 = Some s ->
  pf (sp s) Omega0_cdm =
    fsub (fsub (pf (sp s) Omega0_m) (pf (sp s) Omega0_baryon)) (pf (sp s) Omega0_nu).
(** Either that, or omega_cdm was the last matter density assigned, and then the
    neutrinos are missing in omega_m. *)
Theorem C09_matter_budget_partial : forall cl l s, run cl l coffe0 = Some s ->
  pf (sp s) Omega0_cdm =
    fsub (fsub (pf (sp s) Omega0_m) (pf (sp s) Omega0_baryon)) (pf (sp s) Omega0_nu) \/
  pf (sp s) Omega0_m = fadd (pf (sp s) Omega0_cdm) (pf (sp s) Omega0_baryon).
Proof. exact run_m_budget. Qed.
Print Assumptions C09_matter_budget_partial.
Definition h_nu : list op := [OpSet A_m_ncdm (VFloat f1); OpSet A_omega_cdm (VFloat (lit 2 10))].
Example C09_nonvacuous :
  after cl0 [OpSet A_m_ncdm (VFloat f1)] (fun s => fltb f0 (pf (sp s) Omega0_nu)) = true.
Proof. vm_compute. reflexivity. Qed.
(** With massive neutrinos, assigning omega_cdm leaves them out of omega_m: the
    three densities exceed omega_m by two percent. *)
Theorem C09_matter_budget_refuted : ~ matter_budget.
Proof.
  intros H. destruct (run cl0 h_nu coffe0) as [s|] eqn:E; [|vm_compute in E; discriminate].
  assert (Y : after cl0 h_nu (fun s => fltb (fadd (pf (sp s) Omega0_m) (lit 2 100))
      (fadd (pf (sp s) Omega0_cdm) (fadd (pf (sp s) Omega0_baryon) (pf (sp s) Omega0_nu)))
      && negb (feqb (pf (sp s) Omega0_cdm)
        (fsub (fsub (pf (sp s) Omega0_m) (pf (sp s) Omega0_baryon)) (pf (sp s) Omega0_nu)))) = true)
    by (vm_compute; reflexivity).
  unfold after in Y. rewrite E in Y. apply andb_true_iff in Y as [_ Y].
  rewrite <- (H cl0 h_nu s E) in Y.
  assert (Z : after cl0 h_nu (fun s => feqb (pf (sp s) Omega0_cdm) (pf (sp s) Omega0_cdm)) = true)
    by (vm_compute; reflexivity).
  unfold after in Z. rewrite E in Z. rewrite Z in Y. discriminate.
Qed.
(** The neutrino density depends on h (m/93.14/h^2), but assigning h does not update it. *)
Theorem C09_neutrinos_stale_after_h :
  after cl0 [OpSet A_m_ncdm (VFloat f1); OpSet A_h (VFloat (lit 5 10))]
    (fun s => let q := pf (sp s) in
       negb (allclose (q Omega0_nu) (fdiv (fdiv (fdiv (q F_m_ncdm) (lit 9314 100)) (q F_h)) (q F_h)))) = true.
Proof. vm_compute. reflexivity. Qed.

(** ** C10: set_parameters *)

Definition all_or_nothing : Prop :=
  forall l s s' e, set_parameters l s = (s', Raise e) -> s' = s.
(** What it does: an unknown name raises and changes nothing; otherwise the
    values are assigned one after the other up to the first that fails. *)
Theorem C10_set_parameters_partial : forall l s s' r, set_parameters l s = (s', r) ->
  (In None (map fst l) /\ s' = s /\ r = Raise AttributeError) \/
  (exists l', map (fun av => (Some (fst av), snd av)) l' = l /\
   ((exists ss, r = Ok ONone /\ List.length ss = List.length l' /\ last ss s = s' /\
       forall i a v, nth_error l' i = Some (a, v) ->
         exists si sj, nth_error (s :: ss) i = Some si /\ nth_error ss i = Some sj /\
           set_attr a v si = (sj, Ok ONone)) \/
    (exists pre a v post sm e, l' = (pre ++ (a, v) :: post)%list /\
       set_parameters (map (fun av => (Some (fst av), snd av)) pre) s = (sm, Ok ONone) /\
       set_attr a v sm = (s', Raise e) /\ r = Raise e))).
Proof. exact set_parameters_spec. Qed.
Print Assumptions C10_set_parameters_partial.
Example C10_nonvacuous :
  match set_parameters [(Some A_h, VFloat (lit 7 10)); (Some A_n_s, VFloat (lit 9 10))] coffe0 with
  | (s', Ok ONone) => feqb (pf (sp s') F_h) (lit 7 10) && feqb (pf (sp s') F_n_s) (lit 9 10)
  | _ => false end = true /\
  set_parameters [(Some A_h, VFloat (lit 7 10)); (None, VInt 1)] coffe0 = (coffe0, Raise AttributeError).
Proof. split; vm_compute; reflexivity. Qed.
Theorem C10_set_parameters_refuted : ~ all_or_nothing.
Proof.
  assert (X : exists s' e, set_parameters [(Some A_h, VFloat (lit 7 10)); (Some A_n_s, VFloat (of_Z 1000))] coffe0
      = (s', Raise e) /\ pf (sp s') F_h <> pf (sp coffe0) F_h).
  { eexists. eexists. split; [vm_compute; reflexivity|]. vm_compute. discriminate. }
  intros H. destruct X as (s' & e & E & N). apply N. rewrite (H _ _ _ _ E). reflexivity.
Qed.

(** ** C50: option names *)

Theorem C50_option_round_trip : forall a tbl n s, option_table a = Some tbl -> In n (map snd tbl) ->
  exists s', set_attr a (VStr n) s = (s', Ok ONone) /\ get_attr a (sp s') = VStr n.
Proof. exact option_round_trip. Qed.
Print Assumptions C50_option_round_trip.
Theorem C50_option_rejected : forall a tbl n s, option_table a = Some tbl -> ~ In n (map snd tbl) ->
  set_attr a (VStr n) s = (s, Raise ValueError).
Proof. exact option_rejected. Qed.
Print Assumptions C50_option_rejected.
(** The documented names. *)
Example C50_nonvacuous :
  option_map (map snd) (option_table A_pk_type) =
    Some ["linear"; "linear_class"; "halofit"; "hmcode"]%string /\
  ~ In "quadratic"%string (map snd allowed_pk_types).
Proof. split; [reflexivity|]. simpl. intuition discriminate. Qed.

(** ** C51: what was assigned is read back *)

Definition read_back : Prop :=
  forall a f x s s', float_attr a = Some f -> set_attr a (VFloat x) s = (s', Ok ONone) ->
    get_attr a (sp s') = VFloat x.
(** Accepted floats are read back unless np.allclose does not tell them from
    the old value; flags, integers, lists and multipoles always. *)
Theorem C51_read_back_partial :
  (forall a f x s s', float_attr a = Some f -> set_attr a (VFloat x) s = (s', Ok ONone) ->
     get_attr a (sp s') = VFloat x \/
     (s' = s /\ exists old, get_attr a (sp s) = VFloat old /\ allclose x old = true)) /\
  (forall a v s, bool_attr a = true ->
     exists s', set_attr a v s = (s', Ok ONone) /\ get_attr a (sp s') = VBool (truthy v)) /\
  (forall a l s s', list_attr a = true ->
     set_attr a (floats l) s = (s', Ok ONone) -> get_attr a (sp s') = floats l) /\
  (forall l s s', set_attr A_l (VList (map VInt l)) s = (s', Ok ONone) ->
     get_attr A_l (sp s') = VList (map VInt l)) /\
  (forall a z s s', int_attr a = true -> set_attr a (VInt z) s = (s', Ok ONone) ->
     get_attr a (sp s') = VInt z).
Proof.
  split; [|split; [|split; [|split]]].
  - exact float_read_back.
  - exact bool_read_back.
  - exact list_read_back.
  - exact multipoles_read_back.
  - exact int_read_back.
Qed.
Print Assumptions C51_read_back_partial.
Example C51_nonvacuous :
  snd (set_attr A_h (VFloat (lit 7 10)) coffe0) = Ok ONone /\
  snd (set_attr A_sep (floats [of_Z 10; of_Z 20]) coffe0) = Ok ONone.
Proof. split; vm_compute; reflexivity. Qed.
Theorem C51_read_back_refuted : ~ read_back.
Proof.
  assert (X : exists s', set_attr A_h (VFloat (lit 670001 1000000)) coffe0 = (s', Ok ONone) /\
      get_attr A_h (sp s') <> VFloat (lit 670001 1000000)).
  { eexists. split; [vm_compute; reflexivity|]. vm_compute. discriminate. }
  intros H. destruct X as (s' & E & N). apply N. exact (H A_h F_h _ _ _ eq_refl E).
Qed.

(** *** C51: a C integer parameter takes a float and keeps its integer part *)
Theorem C51_truncated_refuted : exists s',
  set_attr A_l_max_g (VFloat (lit 25 10)) coffe0 = (s', Ok ONone) /\
  get_attr A_l_max_g (sp s') = VInt 2.
Proof. eexists. split; vm_compute; reflexivity. Qed.
Print Assumptions C51_truncated_refuted.
