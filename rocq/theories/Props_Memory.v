(** * C35: memory across histories of operations *)
From Coq Require Import Arith Bool List Lia.
From Verif Require Import Memory MemoryLemmas MemorySteps MemoryTidy.
Import ListNotations.

(** A history is any finite sequence of operations on a new object: assignments of
    options, lists, tables, computations, reads, steps of the settings parser, releases
    of computed results.  [None] is the outcome of releasing a block that is not
    allocated and of using a block after its release (Memory.v, [release], [touch]). *)

(** No history does either, nor does deleting the object afterwards, nor releasing its
    parameters once more. *)
Theorem C35_safe : forall l, exists m m',
  history l = Some m /\ dealloc m = Some m' /\ parameters_free m' = Some m'.
Proof.
  intros l. destruct (history_ready l) as (m & E & R). destruct (dealloc_ok m R) as (m' & E' & _ & Z).
  exists m, m'; split; [exact E|]. split; [exact E'|]. unfold parameters_free, when.
  replace (counted NPar m') with false by (symmetry; now apply counted_false). reflexivity.
Qed.
Print Assumptions C35_safe.

(** Releasing any one result or the parameters at any time, any number of times, is safe
    as well: [Free] is an operation.  In particular twice in a row. *)
Theorem C35_free_twice : forall l c, exists m, history (l ++ [Free c; Free c]) = Some m.
Proof. intros l c; destruct (history_ready (l ++ [Free c; Free c])) as (m & E & _); eauto. Qed.
Print Assumptions C35_free_twice.

(** After every history, what is in use is allocated, and nothing is shared: nonempty
    lists, results, tables. *)
Definition in_use (m : mem) (s : slot) : Prop :=
  (exists a, s = List_ a /\ cnt m (NList a) <> 0) \/ (exists k, s = Out k /\ cnt m (NOut k) <> 0) \/
  (exists i, i < 8 /\ exists b, s = Tab (Bias i) b /\ ptr m s <> None) \/
  (exists i, i < 10 /\ exists b, s = Tab (Bg i) b /\ ptr m s <> None) \/
  (exists b, (s = Tab Spectrum b \/ s = Tab SpectrumNorm b) /\ ptr m s <> None) \/
  (exists i p, s = Int i p /\ i < cnt m NInts /\ p < 10 /\ ptr m s <> None).
Theorem C35_owned : forall l m, history l = Some m ->
  (forall s, in_use m s -> exists b, ptr m s = Some b /\ In b (live m)) /\
  (forall s t b, in_use m s -> in_use m t -> ptr m s = Some b -> ptr m t = Some b -> s = t).
Proof.
  intros l m H. destruct (history_ready l) as (m' & E & [G R]). rewrite H in E; injection E as <-.
  assert (O : forall s, in_use m s -> open m s).
  { intros s [(a & -> & N)|[(k & -> & N)|[(i & L & b & -> & N)|[(i & L & b & -> & N)|[(b & [->| ->] & N)|(i & p & -> & L & P & N)]]]]];
      repeat split; auto. }
  split; [intros s S; apply (g_live _ _ G), O, S|]. intros s t b S T; apply (g_one _ _ G); auto.
Qed.
Print Assumptions C35_owned.

(** ** Freeing everything returns every block *)
(** The operations that leave nothing behind.  The full property asks for all
    operations; missing are those below, which do leak (see the refutation). *)
Definition clean_op (o : op) : bool :=
  match o with
  | SetList _ n _ | RunOut _ n _ => negb (Nat.eqb n 0)
  | RunBackground flatsky => negb flatsky
  | RunIntegrals nonlinear _ => negb nonlinear
  | SetBias _ _ | ParseList _ _ | ParseNames _ | ParseBias _ | ParseSpectrum => false
  | SetScalar _ | SetPk | RunClass _ | Read _ | ClearList _ | Free _ => true
  end.
Definition class_runs (l : list op) : nat := length (filter (fun o => match o with RunClass _ => true | _ => false end) l).

Definition start : mem := match cinit with Some m => m | None => zeroed end.
Definition start_slots : list slot :=
  flat_map (fun t => [Tab t false; Tab t true]) (Spectrum :: SpectrumNorm :: map Bias (seq 0 8)) ++ map List_ every_list.
Lemma start_clean : cinit = Some start /\ Clean false None start.
Proof.
  destruct cinit_ready as (m & E & R). unfold start. rewrite E. split; [reflexivity|].
  assert (Q : Forall (open m) start_slots).
  { replace m with start by (unfold start; now rewrite E). clear.
    repeat (apply Forall_cons; [split; vm_compute; try exact I; try lia; try discriminate; split; discriminate|]). apply Forall_nil. }
  assert (L : forallb (fun b => existsb (fun s => match ptr start s with Some c => Nat.eqb c b | None => false end) start_slots) (live start) = true)
    by (vm_compute; reflexivity).
  assert (S : start = m) by (unfold start; now rewrite E).
  split.
  - exact R.
  - rewrite S in L. intros b B. rewrite forallb_forall in L. specialize (L b B). apply existsb_exists in L. destruct L as (s & I & X).
    exists s. rewrite Forall_forall in Q. split; [now apply Q|]. destruct (ptr m s) as [c|]; [|discriminate]. apply Nat.eqb_eq in X; now subst.
  - intros f _. rewrite <- S. destruct f; vm_compute; reflexivity.
  - intros _ i _ a. rewrite <- S. vm_compute. reflexivity.
  - intros b _. rewrite <- S. do 6 (destruct b as [|b]; [vm_compute; reflexivity|]). vm_compute. reflexivity.
  - rewrite <- S. split; vm_compute; reflexivity.
  - intros _ i _. rewrite <- S. do 8 (destruct i as [|i]; [vm_compute; reflexivity|]). vm_compute. reflexivity.
Qed.
Lemma clean_step ran o m : clean_op o = true -> (forall nl, o <> RunClass nl) -> Clean ran None m -> exists m', step o m = Some m' /\ Clean ran None m'.
Proof.
  intros K N CL. destruct o; try discriminate K.
  - now apply clean_free_caches.
  - apply clean_setlist; [|exact CL]. cbn in K. apply negb_true_iff, Nat.eqb_neq in K; exact K.
  - now apply clean_setpk.
  - destruct flatsky; [discriminate|]. now apply clean_background.
  - exfalso; eapply N; reflexivity.
  - destruct nonlinear; [discriminate|]. now apply clean_integrals.
  - apply clean_out; [|exact CL]. cbn in K. apply negb_true_iff, Nat.eqb_neq in K; exact K.
  - destruct (clean_reads ran None ls m CL) as (m' & E & C & _); eauto.
  - destruct (does_free_list a m (c_ready _ _ _ CL)) as (m' & E & R & T & KE & Z). exists m'; split; [exact E|].
    apply (clean_keeps _ _ _ _ m m' CL KE); [intros s []|intros c <- X; exact X|exact R|]. apply T; [exact I|apply CL].
  - now apply clean_free_cache.
Qed.
Lemma clean_history l : forall (ran : bool) m, forallb clean_op l = true -> class_runs l + (if ran then 1 else 0) <= 1 -> Clean ran None m ->
  exists m' ran', each l step m = Some m' /\ Clean ran' None m'.
Proof.
  induction l as [|o l IH]; intros ran m K N CL; cbn [each]; [exists m, ran; auto|].
  cbn [forallb] in K. apply andb_prop in K as [K1 K2].
  assert (D : (exists nl : bool, o = RunClass nl) \/ forall nl : bool, o <> RunClass nl) by (destruct o; eauto; right; discriminate).
  destruct D as [[nl ->]|D].
  - destruct ran; [cbn in N; lia|]. destruct (clean_class nl m CL) as (m1 & E1 & C1); rewrite E1.
    apply (IH true); auto. cbn in N |- *; unfold class_runs; lia.
  - destruct (clean_step ran o m K1 D CL) as (m1 & E1 & C1); rewrite E1. apply (IH ran); auto.
    unfold class_runs in *; cbn [filter] in N. destruct o; auto. exfalso; eapply D; reflexivity.
Qed.
(** Every history of such operations with at most one run of CLASS: deleting the object
    leaves no block allocated. *)
Theorem C35_returns_partial : forall l, forallb clean_op l = true -> class_runs l <= 1 -> exists m m',
  history l = Some m /\ dealloc m = Some m' /\ live m' = [].
Proof.
  intros l K N. destruct start_clean as [E C]. unfold history; rewrite E.
  destruct (clean_history l false start K) as (m & ran & E1 & C1); [lia|exact C|].
  destruct (clean_dealloc ran m C1) as (m' & E2 & L). eauto.
Qed.
Print Assumptions C35_returns_partial.

(** A session of that kind: lists, a spectrum from CLASS, background, integrals, the
    multipoles and their covariance, an option that drops them, and again. *)
Definition session : list op :=
  [SetList Sep 12 [COut Corrfunc; COut Multipoles; COut Average; COut Cov; COut AverageCov]; RunClass true; RunBackground false;
   RunIntegrals false [Plain; Plain; Divergent]; RunOut Multipoles 24 0; RunOut Cov 144 17; Read [Sep; Mu];
   SetScalar except_parameters; SetPk; RunBackground false; RunIntegrals false [Plain; Plain]; RunOut Corrfunc 3 0].
Example C35_session : forallb clean_op session = true /\ class_runs session <= 1 /\
  match history session with Some m => length (live m) | None => 0 end = 65.
Proof. vm_compute; repeat split; lia. Qed.

(** The property does not hold for all operations: each of these histories leaves
    blocks allocated after the object is deleted. *)
Definition left (l : list op) : option nat :=
  match history l with
  | Some m => match dealloc m with Some m' => Some (length (live m')) | None => None end
  | None => None
  end.
Theorem C35_returns_refuted :
  left [] = Some 0 /\
  (* assigning a bias function: the old table *)
  left [SetBias 0 []] = Some 2 /\
  (* a second spectrum from CLASS: the structures of the first *)
  left [RunClass false; RunClass false] = Some 8 /\
  (* an empty list *)
  left [SetList Sep 0 []] = Some 1 /\
  (* a background with the flat-sky fits, two redshifts: six arrays, and the four
     coefficient vectors of the evolution biases *)
  left [SetList ZMean 2 []; RunBackground true] = Some 10 /\
  (* a nonlinear integral *)
  left [RunClass true; RunIntegrals true [Plain]] = Some 202 /\
  (* the settings file of the program: the default separations, the default bias *)
  left [ParseList Sep 5] = Some 1 /\ left [ParseBias 0] = Some 2 /\ left [ParseSpectrum] = Some 4.
Proof. vm_compute; repeat split. Qed.
Print Assumptions C35_returns_refuted.
Lemma left_inv l n : left l = Some n -> exists m m', history l = Some m /\ dealloc m = Some m' /\ length (live m') = n.
Proof.
  unfold left. destruct (history l) as [m|]; [|discriminate]. destruct (dealloc m) as [m'|] eqn:E; [|discriminate].
  intros H; injection H as H; eauto.
Qed.
Corollary C35_not_all_returned : ~ (forall l m m', history l = Some m -> dealloc m = Some m' -> live m' = []).
Proof.
  intros H. destruct C35_returns_refuted as (_ & R & _). destruct (left_inv _ _ R) as (m & m' & E & E' & L).
  rewrite (H _ m m' E E') in L. discriminate L.
Qed.
Print Assumptions C35_not_all_returned.

(** The checks do see errors: assigning the lower redshifts after the parameters were
    released would release their block again, since zmin_len is not reset. *)
Example C35_sees_double_free :
  match history [] with
  | Some m => match dealloc m with Some m' => match set_list ZMin 3 m' with None => true | _ => false end | None => false end
  | None => false
  end = true.
Proof. vm_compute; reflexivity. Qed.
