(** * Construction, destruction, and the histories that leave nothing behind *)
From Coq Require Import Arith Bool List Lia.
From Verif Require Import Memory MemoryLemmas MemorySteps.
Import ListNotations.

(** ** Construction *)
Lemma none_open s : ~ open (set_cnt NPar 1 zeroed) s.
Proof. intros [U O]; destruct s; cbn in O; try (destruct O as [O O']); try contradiction; try lia; congruence. Qed.
Lemma ready_zero : Ready (set_cnt NPar 1 zeroed).
Proof.
  split; [|rewrite cnt_set_yes; discriminate]. split.
  - intros s O; exfalso; exact (none_open s O).
  - intros s t b O; exfalso; exact (none_open s O).
  - intros b [].
Qed.
Lemma safe_fit_new b : safe (pure (set_ptr (Fit b) None) ;; pure (set_cnt (NFit b) 0)).
Proof.
  intros m R. destruct (safe_zero (NFit b) ltac:(discriminate) m R) as (m1 & E1 & R1). injection E1 as <-.
  destruct (good_set_closed (Fit b) None (set_cnt (NFit b) 0 m)) as [G _]; [apply R1| | |].
  - intros (_ & T); rewrite cnt_set_yes in T; congruence.
  - intros (_ & T). apply T, cnt_set_yes.
  - eexists; split; [reflexivity|]. split; [exact G|apply R1].
Qed.
Lemma cinit_ready : exists m, cinit = Some m /\ Ready m.
Proof.
  unfold cinit, defaults. unfold pure at 1. generalize ready_zero; generalize (set_cnt NPar 1 zeroed).
  apply safe_seq; [apply safe_each; intros b; apply safe_fit_new|].
  apply safe_seq; [apply safe_each_in; intros i J; apply safe_null; left; apply bnc; now apply in_seq0|].
  apply safe_seq; [apply safe_zero; discriminate|]. apply safe_seq; [apply safe_null; now right|].
  apply safe_seq.
  { apply safe_each_in; intros t J; apply safe_seq; apply safe_null; left; apply bn1; destruct J as [<-|[<-|[]]]; exact I. }
  apply safe_seq; [apply init_table_safe|].
  apply safe_seq.
  { apply safe_each; intros n; apply safe_each_in; intros p J; apply safe_null; left; apply bn2. cbn in J; intuition lia. }
  apply safe_seq; [apply safe_locals|]. apply safe_seq; [apply init_table_safe|]. apply safe_seq; [apply safe_end|].
  apply safe_seq.
  { apply safe_each_in; intros i J; apply safe_seq; apply safe_null; left; apply bn_bias; now apply in_seq0. }
  apply safe_seq; [apply safe_each; intros i; apply init_table_safe|].
  apply safe_seq.
  { apply safe_each; intros a. change (safe (parse_list a 1)). eapply does_safe, does_parse_list. }
  apply safe_seq; [apply safe_locals|apply safe_end].
Qed.
Lemma history_ready l : exists m, history l = Some m /\ Ready m.
Proof.
  unfold history. destruct cinit_ready as (m & E & R); rewrite E. apply (safe_each l step safe_step m R).
Qed.

(** ** Destruction *)
Lemma names_out : forall l O m, GoodO O m -> NoDup l -> (forall i, In i l -> O (Name i)) ->
  (ptr m Names <> None -> O Names) -> exists m',
  each l (fun i => touch Names ;; release (Name i)) m = Some m' /\
  (forall t, ptr m' t = ptr m t) /\ (forall c, cnt m' c = cnt m c) /\
  GoodO (fun t => O t /\ forall i, In i l -> t <> Name i) m' /\
  (TidyO O m -> TidyO (fun t => O t /\ forall i, In i l -> t <> Name i) m').
Proof.
  induction l as [|i l IH]; intros O m G D H HN; cbn [each].
  { exists m; unfold skip. split; [reflexivity|]. split; [reflexivity|]. split; [reflexivity|]. split.
    - apply (goodO_ext O _ m _ G); auto. intros t [T _]; auto.
    - intros T. apply (tidyO_ext O _ m _ T); [reflexivity|]. intros t U; split; [split; [exact U|intros i []]|reflexivity]. }
  inversion D as [|? ? D1 D2]; subst.
  assert (X : touch Names m = Some m).
  { destruct (ptr m Names) as [b|] eqn:P; [|now apply touch_null]. unfold touch; rewrite P.
    destruct (g_live _ _ G Names) as (c & C & I); [apply HN; congruence|].
    assert (b = c) by congruence; subst c. apply is_live_in in I; now rewrite I. }
  rewrite X. destruct (goodO_release O m (Name i) G) as (m1 & E1 & P1 & C1 & G1 & T1); [apply H; now left|]. rewrite E1.
  destruct (IH _ m1 G1 D2) as (m' & E & P & C & G' & T').
  { intros j J; split; [apply H; now right|intros Y; injection Y as ->; contradiction]. }
  { rewrite P1; intros N; split; [auto|discriminate]. }
  exists m'; split; [exact E|]. split; [intros t; now rewrite P|]. split; [intros c; now rewrite C|].
  assert (Q : forall t, (O t /\ (forall j, In j (i :: l) -> t <> Name j)) <-> ((O t /\ t <> Name i) /\ (forall j, In j l -> t <> Name j))).
  { intros t; split.
    - intros [A B]; split; [split; [exact A|apply B; now left]|intros j J; apply B; now right].
    - intros [[A B] W]; split; [exact A|intros j [<-|J]; auto]. }
  split.
  - apply (goodO_ext _ _ m' _ G'); auto. intros t T; split; [now apply Q|reflexivity].
  - intros T. apply (tidyO_ext _ _ m' _ (T' (T1 T))); auto. intros t U; split; [now apply Q|reflexivity].
Qed.
(** Specification or proof only; nothing in the code. *)
Definition last_part : mem -> option mem :=
  (fun m => each (seq 0 (cnt m NNames)) (fun i => touch Names ;; release (Name i)) m) ;; release Names ;;
  when (counted (NList ZMin)) (release (List_ ZMin)) ;; pure (set_cnt NPar 0).
Lemma last_part_ok m : Ready m -> exists m', last_part m = Some m' /\ Good m' /\ cnt m' NPar = 0 /\
  (forall t, ptr m' t = ptr m t) /\ (forall c, c <> NPar -> cnt m' c = cnt m c) /\
  ((forall a, a <> ZMin -> cnt m (NList a) = 0) -> Tidy m -> Tidy m').
Proof.
  intros [G R]. unfold last_part.
  destruct (names_out (seq 0 (cnt m NNames)) (open m) m G) as (m1 & E1 & P1 & C1 & G1 & T1).
  { apply seq_NoDup. }
  { intros i J; split; [exact I|]. split; [exact R|now apply in_seq0]. }
  { intros N; split; [exact I|]. split; [exact R|exact N]. }
  rewrite E1. clear E1.
  set (O1 := fun t => open m t /\ forall i, In i (seq 0 (cnt m NNames)) -> t <> Name i) in *.
  assert (H2 : exists m2, release Names m1 = Some m2 /\ (forall t, ptr m2 t = ptr m t) /\ (forall c, cnt m2 c = cnt m c) /\
    GoodO (fun t => O1 t /\ t <> Names) m2 /\ (Tidy m -> TidyO (fun t => O1 t /\ t <> Names) m2)).
  { destruct (ptr m Names) as [b|] eqn:P.
    - destruct (goodO_release O1 m1 Names G1) as (m2 & E2 & P2 & C2 & G2 & T2).
      { split; [|intros; discriminate]. split; [exact I|split; [exact R|congruence]]. }
      exists m2; split; [exact E2|]. split; [intros t; now rewrite P2|]. split; [intros c; now rewrite C2|]. split; [exact G2|auto].
    - exists m1. unfold release; rewrite P1, P. split; [reflexivity|]. split; [exact P1|]. split; [exact C1|]. split.
      + apply (goodO_ext O1 _ m1 _ G1); auto. intros t [T _]; auto.
      + intros T. apply (tidyO_ext O1 _ m1 _ (T1 T)); auto. intros t U; split; [split; [exact U|]|reflexivity].
        intros ->. destruct U as [(_ & _ & U) _]. congruence. }
  destruct H2 as (m2 & E2 & P2 & C2 & G2 & T2). rewrite E2.
  set (O2 := fun t => O1 t /\ t <> Names) in *.
  assert (H3 : exists m3, when (counted (NList ZMin)) (release (List_ ZMin)) m2 = Some m3 /\ (forall t, ptr m3 t = ptr m t) /\ (forall c, cnt m3 c = cnt m c) /\
    GoodO (fun t => O2 t /\ t <> List_ ZMin) m3 /\ (Tidy m -> TidyO (fun t => O2 t /\ t <> List_ ZMin) m3)).
  { unfold when. destruct (counted (NList ZMin) m2) eqn:Q.
    - apply counted_true in Q. rewrite C2 in Q.
      destruct (goodO_release O2 m2 (List_ ZMin) G2) as (m3 & E3 & P3 & C3 & G3 & T3).
      { split; [split; [split; [exact I|split; [exact R|exact Q]]|intros; discriminate]|discriminate]. }
      exists m3; split; [exact E3|]. split; [intros t; now rewrite P3|]. split; [intros c; now rewrite C3|]. split; [exact G3|auto].
    - apply counted_false in Q. rewrite C2 in Q. exists m2. split; [reflexivity|]. split; [exact P2|]. split; [exact C2|]. split.
      + apply (goodO_ext O2 _ m2 _ G2); auto. intros t [T _]; auto.
      + intros T. apply (tidyO_ext O2 _ m2 _ (T2 T)); auto. intros t U; split; [split; [exact U|]|reflexivity].
        intros ->. destruct U as [[(_ & _ & U) _] _]. congruence. }
  destruct H3 as (m3 & E3 & P3 & C3 & G3 & T3). rewrite E3. unfold pure.
  set (m4 := set_cnt NPar 0 m3). exists m4; split; [reflexivity|].
  assert (P4 : forall t, ptr m4 t = ptr m t) by exact P3.
  assert (X : forall t, open m4 t -> open m t /\ t <> Names /\ (forall i, t <> Name i) /\ (forall a, t <> List_ a)).
  { intros t [U T]. assert (Z : cnt m4 NPar = 0) by apply cnt_set_yes.
    assert (C4 : forall c, c <> NPar -> cnt m4 c = cnt m c) by (intros c N; unfold m4; rewrite cnt_set_no by exact N; apply C3).
    destruct t; try (destruct T as [T _]; congruence); (split; [split; [exact U|]|repeat split; intros; discriminate]);
      cbv beta iota in T |- *; rewrite ?C4 in T by discriminate; rewrite ?P4 in T; exact T. }
  assert (Y : forall t, open m t -> t <> Names -> (forall i, t <> Name i) -> (forall a, t <> List_ a) -> open m4 t).
  { intros t [U T] N1 N2 N3. split; [exact U|].
    assert (C4 : forall c, c <> NPar -> cnt m4 c = cnt m c) by (intros c N; unfold m4; rewrite cnt_set_no by exact N; apply C3).
    destruct t; try (exfalso; now apply N1); try (exfalso; now eapply N2); try (exfalso; now eapply N3);
      cbv beta iota in T |- *; rewrite ?C4 by discriminate; rewrite ?P4; exact T. }
  split; [|split; [apply cnt_set_yes|split; [exact P3|split]]].
  - apply (goodO_ext _ _ m3 _ G3); auto. intros t T; destruct (X t T) as (A & B & C & D). split; [|reflexivity].
    split; [split; [split; [exact A|intros i _; apply C]|exact B]|apply D].
  - intros c N; unfold m4; rewrite cnt_set_no by exact N; apply C3.
  - intros Z T. apply (tidyO_ext _ (open m4) m3 m4 (T3 T)); auto. intros t [[[A B] C] D]; split; [|reflexivity].
    apply Y; auto.
    + intros i ->. apply (B i); [apply in_seq; destruct A as (_ & _ & A); lia|reflexivity].
    + intros a ->. destruct A as (_ & _ & A). apply A, Z. congruence.
Qed.
Lemma safe_free_class : safe free_class.
Proof.
  apply safe_each_in; intros i J; apply in_seq0 in J. apply safe_seq; [apply safe_when, safe_touch, bnc, J|apply free_null_safe, bnc, J].
Qed.
Lemma parameters_free_ok m : Ready m -> exists m', parameters_free m = Some m' /\ Good m' /\ cnt m' NPar = 0.
Proof.
  intros R. unfold parameters_free, when at 1. replace (counted NPar m) with true by (symmetry; apply counted_true, R).
  assert (S : safe (free_table Spectrum ;; free_table SpectrumNorm ;; free_table2 false ;; free_table2 true ;;
     each (seq 0 8) (fun i => free_table (Bias i)) ;; each released_lists free_list ;; free_list ZMax ;; free_class ;; each [0; 1; 2; 3] free_fit)).
  { do 2 (apply safe_seq; [now apply safe_free_table|]). do 2 (apply safe_seq; [apply safe_free_table2|]).
    apply safe_seq; [apply safe_each_in; intros i J; apply safe_free_table; now apply in_seq0|].
    apply safe_seq; [apply safe_each; intros a; eapply does_safe, does_free_list|].
    apply safe_seq; [eapply does_safe, does_free_list|]. apply safe_seq; [apply safe_free_class|].
    apply safe_each_in; intros b J; apply safe_free_fit. cbn in J; intuition lia. }
  destruct (S m R) as (m1 & E1 & R1). destruct (last_part_ok m1 R1) as (m2 & E2 & G2 & Z2 & _).
  exists m2; split; [|auto]. unfold last_part in E2.
  destruct (free_table Spectrum m) as [a1|]; [|discriminate]. destruct (free_table SpectrumNorm a1) as [a2|]; [|discriminate].
  destruct (free_table2 false a2) as [a3|]; [|discriminate]. destruct (free_table2 true a3) as [a4|]; [|discriminate].
  destruct (each (seq 0 8) (fun i => free_table (Bias i)) a4) as [a5|]; [|discriminate].
  destruct (each released_lists free_list a5) as [a6|]; [|discriminate]. destruct (free_list ZMax a6) as [a7|]; [|discriminate].
  destruct (free_class a7) as [a8|]; [|discriminate].
  rewrite E1. exact E2.
Qed.
Lemma dealloc_ok m : Ready m -> exists m', dealloc m = Some m' /\ Good m' /\ cnt m' NPar = 0.
Proof.
  intros R; unfold dealloc. destruct (safe_each except_parameters free_cache safe_free_cache m R) as (m1 & E1 & R1).
  rewrite E1. now apply parameters_free_ok.
Qed.

(** ** Steps that only release *)
(** Specification or proof only; nothing in the code. *)
Definition shr (m m' : mem) : Prop :=
  (forall s, by_null s \/ s = Names -> ptr m' s = ptr m s \/ ptr m' s = None) /\
  (forall c, cnt m' c = cnt m c \/ cnt m' c = 0).
Lemma shr_trans a b c : shr a b -> shr b c -> shr a c.
Proof.
  intros [A B] [A' B']; split.
  - intros s S; destruct (A' s S) as [X|X]; [rewrite X; auto|now right].
  - intros d; destruct (B' d) as [X|X]; [rewrite X; auto|now right].
Qed.
Lemma shr_refl a : shr a a. Proof. split; auto. Qed.
Definition stable (Q : mem -> Prop) : Prop := forall m m', shr m m' -> Q m -> Q m'.
Definition frees (f : mem -> option mem) (Q : mem -> Prop) : Prop :=
  forall m, Ready m -> exists m', f m = Some m' /\ Ready m' /\ (Tidy m -> Tidy m') /\ shr m m' /\ Q m'.
Lemma frees_seq f g (Q Q' : mem -> Prop) : stable Q -> frees f Q -> frees g Q' -> frees (f ;; g) (fun m => Q m /\ Q' m).
Proof.
  intros S F G m R; destruct (F m R) as (m1 & E1 & R1 & T1 & S1 & Q1); rewrite E1.
  destruct (G m1 R1) as (m2 & E2 & R2 & T2 & S2 & Q2). exists m2; split; [exact E2|]. split; [exact R2|]. split; [auto|].
  split; [eapply shr_trans; eauto|]. split; [exact (S _ _ S2 Q1)|exact Q2].
Qed.
Lemma frees_each {A} (l : list A) f (Q : A -> mem -> Prop) : (forall x, In x l -> stable (Q x)) -> (forall x, In x l -> frees (f x) (Q x)) ->
  frees (each l f) (fun m => forall x, In x l -> Q x m).
Proof.
  intros S F; induction l as [|x l IH]; intros m R; cbn [each].
  { exists m; unfold skip; split; [reflexivity|]. split; [exact R|]. split; [auto|]. split; [apply shr_refl|intros x []]. }
  destruct (F x (or_introl eq_refl) m R) as (m1 & E1 & R1 & T1 & S1 & Q1); rewrite E1.
  destruct (IH (fun y Y => S y (or_intror Y)) (fun y Y => F y (or_intror Y)) m1 R1) as (m2 & E2 & R2 & T2 & S2 & Q2).
  exists m2; split; [exact E2|]. split; [exact R2|]. split; [auto|]. split; [eapply shr_trans; eauto|].
  intros y [<-|Y]; [exact (S x (or_introl eq_refl) _ _ S2 Q1)|auto].
Qed.
Lemma stable_zero c : stable (fun m => cnt m c = 0).
Proof. intros m m' [_ B] Z; destruct (B c) as [X|X]; congruence. Qed.
Lemma stable_table t : used (Tab t false) -> stable (null_table t).
Proof. intros U m m' [A _] Z a; destruct (A (Tab t a)) as [X|X]; [left; now apply bn1|rewrite X; apply Z|exact X]. Qed.
Lemma stable_table2 t : stable (null_table2 t).
Proof. intros m m' [A _] Z p P; destruct (A (Tab2 t p)) as [X|X]; [left; now apply bn2|rewrite X; now apply Z|exact X]. Qed.
Lemma stable_class i : i < 8 -> stable (fun m => ptr m (Class_ i) = None).
Proof. intros U m m' [A _] Z; destruct (A (Class_ i)) as [X|X]; [left; now apply bnc|congruence|exact X]. Qed.
Lemma table_dec t s : of_table t s \/ ~ of_table t s.
Proof.
  destruct (slot_eq_dec s (Tab t false)) as [->|N]; [left; now exists false|].
  destruct (slot_eq_dec s (Tab t true)) as [->|N']; [left; now exists true|].
  right; intros [[|] X]; contradiction.
Qed.
Lemma frees_table t : used (Tab t false) -> frees (free_table t) (null_table t).
Proof.
  intros U m R; destruct (does_free_table t U m R) as (m' & E & R' & T & [K1 K2] & Z).
  exists m'; split; [exact E|]. split; [exact R'|]. split; [intros X; exact (T I X)|]. split; [|exact Z]. split.
  - intros s _; destruct (table_dec t s) as [[a ->]|N]; [right; apply Z|left; apply K1, N].
  - intros c; left; apply K2; intros [].
Qed.
Lemma frees_table2 t : frees (free_table2 t) (null_table2 t).
Proof.
  intros m R; destruct (does_free_table2 t m R) as (m' & E & R' & T & [K1 K2] & Z).
  exists m'; split; [exact E|]. split; [exact R'|]. split; [intros X; exact (T I X)|]. split; [|exact Z]. split.
  - intros s _. destruct s; try (left; apply K1; intros (p & _ & X); discriminate).
    destruct (lt_dec part 3) as [L|L]; [|left; apply K1; intros (p & P & X); injection X as -> ->; contradiction].
    destruct (bool_dec norm t) as [->|D]; [right; apply Z, L|left; apply K1; intros (p & _ & X); injection X as X _; contradiction].
  - intros c; left; apply K2; intros [].
Qed.
Lemma keeps_shr S C m m' : keeps S C m m' -> (forall s, by_null s \/ s = Names -> ~ S s) ->
  (forall c, C c -> cnt m' c = 0) -> (forall c, C c \/ ~ C c) -> shr m m'.
Proof.
  intros [K1 K2] HS HC D; split.
  - intros s Q; left; apply K1, HS, Q.
  - intros c; destruct (D c) as [X|X]; [right; auto|left; auto].
Qed.
Lemma eqc_dec (d c : counter) : d = c \/ d <> c. Proof. destruct (counter_eq_dec d c); auto. Qed.
Lemma frees_list a : frees (free_list a) (fun m => cnt m (NList a) = 0).
Proof.
  intros m R; destruct (does_free_list a m R) as (m' & E & R' & T & K & Z).
  exists m'; split; [exact E|]. split; [exact R'|]. split; [intros X; exact (T I X)|]. split; [|exact Z].
  apply (keeps_shr _ _ _ _ K); [intros s _ []|intros c <-; exact Z|apply eqc_dec].
Qed.
Lemma frees_out k : frees (out_free k) (fun m => cnt m (NOut k) = 0).
Proof.
  intros m R; destruct (does_out_free k m R) as (m' & E & R' & T & K & Z).
  exists m'; split; [exact E|]. split; [exact R'|]. split; [intros X; exact (T I X)|]. split; [|exact Z].
  apply (keeps_shr _ _ _ _ K); [|intros c <-; exact Z|apply eqc_dec]. intros s [[_ B]|B] X; subst s; [exact B|discriminate].
Qed.
Lemma not_ints s : by_null s \/ s = Names -> ~ of_ints s.
Proof. intros [[_ B]|B] [X|(i & p & X)]; subst s; try exact B; discriminate. Qed.
Lemma frees_integrals : frees integrals_free (fun m => cnt m NInts = 0).
Proof.
  intros m R; destruct (does_integrals_free m R) as (m' & E & R' & T & K & Z).
  exists m'; split; [exact E|]. split; [exact R'|]. split; [intros X; exact (T I X)|]. split; [|exact Z].
  apply (keeps_shr _ _ _ _ K); [exact not_ints|intros c <-; exact Z|apply eqc_dec].
Qed.
Lemma frees_class : frees free_class (fun m => forall i, In i (seq 0 8) -> ptr m (Class_ i) = None).
Proof.
  apply (frees_each (seq 0 8) _ (fun i m => ptr m (Class_ i) = None)).
  - intros i J; apply stable_class; now apply in_seq0.
  - intros i J m R; apply in_seq0 in J.
    assert (W : when (nonnull (Class_ i)) (touch (Class_ i)) m = Some m).
    { unfold when; destruct (nonnull (Class_ i) m) eqn:Q; [|reflexivity]. apply nonnull_true in Q. apply touch_open; [apply R|]. apply open_by_null; [now apply bnc|exact Q]. }
    rewrite W. destruct (does_free_null (Class_ i) (bnc i J) m R) as (m' & E & R' & T & [K1 K2] & Z).
    exists m'; split; [exact E|]. split; [exact R'|]. split; [intros X; exact (T I X)|]. split; [|exact Z]. split.
    + intros s _; destruct (slot_eq_dec (Class_ i) s) as [<-|N]; [now right|left; apply K1, N].
    + intros c; left; apply K2; intros [].
Qed.
(** The flag of the background is lowered only when its tables are gone.
    Specification or proof only; nothing in the code. *)
Definition bg_ok (m : mem) : Prop := cnt m NBg = 0 -> forall i, i < 10 -> null_table (Bg i) m.
Definition bg_gone (m : mem) : Prop := cnt m NBg = 0 /\ forall i, i < 10 -> null_table (Bg i) m.
Lemma stable_bg_gone : stable bg_gone.
Proof.
  intros m m' S [Z N]; split; [exact (stable_zero NBg _ _ S Z)|]. intros i L; apply (stable_table (Bg i) L _ _ S), N, L.
Qed.
Lemma tidy_nbg n m : Tidy m -> Tidy (set_cnt NBg n m).
Proof.
  intros T. apply (tidyO_ext (open m) (open (set_cnt NBg n m)) m _ T); [reflexivity|].
  intros t O; split; [|reflexivity]. apply (open_set NBg m); [reflexivity| |exact (fun x => x)|exact O].
  intros d D; now rewrite cnt_set_no by exact D.
Qed.
Lemma background_free_ok m : Ready m -> bg_ok m -> exists m', background_free m = Some m' /\ Ready m' /\ (Tidy m -> Tidy m') /\ shr m m' /\ bg_gone m'.
Proof.
  intros R B. unfold background_free, pure.
  assert (H : exists m1, when (counted NBg) (each (seq 0 10) (fun i => free_table (Bg i))) m = Some m1 /\ Ready m1 /\ (Tidy m -> Tidy m1) /\ shr m m1 /\
    forall i, i < 10 -> null_table (Bg i) m1).
  { unfold when; destruct (counted NBg m) eqn:Q.
    - destruct (frees_each (seq 0 10) (fun i => free_table (Bg i)) (fun i => null_table (Bg i))) with (m := m) as (m1 & E1 & R1 & T1 & S1 & N1); auto.
      + intros i J; apply stable_table; now apply in_seq0.
      + intros i J; apply frees_table; now apply in_seq0.
      + exists m1; split; [exact E1|]. split; [exact R1|]. split; [exact T1|]. split; [exact S1|]. intros i L; apply N1, in_seq; lia.
    - apply counted_false in Q. exists m. split; [reflexivity|]. split; [exact R|]. split; [auto|]. split; [apply shr_refl|auto]. }
  destruct H as (m1 & E1 & R1 & T1 & S1 & N1). rewrite E1.
  exists (set_cnt NBg 0 m1). split; [reflexivity|].
  destruct (safe_zero NBg ltac:(discriminate) m1 R1) as (m2 & E2 & R2). injection E2 as <-.
  split; [exact R2|]. split; [intros T; apply tidy_nbg; auto|]. split.
  - eapply shr_trans; [exact S1|]. split; [intros s _; left; reflexivity|]. intros c; rewrite cnt_set; destruct (counter_beq NBg c); auto.
  - split; [apply cnt_set_yes|exact N1].
Qed.

(** ** What holds between the operations of a history without the leaking ones *)
(** [ran]: CLASS was run; [o]: a function whose local blocks are still there.
    Specification or proof only; nothing in the code. *)
Record Clean (ran : bool) (o : option local) (m : mem) : Prop := mkClean {
  c_ready : Ready m;
  c_tidy : Tidy m;
  c_tmp : forall f, Some f <> o -> cnt m (NTmp f) = 0;
  c_bg : bg_ok m;
  c_fit : forall b, b < 6 -> cnt m (NFit b) = 0;
  c_names : ptr m Names = None /\ cnt m NNames = 0;
  c_class : ran = false -> forall i, i < 8 -> ptr m (Class_ i) = None }.

Lemma all_closed_empty m : Tidy m -> (forall s, ~ open m s) -> live m = [].
Proof. intros T N; destruct (live m) as [|b l] eqn:E; [reflexivity|]. destruct (T b) as (s & O & _); [rewrite E; now left|]. exfalso; exact (N s O). Qed.

Lemma clean_dealloc ran m : Clean ran None m -> exists m', dealloc m = Some m' /\ live m' = [].
Proof.
  intros [R T TM BG FT [NA NN] CL]. unfold dealloc, except_parameters. cbn [each]. cbn [free_cache].
  destruct (background_free_ok m R BG) as (m1 & E1 & R1 & T1 & S1 & Q1); rewrite E1.
  assert (FS : frees (free_table Spectrum ;; free_table SpectrumNorm ;; free_table2 false ;; free_table2 true)
    (fun m => null_table Spectrum m /\ null_table SpectrumNorm m /\ null_table2 false m /\ null_table2 true m)).
  { apply frees_seq; [now apply stable_table|now apply frees_table|]. apply frees_seq; [now apply stable_table|now apply frees_table|].
    apply frees_seq; [apply stable_table2|apply frees_table2|apply frees_table2]. }
  destruct (FS m1 R1) as (m2 & E2 & R2 & T2 & S2 & Q2); rewrite E2.
  destruct (frees_integrals m2 R2) as (m3 & E3 & R3 & T3 & S3 & Q3); rewrite E3.
  destruct (frees_out Corrfunc m3 R3) as (m4 & E4 & R4 & T4 & S4 & Q4); rewrite E4.
  destruct (frees_out Multipoles m4 R4) as (m5 & E5 & R5 & T5 & S5 & Q5); rewrite E5.
  destruct (frees_out Average m5 R5) as (m6 & E6 & R6 & T6 & S6 & Q6); rewrite E6.
  destruct (frees_out Cov m6 R6) as (m7 & E7 & R7 & T7 & S7 & Q7); rewrite E7.
  destruct (frees_out AverageCov m7 R7) as (m8 & E8 & R8 & T8 & S8 & Q8); rewrite E8.
  unfold skip. unfold parameters_free, when at 1. replace (counted NPar m8) with true by (symmetry; apply counted_true, R8).
  destruct (frees_table Spectrum I m8 R8) as (a1 & F1 & B1 & U1 & V1 & W1); rewrite F1.
  destruct (frees_table SpectrumNorm I a1 B1) as (a2 & F2 & B2 & U2 & V2 & W2); rewrite F2.
  destruct (frees_table2 false a2 B2) as (a3 & F3 & B3 & U3 & V3 & W3); rewrite F3.
  destruct (frees_table2 true a3 B3) as (a4 & F4 & B4 & U4 & V4 & W4); rewrite F4.
  destruct (frees_each (seq 0 8) (fun i => free_table (Bias i)) (fun i => null_table (Bias i))) with (m := a4) as (a5 & F5 & B5 & U5 & V5 & W5).
  { intros i J; apply stable_table; now apply in_seq0. }
  { intros i J; apply frees_table; now apply in_seq0. }
  { exact B4. }
  rewrite F5.
  destruct (frees_each released_lists free_list (fun a m => cnt m (NList a) = 0)) with (m := a5) as (a6 & F6 & B6 & U6 & V6 & W6).
  { intros a _; apply stable_zero. }
  { intros a _; apply frees_list. }
  { exact B5. }
  rewrite F6.
  destruct (frees_list ZMax a6 B6) as (a7 & F7 & B7 & U7 & V7 & W7); rewrite F7.
  destruct (frees_class a7 B7) as (a8 & F8 & B8 & U8 & V8 & W8); rewrite F8.
  assert (SS : shr m a8) by (repeat (eapply shr_trans; [eassumption|]); apply shr_refl).
  assert (FZ : forall b, b < 6 -> cnt a8 (NFit b) = 0) by (intros b L; exact (stable_zero (NFit b) _ _ SS (FT b L))).
  assert (FF : exists a9, each [0; 1; 2; 3] free_fit a8 = Some a9 /\ Ready a9 /\ (Tidy a8 -> Tidy a9) /\ keeps noslot nocnt a8 a9).
  { assert (G : forall l, (forall b, In b l -> b < 6) -> forall x, Ready x -> (forall b, b < 6 -> cnt x (NFit b) = 0) ->
      exists y, each l free_fit x = Some y /\ Ready y /\ (Tidy x -> Tidy y) /\ keeps noslot nocnt x y).
    { induction l as [|b l IH]; intros L x RX ZX; cbn [each]; [exists x; unfold skip; split; [reflexivity|]; split; [exact RX|]; split; [auto|apply keeps_refl]|].
      destruct (no_fit b x RX) as (y & EY & RY & TY & KY); [apply ZX, L; now left|]. rewrite EY.
      destruct (IH (fun c C => L c (or_intror C)) y RY) as (z & EZ & RZ & TZ & KZ); [intros c C; destruct KY as [_ KY]; rewrite KY; [apply ZX, C|intros []]|].
      exists z; split; [exact EZ|]. split; [exact RZ|]. split; [auto|eapply keeps_trans; eauto]. }
    apply G; auto. intros b J; cbn in J; intuition lia. }
  destruct FF as (a9 & F9 & B9 & U9 & K9); rewrite F9.
  destruct (last_part_ok a9 B9) as (z & EZ & GZ & NZ & PZ & CZ & TZ).
  exists z; split; [exact EZ|].
  assert (S9 : shr a8 a9) by (apply (keeps_shr _ _ _ _ K9); [intros s _ []|intros c []|right; intros []]).
  assert (NL : forall a, a <> ZMin -> cnt a9 (NList a) = 0).
  { intros a N. destruct (slot_eq_dec (List_ a) (List_ ZMax)) as [E|N'].
    - injection E as ->. exact (stable_zero _ _ _ (shr_trans _ _ _ V8 S9) W7).
    - apply (stable_zero _ _ _ (shr_trans _ _ _ V7 (shr_trans _ _ _ V8 S9))). apply W6.
      destruct a; cbn; auto 10; congruence. }
  assert (Sm8 : shr m8 a9) by (repeat (eapply shr_trans; [eassumption|]); apply shr_refl).
  assert (SM : shr m a9) by (eapply shr_trans; [exact SS|exact S9]).
  apply all_closed_empty.
  { apply TZ; [exact NL|]. auto 20. }
  intros s O. apply (open_ext (set_cnt NPar 0 a9) z) in O.
  2:{ apply PZ. }
  2:{ intros c. destruct (counter_eq_dec c NPar) as [->|N]; [rewrite cnt_set_yes; exact NZ|rewrite cnt_set_no by exact N; apply CZ, N]. }
  assert (X1 : shr a1 a9) by (repeat (eapply shr_trans; [eassumption|]); apply shr_refl).
  assert (X2 : shr a2 a9) by (repeat (eapply shr_trans; [eassumption|]); apply shr_refl).
  assert (X3 : shr a3 a9) by (repeat (eapply shr_trans; [eassumption|]); apply shr_refl).
  assert (X4 : shr a4 a9) by (repeat (eapply shr_trans; [eassumption|]); apply shr_refl).
  assert (X5 : shr a5 a9) by (repeat (eapply shr_trans; [eassumption|]); apply shr_refl).
  assert (M3 : shr m3 a9) by (repeat (eapply shr_trans; [eassumption|]); apply shr_refl).
  assert (M4 : shr m4 a9) by (repeat (eapply shr_trans; [eassumption|]); apply shr_refl).
  assert (M5 : shr m5 a9) by (repeat (eapply shr_trans; [eassumption|]); apply shr_refl).
  assert (M6 : shr m6 a9) by (repeat (eapply shr_trans; [eassumption|]); apply shr_refl).
  assert (M7 : shr m7 a9) by (repeat (eapply shr_trans; [eassumption|]); apply shr_refl).
  assert (M1 : shr m1 a9) by (repeat (eapply shr_trans; [eassumption|]); apply shr_refl).
  assert (ZO : forall k, cnt a9 (NOut k) = 0).
  { intros k; destruct k; [exact (stable_zero _ _ _ M4 Q4)|exact (stable_zero _ _ _ M5 Q5)|exact (stable_zero _ _ _ M6 Q6)
    |exact (stable_zero _ _ _ M7 Q7)|exact (stable_zero _ _ _ Sm8 Q8)]. }
  assert (Z9 : forall c, cnt a8 c = 0 -> cnt a9 c = 0) by (intros c; apply (stable_zero c _ _ S9)).
  destruct O as [U O]. destruct s; cbv beta iota in O; rewrite ?cnt_set_yes, ?ptr_cnt in O; rewrite ?cnt_set_no in O by discriminate; try (destruct O as [O O']; congruence).
  - destruct t.
    + apply O, (stable_table Spectrum I _ _ X1 W1).
    + apply O, (stable_table SpectrumNorm I _ _ X2 W2).
    + apply O, (stable_table (Bias i) U _ _ X5), W5, in_seq. cbn in U; lia.
    + apply O. destruct (stable_bg_gone _ _ M1 Q1) as [_ Y]. apply Y, U.
  - destruct norm; [apply O, (stable_table2 true _ _ X4 W4), U|apply O, (stable_table2 false _ _ X3 W3), U].
  - apply O, ZO.
  - apply O, (stable_zero _ _ _ M3 Q3).
  - destruct O as [O _]. pose proof (stable_zero _ _ _ M3 Q3) as Y. cbn beta in Y. lia.
  - apply O, (stable_class i U _ _ S9), W8, in_seq. cbn in U; lia.
  - apply O, Z9, FZ, U.
  - destruct O as [O _]. pose proof (Z9 _ (FZ b U)). lia.
  - pose proof (stable_zero _ _ _ SM (TM f ltac:(discriminate))) as Y. cbn beta in Y. lia.
Qed.

(** ** The operations keep [Clean] *)
(** Pointers and counters [Clean] speaks about.  Specification or proof only; nothing in the code. *)
Definition key (s : slot) : Prop := match s with Tab (Bg _) _ | Names | Class_ _ => True | _ => False end.
Definition keyc (c : counter) : Prop := match c with NTmp _ | NBg | NFit _ | NNames => True | _ => False end.
Lemma clean_keeps ran o S C m m' : Clean ran o m -> keeps S C m m' -> (forall s, S s -> ~ key s) -> (forall c, C c -> ~ keyc c) ->
  Ready m' -> Tidy m' -> Clean ran o m'.
Proof.
  intros [R T TM BG FT [NA NN] CL] [K1 K2] HS HC R' T'.
  assert (P : forall s, key s -> ptr m' s = ptr m s) by (intros s K; apply K1; intros X; exact (HS s X K)).
  assert (Q : forall c, keyc c -> cnt m' c = cnt m c) by (intros c K; apply K2; intros X; exact (HC c X K)).
  split; auto.
  - intros f F; rewrite Q by exact I. auto.
  - intros Z i L a; rewrite P by exact I. rewrite Q in Z by exact I. apply (BG Z i L a).
  - intros b L; rewrite Q by exact I; auto.
  - rewrite P, Q by exact I; auto.
  - intros X i L; rewrite P by exact I; auto.
Qed.
Lemma clean_locals ran f n m : Clean ran None m -> exists m', locals f n m = Some m' /\ Clean ran (Some f) m' /\ keeps (of_local f) (eq (NTmp f)) m m'.
Proof.
  intros [R T TM BG FT [NA NN] CL]. destruct (does_locals f n m R) as (m' & E & R' & T' & [K1 K2]).
  exists m'; split; [exact E|]. split; [|split; [exact K1|exact K2]].
  assert (P : forall s, key s -> ptr m' s = ptr m s) by (intros s K; apply K1; intros [i ->]; exact K).
  assert (Q : forall c, c <> NTmp f -> cnt m' c = cnt m c) by (intros c K; apply K2; congruence).
  split; auto.
  - apply T'; [apply TM; discriminate|exact T].
  - intros g F; rewrite Q by congruence. apply TM; discriminate.
  - intros Z i L a; rewrite P by exact I. rewrite Q in Z by discriminate. apply (BG Z i L a).
  - intros b L; rewrite Q by discriminate; auto.
  - rewrite P by exact I; rewrite Q by discriminate; auto.
  - intros X i L; rewrite P by exact I; auto.
Qed.
Lemma clean_end ran f m : Clean ran (Some f) m -> exists m', end_locals f m = Some m' /\ Clean ran None m' /\ keeps noslot (eq (NTmp f)) m m'.
Proof.
  intros [R T TM BG FT [NA NN] CL]. destruct (does_end f m R) as (m' & E & R' & T' & [K1 K2] & Z0).
  exists m'; split; [exact E|]. split; [|split; [exact K1|exact K2]].
  assert (P : forall s, ptr m' s = ptr m s) by (intros s; apply K1; intros []).
  assert (Q : forall c, c <> NTmp f -> cnt m' c = cnt m c) by (intros c K; apply K2; congruence).
  split; auto.
  - apply T'; [exact I|exact T].
  - intros g _. destruct (counter_eq_dec (NTmp g) (NTmp f)) as [X|X]; [injection X as ->; exact Z0|]. rewrite Q by exact X. apply TM; congruence.
  - intros Z i L a; rewrite P. rewrite Q in Z by discriminate. apply (BG Z i L a).
  - intros b L; rewrite Q by discriminate; auto.
  - rewrite P; rewrite Q by discriminate; auto.
  - intros X i L; rewrite P; auto.
Qed.
(** From a [does] lemma. *)
Lemma clean_does ran o f P S C m : does f P (keeps S C) -> P m -> (forall s, S s -> ~ key s) -> (forall c, C c -> ~ keyc c) ->
  Clean ran o m -> exists m', f m = Some m' /\ Clean ran o m' /\ keeps S C m m'.
Proof.
  intros D HP HS HC CL. destruct (D m (c_ready _ _ _ CL)) as (m' & E & R & T & K). exists m'; split; [exact E|]. split; [|exact K].
  apply (clean_keeps ran o S C m m' CL K HS HC R). apply T; [exact HP|apply (c_tidy _ _ _ CL)].
Qed.
Lemma does_weak f P (E E' : mem -> mem -> Prop) : does f P E -> (forall m m', E m m' -> E' m m') -> does f P E'.
Proof. intros D H m R; destruct (D m R) as (m' & X & R' & T & K); exists m'; auto. Qed.
Lemma clean_background_free ran o m : Clean ran o m -> exists m', background_free m = Some m' /\ Clean ran o m' /\ bg_gone m' /\ shr m m'.
Proof.
  intros [R T TM BG FT [NA NN] CL]. destruct (background_free_ok m R BG) as (m' & E & R' & T' & S & G).
  exists m'; split; [exact E|]. split; [|auto]. split; auto.
  - intros f F; exact (stable_zero _ _ _ S (TM f F)).
  - intros _; apply G.
  - intros b L; exact (stable_zero _ _ _ S (FT b L)).
  - split; [|exact (stable_zero _ _ _ S NN)]. destruct S as [S _]. destruct (S Names (or_intror eq_refl)) as [X|X]; congruence.
  - intros X i L; exact (stable_class i L _ _ S (CL X i L)).
Qed.
Lemma clean_free_cache ran o c m : Clean ran o m -> exists m', free_cache c m = Some m' /\ Clean ran o m'.
Proof.
  intros CL; destruct c; cbn [free_cache].
  - destruct (clean_background_free ran o m CL) as (m' & E & C & _); eauto.
  - assert (W : forall t, used (Tab t false) -> (forall i, t <> Bg i) -> forall x, Clean ran o x -> exists y, free_table t x = Some y /\ Clean ran o y).
    { intros t U N x CX. destruct (clean_does ran o (free_table t) always (of_table t) nocnt x) as (y & E & C & _); [eapply does_weak; [apply does_free_table, U|]; intros a b [K _]; exact K | exact I | intros s [a ->] K; destruct t; try exact K; exact (N i eq_refl) | intros c [] | assumption | eauto]. }
    assert (W2 : forall t x, Clean ran o x -> exists y, free_table2 t x = Some y /\ Clean ran o y).
    { intros t x CX. destruct (clean_does ran o (free_table2 t) always (of_table2 t) nocnt x) as (y & E & C & _); [eapply does_weak; [apply does_free_table2|]; intros a b [K _]; exact K | exact I | intros s (p & _ & ->) K; exact K | intros c [] | assumption | eauto]. }
    destruct (W Spectrum I ltac:(discriminate) m CL) as (m1 & E1 & C1); rewrite E1.
    destruct (W SpectrumNorm I ltac:(discriminate) m1 C1) as (m2 & E2 & C2); rewrite E2.
    destruct (W2 false m2 C2) as (m3 & E3 & C3); rewrite E3. apply W2, C3.
  - destruct (clean_does ran o integrals_free always of_ints (eq NInts) m) as (y & E & C & _); [eapply does_weak; [apply does_integrals_free|]; intros a b [K _]; exact K | exact I | intros s [->|(i & p & ->)] K; exact K | intros c <- K; exact K | assumption | eauto].
  - destruct (clean_does ran o (out_free k) always (eq (Out k)) (eq (NOut k)) m) as (y & E & C & _); [eapply does_weak; [apply does_out_free|]; intros a b [K _]; exact K | exact I | intros s <- K; exact K | intros c <- K; exact K | assumption | eauto].
Qed.
Lemma clean_free_caches ran o cs : forall m, Clean ran o m -> exists m', each cs free_cache m = Some m' /\ Clean ran o m'.
Proof.
  induction cs as [|c cs IH]; intros m CL; cbn [each]; [exists m; auto|].
  destruct (clean_free_cache ran o c m CL) as (m1 & E1 & C1); rewrite E1; auto.
Qed.
Lemma clean_spectrum_null m m' : Ready m -> free_cache CSpectrum m = Some m' -> null_table Spectrum m' /\ null_table SpectrumNorm m'.
Proof.
  intros R E. cbn [free_cache] in E.
  assert (FS : frees (free_table Spectrum ;; free_table SpectrumNorm ;; free_table2 false ;; free_table2 true)
    (fun m => null_table Spectrum m /\ null_table SpectrumNorm m /\ null_table2 false m /\ null_table2 true m)).
  { apply frees_seq; [now apply stable_table|now apply frees_table|]. apply frees_seq; [now apply stable_table|now apply frees_table|].
    apply frees_seq; [apply stable_table2|apply frees_table2|apply frees_table2]. }
  destruct (FS m R) as (m1 & E1 & _ & _ & _ & Q). rewrite E in E1; injection E1 as <-. tauto.
Qed.
Lemma clean_init ran o t m : used (Tab t false) -> (forall i, t <> Bg i) -> null_table t m -> Clean ran o m ->
  exists m', init_table t m = Some m' /\ Clean ran o m' /\ keeps (of_table t) nocnt m m'.
Proof.
  intros U N Z CL. apply (clean_does ran o _ (null_table t)); [now apply does_init_table|exact Z| |intros c []|exact CL].
  intros s [a ->] K; destruct t; try exact K. exact (N i eq_refl).
Qed.
Lemma clean_setpk ran m : Clean ran None m -> exists m', step SetPk m = Some m' /\ Clean ran None m'.
Proof.
  intros CL; cbn [step]. destruct (clean_free_cache ran None CSpectrum m CL) as (m1 & E1 & C1); rewrite E1.
  destruct (clean_spectrum_null m m1 (c_ready _ _ _ CL) E1) as [Z1 Z2].
  destruct (clean_locals ran InSetPk 4 m1 C1) as (m2 & E2 & C2 & K2 & _); rewrite E2.
  destruct (clean_init ran (Some InSetPk) Spectrum m2 I) as (m3 & E3 & C3 & K3 & _); [discriminate| |exact C2|]; [|rewrite E3].
  { intros a; rewrite K2; [apply Z1|]. intros [i X]; discriminate. }
  destruct (clean_init ran (Some InSetPk) SpectrumNorm m3 I) as (m4 & E4 & C4 & _); [discriminate| |exact C3|]; [|rewrite E4].
  { intros a; rewrite K3 by (intros [b X]; discriminate). rewrite K2; [apply Z2|]. intros [i X]; discriminate. }
  destruct (clean_end ran InSetPk m4 C4) as (m5 & E5 & C5 & _); rewrite E5. apply (clean_free_cache ran None CIntegrals m5 C5).
Qed.
Lemma clean_setlist ran a n cs m : n <> 0 -> Clean ran None m -> exists m', step (SetList a n cs) m = Some m' /\ Clean ran None m'.
Proof.
  intros N CL; cbn [step]. destruct (clean_does ran None (set_list a n) _ _ _ m (does_set_list a n)) as (m1 & E1 & C1 & _); [assumption | intros s <- K; exact K | intros c <- K; exact K | assumption | rewrite E1; now apply clean_free_caches].
Qed.
Lemma clean_background ran m : Clean ran None m -> exists m', step (RunBackground false) m = Some m' /\ Clean ran None m'.
Proof.
  intros CL; cbn [step]; unfold background_init.
  destruct (clean_background_free ran None m CL) as (m1 & E1 & C1 & [G1 N1] & _); rewrite E1.
  destruct (clean_locals ran InBackground 24 m1 C1) as (m2 & E2 & C2 & K2 & K2c); rewrite E2.
  assert (N2 : forall i, i < 10 -> null_table (Bg i) m2).
  { intros i L a; rewrite K2; [apply N1, L|]. intros [j X]; discriminate. }
  assert (LOOP : forall l x, NoDup l -> (forall i, In i l -> i < 10 /\ null_table (Bg i) x) -> Ready x -> Tidy x ->
    exists y, each l (fun i => init_table (Bg i)) x = Some y /\ Ready y /\ Tidy y /\ keeps (fun s => exists i a, s = Tab (Bg i) a) nocnt x y).
  { induction l as [|i l IH]; intros x D H R T; cbn [each]; [exists x; unfold skip; split; [reflexivity|]; split; [exact R|]; split; [exact T|apply keeps_refl]|].
    inversion D as [|? ? D1 D2]; subst. destruct (H i (or_introl eq_refl)) as [L Z].
    destruct (does_init_table (Bg i) L x R) as (y & E & R' & T' & K); rewrite E.
    destruct (IH y D2) as (z & EZ & RZ & TZ & KZ); auto.
    - intros j J; destruct (H j (or_intror J)) as [LJ ZJ]; split; [exact LJ|]. intros a; destruct K as [K _]; rewrite K; [apply ZJ|].
      intros [b X]; injection X as -> _; contradiction.
    - exists z; split; [exact EZ|]. split; [exact RZ|]. split; [exact TZ|]. eapply keeps_trans; [|exact KZ].
      eapply keeps_weak; [| |exact K]; [intros s [b ->]; eauto|auto]. }
  destruct (LOOP (seq 0 10) m2 (seq_NoDup 10 0)) as (m3 & E3 & R3 & T3 & K3 & K3c).
  { intros i J; apply in_seq0 in J; split; [exact J|now apply N2]. }
  { apply C2. }
  { apply C2. }
  rewrite E3. destruct (does_end InBackground m3 R3) as (m4 & E4 & R4 & T4 & [K4 K4c] & Z4); rewrite E4.
  unfold when; cbn [andb]. unfold pure. eexists; split; [reflexivity|].
  destruct (safe_one m4 R4) as (m5 & E5 & R5). injection E5 as <-.
  assert (P : forall s, (forall i a, s <> Tab (Bg i) a) -> (forall i, s <> Tmp InBackground i) -> ptr m4 s = ptr m1 s).
  { intros s NB NT. rewrite K4 by (intros []). rewrite K3 by (intros (i & a & ->); exact (NB i a eq_refl)). rewrite K2; [reflexivity|]. intros [i ->]; exact (NT i eq_refl). }
  assert (Q : forall c, c <> NTmp InBackground -> cnt m4 c = cnt m1 c).
  { intros c N. rewrite K4c by congruence. rewrite K3c by (intros []). rewrite K2c by congruence. reflexivity. }
  destruct C1 as [R1 T1 TM BG FT [NA NN] CLS]. split.
  - exact R5.
  - apply tidy_nbg, T4; [exact I|exact T3].
  - intros f _. rewrite cnt_set_no by discriminate. destruct (counter_eq_dec (NTmp f) (NTmp InBackground)) as [X|X]; [injection X as ->; exact Z4|].
    rewrite Q by exact X. apply TM; discriminate.
  - intros Z; rewrite cnt_set_yes in Z; discriminate.
  - intros b L; rewrite cnt_set_no by discriminate. rewrite Q by discriminate. auto.
  - rewrite cnt_set_no by discriminate. rewrite ptr_cnt, P, Q by discriminate. auto.
  - intros X i L. rewrite ptr_cnt, P by discriminate. auto.
Qed.
Lemma clean_integrals ran ks m : Clean ran None m -> exists m', step (RunIntegrals false ks) m = Some m' /\ Clean ran None m'.
Proof.
  intros CL; cbn [step]. destruct (does_integrals_init false ks m (c_ready _ _ _ CL)) as (m' & E & R' & T' & [K1 K2] & Z).
  exists m'; split; [exact E|].
  destruct CL as [R T TM BG FT [NA NN] CLS].
  assert (P : forall s, key s -> ptr m' s = ptr m s).
  { intros s K; apply K1. intros [[[->|(i & p & ->)]|[i ->]]|[i ->]]; exact K. }
  assert (Q : forall c, c <> NTmp InIntegrals -> c <> NInts -> cnt m' c = cnt m c) by (intros c K K'; apply K2; intros [->| ->]; congruence).
  split; auto.
  - apply T'; [split; [reflexivity|apply TM; discriminate]|exact T].
  - intros f _. destruct (counter_eq_dec (NTmp f) (NTmp InIntegrals)) as [X|X]; [injection X as ->; apply Z, TM; discriminate|].
    rewrite Q; [apply TM; discriminate|exact X|discriminate].
  - intros X i L a; rewrite P by exact I. rewrite Q in X by discriminate. apply (BG X i L a).
  - intros b L; rewrite Q by discriminate; auto.
  - rewrite P by exact I; rewrite Q by discriminate; auto.
  - intros X i L; rewrite P by exact I; auto.
Qed.
Lemma clean_touch ran o s m : by_null s -> Clean ran o m -> touch s m = Some m.
Proof.
  intros B CL; destruct (ptr m s) eqn:P; [|now apply touch_null]. apply touch_open; [apply CL|]. apply open_by_null; [exact B|congruence].
Qed.
Lemma clean_reads ran o ls m : Clean ran o m -> exists m', reads ls m = Some m' /\ Clean ran o m' /\ keeps noslot nocnt m m'.
Proof.
  intros CL. apply (clean_does ran o _ always); [apply does_reads|exact I|intros s []|intros c []|exact CL].
Qed.
Lemma clean_out_free ran o k m : Clean ran o m -> exists m', out_free k m = Some m' /\ Clean ran o m' /\ cnt m' (NOut k) = 0 /\ (forall j, cnt m (NOut j) = 0 -> cnt m' (NOut j) = 0).
Proof.
  intros CL. destruct (clean_free_cache ran o (COut k) m CL) as (m' & E & C). exists m'; split; [exact E|]. split; [exact C|].
  destruct (frees_out k m (c_ready _ _ _ CL)) as (m1 & E1 & _ & _ & S & Z). cbn [free_cache] in E. rewrite E in E1; injection E1 as <-.
  split; [exact Z|]. intros j; apply (stable_zero _ _ _ S).
Qed.
Lemma clean_out ran k n t m : n <> 0 -> Clean ran None m -> exists m', step (RunOut k n t) m = Some m' /\ Clean ran None m'.
Proof.
  intros N CL; cbn [step]; unfold out_init.
  assert (H : exists m1, (if is_cov k then out_free Cov ;; out_free AverageCov else out_free k) m = Some m1 /\ Clean ran None m1 /\ cnt m1 (NOut k) = 0).
  { destruct (is_cov k) eqn:K.
    - destruct (clean_out_free ran None Cov m CL) as (m1 & E1 & C1 & Z1 & _); rewrite E1.
      destruct (clean_out_free ran None AverageCov m1 C1) as (m2 & E2 & C2 & Z2 & W2). exists m2; split; [exact E2|]. split; [exact C2|].
      destruct k; try discriminate; auto.
    - destruct (clean_out_free ran None k m CL) as (m1 & E1 & C1 & Z1 & _); eauto. }
  destruct H as (m1 & E1 & C1 & Z1); rewrite E1.
  destruct (clean_does ran None _ _ _ _ m1 (does_out_alloc k n)) as (m2 & E2 & C2 & _); [split; assumption|intros s <- K; exact K|intros c <- K; exact K|exact C1|].
  rewrite E2. destruct (clean_reads ran None (output_lists k) m2 C2) as (m3 & E3 & C3 & _); rewrite E3.
  assert (H : exists m4, (if is_cov k
   then locals InCov t ;; touch (Tab Spectrum false) ;; touch (Tab SpectrumNorm false) ;; touch (Class_ 5) ;; end_locals InCov
   else read_integrals) m3 = Some m4 /\ Clean ran None m4).
  { destruct (is_cov k).
    - destruct (clean_locals ran InCov t m3 C3) as (m4 & E4 & C4 & _); rewrite E4.
      rewrite (clean_touch _ _ (Tab Spectrum false) m4 (conj I I) C4), (clean_touch _ _ (Tab SpectrumNorm false) m4 (conj I I) C4).
      rewrite (clean_touch _ _ (Class_ 5) m4 (bnc 5 ltac:(lia)) C4).
      destruct (clean_end ran InCov m4 C4) as (m5 & E5 & C5 & _); eauto.
    - destruct (clean_does ran None _ always _ _ m3 does_read_integrals) as (m4 & E4 & C4 & _); [exact I|intros s []|intros c []|exact C3|eauto]. }
  destruct H as (m4 & E4 & C4). rewrite E4.
  destruct (clean_does ran None _ always _ _ m4 (does_touch_out k)) as (m5 & E5 & C5 & _); [exact I|intros s []|intros c []|exact C4|eauto].
Qed.
Lemma clean_more ran o m : Clean ran o m -> Clean true o m.
Proof. intros [R T TM BG FT NA CL]; split; auto. discriminate. Qed.
Lemma clean_class nl m : Clean false None m -> exists m', step (RunClass nl) m = Some m' /\ Clean true None m'.
Proof.
  intros CL; cbn [step]; unfold class_spectrum.
  destruct (frees_table Spectrum I m (c_ready _ _ _ CL)) as (m1 & E1 & R1 & T1 & S1 & Z1); rewrite E1.
  assert (C1 : Clean false None m1).
  { destruct (clean_does false None (free_table Spectrum) always (of_table Spectrum) nocnt m) as (y & E & C & _); [eapply does_weak; [now apply does_free_table|]; intros a b [K _]; exact K | exact I | intros s [a ->] K; exact K | intros c [] | assumption | rewrite E1 in E; injection E as <-; exact C]. }
  destruct (frees_table SpectrumNorm I m1 R1) as (m2 & E2 & R2 & T2 & S2 & Z2); rewrite E2.
  assert (C2 : Clean false None m2).
  { destruct (clean_does false None (free_table SpectrumNorm) always (of_table SpectrumNorm) nocnt m1) as (y & E & C & _); [eapply does_weak; [now apply does_free_table|]; intros a b [K _]; exact K | exact I | intros s [a ->] K; exact K | intros c [] | assumption | rewrite E2 in E; injection E as <-; exact C]. }
  pose proof (stable_table Spectrum I _ _ S2 Z1) as Z1'.
  destruct (clean_locals false InClass 7 m2 C2) as (m3 & E3 & C3 & K3 & _); rewrite E3.
  destruct (clean_init false (Some InClass) Spectrum m3 I) as (m4 & E4 & C4 & K4 & _); [discriminate| |exact C3|]; [|rewrite E4].
  { intros a; rewrite K3; [apply Z1'|]. intros [i X]; discriminate. }
  destruct (clean_init false (Some InClass) SpectrumNorm m4 I) as (m5 & E5 & C5 & _); [discriminate| |exact C4|]; [|rewrite E5].
  { intros a; rewrite K4 by (intros [b X]; discriminate). rewrite K3; [apply Z2|]. intros [i X]; discriminate. }
  assert (LOOP : forall l x, NoDup l -> (forall i, In i l -> i < 8 /\ ptr x (Class_ i) = None) -> Clean true (Some InClass) x ->
    exists y, each l (fun i => pure (alloc (Class_ i))) x = Some y /\ Clean true (Some InClass) y).
  { induction l as [|i l IH]; intros x D H CX; cbn [each]; [exists x; auto|]. inversion D as [|? ? D1 D2]; subst.
    destruct (H i (or_introl eq_refl)) as [L Z].
    destruct (does_alloc (Class_ i) (bnc i L) x (c_ready _ _ _ CX)) as (y & E & R' & T' & [K Kc]); rewrite E.
    apply IH; auto.
    - intros j J; destruct (H j (or_intror J)) as [LJ ZJ]; split; [exact LJ|]. rewrite K; [exact ZJ|]. intros X; injection X as ->; contradiction.
    - destruct CX as [R T TM BG FT [NA NN] CLS].
      assert (Q : forall c, cnt y c = cnt x c) by (intros c; apply Kc; intros []).
      split; auto; try discriminate.
      + intros f F; rewrite Q; auto.
      + intros X j LJ a; rewrite K by discriminate. rewrite Q in X. apply (BG X j LJ a).
      + intros b LB; rewrite Q; auto.
      + rewrite K, Q by discriminate; auto. }
  destruct (LOOP (seq 0 8) m5 (seq_NoDup 8 0)) as (m6 & E6 & C6).
  { intros i J; apply in_seq0 in J; split; [exact J|]. now apply (c_class _ _ _ C5). }
  { eapply clean_more, C5. }
  rewrite E6. destruct (clean_end true InClass m6 C6) as (m7 & E7 & C7 & _); rewrite E7.
  destruct nl; [|exists m7; auto].
  assert (W2 : forall t x, Clean true None x -> exists y, free_table2 t x = Some y /\ Clean true None y /\ null_table2 t y /\ shr x y).
  { intros t x CX. destruct (clean_does true None (free_table2 t) always (of_table2 t) nocnt x) as (y & E & C & _); [eapply does_weak; [apply does_free_table2|]; intros a b [K _]; exact K | exact I | intros s (p & _ & ->) K; exact K | intros c [] | assumption | destruct (frees_table2 t x (c_ready _ _ _ CX)) as (z & EZ & _ & _ & S & Z); rewrite E in EZ; injection EZ as <-; eauto]. }
  destruct (W2 false m7 C7) as (m8 & E8 & C8 & Z8 & _); rewrite E8.
  destruct (W2 true m8 C8) as (m9 & E9 & C9 & Z9 & S9); rewrite E9.
  pose proof (stable_table2 false _ _ S9 Z8) as Z8'.
  destruct (clean_locals true InClass2d 6 m9 C9) as (ma & Ea & Ca & Ka & _); rewrite Ea.
  rewrite (clean_touch _ _ (Class_ 5) ma (bnc 5 ltac:(lia)) Ca).
  assert (I2 : forall t x, null_table2 t x -> Clean true (Some InClass2d) x -> exists y, init_table2 t x = Some y /\ Clean true (Some InClass2d) y /\ keeps (of_table2 t) nocnt x y).
  { intros t x Z CX. apply (clean_does true _ _ (null_table2 t)); [apply does_init_table2|exact Z|intros s (p & _ & ->) K; exact K|intros c []|exact CX]. }
  destruct (I2 false ma) as (mb & Eb & Cb & Kb & _); [|exact Ca|]; [|rewrite Eb].
  { intros p L; rewrite Ka; [now apply Z8'|]. intros [i X]; discriminate. }
  destruct (I2 true mb) as (mc & Ec & Cc & _); [|exact Cb|]; [|rewrite Ec].
  { intros p L; rewrite Kb by (intros (q & _ & X); discriminate). rewrite Ka; [now apply Z9|]. intros [i X]; discriminate. }
  destruct (clean_end true InClass2d mc Cc) as (md & Ed & Cd & _); eauto.
Qed.
