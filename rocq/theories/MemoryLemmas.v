(** * The ownership invariant of the memory model, and its preservation *)
From Coq Require Import Arith Bool List Lia.
From Verif Require Import Memory.
Import ListNotations.

(** The indices in use: eight biases, ten background functions, three pointers of a 2D
    table, eight CLASS structures, ten pointers of an integral, six bias fits.
    Specification or proof only; nothing in the code. *)
Definition used (s : slot) : Prop :=
  match s with
  | Tab (Bias i) _ => i < 8
  | Tab (Bg i) _ => i < 10
  | Tab2 _ p => p < 3
  | Class_ i => i < 8
  | Int _ p => p < 10
  | Fit b | Coef b _ => b < 6
  | _ => True
  end.
(** The pointers the code would release or read: the counters say so.
    Specification or proof only; nothing in the code. *)
Definition open (m : mem) (s : slot) : Prop := used s /\
  match s with
  | Tab _ _ | Tab2 _ _ | Class_ _ => ptr m s <> None
  | List_ a => cnt m NPar <> 0 /\ cnt m (NList a) <> 0
  | Names => cnt m NPar <> 0 /\ ptr m s <> None
  | Name i => cnt m NPar <> 0 /\ i < cnt m NNames
  | Out k => cnt m (NOut k) <> 0
  | Ints => cnt m NInts <> 0
  | Int i _ => i < cnt m NInts /\ ptr m s <> None
  | Fit b => cnt m (NFit b) <> 0
  | Coef b i => i < cnt m (NFit b) /\ cnt m (NCoef b i) <> 0
  | Tmp f i => i < cnt m (NTmp f)
  end.
(** [O]: the pointers in force.  Each has a live block, no two the same one.
    Specification or proof only; nothing in the code. *)
Record GoodO (O : slot -> Prop) (m : mem) : Prop := mkGood {
  g_live : forall s, O s -> exists b, ptr m s = Some b /\ In b (live m);
  g_one : forall s t b, O s -> O t -> ptr m s = Some b -> ptr m t = Some b -> s = t;
  g_next : forall b, In b (live m) -> b < next m }.
Definition Good (m : mem) : Prop := GoodO (open m) m.
(** No live block without an owner.  Specification or proof only; nothing in the code. *)
Definition TidyO (O : slot -> Prop) (m : mem) : Prop := forall b, In b (live m) -> exists s, O s /\ ptr m s = Some b.
Definition Tidy (m : mem) : Prop := TidyO (open m) m.

Lemma sbeq s t : slot_beq s t = true <-> s = t.
Proof. split; [apply internal_slot_dec_bl | apply internal_slot_dec_lb]. Qed.
Lemma cbeq s t : counter_beq s t = true <-> s = t.
Proof. split; [apply internal_counter_dec_bl | apply internal_counter_dec_lb]. Qed.
Lemma sbeq_refl s : slot_beq s s = true. Proof. now apply sbeq. Qed.
Lemma cbeq_refl s : counter_beq s s = true. Proof. now apply cbeq. Qed.
Lemma sbeq_no s t : s <> t -> slot_beq s t = false.
Proof. intros N; destruct (slot_beq s t) eqn:E; [apply sbeq in E; contradiction|reflexivity]. Qed.
Lemma cbeq_no s t : s <> t -> counter_beq s t = false.
Proof. intros N; destruct (counter_beq s t) eqn:E; [apply cbeq in E; contradiction|reflexivity]. Qed.
Lemma is_live_in m b : is_live m b = true <-> In b (live m).
Proof.
  unfold is_live; rewrite existsb_exists; split.
  - intros (x & I & E); apply Nat.eqb_eq in E; now subst.
  - intros I; exists b; split; [exact I|apply Nat.eqb_refl].
Qed.

(** ** Three kinds of step *)
Lemma good_keep m m' : Good m -> live m' = live m -> next m' = next m ->
  (forall t, open m' t -> open m t /\ ptr m' t = ptr m t) -> Good m'.
Proof.
  intros [L O B] EL EN H; split.
  - intros s S; destruct (H s S) as [S' E]; rewrite E, EL; auto.
  - intros s t b S T; destruct (H s S) as [S' E], (H t T) as [T' F]; rewrite E, F; eauto.
  - rewrite EL, EN; exact B.
Qed.
Lemma good_drop m m' s b : Good m -> open m s -> ptr m s = Some b ->
  live m' = remove Nat.eq_dec b (live m) -> next m' = next m ->
  (forall t, open m' t -> t <> s /\ open m t /\ ptr m' t = ptr m t) -> Good m'.
Proof.
  intros [L O B] S P EL EN H; split.
  - intros t T; destruct (H t T) as (N & T' & E); destruct (L t T') as (c & C & I).
    exists c; rewrite E, EL; split; [exact C|]. apply in_in_remove; [|exact I].
    intros ->; apply N; eapply O; eauto.
  - intros t u c T U; destruct (H t T) as (N & T' & E), (H u U) as (N' & U' & F); rewrite E, F; eauto.
  - rewrite EL, EN; intros c C; apply in_remove in C; apply B, C.
Qed.
Lemma good_new m m' s : Good m ->
  live m' = next m :: live m -> next m' = S (next m) -> ptr m' s = Some (next m) ->
  (forall t, open m' t -> t <> s -> open m t /\ ptr m' t = ptr m t) -> Good m'.
Proof.
  intros [L O B] EL EN P H; split.
  - intros t T; destruct (slot_eq_dec t s) as [->|N].
    + exists (next m); rewrite EL; split; [exact P|now left].
    + destruct (H t T N) as (T' & E); destruct (L t T') as (c & C & I); exists c; rewrite E, EL; split; [exact C|now right].
  - assert (F : forall t b, open m' t -> t <> s -> ptr m' t = Some b -> b < next m).
    { intros t b T N E; destruct (H t T N) as (T' & F); rewrite F in E; destruct (L t T') as (c & C & I).
      rewrite E in C; injection C as <-; apply B, I. }
    intros t u b T U E1 E2; destruct (slot_eq_dec t s) as [->|N], (slot_eq_dec u s) as [->|N']; auto.
    + rewrite P in E1; injection E1 as <-; specialize (F u _ U N' E2); lia.
    + rewrite P in E2; injection E2 as <-; specialize (F t _ T N E1); lia.
    + destruct (H t T N) as (T' & X), (H u U N') as (U' & Y); rewrite X in E1; rewrite Y in E2; eauto.
  - rewrite EL, EN; intros b [<-|I]; [lia|specialize (B b I); lia].
Qed.
Lemma tidy_keep m m' : Tidy m -> live m' = live m ->
  (forall t, open m t -> open m' t /\ ptr m' t = ptr m t) -> Tidy m'.
Proof. intros T EL H b I; rewrite EL in I; destruct (T b I) as (s & S & P); exists s; destruct (H s S) as [S' E]; now rewrite E. Qed.
Lemma tidy_drop m m' s b : Tidy m -> ptr m s = Some b -> live m' = remove Nat.eq_dec b (live m) ->
  (forall t, open m t -> t <> s -> open m' t /\ ptr m' t = ptr m t) -> Tidy m'.
Proof.
  intros T P EL H c I; rewrite EL in I; apply in_remove in I; destruct I as [I N].
  destruct (T c I) as (t & O & Q); exists t; destruct (H t O) as [O' E]; [|now rewrite E].
  intros ->; congruence.
Qed.
Lemma tidy_new m m' s : Tidy m -> live m' = next m :: live m -> ptr m' s = Some (next m) -> open m' s ->
  (forall t, open m t -> t <> s /\ open m' t /\ ptr m' t = ptr m t) -> Tidy m'.
Proof.
  intros T EL P O H b I; rewrite EL in I; destruct I as [<-|I]; [exists s; auto|].
  destruct (T b I) as (t & U & Q); exists t; destruct (H t U) as (_ & U' & E); now rewrite E.
Qed.

(** ** Safety, part by part *)
(** Specification or proof only; nothing in the code. *)
Definition Ready (m : mem) : Prop := Good m /\ cnt m NPar <> 0.
Definition safe (f : mem -> option mem) : Prop := forall m, Ready m -> exists m', f m = Some m' /\ Ready m'.

Lemma safe_seq f g : safe f -> safe g -> safe (f ;; g).
Proof. intros F G m R; destruct (F m R) as (m1 & E & R1); rewrite E; apply G, R1. Qed.
Lemma safe_skip : safe skip. Proof. intros m R; exists m; auto. Qed.
Lemma safe_when b f : safe f -> safe (when b f).
Proof. intros F m R; unfold when; destruct (b m); [apply F, R|exists m; auto]. Qed.
Lemma safe_each {A} (l : list A) f : (forall x, safe (f x)) -> safe (each l f).
Proof. intros F; induction l as [|x l IH]; [apply safe_skip|cbn [each]; apply safe_seq; auto]. Qed.
Lemma safe_dep {A} (h : mem -> A) (f : A -> mem -> option mem) : (forall x, safe (f x)) -> safe (fun m => f (h m) m).
Proof. intros F m R; apply F, R. Qed.

Lemma release_open m s : Good m -> open m s ->
  exists b, ptr m s = Some b /\ release s m = Some (mkMem (remove Nat.eq_dec b (live m)) (next m) (ptr m) (cnt m)).
Proof.
  intros G O; destruct (g_live _ _ G s O) as (b & P & I); exists b; split; [exact P|].
  unfold release; rewrite P; apply is_live_in in I; now rewrite I.
Qed.
Lemma touch_open m s : Good m -> open m s -> touch s m = Some m.
Proof. intros G O; destruct (g_live _ _ G s O) as (b & P & I); unfold touch; rewrite P; apply is_live_in in I; now rewrite I. Qed.
Lemma touch_null m s : ptr m s = None -> touch s m = Some m.
Proof. unfold touch; now intros ->. Qed.

(** Pointers open whenever they are not NULL.  Specification or proof only; nothing in the code. *)
Definition by_null (s : slot) : Prop := used s /\ match s with Tab _ _ | Tab2 _ _ | Class_ _ => True | _ => False end.
Lemma open_by_null m s : by_null s -> (open m s <-> ptr m s <> None).
Proof. intros [U B]; unfold open; destruct s; try (now destruct B); (split; [intros [_ H]; exact H|intros H; split; [exact U|exact H]]). Qed.
Lemma touch_by_null s : by_null s -> safe (touch s).
Proof.
  intros B m [G R]; exists m; split; [|split; auto]. destruct (ptr m s) eqn:P; [|now apply touch_null].
  apply touch_open; [exact G|]. apply open_by_null; [exact B|congruence].
Qed.
Lemma nonnull_true s m : nonnull s m = true <-> ptr m s <> None.
Proof. unfold nonnull; destruct (ptr m s); split; congruence. Qed.
Lemma nonnull_false s m : nonnull s m = false <-> ptr m s = None.
Proof. unfold nonnull; destruct (ptr m s); split; congruence. Qed.
Lemma counted_true s m : counted s m = true <-> cnt m s <> 0.
Proof. unfold counted; rewrite negb_true_iff, Nat.eqb_neq; tauto. Qed.
Lemma counted_false s m : counted s m = false <-> cnt m s = 0.
Proof. unfold counted; rewrite negb_false_iff, Nat.eqb_eq; tauto. Qed.

(** What an update changes. *)
Lemma ptr_set s v m t : ptr (set_ptr s v m) t = if slot_beq s t then v else ptr m t. Proof. reflexivity. Qed.
Lemma ptr_alloc s m t : ptr (alloc s m) t = if slot_beq s t then Some (next m) else ptr m t. Proof. reflexivity. Qed.
Lemma ptr_cnt c n m t : ptr (set_cnt c n m) t = ptr m t. Proof. reflexivity. Qed.
Lemma cnt_set s v m t : cnt (set_cnt s v m) t = if counter_beq s t then v else cnt m t. Proof. reflexivity. Qed.

(** The result of releasing and resetting a pointer.  Specification or proof only; nothing in the code. *)
Definition drop (s : slot) (m : mem) : mem :=
  match ptr m s with
  | None => set_ptr s None m
  | Some b => mkMem (remove Nat.eq_dec b (live m)) (next m) (fun t => if slot_beq s t then None else ptr m t) (cnt m)
  end.
Lemma free_null_drop s m : Good m -> (ptr m s <> None -> open m s) -> free_null s m = Some (drop s m).
Proof.
  intros G O; unfold free_null, when, nonnull, pure, drop. destruct (ptr m s) as [b|] eqn:P; [|reflexivity].
  destruct (release_open m s G) as (c & C & E); [apply O; congruence|]. rewrite E. rewrite P in C; injection C as <-. reflexivity.
Qed.
Lemma drop_ptr s m t : ptr (drop s m) t = if slot_beq s t then None else ptr m t.
Proof. unfold drop; destruct (ptr m s); reflexivity. Qed.
Lemma drop_cnt s m c : cnt (drop s m) c = cnt m c. Proof. unfold drop; destruct (ptr m s); reflexivity. Qed.
Lemma drop_next s m : next (drop s m) = next m. Proof. unfold drop; destruct (ptr m s); reflexivity. Qed.
(** [open] only looks at its own pointer and at counters. *)
Lemma open_ext m m' t : ptr m' t = ptr m t -> (forall c, cnt m' c = cnt m c) -> (open m' t <-> open m t).
Proof. intros P C; unfold open; destruct t; rewrite ?P, ?C; tauto. Qed.
Lemma open_null m s : ptr m s = None -> Good m -> ~ open m s.
Proof. intros P G O; destruct (g_live _ _ G s O) as (b & Q & _); congruence. Qed.
Lemma drop_self s m : (by_null s \/ exists i p, s = Int i p) -> ~ open (drop s m) s.
Proof.
  intros [B|(i & p & ->)] O.
  - apply open_by_null in O; [|exact B]. rewrite drop_ptr, sbeq_refl in O; congruence.
  - destruct O as [_ [_ O]]; rewrite drop_ptr, sbeq_refl in O; congruence.
Qed.
Lemma drop_other s t m : t <> s -> (open (drop s m) t <-> open m t) /\ ptr (drop s m) t = ptr m t.
Proof.
  intros N; assert (E : ptr (drop s m) t = ptr m t) by (rewrite drop_ptr, sbeq_no; auto).
  split; [apply open_ext; [exact E|apply drop_cnt]|exact E].
Qed.
Lemma good_dropped s m : (by_null s \/ exists i p, s = Int i p) -> (ptr m s <> None -> open m s) -> Good m -> Good (drop s m).
Proof.
  intros B O G. assert (N : forall t, open (drop s m) t -> t <> s) by (intros t T ->; revert T; now apply drop_self).
  destruct (ptr m s) as [b|] eqn:P.
  - apply (good_drop m _ s b); auto.
    + apply O; congruence.
    + unfold drop; now rewrite P.
    + apply drop_next.
    + intros t T; specialize (N t T). destruct (drop_other s t m N) as [A C]. split; [exact N|]. split; [now apply A|exact C].
  - apply (good_keep m); auto.
    + unfold drop; now rewrite P.
    + apply drop_next.
    + intros t T; specialize (N t T). destruct (drop_other s t m N) as [A C]; split; [now apply A|exact C].
Qed.
Lemma tidy_dropped s m : Good m -> Tidy m -> Tidy (drop s m).
Proof.
  intros G T. destruct (ptr m s) as [b|] eqn:P.
  - apply (tidy_drop m _ s b); auto.
    + unfold drop; now rewrite P.
    + intros t O N; destruct (drop_other s t m N) as [A C]; split; [now apply A|exact C].
  - apply (tidy_keep m); auto.
    + unfold drop; now rewrite P.
    + intros t O. assert (N : t <> s) by (intros ->; revert O; now apply open_null).
      destruct (drop_other s t m N) as [A C]; split; [now apply A|exact C].
Qed.
Lemma free_null_safe s : by_null s -> safe (free_null s).
Proof.
  intros B m [G R]. assert (O : ptr m s <> None -> open m s) by (intros N; now apply open_by_null).
  exists (drop s m); split; [apply free_null_drop; auto|]. split; [apply good_dropped; auto|now rewrite drop_cnt].
Qed.

(** Allocation into a pointer that is open when it is not NULL. *)
Lemma alloc_other s t m : t <> s -> (open (alloc s m) t <-> open m t) /\ ptr (alloc s m) t = ptr m t.
Proof.
  intros N; assert (E : ptr (alloc s m) t = ptr m t) by (rewrite ptr_alloc, sbeq_no; auto).
  split; [apply open_ext; [exact E|reflexivity]|exact E].
Qed.
Lemma good_alloc s m : Good m -> Good (alloc s m).
Proof.
  intros G; apply (good_new m _ s); auto; [rewrite ptr_alloc, sbeq_refl; reflexivity|].
  intros t T N; destruct (alloc_other s t m N) as [A C]; split; [now apply A|exact C].
Qed.
Lemma tidy_alloc s m : Tidy m -> ~ open m s -> open (alloc s m) s -> Tidy (alloc s m).
Proof.
  intros T C O; apply (tidy_new m _ s); auto; [rewrite ptr_alloc, sbeq_refl; reflexivity|].
  intros t U; assert (N : t <> s) by congruence. destruct (alloc_other s t m N) as [A B]. split; [exact N|]. split; [now apply A|exact B].
Qed.
Lemma alloc_safe s : safe (pure (alloc s)).
Proof. intros m [G R]; exists (alloc s m); split; [reflexivity|split; [now apply good_alloc|exact R]]. Qed.
Lemma init_table_safe t : safe (init_table t).
Proof. apply safe_seq; apply alloc_safe. Qed.
Lemma init_table2_safe t : safe (init_table2 t).
Proof. apply safe_each; intros p; apply alloc_safe. Qed.

(** A counter set together with an allocation: [s] is the only pointer whose being
    open may depend on the counter. *)
Lemma good_count s c n m : Good m ->
  (forall t, t <> s -> open (set_cnt c n (alloc s m)) t -> open m t) -> Good (set_cnt c n (alloc s m)).
Proof.
  intros G H; apply (good_new m _ s); auto; [cbn; now rewrite sbeq_refl|].
  intros t T N; split; [now apply H|]. cbn; now rewrite sbeq_no by auto.
Qed.
Lemma cnt_set_no c n m d : d <> c -> cnt (set_cnt c n m) d = cnt m d.
Proof. intros N; rewrite cnt_set, cbeq_no; auto. Qed.
Lemma cnt_set_yes c n m : cnt (set_cnt c n m) c = n. Proof. now rewrite cnt_set, cbeq_refl. Qed.

(** Local blocks. *)
Lemma locals_from f n k m : Ready m -> k <= cnt m (NTmp f) ->
  exists m', each (seq k n) (fun i => pure (fun m => set_cnt (NTmp f) (S i) (alloc (Tmp f i) m))) m = Some m' /\
    Ready m' /\ (cnt m (NTmp f) = k -> cnt m' (NTmp f) = k + n /\ (Tidy m -> Tidy m')) /\
    (forall c, c <> NTmp f -> cnt m' c = cnt m c) /\ (forall s, (forall i, s <> Tmp f i) -> ptr m' s = ptr m s).
Proof.
  revert k m; induction n as [|n IH]; intros k m R K; cbn [seq each].
  { exists m; repeat split; auto; try apply R; lia. }
  unfold pure at 1.
  set (m1 := set_cnt (NTmp f) (S k) (alloc (Tmp f k) m)).
  assert (G1 : Ready m1).
  { destruct R as [G R]; split.
    - apply good_count; [exact G|]. intros t N; unfold open; destruct t; rewrite ?cnt_set; cbn -[counter_beq slot_beq used]; rewrite ?cbeq_no by discriminate; rewrite ?sbeq_no by auto; auto.
      intros [U L]; split; [exact U|]; revert L. destruct (counter_beq (NTmp f) (NTmp f0)) eqn:E; auto. apply cbeq in E; injection E as <-.
      intros L. assert (i <> k) by congruence. lia.
    - unfold m1; rewrite cnt_set_no by discriminate; exact R. }
  assert (T1 : cnt m (NTmp f) = k -> Tidy m -> Tidy m1).
  { intros K' T; apply (tidy_new m _ (Tmp f k)); auto.
    - unfold m1; now rewrite ptr_cnt, ptr_alloc, sbeq_refl.
    - split; [exact I|]; unfold m1; rewrite cnt_set_yes; lia.
    - intros t O. assert (N : t <> Tmp f k) by (intros ->; destruct O as [_ O]; lia). split; [exact N|].
      assert (E : ptr m1 t = ptr m t) by (unfold m1; rewrite ptr_cnt, ptr_alloc, sbeq_no; auto). split; [|exact E].
      unfold open in *; destruct t; rewrite ?E; unfold m1; rewrite ?cnt_set_no by discriminate; auto.
      destruct O as [_ O]; split; [exact I|]. destruct (counter_eq_dec (NTmp f0) (NTmp f)) as [E0|N0]; [injection E0 as ->; rewrite cnt_set_yes; lia|rewrite cnt_set_no; auto]. }
  destruct (IH (S k) m1 G1) as (m' & E & R' & C & F & P).
  { unfold m1; rewrite cnt_set_yes; lia. }
  exists m'; split; [exact E|]. split; [exact R'|]. split. { intros K'; destruct C as [C1 C2]; [apply cnt_set_yes|]. split; [lia|auto]. } split.
  - intros c N; rewrite F by exact N. unfold m1; rewrite cnt_set_no; auto.
  - intros s N; rewrite P by exact N. unfold m1; rewrite ptr_cnt, ptr_alloc, sbeq_no; auto.
Qed.

(** ** Steps for an arbitrary set of pointers in force *)
Lemma goodO_release O m s : GoodO O m -> O s -> exists m',
  release s m = Some m' /\ (forall t, ptr m' t = ptr m t) /\ (forall c, cnt m' c = cnt m c) /\
  GoodO (fun t => O t /\ t <> s) m' /\ (TidyO O m -> TidyO (fun t => O t /\ t <> s) m').
Proof.
  intros G S; destruct (g_live _ _ G s S) as (b & P & I).
  exists (mkMem (remove Nat.eq_dec b (live m)) (next m) (ptr m) (cnt m)).
  split. { unfold release; rewrite P; apply is_live_in in I; now rewrite I. }
  split; [reflexivity|]. split; [reflexivity|]. destruct G as [L U B]. split.
  - split; cbn.
    + intros t [T N]; destruct (L t T) as (c & C & J); exists c; split; [exact C|]. apply in_in_remove; [|exact J].
      intros ->; apply N; eapply U; eauto.
    + intros t u c [T _] [V _]; eauto.
    + intros c J; apply in_remove in J; apply B, J.
  - intros T c J; cbn in J; apply in_remove in J; destruct J as [J N]. destruct (T c J) as (t & V & Q).
    exists t; split; [split; [exact V|]|exact Q]. intros ->; congruence.
Qed.
Lemma goodO_alloc O m s : GoodO O m -> GoodO (fun t => t = s \/ O t) (alloc s m).
Proof.
  intros [L U B]. assert (F : forall t b, O t -> t <> s -> ptr (alloc s m) t = Some b -> b < next m).
  { intros t b T N E; rewrite ptr_alloc, sbeq_no in E by auto. destruct (L t T) as (c & C & I). rewrite E in C; injection C as <-; auto. }
  split.
  - intros t T; rewrite ptr_alloc. destruct (slot_eq_dec t s) as [->|N].
    + exists (next m); rewrite sbeq_refl; split; [reflexivity|now left].
    + destruct T as [->|T]; [congruence|]. destruct (L t T) as (c & C & I); exists c; rewrite sbeq_no by auto; split; [exact C|now right].
  - intros t u b T V E1 E2; destruct (slot_eq_dec t s) as [->|N], (slot_eq_dec u s) as [->|N']; auto.
    + destruct V as [->|V]; [congruence|]. rewrite ptr_alloc, sbeq_refl in E1; injection E1 as <-; specialize (F u _ V N' E2); lia.
    + destruct T as [->|T]; [congruence|]. rewrite ptr_alloc, sbeq_refl in E2; injection E2 as <-; specialize (F t _ T N E1); lia.
    + destruct T as [->|T]; [congruence|]. destruct V as [->|V]; [congruence|].
      rewrite ptr_alloc, sbeq_no in E1 by auto; rewrite ptr_alloc, sbeq_no in E2 by auto; eauto.
  - cbn; intros b [<-|I]; [lia|specialize (B b I); lia].
Qed.
Lemma tidyO_alloc O m s : TidyO O m -> ~ O s -> TidyO (fun t => t = s \/ O t) (alloc s m).
Proof.
  intros T N b [<-|I]; [exists s; split; [now left|now rewrite ptr_alloc, sbeq_refl]|].
  destruct (T b I) as (t & U & Q); exists t; split; [now right|]. rewrite ptr_alloc, sbeq_no; auto; congruence.
Qed.
Lemma goodO_ext (O O' : slot -> Prop) m m' : GoodO O m -> live m' = live m -> next m' = next m ->
  (forall t, O' t -> O t /\ ptr m' t = ptr m t) -> GoodO O' m'.
Proof.
  intros [L U B] EL EN H; split.
  - intros s S; destruct (H s S) as [S' E]; rewrite E, EL; auto.
  - intros s t b S T; destruct (H s S) as [S' E], (H t T) as [T' F]; rewrite E, F; eauto.
  - rewrite EL, EN; exact B.
Qed.
Lemma tidyO_ext (O O' : slot -> Prop) m m' : TidyO O m -> live m' = live m ->
  (forall t, O t -> O' t /\ ptr m' t = ptr m t) -> TidyO O' m'.
Proof. intros T EL H b I; rewrite EL in I; destruct (T b I) as (s & S & P); exists s; destruct (H s S) as [S' E]; now rewrite E. Qed.

(** ** The parts, with what they change and when they leave nothing behind *)
(** Specification or proof only; nothing in the code. *)
Definition does (f : mem -> option mem) (P : mem -> Prop) (E : mem -> mem -> Prop) : Prop :=
  forall m, Ready m -> exists m', f m = Some m' /\ Ready m' /\ (P m -> Tidy m -> Tidy m') /\ E m m'.
Lemma does_safe f P E : does f P E -> safe f.
Proof. intros D m R; destruct (D m R) as (m' & H & R' & _); eauto. Qed.
Definition always : mem -> Prop := fun _ => True.
(** Pointers outside [S] and counters outside [C] keep their values.
    Specification or proof only; nothing in the code. *)
Definition keeps (S : slot -> Prop) (C : counter -> Prop) (m m' : mem) : Prop :=
  (forall s, ~ S s -> ptr m' s = ptr m s) /\ (forall c, ~ C c -> cnt m' c = cnt m c).
Definition noslot : slot -> Prop := fun _ => False.
Definition nocnt : counter -> Prop := fun _ => False.
Lemma keeps_trans S C m1 m2 m3 : keeps S C m1 m2 -> keeps S C m2 m3 -> keeps S C m1 m3.
Proof. intros [A B] [A' B']; split; intros; [rewrite A', A|rewrite B', B]; auto. Qed.
Lemma keeps_refl S C m : keeps S C m m. Proof. split; reflexivity. Qed.
Lemma keeps_weak (S S' : slot -> Prop) (C C' : counter -> Prop) m m' :
  (forall s, S s -> S' s) -> (forall c, C c -> C' c) -> keeps S C m m' -> keeps S' C' m m'.
Proof. intros HS HC [A B]; split; intros; [apply A|apply B]; auto. Qed.

(** A loop whose bodies all are tidy under an invariant. *)
Lemma does_each {A} (l : list A) f (P : mem -> Prop) S C :
  (forall x, In x l -> does (f x) P (keeps S C)) ->
  (forall m m', keeps S C m m' -> P m -> P m') ->
  does (each l f) P (keeps S C).
Proof.
  intros H HP; induction l as [|x l IH]; intros m R; cbn [each].
  - exists m; unfold skip; repeat split; auto; apply R.
  - destruct (H x (or_introl eq_refl) m R) as (m1 & E1 & R1 & T1 & K1); rewrite E1.
    destruct (IH (fun y Y => H y (or_intror Y)) m1 R1) as (m2 & E2 & R2 & T2 & K2).
    exists m2; split; [exact E2|]. split; [exact R2|]. split; [|eapply keeps_trans; eauto].
    intros Pm T; apply T2; [eapply HP; eauto|auto].
Qed.
Lemma does_seq f g (P Q : mem -> Prop) S C :
  does f P (keeps S C) -> does g Q (keeps S C) -> (forall m m', keeps S C m m' -> P m -> Q m') ->
  does (f ;; g) P (keeps S C).
Proof.
  intros F G H m R; destruct (F m R) as (m1 & E1 & R1 & T1 & K1); rewrite E1.
  destruct (G m1 R1) as (m2 & E2 & R2 & T2 & K2). exists m2; split; [exact E2|]. split; [exact R2|].
  split; [|eapply keeps_trans; eauto]. intros Pm T; apply T2; [eapply H; eauto|auto].
Qed.

Lemma does_touch s : by_null s -> does (touch s) always (keeps noslot nocnt).
Proof.
  intros B m R; destruct (touch_by_null s B m R) as (m' & E & R').
  assert (m' = m) by (unfold touch in E; destruct (ptr m s); [destruct (is_live m n)|]; congruence); subst.
  exists m; repeat split; auto; apply R.
Qed.
Lemma does_free_null s : by_null s -> does (free_null s) always (fun m m' => keeps (eq s) nocnt m m' /\ ptr m' s = None).
Proof.
  intros B m [G R]. assert (O : ptr m s <> None -> open m s) by (intros N; now apply open_by_null).
  exists (drop s m); split; [apply free_null_drop; auto|]. split; [split; [apply good_dropped; auto|now rewrite drop_cnt]|].
  split; [intros _ T; now apply tidy_dropped|]. split; [split|].
  - intros t N; rewrite drop_ptr, sbeq_no; auto.
  - intros c _; apply drop_cnt.
  - rewrite drop_ptr, sbeq_refl; reflexivity.
Qed.
Lemma bn1 t a : used (Tab t false) -> by_null (Tab t a). Proof. intros U; split; [exact U|exact I]. Qed.
Lemma bn2 t p : p < 3 -> by_null (Tab2 t p). Proof. intros U; split; [exact U|exact I]. Qed.
Lemma bnc i : i < 8 -> by_null (Class_ i). Proof. intros U; split; [exact U|exact I]. Qed.
(** Specification or proof only; nothing in the code. *)
Definition null_table (t : table) (m : mem) : Prop := forall a, ptr m (Tab t a) = None.
Definition of_table (t : table) (s : slot) : Prop := exists a, s = Tab t a.
Lemma does_free_table t : used (Tab t false) -> does (free_table t) always (fun m m' => keeps (of_table t) nocnt m m' /\ null_table t m').
Proof.
  intros U m R; unfold free_table. destruct (does_free_null (Tab t false) (bn1 t false U) m R) as (m1 & E1 & R1 & T1 & K1 & N1); rewrite E1.
  destruct (does_free_null (Tab t true) (bn1 t true U) m1 R1) as (m2 & E2 & R2 & T2 & K2 & N2).
  exists m2; split; [exact E2|]. split; [exact R2|]. split; [intros P T; auto|]. split.
  - eapply keeps_trans; eapply keeps_weak; try eassumption; auto; intros s <-; eexists; reflexivity.
  - intros [|]; [exact N2|]. destruct K2 as [K2 _]; rewrite K2 by discriminate. exact N1.
Qed.
Definition null_table2 (n : bool) (m : mem) : Prop := forall p, p < 3 -> ptr m (Tab2 n p) = None.
Definition of_table2 (n : bool) (s : slot) : Prop := exists p, p < 3 /\ s = Tab2 n p.
Lemma does_free_table2 t : does (free_table2 t) always (fun m m' => keeps (of_table2 t) nocnt m m' /\ null_table2 t m').
Proof.
  intros m R; unfold free_table2; cbn [each].
  destruct (does_free_null (Tab2 t 0) (bn2 t 0 ltac:(lia)) m R) as (m1 & E1 & R1 & T1 & K1 & N1); rewrite E1.
  destruct (does_free_null (Tab2 t 1) (bn2 t 1 ltac:(lia)) m1 R1) as (m2 & E2 & R2 & T2 & K2 & N2); rewrite E2.
  destruct (does_free_null (Tab2 t 2) (bn2 t 2 ltac:(lia)) m2 R2) as (m3 & E3 & R3 & T3 & K3 & N3); rewrite E3; unfold skip.
  exists m3; split; [reflexivity|]. split; [exact R3|]. split; [intros P T; auto|]. split.
  - eapply keeps_trans; [eapply keeps_trans|]; eapply keeps_weak; try eassumption; auto; intros s <-; (eexists; split; [|reflexivity]; lia).
  - destruct K2 as [K2 _], K3 as [K3 _].
    intros [|[|[|p]]] L; [rewrite K3, K2 by discriminate; exact N1|rewrite K3 by discriminate; exact N2|exact N3|lia].
Qed.
Lemma does_alloc s : by_null s -> does (pure (alloc s)) (fun m => ptr m s = None) (keeps (eq s) nocnt).
Proof.
  intros B m [G R]; exists (alloc s m); split; [reflexivity|]. split; [split; [now apply good_alloc|exact R]|]. split.
  - intros N T; apply tidy_alloc; [exact T|now apply open_null|]. apply open_by_null; [exact B|]. rewrite ptr_alloc, sbeq_refl; discriminate.
  - split; [|reflexivity]. intros t N; rewrite ptr_alloc, sbeq_no; auto.
Qed.
Lemma does_init_table t : used (Tab t false) -> does (init_table t) (null_table t) (keeps (of_table t) nocnt).
Proof.
  intros U m R; unfold init_table. destruct (does_alloc (Tab t false) (bn1 t false U) m R) as (m1 & E1 & R1 & T1 & K1); rewrite E1.
  destruct (does_alloc (Tab t true) (bn1 t true U) m1 R1) as (m2 & E2 & R2 & T2 & K2).
  exists m2; split; [exact E2|]. split; [exact R2|]. split.
  - intros P T; apply T2; [|apply T1; [apply P|exact T]]. destruct K1 as [K1 _]; rewrite K1 by discriminate; apply P.
  - eapply keeps_trans; eapply keeps_weak; try eassumption; auto; intros s <-; eexists; reflexivity.
Qed.
Lemma does_init_table2 t : does (init_table2 t) (null_table2 t) (keeps (of_table2 t) nocnt).
Proof.
  intros m R; unfold init_table2; cbn [each].
  destruct (does_alloc (Tab2 t 0) (bn2 t 0 ltac:(lia)) m R) as (m1 & E1 & R1 & T1 & K1); rewrite E1.
  destruct (does_alloc (Tab2 t 1) (bn2 t 1 ltac:(lia)) m1 R1) as (m2 & E2 & R2 & T2 & K2); rewrite E2.
  destruct (does_alloc (Tab2 t 2) (bn2 t 2 ltac:(lia)) m2 R2) as (m3 & E3 & R3 & T3 & K3); rewrite E3; unfold skip.
  exists m3; split; [reflexivity|]. split; [exact R3|]. split.
  - intros P T; destruct K1 as [K1 _], K2 as [K2 _]. apply T3; [rewrite K2, K1 by discriminate; apply P; lia|].
    apply T2; [rewrite K1 by discriminate; apply P; lia|]. apply T1; [apply P; lia|exact T].
  - eapply keeps_trans; [eapply keeps_trans|]; eapply keeps_weak; try eassumption; auto; intros s <-; (eexists; split; [|reflexivity]; lia).
Qed.

(** *** Local blocks *)
(** Specification or proof only; nothing in the code. *)
Definition of_local (f : local) (s : slot) : Prop := exists i, s = Tmp f i.
Lemma does_locals f n : does (locals f n) (fun m => cnt m (NTmp f) = 0) (fun m m' => keeps (of_local f) (eq (NTmp f)) m m').
Proof.
  intros m R; unfold locals. destruct (locals_from f n 0 m R) as (m' & E & R' & C & F & P); [lia|].
  exists m'; split; [exact E|]. split; [exact R'|]. split; [intros Z; destruct (C Z); auto|]. split; [intros s N; apply P; intros i ->; apply N; eexists; reflexivity|auto].
Qed.
(** The pointers a counter guards.  Specification or proof only; nothing in the code. *)
Definition guards (c : counter) (t : slot) : Prop :=
  match c with
  | NList a => t = List_ a
  | NNames => exists i, t = Name i
  | NOut k => t = Out k
  | NInts => t = Ints \/ exists i p, t = Int i p
  | NFit b => t = Fit b \/ exists i, t = Coef b i
  | NCoef b i => t = Coef b i
  | NTmp f => exists i, t = Tmp f i
  | NBg => False
  | NPar => True
  end.
Lemma open_set c m m' t : ptr m' t = ptr m t -> (forall d, d <> c -> cnt m' d = cnt m d) -> ~ guards c t -> (open m' t <-> open m t).
Proof.
  intros P H N.
  assert (K : forall d, guards d t -> cnt m' d = cnt m d) by (intros d D; apply H; intros ->; contradiction).
  unfold open; destruct t; rewrite ?P; try tauto.
  - rewrite (K NPar I), (K (NList a) eq_refl); tauto.
  - rewrite (K NPar I); tauto.
  - rewrite (K NPar I), (K NNames) by (eexists; reflexivity); tauto.
  - rewrite (K (NOut k) eq_refl); tauto.
  - rewrite (K NInts) by (left; reflexivity); tauto.
  - rewrite (K NInts) by (right; eauto); tauto.
  - rewrite (K (NFit b)) by (left; reflexivity); tauto.
  - rewrite (K (NFit b)) by (right; eauto). rewrite (K (NCoef b i) eq_refl). tauto.
  - rewrite (K (NTmp f)) by (eexists; reflexivity); tauto.
Qed.
Lemma end_from f l : forall m, Ready m -> cnt m (NTmp f) = length l ->
  exists m', each l (fun (i : nat) m => (release (Tmp f (cnt m (NTmp f) - 1)) ;; pure (set_cnt (NTmp f) (cnt m (NTmp f) - 1))) m) m = Some m' /\
    Ready m' /\ cnt m' (NTmp f) = 0 /\ (Tidy m -> Tidy m') /\ keeps noslot (eq (NTmp f)) m m'.
Proof.
  induction l as [|x l IH]; intros m R K; cbn [each].
  { exists m; unfold skip; repeat split; auto; apply R. }
  cbn [length] in K. rewrite K, (Nat.sub_succ (length l) 0), Nat.sub_0_r. destruct R as [G R].
  destruct (goodO_release (open m) m (Tmp f (length l)) G) as (m1 & E1 & P1 & C1 & G1 & T1); [split; [exact I|lia]|].
  rewrite E1; unfold pure at 1.
  set (m2 := set_cnt (NTmp f) (length l) m1).
  assert (O : forall t, open m2 t <-> (open m t /\ t <> Tmp f (length l))).
  { assert (C2 : forall d, d <> NTmp f -> cnt m2 d = cnt m d) by (intros d D; unfold m2; rewrite cnt_set_no by exact D; apply C1).
    intros t. destruct (slot_eq_dec t (Tmp f (length l))) as [->|N].
    { unfold open, m2; rewrite cnt_set_yes. split; [lia|tauto]. }
    destruct t as [| | | | | | | | | | |g i];
      try (rewrite (open_set (NTmp f) m m2); [tauto|apply P1|exact C2|intros [? ?]; discriminate]).
    unfold open, m2. destruct (counter_eq_dec (NTmp g) (NTmp f)) as [X|X].
    - injection X as ->; rewrite cnt_set_yes, K. assert (i <> length l) by congruence. split; [intros [Q X]; split; [split; [exact Q|lia]|exact N]|intros [[Q X] _]; split; [exact Q|lia]].
    - rewrite cnt_set_no by exact X; rewrite C1. tauto. }
  assert (R2 : Ready m2).
  { split; [|unfold m2; rewrite cnt_set_no by discriminate; rewrite C1; exact R].
    apply (goodO_ext _ _ m1 _ G1); auto. intros t T; split; [now apply O|reflexivity]. }
  assert (T2 : Tidy m -> Tidy m2).
  { intros T; apply (tidyO_ext _ (open m2) m1 m2 (T1 T)); auto. intros t U; split; [now apply O|reflexivity]. }
  destruct (IH m2 R2) as (m' & E & R' & C & T' & K'); [apply cnt_set_yes|].
  exists m'; split; [exact E|]. split; [exact R'|]. split; [exact C|]. split; [auto|].
  eapply keeps_trans; [|exact K']. split; [intros s _; apply P1|]. intros c N; unfold m2; rewrite cnt_set_no by auto; apply C1.
Qed.
Lemma does_end f : does (end_locals f) always (fun m m' => keeps noslot (eq (NTmp f)) m m' /\ cnt m' (NTmp f) = 0).
Proof.
  intros m R; unfold end_locals. destruct (end_from f (seq 0 (cnt m (NTmp f))) m R) as (m' & E & R' & C & T & K).
  { now rewrite seq_length. }
  exists m'; repeat split; auto; try apply R'; apply K.
Qed.

(** *** Releasing under a guard, then resetting the counter *)
(** [s] is the only pointer [c] guards.  Specification or proof only; nothing in the code. *)
Definition sole (c : counter) (s : slot) : Prop := guards c s /\ (forall t, guards c t -> t = s).
Lemma sole_list a : sole (NList a) (List_ a). Proof. split; cbn; auto. Qed.
Lemma sole_out a : sole (NOut a) (Out a). Proof. split; cbn; auto. Qed.
Lemma sole_coef a b : sole (NCoef a b) (Coef a b). Proof. split; cbn; auto. Qed.

Lemma does_release_zero c s :
  sole c s -> (forall m, cnt m c = 0 -> ~ open m s) -> c <> NPar ->
  forall m, Ready m -> (cnt m c <> 0 -> open m s) -> exists m',
    (when (counted c) (release s) ;; pure (set_cnt c 0)) m = Some m' /\ Ready m' /\ (Tidy m -> Tidy m') /\
    keeps noslot (eq c) m m' /\ cnt m' c = 0.
Proof.
  intros [_ SO] CL NP m [G R] OP. unfold when, pure.
  destruct (counted c m) eqn:Q.
  - apply counted_true in Q. destruct (goodO_release (open m) m s G (OP Q)) as (m1 & E1 & P1 & C1 & G1 & T1); rewrite E1.
    set (m2 := set_cnt c 0 m1).
    assert (C2 : forall d, d <> c -> cnt m2 d = cnt m d) by (intros d D; unfold m2; rewrite cnt_set_no by exact D; apply C1).
    assert (O : forall t, open m2 t <-> (open m t /\ t <> s)).
    { intros t. destruct (slot_eq_dec t s) as [->|N].
      - split; [intros X; exfalso; revert X; apply CL; unfold m2; apply cnt_set_yes|tauto].
      - rewrite (open_set c m m2); [tauto|apply P1|exact C2|intros X; apply N, SO, X]. }
    exists m2; split; [reflexivity|]. split; [split|split; [|split]].
    + apply (goodO_ext _ _ m1 _ G1); auto. intros t T; split; [now apply O|reflexivity].
    + rewrite C2 by auto; exact R.
    + intros T; apply (tidyO_ext _ (open m2) m1 m2 (T1 T)); auto. intros t U; split; [now apply O|reflexivity].
    + split; [intros t _; apply P1|intros d D; apply C2; auto].
    + unfold m2; apply cnt_set_yes.
  - apply counted_false in Q. set (m2 := set_cnt c 0 m).
    assert (C2 : forall d, cnt m2 d = cnt m d).
    { intros d; unfold m2; rewrite cnt_set. destruct (counter_beq c d) eqn:E; [apply cbeq in E; now subst|reflexivity]. }
    assert (O : forall t, open m2 t <-> open m t) by (intros t; apply open_ext; [reflexivity|exact C2]).
    exists m2; split; [reflexivity|]. split; [split|split; [|split]].
    + apply (goodO_ext _ _ m _ G); auto. intros t T; split; [now apply O|reflexivity].
    + rewrite C2; exact R.
    + intros T; apply (tidyO_ext (open m) (open m2) m m2 T); auto. intros t U; split; [now apply O|reflexivity].
    + split; [reflexivity|intros d _; apply C2].
    + unfold m2; apply cnt_set_yes.
Qed.
Lemma does_free_list a : does (free_list a) always (fun m m' => keeps noslot (eq (NList a)) m m' /\ cnt m' (NList a) = 0).
Proof.
  intros m R. destruct (does_release_zero (NList a) (List_ a) (sole_list a)) with (m := m) as (m' & E & R' & T & K & Z).
  - unfold open; tauto.
  - discriminate.
  - exact R.
  - intros N; split; [exact I|]; split; [apply R|exact N].
  - exists m'; repeat split; auto; try apply R'; apply K.
Qed.
(** A pointer that is not open, set to NULL. *)
Lemma good_set_closed s v m : Good m -> ~ open m s -> ~ open (set_ptr s v m) s ->
  Good (set_ptr s v m) /\ (Tidy m -> Tidy (set_ptr s v m)).
Proof.
  intros G N N'.
  assert (O : forall t, open (set_ptr s v m) t -> open m t /\ ptr (set_ptr s v m) t = ptr m t).
  { intros t T. assert (t <> s) by congruence. assert (E : ptr (set_ptr s v m) t = ptr m t) by (rewrite ptr_set, sbeq_no; auto).
    split; [|exact E]. now apply (open_ext m (set_ptr s v m) t E). }
  assert (O' : forall t, open m t -> open (set_ptr s v m) t /\ ptr (set_ptr s v m) t = ptr m t).
  { intros t T. assert (t <> s) by congruence. assert (E : ptr (set_ptr s v m) t = ptr m t) by (rewrite ptr_set, sbeq_no; auto).
    split; [|exact E]. now apply (open_ext m (set_ptr s v m) t E). }
  split; [apply (goodO_ext _ _ m _ G); auto|]. intros T; apply (tidyO_ext (open m) (open (set_ptr s v m)) m _ T); auto.
Qed.
Lemma does_out_free k : does (out_free k) always (fun m m' => keeps (eq (Out k)) (eq (NOut k)) m m' /\ cnt m' (NOut k) = 0).
Proof.
  intros m R. destruct (does_release_zero (NOut k) (Out k) (sole_out k)) with (m := m) as (m' & E & R' & T & K & Z).
  - unfold open; tauto.
  - discriminate.
  - exact R.
  - split; [exact I|auto].
  - destruct (good_set_closed (Out k) None m') as [G' T']; [apply R'|unfold open; tauto|unfold open; cbn -[counter_beq]; tauto|].
    exists (set_ptr (Out k) None m'). split.
    { unfold out_free. unfold when, pure in *. destruct (counted (NOut k) m); [destruct (release (Out k) m)|]; try discriminate; injection E as <-; reflexivity. }
    split; [split; [exact G'|apply R']|]. split; [auto|]. split; [|exact Z].
    destruct K as [K1 K2]; split; [|exact K2]. intros s N; rewrite ptr_set, sbeq_no by auto. apply K1; intros [].
Qed.

(** A counter set together with an allocation into the only pointer it guards. *)
Lemma good_count_sole c s n m : sole c s -> c <> NPar -> Good m -> Good (set_cnt c n (alloc s m)).
Proof.
  intros [_ SO] NP G; apply good_count; [exact G|]. intros t N.
  apply (open_set c m); [rewrite ptr_cnt, ptr_alloc, sbeq_no; auto| |intros X; apply N, SO, X].
  intros d D; now rewrite cnt_set_no by exact D.
Qed.
Lemma tidy_count_sole c s n m : sole c s -> c <> NPar -> Tidy m -> ~ open m s -> open (set_cnt c n (alloc s m)) s ->
  Tidy (set_cnt c n (alloc s m)).
Proof.
  intros [_ SO] NP T N O; apply (tidy_new m _ s); auto.
  - rewrite ptr_cnt, ptr_alloc, sbeq_refl; reflexivity.
  - intros t U. assert (D : t <> s) by congruence. split; [exact D|].
    assert (E : ptr (set_cnt c n (alloc s m)) t = ptr m t) by (rewrite ptr_cnt, ptr_alloc, sbeq_no; auto). split; [|exact E].
    apply (open_set c m); [exact E| |intros X; apply D, SO, X|exact U]. intros d Q; now rewrite cnt_set_no by exact Q.
Qed.
Lemma does_parse_list a n : does (parse_list a n) (fun m => n <> 0 /\ cnt m (NList a) = 0) (keeps (eq (List_ a)) (eq (NList a))).
Proof.
  intros m [G R]; exists (set_cnt (NList a) n (alloc (List_ a) m)); split; [reflexivity|]. split; [split|split].
  - apply good_count_sole; [apply sole_list|discriminate|exact G].
  - rewrite cnt_set_no by discriminate; exact R.
  - intros [N Z] T; apply tidy_count_sole; [apply sole_list|discriminate|exact T|unfold open; tauto|].
    split; [exact I|]; split; [rewrite cnt_set_no by discriminate; exact R|rewrite cnt_set_yes; exact N].
  - split; [intros s N; rewrite ptr_cnt, ptr_alloc, sbeq_no; auto|intros c N; rewrite cnt_set_no; auto].
Qed.
Lemma does_out_alloc k n : does (pure (fun m => alloc (Out k) (set_cnt (NOut k) n m))) (fun m => n <> 0 /\ cnt m (NOut k) = 0) (keeps (eq (Out k)) (eq (NOut k))).
Proof.
  intros m [G R]; exists (set_cnt (NOut k) n (alloc (Out k) m)); split; [reflexivity|]. split; [split|split].
  - apply good_count_sole; [apply sole_out|discriminate|exact G].
  - rewrite cnt_set_no by discriminate; exact R.
  - intros [N Z] T; apply tidy_count_sole; [apply sole_out|discriminate|exact T|unfold open; tauto|].
    split; [exact I|]; rewrite cnt_set_yes; exact N.
  - split; [intros s N; rewrite ptr_cnt, ptr_alloc, sbeq_no; auto|intros c N; rewrite cnt_set_no; auto].
Qed.
(** The touches under a guard. *)
Lemma does_touch_list a : does (when (counted (NList a)) (touch (List_ a))) always (keeps noslot nocnt).
Proof.
  intros m R; exists m; unfold when. destruct (counted (NList a) m) eqn:Q; [|repeat split; auto; apply R].
  apply counted_true in Q. rewrite touch_open; [repeat split; auto; apply R|apply R|]. split; [exact I|]; split; [apply R|exact Q].
Qed.
Lemma does_touch_out k : does (when (counted (NOut k)) (touch (Out k))) always (keeps noslot nocnt).
Proof.
  intros m R; exists m; unfold when. destruct (counted (NOut k) m) eqn:Q; [|repeat split; auto; apply R].
  apply counted_true in Q. rewrite touch_open; [repeat split; auto; apply R|apply R|split; [exact I|exact Q]].
Qed.
(** The list setters release the old list, then allocate: as [free_list] and then
    [parse_list], since the counter is overwritten. *)
Lemma set_list_as a n m : cnt m NPar <> 0 ->
  forall m1, (free_list a ;; parse_list a n ;; when (counted (NList a)) (touch (List_ a))) m = Some m1 ->
  exists m2, set_list a n m = Some m2 /\ live m2 = live m1 /\ next m2 = next m1 /\ (forall s, ptr m2 s = ptr m1 s) /\ (forall c, cnt m2 c = cnt m1 c).
Proof.
  intros R m1. unfold free_list, set_list, parse_list, pure, when, counted.
  assert (S : forall m, (forall c, cnt (alloc (List_ a) (set_cnt (NList a) n (set_cnt (NList a) 0 m))) c = cnt (alloc (List_ a) (set_cnt (NList a) n m)) c)).
  { intros m0 c; cbn -[counter_beq]. destruct (counter_beq (NList a) c); reflexivity. }
  assert (T : forall m, touch (List_ a) (alloc (List_ a) (set_cnt (NList a) n m)) = Some (alloc (List_ a) (set_cnt (NList a) n m))).
  { intros m0; unfold touch. rewrite ptr_alloc, sbeq_refl.
    replace (is_live _ (next (set_cnt (NList a) n m0))) with true by (symmetry; apply is_live_in; now left). reflexivity. }
  destruct (negb (cnt m (NList a) =? 0)); [destruct (release (List_ a) m) as [m'|]; [|discriminate]|].
  all: rewrite ?T; cbv beta; rewrite (S _ (NList a)).
  all: match goal with |- context [negb ?b] => destruct (negb b) end; intros H; injection H as <-; eexists; (split; [reflexivity|]);
    cbn -[counter_beq slot_beq]; repeat split; auto; intros c; destruct (counter_beq (NList a) c); reflexivity.
Qed.
Lemma same_ready m m' : live m' = live m -> next m' = next m -> (forall s, ptr m' s = ptr m s) -> (forall c, cnt m' c = cnt m c) ->
  (Ready m -> Ready m') /\ (Tidy m -> Tidy m').
Proof.
  intros L N P C. assert (O : forall t, open m' t <-> open m t) by (intros t; apply open_ext; auto).
  split.
  - intros [G R]; split; [|now rewrite C]. apply (goodO_ext _ _ m _ G); auto. intros t T; split; [now apply O|auto].
  - intros T; apply (tidyO_ext (open m) (open m') m m' T); auto. intros t U; split; [now apply O|auto].
Qed.
Lemma does_set_list a n : does (set_list a n) (fun _ => n <> 0) (keeps (eq (List_ a)) (eq (NList a))).
Proof.
  intros m R.
  destruct (does_free_list a m R) as (m1 & E1 & R1 & T1 & K1 & Z1).
  destruct (does_parse_list a n m1 R1) as (m2 & E2 & R2 & T2 & K2).
  destruct (does_touch_list a m2 R2) as (m3 & E3 & R3 & T3 & K3).
  destruct (set_list_as a n m (proj2 R) m3) as (m4 & E4 & L & N & P & C).
  { rewrite E1, E2; exact E3. }
  destruct (same_ready m3 m4 L N P C) as [X Y].
  exists m4; split; [exact E4|]. split; [auto|]. split; [intros NZ T; apply Y, T3, T2; [exact I|auto|apply T1; [exact I|exact T]]|].
  split; intros; rewrite ?P, ?C.
  - destruct K1 as [K1 _], K2 as [K2 _], K3 as [K3 _]. rewrite K3, K2, K1; auto.
  - destruct K1 as [_ K1], K2 as [_ K2], K3 as [_ K3]. rewrite K3, K2, K1; auto.
Qed.
