(** * The bulk signal drivers: corrfunc.c, multipoles.c, average_multipoles.c. *)
From Coq Require Import ZArith Arith Bool List Lia Permutation.
From Verif Require Import Arrays Sched.
Import ListNotations.

(** ** Allocation *)

(** [coffe_malloc] (common.c:69-79) of [size] records of [rec] bytes; size_t
    arithmetic is modulo 2^64.  A request of zero bytes prints a message and goes
    on with an array without cells.  A failure of malloc (a message, then a null
    pointer) is not modelled. *)
Definition cells_of (rec size : Z) : nat :=
  Z.to_nat (((rec * (size mod 2 ^ 64)) mod 2 ^ 64) / rec).

Lemma cells_of_fits : forall rec n, (0 < rec)%Z -> (rec * Z.of_nat n < 2 ^ 64)%Z ->
  cells_of rec (Z.of_nat n) = n.
Proof.
  intros rec n R B. unfold cells_of.
  assert (Z.of_nat n < 2 ^ 64)%Z by nia.
  rewrite (Z.mod_small (Z.of_nat n)) by lia. rewrite Z.mod_small by nia.
  rewrite Z.mul_comm, Z.div_mul by lia. apply Nat2Z.id.
Qed.

(** ** The coordinate loops *)

(** One iteration of the innermost loop: [array[counter].coords = ...; ++counter].
    The coordinate loops of corrfunc.c:82-90, multipoles.c:77-85, average_multipoles.c:96-105. *)
Definition put_next {C} (c : option C) (st : nat * list (option C)) : option (nat * list (option C)) :=
  match c with
  | Some x => match wr (snd st) (fst st) (Some x) with
              | Some a => Some (S (fst st), a) | None => None end
  | None => None      (* read outside the parameter array *)
  end.

(** The coordinate loops of corrfunc.c:82-90, multipoles.c:77-85, average_multipoles.c:96-105. *)
Definition nested3 {C} (n1 n2 n3 : nat) (get : nat -> nat -> nat -> option C)
  (st : nat * list (option C)) : option (nat * list (option C)) :=
  for_ n1 (fun i => for_ n2 (fun j => for_ n3 (fun k => put_next (get i j k)))) st.

Section Fill.
Context {C : Type}.
(** Specification or proof only; nothing in the code. *)
Definition Fill (pre : list C) (m : nat) : nat * list (option C) := (length pre, map Some pre ++ repeat None m).

Lemma put_fill : forall pre m x, put_next (Some x) (Fill pre (S m)) = Some (Fill (pre ++ [x]) m).
Proof.
  intros pre m x. unfold put_next, Fill. simpl.
  assert (W : forall (l : list (option C)) r y, wr (l ++ y :: r) (length l) (Some x) = Some (l ++ Some x :: r)).
  { induction l as [|z l IH]; intros r y; simpl; [reflexivity|]. rewrite IH. reflexivity. }
  rewrite <- (map_length Some pre) at 1. rewrite W.
  rewrite app_length, map_app. simpl. rewrite Nat.add_1_r, <- app_assoc. reflexivity.
Qed.

Lemma for_fill : forall (out : nat -> list C) body n i pre m,
  (forall k pre m, i <= k < i + n -> body k (Fill pre (length (out k) + m)) = Some (Fill (pre ++ out k) m)) ->
  for_from i n body (Fill pre (length (flat_map out (seq i n)) + m)) =
  Some (Fill (pre ++ flat_map out (seq i n)) m).
Proof.
  intros out body. induction n as [|n IH]; intros i pre m H; simpl.
  - rewrite app_nil_r. reflexivity.
  - rewrite app_length, <- Nat.add_assoc, H by lia.
    rewrite IH by (intros; apply H; lia). rewrite app_assoc. reflexivity.
Qed.

Lemma flat_map_seq : forall A (l : list A) (f : nat -> list C) (g : A -> list C) i,
  (forall j x, nth_error l j = Some x -> f (i + j) = g x) ->
  flat_map f (seq i (length l)) = flat_map g l.
Proof.
  intros A l f g. induction l as [|x r IH]; intros i H; simpl; [reflexivity|].
  rewrite <- (H 0 x eq_refl), Nat.add_0_r. f_equal. apply IH.
  intros j y Hj. rewrite <- (H (S j) y Hj). f_equal. lia.
Qed.
End Fill.

(** [x outermost, z innermost].  Specification or proof only; nothing in the code. *)
Definition product3 {X Y Z C} (mk : X -> Y -> Z -> C) (xs : list X) (ys : list Y) (zs : list Z) : list C :=
  flat_map (fun x => flat_map (fun y => map (mk x y) zs) ys) xs.

Lemma product3_length : forall X Y Z C (mk : X -> Y -> Z -> C) xs ys zs,
  length (product3 mk xs ys zs) = length xs * length ys * length zs.
Proof.
  intros X Y Z C mk xs ys zs. unfold product3.
  induction xs as [|x r IH]; simpl; [reflexivity|]. rewrite app_length, IH. clear IH.
  assert (E : length (flat_map (fun y => map (mk x y) zs) ys) = length ys * length zs).
  { induction ys as [|y s IH]; simpl; [reflexivity|]. rewrite app_length, map_length, IH. reflexivity. }
  rewrite E. nia.
Qed.

Lemma flat_map_single : forall A B (f : A -> B) l, flat_map (fun x => [f x]) l = map f l.
Proof. induction l as [|x r IH]; simpl; [reflexivity|]. rewrite IH. reflexivity. Qed.

(** The triple loop writes the ordered product and fills the array exactly. *)
Lemma nested3_spec : forall A B D C (mk : A -> B -> D -> C) xs ys zs get,
  (forall i j k x y z, nth_error xs i = Some x -> nth_error ys j = Some y -> nth_error zs k = Some z ->
     get i j k = Some (mk x y z)) ->
  nested3 (length xs) (length ys) (length zs) get (0, fresh (length (product3 mk xs ys zs))) =
  Some (length (product3 mk xs ys zs), map Some (product3 mk xs ys zs)).
Proof.
  intros A B D C mk xs ys zs get G.
  set (out3 := fun i j k => match nth_error xs i, nth_error ys j, nth_error zs k with
     | Some x, Some y, Some z => [mk x y z] | _, _, _ => [] end).
  set (out2 := fun i j => flat_map (out3 i j) (seq 0 (length zs))).
  set (out1 := fun i => flat_map (out2 i) (seq 0 (length ys))).
  assert (NE : forall A (l : list A) i, i < length l -> exists x, nth_error l i = Some x).
  { intros A0 l i H. destruct (nth_error l i) eqn:E; [eauto|]. apply nth_error_None in E. lia. }
  assert (E2 : forall i x j y, nth_error xs i = Some x -> nth_error ys j = Some y -> out2 i j = map (mk x y) zs).
  { intros i x j y Hx Hy. unfold out2. rewrite <- flat_map_single. apply (flat_map_seq _ _ _ _ 0).
    intros k z Hz. simpl. unfold out3. rewrite Hx, Hy, Hz. reflexivity. }
  assert (E1 : forall i x, nth_error xs i = Some x -> out1 i = flat_map (fun y => map (mk x y) zs) ys).
  { intros i x Hx. unfold out1. apply (flat_map_seq _ _ _ _ 0). intros j y Hy. simpl. apply E2; auto. }
  assert (E0 : flat_map out1 (seq 0 (length xs)) = product3 mk xs ys zs).
  { unfold product3. apply (flat_map_seq _ _ _ _ 0). intros i x Hx. apply E1; auto. }
  unfold nested3, for_, fresh.
  pose proof (for_fill out1 (fun i => for_from 0 (length ys) (fun j => for_from 0 (length zs) (fun k => put_next (get i j k))))
     (length xs) 0 [] 0) as R. rewrite E0 in R. rewrite Nat.add_0_r in R. simpl app in R.
  assert (FN : Fill (product3 mk xs ys zs) 0 = (length (product3 mk xs ys zs), map Some (product3 mk xs ys zs)))
    by (unfold Fill; simpl; rewrite app_nil_r; reflexivity).
  rewrite FN in R. apply R. clear R FN. intros i pre m Hi. unfold out1.
  apply (for_fill (out2 i)). intros j pre' m' Hj. unfold out2.
  apply (for_fill (out3 i j)). intros k pre2 m2 Hk.
  destruct (NE _ xs i ltac:(lia)) as [x Hx]. destruct (NE _ ys j ltac:(lia)) as [y Hy].
  destruct (NE _ zs k ltac:(lia)) as [z Hz].
  rewrite (G i j k x y z Hx Hy Hz). unfold out3. rewrite Hx, Hy, Hz. apply put_fill.
Qed.

(** ** Three parallel passes over the records *)
Section Passes.
Context {C V : Type}.
Variable add : V -> V -> V.

(** One parallel loop run to completion: some distribution of the iterations
    over some threads, some interleaving.
    The parallel loops of corrfunc.c:93-131, multipoles.c:88-126, average_multipoles.c:108-146. *)
Inductive par_loop (F : C -> V) (md : mode) (n : nat) (m : cells) : cells -> Prop :=
| ParLoop : forall work sched c, distribution n work ->
    exec (istep F add md) sched (start work m) = Some c -> finished (istep F add md) c ->
    par_loop F md n m (snd c).

(** Some execution of the loop runs into undefined behaviour.
    The parallel loops of corrfunc.c:93-131, multipoles.c:88-126, average_multipoles.c:108-146. *)
Definition loop_faults (F : C -> V) (md : mode) (n : nat) (m : cells) : Prop :=
  exists work sched, distribution n work /\ exec (istep F add md) sched (start work m) = None.

Variables F0 F1 F2 : C -> V.

Inductive three_passes (n : nat) (m m3 : cells) : Prop :=
| ThreePasses : forall m1 m2, par_loop F0 Assign n m m1 -> par_loop F1 AddTo n m1 m2 ->
    par_loop F2 AddTo n m2 m3 -> three_passes n m m3.

Definition passes_fault (n : nat) (m : cells) : Prop :=
  loop_faults F0 Assign n m \/
  exists m1, par_loop F0 Assign n m m1 /\
    (loop_faults F1 AddTo n m1 \/ exists m2, par_loop F1 AddTo n m1 m2 /\ loop_faults F2 AddTo n m2).

(** What Python reads from the finished array.  The lists returned by coffe.pyx:3303-3427. *)
Definition collect (m : cells) (n : nat) : option (list (C * V)) :=
  fold_right (fun i acc => match rd (coords m) i, rd (vals m) i, acc with
     | Some c, Some v, Some l => Some ((c, v) :: l) | _, _, _ => None end) (Some []) (seq 0 n).

Lemma collect_spec : forall cs vs, length cs = length vs ->
  collect (mkCells (map Some cs) (map Some vs)) (length cs) = Some (combine cs vs).
Proof.
  intros cs vs L. unfold collect. simpl.
  assert (G : forall (c1 c2 : list C) (v1 v2 : list V), length c1 = length v1 -> length c2 = length v2 ->
    fold_right (fun i acc => match rd (map Some (c1 ++ c2)) i, rd (map Some (v1 ++ v2)) i, acc with
     | Some c, Some v, Some l => Some ((c, v) :: l) | _, _, _ => None end) (Some []) (seq (length c1) (length c2))
    = Some (combine c2 v2)).
  { intros c1 c2. revert c1. induction c2 as [|c r IH]; intros c1 v1 v2 L1 L2; destruct v2 as [|v s]; simpl in *; try discriminate; [reflexivity|].
    specialize (IH (c1 ++ [c]) (v1 ++ [v]) s). rewrite <- !app_assoc in IH. simpl in IH.
    rewrite app_length in IH. simpl in IH. rewrite Nat.add_1_r in IH. rewrite IH.
    - rewrite !rd_map_Some, !nth_error_app2 by lia. rewrite L1, Nat.sub_diag. reflexivity.
    - rewrite app_length. simpl. lia.
    - lia. }
  exact (G [] cs [] vs eq_refl L).
Qed.

Lemma par_loop_spec : forall F md n cs old m, length cs = n -> length old = n ->
  (md = AddTo -> forall i, i < n -> rd old i <> None) ->
  par_loop F md n (mkCells (map Some cs) old) m ->
  m = mkCells (map Some cs) (map (target F add md cs old) (seq 0 n)).
Proof.
  intros F md n cs old m L1 L2 O H. destruct H as [work sched c D E Fn].
  destruct (par_for_safe F add md n cs old L1 L2 O work sched D) as (c' & E' & EC & EV).
  rewrite E in E'. injection E' as <-. destruct c as [ls [a b]]. simpl in *. rewrite EC, (EV Fn). reflexivity.
Qed.
Lemma par_loop_exists : forall F md n cs old, length cs = n -> length old = n ->
  (md = AddTo -> forall i, i < n -> rd old i <> None) ->
  par_loop F md n (mkCells (map Some cs) old)
    (mkCells (map Some cs) (map (target F add md cs old) (seq 0 n))).
Proof.
  intros F md n cs old L1 L2 O.
  assert (D : distribution n [seq 0 n]) by (unfold distribution; simpl; rewrite app_nil_r; reflexivity).
  pose proof (PInv_start F add md n cs old L1 L2 _ D) as I0.
  destruct (par_for_finishes F add md n cs old L1 L2 O _ I0) as (sched & c & E & Fn).
  pose proof (ParLoop F md n _ [seq 0 n] sched c D E Fn) as P.
  rewrite <- (par_loop_spec F md n cs old _ L1 L2 O P). exact P.
Qed.
Lemma no_fault : forall F md n cs old, length cs = n -> length old = n ->
  (md = AddTo -> forall i, i < n -> rd old i <> None) ->
  ~ loop_faults F md n (mkCells (map Some cs) old).
Proof.
  intros F md n cs old L1 L2 O (work & sched & D & E).
  destruct (par_for_safe F add md n cs old L1 L2 O work sched D) as (c & E' & _). congruence.
Qed.

Lemma map_seq_nth : forall (cs : list C) (f : nat -> option V) (g : C -> V),
  (forall i c, nth_error cs i = Some c -> f i = Some (g c)) ->
  map f (seq 0 (length cs)) = map Some (map g cs).
Proof.
  intros cs f g H. apply nth_error_ext.
  - rewrite !map_length, seq_length. reflexivity.
  - intros i Hi. rewrite map_length, seq_length in Hi. rewrite !nth_error_map, nth_error_seq by exact Hi. simpl.
    destruct (nth_error cs i) as [c|] eqn:E; [|apply nth_error_None in E; lia]. simpl. rewrite (H i c E). reflexivity.
Qed.
Lemma rd_set : forall (vs : list V) i, i < length vs -> rd (map Some vs) i <> None.
Proof. intros vs i H. rewrite rd_map_Some. apply nth_error_Some. exact H. Qed.

(** The value a record ends up with.  Specification or proof only; nothing in the code. *)
Definition total (c : C) : V := add (add (F0 c) (F1 c)) (F2 c).

Lemma passes_spec : forall cs m3,
  let n := length cs in
  three_passes n (mkCells (map Some cs) (fresh n)) m3 ->
  collect m3 n = Some (map (fun c => (c, total c)) cs).
Proof.
  intros cs m3 n H. destruct H as [m1 m2 P1 P2 P3].
  assert (Ln : length (@fresh V n) = n) by (unfold fresh; apply repeat_length).
  apply (par_loop_spec F0 Assign n cs (fresh n)) in P1; auto; [|discriminate].
  rewrite (map_seq_nth cs _ F0) in P1 by (intros i c E; unfold target; rewrite E; reflexivity).
  subst m1. apply (par_loop_spec F1 AddTo n cs) in P2; auto; [|rewrite !map_length; reflexivity|intros _ i Hi; apply rd_set; rewrite map_length; exact Hi].
  rewrite (map_seq_nth cs _ (fun c => add (F0 c) (F1 c))) in P2
    by (intros i c E; unfold target; rewrite E, rd_map_Some, nth_error_map, E; reflexivity).
  subst m2. apply (par_loop_spec F2 AddTo n cs) in P3; auto; [|rewrite !map_length; reflexivity|intros _ i Hi; apply rd_set; rewrite map_length; exact Hi].
  rewrite (map_seq_nth cs _ total) in P3
    by (intros i c E; unfold target; rewrite E, rd_map_Some, nth_error_map, E; reflexivity).
  subst m3. unfold n. rewrite collect_spec by (rewrite map_length; reflexivity).
  f_equal. clear. induction cs as [|c r IH]; simpl; [reflexivity|]. rewrite IH. reflexivity.
Qed.

Lemma passes_exist : forall cs, let n := length cs in
  exists m3, three_passes n (mkCells (map Some cs) (fresh n)) m3.
Proof.
  intros cs n.
  assert (Ln : length (@fresh V n) = n) by (unfold fresh; apply repeat_length).
  pose proof (par_loop_exists F0 Assign n cs (fresh n) eq_refl Ln ltac:(discriminate)) as P1.
  rewrite (map_seq_nth cs _ F0) in P1 by (intros i c E; unfold target; rewrite E; reflexivity).
  assert (P2 := par_loop_exists F1 AddTo n cs (map Some (map F0 cs)) eq_refl ltac:(rewrite !map_length; reflexivity)
     ltac:(intros _ i Hi; apply rd_set; rewrite map_length; exact Hi)).
  rewrite (map_seq_nth cs _ (fun c => add (F0 c) (F1 c))) in P2
    by (intros i c E; unfold target; rewrite E, rd_map_Some, nth_error_map, E; reflexivity).
  assert (P3 := par_loop_exists F2 AddTo n cs (map Some (map (fun c => add (F0 c) (F1 c)) cs)) eq_refl ltac:(rewrite !map_length; reflexivity)
     ltac:(intros _ i Hi; apply rd_set; rewrite map_length; exact Hi)).
  eexists. exact (ThreePasses n _ _ _ _ P1 P2 P3).
Qed.

Lemma passes_no_fault : forall cs, let n := length cs in
  ~ passes_fault n (mkCells (map Some cs) (fresh n)).
Proof.
  intros cs n.
  assert (Ln : length (@fresh V n) = n) by (unfold fresh; apply repeat_length).
  intros [H|(m1 & P1 & H)].
  - revert H. apply no_fault; auto. discriminate.
  - apply (par_loop_spec F0 Assign n cs (fresh n)) in P1; auto; [|discriminate].
    rewrite (map_seq_nth cs _ F0) in P1 by (intros i c E; unfold target; rewrite E; reflexivity). subst m1.
    destruct H as [H|(m2 & P2 & H)].
    + revert H. apply no_fault; auto; [rewrite !map_length; reflexivity|].
      intros _ i Hi. apply rd_set. rewrite map_length. exact Hi.
    + apply (par_loop_spec F1 AddTo n cs) in P2; auto; [|rewrite !map_length; reflexivity|intros _ i Hi; apply rd_set; rewrite map_length; exact Hi].
      rewrite (map_seq_nth cs _ (fun c => add (F0 c) (F1 c))) in P2
        by (intros i c E; unfold target; rewrite E, rd_map_Some, nth_error_map, E; reflexivity). subst m2.
      revert H. apply no_fault; auto; [rewrite !map_length; reflexivity|].
      intros _ i Hi. apply rd_set. rewrite map_length. exact Hi.
Qed.
End Passes.

(** ** The drivers *)

(** enum coffe_integral_type and coffe_output_type (common.h). *)
Inductive itype := NONINTEGRATED | SINGLE_INTEGRATED | DOUBLE_INTEGRATED.
Inductive otype := CORRFUNC | MULTIPOLES | AVERAGE_MULTIPOLES.

(** The coordinate records (common.h:166-195). *)
Record cf_coords (X : Type) := mkCF { cf_z : X; cf_sep : X; cf_mu : X }.
Record mp_coords (X : Type) := mkMP { mp_z : X; mp_sep : X; mp_l : Z }.
Record av_coords (X : Type) := mkAV { av_zmin : X; av_zmax : X; av_sep : X; av_l : Z }.
Arguments mkCF {X}. Arguments cf_z {X}. Arguments cf_sep {X}. Arguments cf_mu {X}.
Arguments mkMP {X}. Arguments mp_z {X}. Arguments mp_sep {X}. Arguments mp_l {X}.
Arguments mkAV {X}. Arguments av_zmin {X}. Arguments av_zmax {X}. Arguments av_sep {X}. Arguments av_l {X}.

Section Driver.
Context {X V : Type}.
Variables (x0 : X) (mid : X -> X -> X) (add : V -> V -> V).
(** [coffe_integrate(par, bg, integral, z_mean, z_min, z_max, sep, mu, l, ...)]
    (signal.c:472-771).  It reads the parameters, the background and the
    integral tables; that a look-up also moves the shared position cache of a
    spline is the subject of Accel.v. *)
Variable integrate : X -> X -> X -> X -> X -> Z -> itype -> otype -> V.

(** How a driver ends: undefined behaviour, or an array.
    corrfunc.c:55-152, multipoles.c:48-147, average_multipoles.c:43-168. *)
Inductive dres (C : Type) := Undefined | Gives (l : list (C * V)).
Arguments Undefined {C}. Arguments Gives {C}.

(** Allocation, coordinate loop and the three passes, shared by the drivers.
    corrfunc.c:55-152, multipoles.c:48-147, average_multipoles.c:43-168. *)
Inductive driver {C : Type} (rec : Z) (n1 n2 n3 : nat) (get : nat -> nat -> nat -> option C) (F : itype -> C -> V)
  : dres C -> Prop :=
| D_coords : forall n, cells_of rec (Z.of_nat n1 * Z.of_nat n2 * Z.of_nat n3) = n ->
    nested3 n1 n2 n3 get (0, fresh n) = None -> driver rec n1 n2 n3 get F Undefined
| D_fault : forall n c a, cells_of rec (Z.of_nat n1 * Z.of_nat n2 * Z.of_nat n3) = n ->
    nested3 n1 n2 n3 get (0, fresh n) = Some (c, a) ->
    passes_fault add (F NONINTEGRATED) (F SINGLE_INTEGRATED) (F DOUBLE_INTEGRATED) (n1 * n2 * n3) (mkCells a (fresh n)) ->
    driver rec n1 n2 n3 get F Undefined
| D_uninit : forall n c a m, cells_of rec (Z.of_nat n1 * Z.of_nat n2 * Z.of_nat n3) = n ->
    nested3 n1 n2 n3 get (0, fresh n) = Some (c, a) ->
    three_passes add (F NONINTEGRATED) (F SINGLE_INTEGRATED) (F DOUBLE_INTEGRATED) (n1 * n2 * n3) (mkCells a (fresh n)) m ->
    collect m (n1 * n2 * n3) = None -> driver rec n1 n2 n3 get F Undefined
| D_gives : forall n c a m l, cells_of rec (Z.of_nat n1 * Z.of_nat n2 * Z.of_nat n3) = n ->
    nested3 n1 n2 n3 get (0, fresh n) = Some (c, a) ->
    three_passes add (F NONINTEGRATED) (F SINGLE_INTEGRATED) (F DOUBLE_INTEGRATED) (n1 * n2 * n3) (mkCells a (fresh n)) m ->
    collect m (n1 * n2 * n3) = Some l -> driver rec n1 n2 n3 get F (Gives l).

(** coffe_corrfunc_init, corrfunc.c:55-152: 32-byte records, coordinates from
    par->z_mean, par->mu, par->sep (loop order z, mu, sep). *)
Definition corrfunc_init (zs mus seps : list X) : dres (cf_coords X) -> Prop :=
  driver 32 (length zs) (length mus) (length seps)
    (fun i j k => match nth_error zs i, nth_error mus j, nth_error seps k with
                  | Some z, Some mu, Some s => Some (mkCF z s mu) | _, _, _ => None end)
    (fun t c => integrate (cf_z c) x0 x0 (cf_sep c) (cf_mu c) 0 t CORRFUNC).

(** coffe_multipoles_init, multipoles.c:48-147. *)
Definition multipoles_init (zs : list X) (ls : list Z) (seps : list X) : dres (mp_coords X) -> Prop :=
  driver 32 (length zs) (length ls) (length seps)
    (fun i j k => match nth_error zs i, nth_error ls j, nth_error seps k with
                  | Some z, Some l, Some s => Some (mkMP z s l) | _, _, _ => None end)
    (fun t c => integrate (mp_z c) x0 x0 (mp_sep c) x0 (mp_l c) t MULTIPOLES).

(** coffe_average_multipoles_init, average_multipoles.c:43-168: the loop runs
    over zmin_len and reads zmax at the same index. *)
Definition average_init (zmin zmax : list X) (ls : list Z) (seps : list X) : dres (av_coords X) -> Prop :=
  driver 40 (length zmin) (length ls) (length seps)
    (fun i j k => match nth_error zmin i, nth_error zmax i, nth_error ls j, nth_error seps k with
                  | Some z, Some z', Some l, Some s => Some (mkAV z z' s l) | _, _, _, _ => None end)
    (fun t c => integrate (mid (av_zmin c) (av_zmax c)) (av_zmin c) (av_zmax c) (av_sep c) x0 (av_l c) t AVERAGE_MULTIPOLES).

(** compute_corrfunc / compute_multipole, coffe.pyx:3196-3229 and 3270-3300: one
    point, evaluated by the calling thread. *)
Definition corrfunc_point (z r mu : X) : V :=
  add (add (integrate z x0 x0 r mu 0 NONINTEGRATED CORRFUNC)
           (integrate z x0 x0 r mu 0 SINGLE_INTEGRATED CORRFUNC))
      (integrate z x0 x0 r mu 0 DOUBLE_INTEGRATED CORRFUNC).
Definition multipole_point (z r : X) (l : Z) : V :=
  add (add (integrate z x0 x0 r x0 l NONINTEGRATED MULTIPOLES)
           (integrate z x0 x0 r x0 l SINGLE_INTEGRATED MULTIPOLES))
      (integrate z x0 x0 r x0 l DOUBLE_INTEGRATED MULTIPOLES).

(** ** The drivers give the ordered product *)

Lemma driver_spec : forall A B D C (mk : A -> B -> D -> C) rec xs ys zs get F,
  (0 < rec)%Z ->
  (rec * Z.of_nat (length xs * length ys * length zs) < 2 ^ 64)%Z ->
  (forall i j k x y z, nth_error xs i = Some x -> nth_error ys j = Some y -> nth_error zs k = Some z ->
     get i j k = Some (mk x y z)) ->
  forall r, driver rec (length xs) (length ys) (length zs) get F r <->
    r = Gives (map (fun c => (c, add (add (F NONINTEGRATED c) (F SINGLE_INTEGRATED c)) (F DOUBLE_INTEGRATED c)))
                   (product3 mk xs ys zs)).
Proof.
  intros A B D C mk rec xs ys zs get F R Fit G r.
  assert (N : length (product3 mk xs ys zs) = length xs * length ys * length zs) by apply product3_length.
  assert (Al : cells_of rec (Z.of_nat (length xs) * Z.of_nat (length ys) * Z.of_nat (length zs)) =
     length (product3 mk xs ys zs)).
  { rewrite <- !Nat2Z.inj_mul, N. apply cells_of_fits; auto. }
  pose proof (nested3_spec A B D C mk xs ys zs get G) as Ne.
  set (cs := product3 mk xs ys zs) in *.
  split.
  - intros H. destruct H as [n E H|n c a E H1 H2|n c a m E H1 H2 H3|n c a m l E H1 H2 H3];
      rewrite Al in E; subst n.
    + congruence.
    + rewrite Ne in H1. injection H1 as <- <-. rewrite <- N in H2. exfalso. revert H2. apply passes_no_fault.
    + rewrite Ne in H1. injection H1 as <- <-. rewrite <- N in *.
      rewrite (passes_spec add _ _ _ cs m H2) in H3. discriminate.
    + rewrite Ne in H1. injection H1 as <- <-. rewrite <- N in *.
      rewrite (passes_spec add _ _ _ cs m H2) in H3. injection H3 as <-. reflexivity.
  - intros ->.
    destruct (passes_exist add (F NONINTEGRATED) (F SINGLE_INTEGRATED) (F DOUBLE_INTEGRATED) cs) as [m3 P].
    eapply (D_gives rec _ _ _ get F _ _ _ m3 _ Al Ne); rewrite <- N.
    + exact P.
    + exact (passes_spec add _ _ _ cs m3 P).
Qed.
End Driver.
Arguments Undefined {V C}. Arguments Gives {V C}.
