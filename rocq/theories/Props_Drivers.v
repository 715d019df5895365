(** * Properties C14, C15, C16, C49: bulk computations, threads, look-ups. *)
From Coq Require Import ZArith Arith Bool List Lia Permutation.
From Verif Require Import Arrays Sched Drivers Accel.
Import ListNotations.

(** ** C14: the bulk arrays are the ordered product of the coordinates *)

(** For all lists small enough for their product to be addressable. *)
Theorem C14_corrfunc : forall X V (x0 : X) (add : V -> V -> V) integrate (zs mus seps : list X) r,
  (32 * Z.of_nat (length zs * length mus * length seps) < 2 ^ 64)%Z ->
  corrfunc_init x0 add integrate zs mus seps r <->
  r = Gives (map (fun c => (c, corrfunc_point x0 add integrate (cf_z c) (cf_sep c) (cf_mu c)))
       (flat_map (fun z => flat_map (fun mu => map (fun s => mkCF z s mu) seps) mus) zs)).
Proof.
  intros X V x0 add integrate zs mus seps r Fit.
  refine (driver_spec add X X X _ (fun z mu s => mkCF z s mu) 32 zs mus seps _ _ _ Fit _ r); [lia|].
  intros i j k x y z -> -> ->. reflexivity.
Qed.
Print Assumptions C14_corrfunc.

Theorem C14_multipoles : forall X V (x0 : X) (add : V -> V -> V) integrate (zs : list X) ls (seps : list X) r,
  (32 * Z.of_nat (length zs * length ls * length seps) < 2 ^ 64)%Z ->
  multipoles_init x0 add integrate zs ls seps r <->
  r = Gives (map (fun c => (c, multipole_point x0 add integrate (mp_z c) (mp_sep c) (mp_l c)))
       (flat_map (fun z => flat_map (fun l => map (fun s => mkMP z s l) seps) ls) zs)).
Proof.
  intros X V x0 add integrate zs ls seps r Fit.
  refine (driver_spec add X Z X _ (fun z l s => mkMP z s l) 32 zs ls seps _ _ _ Fit _ r); [lia|].
  intros i j k x y z -> -> ->. reflexivity.
Qed.
Print Assumptions C14_multipoles.

Theorem C14_average_multipoles : forall X V (x0 : X) mid (add : V -> V -> V) integrate
    (zmin zmax : list X) ls (seps : list X) r,
  length zmin <= length zmax ->
  (40 * Z.of_nat (length zmin * length ls * length seps) < 2 ^ 64)%Z ->
  average_init x0 mid add integrate zmin zmax ls seps r <->
  r = Gives (map (fun c => let val t := integrate (mid (av_zmin c) (av_zmax c)) (av_zmin c) (av_zmax c) (av_sep c) x0 (av_l c) t AVERAGE_MULTIPOLES in
                  (c, add (add (val NONINTEGRATED) (val SINGLE_INTEGRATED)) (val DOUBLE_INTEGRATED)))
       (flat_map (fun zz => flat_map (fun l => map (fun s => mkAV (fst zz) (snd zz) s l) seps) ls) (combine zmin zmax))).
Proof.
  intros X V x0 mid add integrate zmin zmax ls seps r L Fit.
  assert (Lc : length (combine zmin zmax) = length zmin) by (rewrite combine_length; lia).
  unfold average_init. rewrite <- Lc.
  refine (driver_spec add (X * X) Z X _ (fun zz l s => mkAV (fst zz) (snd zz) s l) 40 (combine zmin zmax) ls seps _ _ _ _ _ r).
  - lia.
  - rewrite Lc. exact Fit.
  - intros i j k [a b] y z Hc -> ->. simpl.
    assert (nth_error zmin i = Some a /\ nth_error zmax i = Some b) as [-> ->]; [|reflexivity].
    clear - Hc. revert zmax i Hc. induction zmin as [|x q IH]; intros [|y w] [|i] H; simpl in *; try discriminate.
    + injection H as <- <-. auto.
    + apply IH. exact H.
Qed.
Print Assumptions C14_average_multipoles.

(** Entry number i*|mus|*|seps| + j*|seps| + k belongs to (zs[i], mus[j], seps[k]). *)
Theorem C14_position : forall X (zs mus seps : list X) i j k z mu s,
  nth_error zs i = Some z -> nth_error mus j = Some mu -> nth_error seps k = Some s ->
  nth_error (flat_map (fun z => flat_map (fun mu => map (fun s => mkCF z s mu) seps) mus) zs)
     ((i * length mus + j) * length seps + k) = Some (mkCF z s mu).
Proof.
  intros X zs mus seps i j k z mu s Hz Hm Hs.
  assert (Lk : k < length seps) by (apply nth_error_Some; congruence).
  assert (Lj : j < length mus) by (apply nth_error_Some; congruence).
  assert (In1 : forall mus z j mu, nth_error mus j = Some mu ->
     nth_error (flat_map (fun mu => map (fun s => mkCF z s mu) seps) mus) (j * length seps + k) = Some (mkCF z s mu)).
  { clear - Hs Lk. induction mus as [|m r IH]; intros z [|j] mu H; simpl in *; try discriminate.
    - injection H as ->. rewrite nth_error_app1 by (rewrite map_length; exact Lk). rewrite nth_error_map, Hs. reflexivity.
    - rewrite nth_error_app2 by (rewrite map_length; lia). rewrite map_length.
      replace (length seps + j * length seps + k - length seps) with (j * length seps + k) by lia. auto. }
  assert (Len : forall z, length (flat_map (fun mu => map (fun s => mkCF z s mu) seps) mus) = length mus * length seps).
  { clear. intros z. induction mus as [|m r IH]; simpl; [reflexivity|]. rewrite app_length, map_length, IH. reflexivity. }
  revert i z Hz. induction zs as [|y r IH]; intros [|i] z Hz; simpl in *; try discriminate.
  - injection Hz as ->. rewrite nth_error_app1 by (rewrite Len; nia). apply In1. exact Hm.
  - rewrite nth_error_app2 by (rewrite Len; nia). rewrite Len. rewrite <- (IH i z Hz). f_equal. nia.
Qed.
Print Assumptions C14_position.

Example C14_nonvacuous :
  let F := fun z a b s m (l : Z) t o => [z; s; m] in
  corrfunc_init 0 (fun a b : list nat => (a ++ b)%list) F [1; 2] [7] [5; 6]
   (Gives [(mkCF 1 5 7, [1; 5; 7; 1; 5; 7; 1; 5; 7]); (mkCF 1 6 7, [1; 6; 7; 1; 6; 7; 1; 6; 7]);
           (mkCF 2 5 7, [2; 5; 7; 2; 5; 7; 2; 5; 7]); (mkCF 2 6 7, [2; 6; 7; 2; 6; 7; 2; 6; 7])]).
Proof.
  intros F. apply C14_corrfunc; [simpl; lia|reflexivity].
Qed.

(** Fewer upper than lower redshift limits: the array of upper limits is read
    outside its bounds. *)
Theorem C14_average_multipoles_refuted : forall X V (x0 : X) mid (add : V -> V -> V) integrate a b c l s r,
  average_init x0 mid add integrate [a; b] [c] [l] [s] r -> r = Undefined.
Proof.
  intros X V x0 mid add integrate a b c l s r H. unfold average_init in H.
  destruct H as [n E H|n c' a' E H1 H2|n c' a' m E H1 H2 H3|n c' a' m l' E H1 H2 H3]; try reflexivity;
    vm_compute in E; subst n; vm_compute in H1; discriminate.
Qed.

(** ** C15: threads and schedules *)

(** The result of the drivers does not depend on the number of threads, on the
    distribution of the records over them, or on how they interleave; nor does
    any of them run into undefined behaviour or fail to finish: by C14 the only
    outcome is the array of the sequential computation.  As a corollary, any two
    runs agree. *)
Theorem C15_schedule_independent_partial : forall X V (x0 : X) (add : V -> V -> V) integrate (zs mus seps : list X) r1 r2,
  (32 * Z.of_nat (length zs * length mus * length seps) < 2 ^ 64)%Z ->
  corrfunc_init x0 add integrate zs mus seps r1 -> corrfunc_init x0 add integrate zs mus seps r2 -> r1 = r2.
Proof.
  intros X V x0 add integrate zs mus seps r1 r2 Fit H1 H2.
  apply C14_corrfunc in H1; auto. apply C14_corrfunc in H2; auto. congruence.
Qed.
Print Assumptions C15_schedule_independent_partial.

(** One parallel loop, spelled out: any distribution, any schedule. *)
Theorem C15_parallel_loop : forall C V (F : C -> V) add md n cs old work sched,
  length cs = n -> length old = n -> (md = AddTo -> forall i, i < n -> rd old i <> None) ->
  Permutation (concat work) (seq 0 n) ->
  exists c, exec (istep F add md) sched (start work (mkCells (map Some cs) old)) = Some c /\
    coords (snd c) = map Some cs /\
    (finished (istep F add md) c -> vals (snd c) = map (target F add md cs old) (seq 0 n)).
Proof. intros C V F add md n cs old work sched H1 H2 H3 D. exact (par_for_safe F add md n cs old H1 H2 H3 work sched D). Qed.
Print Assumptions C15_parallel_loop.

(** No data race on the result records, in any reachable state. *)
Theorem C15_no_race_on_records : forall C V (F : C -> V) add md n cs old work sched c t u i r rg j q rg',
  length cs = n -> length old = n -> (md = AddTo -> forall i, i < n -> rd old i <> None) ->
  Permutation (concat work) (seq 0 n) ->
  exec (istep F add md) sched (start work (mkCells (map Some cs) old)) = Some c ->
  t <> u -> nth_error (fst c) t = Some (i :: r, rg) -> nth_error (fst c) u = Some (j :: q, rg') -> i <> j.
Proof.
  intros C V F add md n cs old work sched c t u i r rg j q rg' H1 H2 H3 D E.
  destruct (exec_inv (istep F add md) _ (PInv_step F add md n cs old H1 H2 H3) sched _ (PInv_start F add md n cs old H1 H2 work D))
    as (c' & E' & HI).
  rewrite E in E'. injection E' as <-. exact (par_for_race_free F add md n cs old c t u i r rg j q rg' HI).
Qed.
Print Assumptions C15_no_race_on_records.

(** Two threads, an interleaving where both hold an old value at the same time. *)
Example C15_nonvacuous :
  let F := fun c : nat => 10 * c in
  option_map (fun c => vals (snd c))
   (exec (istep F Nat.add AddTo) [0; 1; 1; 0; 1; 0; 0; 1; 0; 0; 1; 1]
     (start [[0; 3]; [2; 1]] (mkCells (map Some [1; 2; 3; 4]) (map Some [5; 6; 7; 8])))) =
  Some (map Some [15; 26; 37; 48]).
Proof. reflexivity. Qed.

(** ** C16: spline look-ups *)

(** One thread: after any sequence of look-ups, each returns the interval that
    contains its abscissa. *)
Theorem C16_lookup_sequential_partial : forall xa xs,
  2 <= length xa -> (forall i j, i < j < length xa -> (nth i xa 0 < nth j xa 0)%Z) ->
  Forall (fun x => (nth 0 xa 0 <= x <= nth (length xa - 1) xa 0)%Z) xs ->
  Forall2 (interval_of xa) xs (lookups xa 0 xs).
Proof.
  intros xa xs H1 H2 H3. apply lookups_ok; auto.
Qed.
Print Assumptions C16_lookup_sequential_partial.
Theorem C16_interval_unique : forall xa x i j,
  (forall i j, i < j < length xa -> (nth i xa 0 < nth j xa 0)%Z) ->
  interval_of xa x i -> interval_of xa x j -> i = j.
Proof.
  intros xa x i j H Hi Hj. refine (interval_unique xa _ H x i j Hi Hj). destruct Hi. unfold len in *. lia.
Qed.
Print Assumptions C16_interval_unique.
(** Several threads: whatever the interleaving, the returned index is an
    interval of the table (no access out of bounds) ... *)
Theorem C16_lookup_in_bounds : forall xa work sched,
  2 <= length xa -> (forall i j, i < j < length xa -> (nth i xa 0 < nth j xa 0)%Z) ->
  Forall (Forall (fun x => (nth 0 xa 0 <= x <= nth (length xa - 1) xa 0)%Z)) work ->
  exists c, exec (lstep xa) sched (lstart work) = Some c /\
    Forall (fun l => Forall (fun i => i + 1 < length xa) (results l)) (fst c).
Proof. intros xa work sched H1 H2 H3. exact (lookups_in_bounds xa H1 H2 work sched H3). Qed.
Print Assumptions C16_lookup_in_bounds.
(** ... but it need not be the right one. *)
Definition lookups_right : Prop :=
  forall xa work sched c, 2 <= length xa -> (forall i j, i < j < length xa -> (nth i xa 0 < nth j xa 0)%Z) ->
  exec (lstep xa) sched (lstart work) = Some c -> finished (lstep xa) c ->
  Forall2 (fun w l => Forall2 (interval_of xa) w (results l)) work (fst c).
Definition tab : list Z := [0; 10; 20; 30; 40]%Z.
Example C16_nonvacuous : lookups tab 0 [5; 35; 40; 12; 0]%Z = [0; 3; 3; 1; 0].
Proof. reflexivity. Qed.

(** Thread 0 looks up 5, thread 1 looks up 35; thread 1 moves the cache between
    thread 0's last comparison and its return. *)
Theorem C16_lookup_refuted : ~ lookups_right.
Proof.
  intros H.
  assert (E : exec (lstep tab) [0; 0; 1; 1; 0; 1] (lstart [[5]; [35]]%Z) =
     Some ([mkL [] LIdle [3]; mkL [] LIdle [3]], 3)) by reflexivity.
  assert (S : forall i j, i < j < length tab -> (nth i tab 0 < nth j tab 0)%Z).
  { intros i j [A B]. simpl in B.
    do 5 (destruct i as [|i]; [do 5 (destruct j as [|j]; [simpl; lia|]); lia|]). lia. }
  specialize (H tab [[5]; [35]]%Z _ _ ltac:(simpl; lia) S E ltac:(repeat constructor)).
  inversion H as [|? ? ? ? H1 _]; subst. inversion H1 as [|? ? ? ? H2 _]; subst.
  destruct H2 as (_ & A & _). vm_compute in A. congruence.
Qed.
Print Assumptions C16_lookup_refuted.

(** Hence the drivers, whose integrand looks up shared splines, are schedule
    independent only as far as these look-ups are: two schedules of the same two
    look-ups give different results. *)
Definition lookups_schedule_independent : Prop :=
  forall xa work s1 s2 c1 c2, exec (lstep xa) s1 (lstart work) = Some c1 -> exec (lstep xa) s2 (lstart work) = Some c2 ->
    finished (lstep xa) c1 -> finished (lstep xa) c2 -> map results (fst c1) = map results (fst c2).
Theorem C15_shared_lookup_refuted : ~ lookups_schedule_independent.
Proof.
  intros H.
  assert (E1 : exec (lstep tab) [0; 0; 1; 1; 0; 1] (lstart [[5]; [35]]%Z) =
     Some ([mkL [] LIdle [3]; mkL [] LIdle [3]], 3)) by reflexivity.
  assert (E2 : exec (lstep tab) [0; 0; 0; 1; 1; 1] (lstart [[5]; [35]]%Z) =
     Some ([mkL [] LIdle [0]; mkL [] LIdle [3]], 3)) by reflexivity.
  specialize (H tab _ _ _ _ _ E1 E2 ltac:(repeat constructor) ltac:(repeat constructor)). discriminate.
Qed.

(** ** C49: one point and the bulk array *)

(** The value of an entry of the bulk array is the value of the single-point
    method at the coordinates of the entry. *)
Theorem C49_corrfunc : forall X V (x0 : X) (add : V -> V -> V) integrate (zs mus seps : list X) l c v,
  (32 * Z.of_nat (length zs * length mus * length seps) < 2 ^ 64)%Z ->
  corrfunc_init x0 add integrate zs mus seps (Gives l) -> In (c, v) l ->
  v = corrfunc_point x0 add integrate (cf_z c) (cf_sep c) (cf_mu c).
Proof.
  intros X V x0 add integrate zs mus seps l c v Fit H I.
  apply C14_corrfunc in H; auto. injection H as ->. apply in_map_iff in I as (c' & E & _). injection E as <- <-. reflexivity.
Qed.
Print Assumptions C49_corrfunc.
Theorem C49_multipoles : forall X V (x0 : X) (add : V -> V -> V) integrate (zs : list X) ls (seps : list X) l c v,
  (32 * Z.of_nat (length zs * length ls * length seps) < 2 ^ 64)%Z ->
  multipoles_init x0 add integrate zs ls seps (Gives l) -> In (c, v) l ->
  v = multipole_point x0 add integrate (mp_z c) (mp_sep c) (mp_l c).
Proof.
  intros X V x0 add integrate zs ls seps l c v Fit H I.
  apply C14_multipoles in H; auto. injection H as ->. apply in_map_iff in I as (c' & E & _). injection E as <- <-. reflexivity.
Qed.
Print Assumptions C49_multipoles.
