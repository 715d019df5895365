(** * C18: the tables of the integrals *)
From Coq Require Import ZArith QArith Qreals Reals List Lia Lra Bool Arith.
From Coquelicot Require Import Coquelicot.
From Coq Require Import List.
From Verif Require Import Arrays Numeric Props_Numeric Fft Props_Fft Background Tables.
Import ListNotations.
Open Scope nat_scope.

(** ** Specification *)

(** What [gsl_spline_init] asks of the abscissae. *)
Definition strictly_increasing (l : list R) : Prop :=
  forall i j, i < j < List.length l -> (nth i l 0 < nth j l 0)%R.

(** ** Lists *)
Lemma increasing_nth : forall l, Background.increasing l <-> strictly_increasing l.
Proof.
  induction l as [|x l IH]; [split; [intros _ i j H; cbn in H; lia|intros _; exact I]|].
  destruct l as [|y l].
  - split; [intros _ i j H; cbn in H; lia|intros _; exact I].
  - split.
    + intros [A B]. apply IH in B. intros [|i] [|j] H; cbn [List.length] in H; try lia.
      * destruct j as [|j]; [exact A|]. apply (Rlt_trans _ y _ A). apply (B 0 (S j)). cbn [List.length]. lia.
      * apply (B i j). cbn [List.length]. lia.
    + intros H. split; [apply (H 0 1); cbn; lia|]. apply IH. intros i j Hij. apply (H (S i) (S j)).
      cbn [List.length] in *. lia.
Qed.

Fixpoint qincreasing (l : list Q) : bool :=
  match l with
  | x :: ((y :: _) as t) => (negb (Qle_bool y x) && qincreasing t)%bool
  | _ => true
  end.
Lemma qincreasing_ok : forall l, qincreasing l = true -> Background.increasing (map Q2R l).
Proof.
  induction l as [|x [|y l] IH]; intros H; cbn [map]; try exact I.
  cbn [qincreasing] in H. apply andb_prop in H. destruct H as [A B]. split; [|apply IH; exact B].
  apply Qlt_Rlt. apply Qnot_le_lt. intros C. apply Qle_bool_iff in C. rewrite C in A. discriminate.
Qed.

Lemma increasing_app : forall l r,
  strictly_increasing l -> strictly_increasing r ->
  (forall x y, In x l -> In y r -> (x < y)%R) -> strictly_increasing (l ++ r).
Proof.
  intros l r A B C i j H. rewrite app_length in H.
  destruct (lt_dec i (List.length l)) as [Hi|Hi].
  - rewrite (app_nth1 l r 0%R Hi). destruct (lt_dec j (List.length l)) as [Hj|Hj].
    + rewrite (app_nth1 l r 0%R Hj). apply A. lia.
    + rewrite (app_nth2 l r 0%R) by lia. apply C; apply nth_In; lia.
  - rewrite !(app_nth2 l r 0%R) by lia. apply B. lia.
Qed.

(** ** Filling two arrays in one loop *)
Lemma fill2_from : forall A n k (body : nat -> list (option A) * list (option A) -> res (list (option A) * list (option A)))
    (v w : nat -> A) (a b : list (option A)),
  k + n <= List.length a -> k + n <= List.length b ->
  (forall i p, k <= i < k + n -> List.length (fst p) = List.length a -> List.length (snd p) = List.length b ->
     body i p = rbind (store (fst p) (Z.of_nat i) (v i))
                  (fun c => rbind (store (snd p) (Z.of_nat i) (w i)) (fun d => Done (c, d)))) ->
  exists c d, rfor k n body (a, b) = Done (c, d) /\
    List.length c = List.length a /\ List.length d = List.length b /\
    (forall i, k <= i < k + n -> nth_error c i = Some (Some (v i)) /\ nth_error d i = Some (Some (w i))) /\
    (forall i, i < k \/ k + n <= i -> nth_error c i = nth_error a i /\ nth_error d i = nth_error b i).
Proof.
  induction n as [|n IH]; intros k body v w a b La Lb H.
  - exists a, b. split; [reflexivity|]. split; [reflexivity|]. split; [reflexivity|]. split; [intros; lia|].
    intros; split; reflexivity.
  - cbn [rfor]. rewrite (H k (a, b)) by (cbn; lia). cbn [fst snd].
    destruct (store_ok _ a k (v k) ltac:(lia)) as (a' & Ea & La' & Wa & Oa). rewrite Ea. cbn [rbind].
    destruct (store_ok _ b k (w k) ltac:(lia)) as (b' & Eb & Lb' & Wb & Ob). rewrite Eb. cbn [rbind].
    destruct (IH (S k) body v w a' b') as (c & d & Ec & Lc & Ld & W & O).
    + lia.
    + lia.
    + intros i p Hi H1 H2. apply H; lia.
    + exists c, d. split; [exact Ec|]. split; [lia|]. split; [lia|]. split.
      * intros i Hi. destruct (Nat.eq_dec i k) as [->|N].
        -- destruct (O k) as [-> ->]; [lia|]. split; assumption.
        -- apply W. lia.
      * intros i Hi. destruct (O i) as [-> ->]; [lia|]. rewrite Oa, Ob by lia. split; reflexivity.
Qed.

Lemma all_some : forall A (l : list (option A)) (v : nat -> A) n,
  List.length l = n -> (forall i, i < n -> nth_error l i = Some (Some (v i))) -> l = map Some (map v (seq 0 n)).
Proof.
  intros A l v n L H. apply nth_error_ext.
  - rewrite !map_length, seq_length. exact L.
  - intros i Hi. rewrite H by lia. rewrite !nth_error_map, nth_error_seq by lia. reflexivity.
Qed.

Lemma min_sep_length : List.length min_sep = min_sep_len.
Proof. reflexivity. Qed.
Lemma min_sep_increasing : strictly_increasing min_sep.
Proof. apply increasing_nth. apply qincreasing_ok. vm_compute. reflexivity. Qed.
Lemma min_sep_range : forall x, In x min_sep -> (0 < x < 1)%R.
Proof.
  intros x H. unfold min_sep in H. apply in_map_iff in H. destruct H as (q & <- & H).
  assert (F : forallb (fun q => negb (Qle_bool q 0) && negb (Qle_bool 1 q))%bool min_sep_q = true) by (vm_compute; reflexivity).
  rewrite forallb_forall in F. specialize (F q H). apply andb_prop in F. destruct F as [A B].
  assert (A' : (0 < q)%Q) by (apply Qnot_le_lt; intros C; apply Qle_bool_iff in C; rewrite C in A; discriminate).
  assert (B' : (q < 1)%Q) by (apply Qnot_le_lt; intros C; apply Qle_bool_iff in C; rewrite C in B; discriminate).
  apply Qlt_Rlt in A'. apply Qlt_Rlt in B'. unfold Q2R in A' at 1. unfold Q2R in B' at 2. cbn in A', B'. lra.
Qed.

Section WithExternals.
Variable E : tab_ext.

(** The abscissa and the value at each position of a table. *)
Definition table_x (ratio : R) (N i : nat) : R :=
  match i with
  | O => 0%R
  | S i => if Nat.ltb i min_sep_len then nth i min_sep 0%R else grid 1 ratio N (i - min_sep_len)
  end.
Definition table_y (ff : nat -> R) (N : nat) (n l : Z) (sn sl : istate) (kmin kmax : R) (i : nat) : R :=
  let P := x_spline (t_fft E) in
  let power := (if rle (local sl l) (local sn n) then local sn n - local sl l else 0)%R in
  match i with
  | O => if rle (local sl l) (local sn n)
         then (t_quad E (prefactor P n l sn sl) kmin kmax / 2 / PI / PI * coefficient E l sl)%R
         else 0%R
  | S i' => let r := table_x (kmax / kmin) N i in
            if Nat.ltb i' min_sep_len
            then (t_quad E (bessel_integrand E P n l sn sl r) kmin kmax * Rpower r power / 2 / PI / PI)%R
            else (ff (i' - min_sep_len)%nat * Rpower r power)%R
  end.

Lemma table_grid : forall ratio N, (1 < ratio)%R -> 1 <= N ->
  strictly_increasing (map (table_x ratio N) (seq 0 (N + min_sep_len + 1))).
Proof.
  intros ratio N Hr HN.
  assert (Np : (0 < INR N)%R) by (apply lt_0_INR; lia).
  assert (Lp : (0 < ln ratio)%R) by (rewrite <- ln_1; apply ln_increasing; lra).
  replace (map (table_x ratio N) (seq 0 (N + min_sep_len + 1)))
    with ((0%R :: min_sep) ++ map (grid 1 ratio N) (seq 0 N)).
  2:{ replace (N + min_sep_len + 1) with (1 + (min_sep_len + N)) by lia.
      change (seq 0 (1 + (min_sep_len + N))) with (0 :: seq 1 (min_sep_len + N)). rewrite (seq_app min_sep_len N 1).
      rewrite map_cons. change (table_x ratio N 0) with 0%R.
      rewrite map_app. change ((0%R :: min_sep) ++ map (grid 1 ratio N) (seq 0 N)) with (0%R :: (min_sep ++ map (grid 1 ratio N) (seq 0 N))).
      apply (f_equal (cons 0%R)). apply (f_equal2 (@app R)).
      - apply nth_ext with (d := 0%R) (d' := table_x ratio N 0); [rewrite map_length, seq_length; reflexivity|].
        intros i Hi. rewrite min_sep_length in Hi. rewrite map_nth, seq_nth by exact Hi.
        change (1 + i) with (S i). cbn [table_x]. apply Nat.ltb_lt in Hi. rewrite Hi. reflexivity.
      - apply nth_ext with (d := grid 1 ratio N 0) (d' := table_x ratio N 0); [rewrite !map_length, !seq_length; reflexivity|].
        intros i Hi. rewrite map_length, seq_length in Hi. rewrite !map_nth, !seq_nth by exact Hi.
        change (1 + min_sep_len + i) with (S (min_sep_len + i)). cbn [table_x].
        destruct (Nat.ltb_spec (min_sep_len + i) min_sep_len); [lia|]. f_equal. lia. }
  apply increasing_app.
  - intros [|i] [|j] H; cbn [List.length] in H; try lia.
    + cbn [nth]. apply min_sep_range. apply nth_In. lia.
    + cbn [nth]. apply min_sep_increasing. lia.
  - intros i j H. rewrite map_length, seq_length in H.
    rewrite !nth_mapseq by lia. unfold grid. apply Rmult_lt_compat_l; [lra|]. apply exp_increasing.
    apply Rmult_lt_compat_r; [exact Lp|]. unfold Rdiv. apply Rmult_lt_compat_r; [apply Rinv_0_lt_compat; exact Np|].
    apply lt_INR. lia.
  - intros x y Hx Hy. apply in_map_iff in Hy. destruct Hy as (i & <- & Hi).
    assert (G : (1 <= grid 1 ratio N i)%R).
    { unfold grid. rewrite Rmult_1_l. unfold Rpower. rewrite <- exp_0.
      destruct (Req_dec (INR i / INR N * ln ratio) 0) as [->|D]; [lra|]. left. apply exp_increasing.
      pose proof (pos_INR i). assert (0 <= INR i / INR N * ln ratio)%R; [|lra].
      apply Rmult_le_pos; [|lra]. unfold Rdiv. apply Rmult_le_pos; [exact H|]. left. apply Rinv_0_lt_compat. exact Np. }
    destruct Hx as [<-|Hx]; [lra|]. apply min_sep_range in Hx. lra.
Qed.

(** For at least two samples and a range of wavenumbers wider than e^0.92: both
    arrays are filled, the abscissae start at 0 and increase strictly, and a
    spline can be made of them.  At 0 and below 1 Mpc the values are those of
    the quadrature of [r^(n-l) k^2 P(k) j_l(kr) / (kr)^n] (of [k^2 P(k) j_l(kr)
    / (kr)^n] when n < l), above it those of the FFTLog transform [ff] with the
    same factor.
    Missing from the full claim: narrower ranges and smaller samplings. *)
Theorem C18_tables_partial : forall N n l sn sl kmin kmax method,
  5 <= N -> (Z.of_nat N < 2 ^ 64)%Z ->
  (0 < kmin)%R -> (kmin < kmax)%R ->
  (92 / 100 <= INR (N - 1) / INR N * ln (kmax / kmin))%R ->
  (forall i, i < N -> (INR i / INR N * ln (kmax / kmin) <> 46 / 100)%R) ->
  (forall t a, exists v, x_mql (t_fft E) t (select_q (local sl l) (local sn n)) (local sl l) a = Done v) ->
  exists xs ys ff,
    renormalizable E N n l sn sl kmin kmax = Done (map Some xs, map Some ys) /\
    List.length xs = N + 43 /\ List.length ys = N + 43 /\
    nth 0 xs 0%R = 0%R /\ strictly_increasing xs /\
    init_spline (map Some xs) (map Some ys) (N + 43) method = Done (combine xs ys) /\
    (forall i, i < N + 43 -> nth i xs 0%R = table_x (kmax / kmin) N i) /\
    (forall i, i < N + 43 -> nth i ys 0%R = table_y ff N n l sn sl kmin kmax i) /\
    twofast_1bessel (t_fft E) (fresh N) (fresh N) N (local sl l) (local sn n) 1 kmin kmin kmax
      = Done (map Some (map (grid 1 (kmax / kmin) N) (seq 0 N)), map Some (map ff (seq 0 N))).
Proof.
  intros N n l sn sl kmin kmax method H Hz P1 P2 Hr He Hm.
  assert (R1 : (1 < kmax / kmin)%R).
  { apply (Rmult_lt_reg_r kmin); [exact P1|]. unfold Rdiv. rewrite Rmult_assoc, Rinv_l by lra. lra. }
  set (w := fun i => match fft_window kmin kmin kmax N (grid kmin (kmax / kmin) N i) with Done w => w | _ => 0%R end).
  set (m := fun i => match x_mql (t_fft E) (2 * PI * INR i / ln (kmax / kmin)) (select_q (local sl l) (local sn n)) (local sl l) (kmin * 1) with Done w => w | _ => RtoC 0 end).
  set (ff := bessel_sum (x_spline (t_fft E)) w m (select_q (local sl l) (local sn n) + local sn n) (local sn n) 1 kmin (kmax / kmin) N).
  assert (TW : twofast_1bessel (t_fft E) (fresh N) (fresh N) N (local sl l) (local sn n) 1 kmin kmin kmax
      = Done (map Some (map (grid 1 (kmax / kmin) N) (seq 0 N)), map Some (map ff (seq 0 N)))).
  { apply twofast_ok; try (apply fresh_length); try exact Hz; [lia| |].
    - intros i Hi. unfold w. destruct (window_ok kmin kmax N i P1 Hi Hr (He i Hi)) as (v & -> & _); [|reflexivity].
      apply He. lia.
    - intros i Hi. unfold m.
      destruct (Hm (2 * PI * INR i / ln (kmax / kmin))%R (kmin * 1)%R) as [v ->]. reflexivity. }
  set (vx := table_x (kmax / kmin) N). set (vy := table_y ff N n l sn sl kmin kmax).
  exists (map vx (seq 0 (N + 43))), (map vy (seq 0 (N + 43))), ff.
  assert (EQ : renormalizable E N n l sn sl kmin kmax
               = Done (map Some (map vx (seq 0 (N + 43))), map Some (map vy (seq 0 (N + 43))))).
  { unfold renormalizable. rewrite TW. cbn [rbind fst snd].
    set (gx := map Some (map (grid 1 (kmax / kmin) N) (seq 0 N))).
    set (pw := (if rle (local sl l) (local sn n) then local sn n - local sl l else 0)%R).
    set (gy := fun i => (ff i * Rpower (grid 1 (kmax / kmin) N i) pw)%R).
    match goal with |- rbind ?m _ = _ => assert (EY : m = Done (map Some (map gy (seq 0 N)))) end.
    { unfold gy, pw. destruct (rle (local sl l) (local sn n)).
      - apply fill; [rewrite !map_length, seq_length; reflexivity|].
        intros i b Hi Hl Hb. unfold load at 1. destruct (Z.ltb_spec (Z.of_nat i) 0); [lia|]. rewrite Nat2Z.id.
        unfold rd. rewrite Hb by lia. rewrite !nth_error_map, nth_error_seq by exact Hi.
        cbn [option_map of_opt rbind]. unfold gx. rewrite load_map by exact Hi. reflexivity.
      - f_equal. rewrite !map_map. apply map_ext_in. intros i Hi. f_equal.
        replace (Rpower (grid 1 (kmax / kmin) N i) 0) with 1%R; [ring|]. unfold Rpower. rewrite Rmult_0_l, exp_0. reflexivity. }
    rewrite EY. cbn [rbind]. clear EY.
    set (total := N + min_sep_len + 1).
    assert (Ht : total = N + 43) by (unfold total, min_sep_len; lia).
    destruct (store_ok _ (@fresh R total) 0 0%R) as (ox & Ex & Lx & Wx & Ox); [rewrite fresh_length; lia|].
    cbn [Z.of_nat] in Ex. rewrite Ex. cbn [rbind].
    match goal with |- rbind (store _ _ ?v) _ = _ => set (x0 := v) end.
    destruct (store_ok _ (@fresh R total) 0 x0) as (oy & Ey & Ly & Wy & Oy); [rewrite fresh_length; lia|].
    cbn [Z.of_nat] in Ey. rewrite Ey. cbn [rbind]. rewrite fresh_length in Lx, Ly.
    match goal with |- rbind (rfor _ _ ?b _) _ = _ => set (body := b) end.
    destruct (fill2_from R min_sep_len 1 body vx vy ox oy) as (cx & cy & Ec & Lcx & Lcy & Wc & Oc).
    - unfold min_sep_len. lia.
    - unfold min_sep_len. lia.
    - intros i p Hi Hlx Hly. unfold body.
      assert (Hi' : i - 1 < List.length min_sep) by (rewrite min_sep_length; lia).
      rewrite (nth_error_nth' min_sep 0%R Hi'). cbn [of_opt rbind].
      assert (Ev : vx i = nth (i - 1) min_sep 0%R).
      { unfold vx. destruct i as [|i]; [lia|]. cbn [table_x]. rewrite Nat.sub_succ, Nat.sub_0_r.
        destruct (Nat.ltb_spec i min_sep_len); [reflexivity|lia]. }
      rewrite <- Ev.
      destruct (store_ok _ (fst p) i (vx i)) as (c & E1 & L1 & W1 & _); [lia|]. rewrite E1. cbn [rbind].
      assert (E2 : load c (Z.of_nat i) = Done (vx i)).
      { unfold load. destruct (Z.ltb_spec (Z.of_nat i) 0); [lia|]. rewrite Nat2Z.id. unfold rd. rewrite W1. reflexivity. }
      rewrite E2. cbn [rbind].
      assert (E3 : integrate_function E (bessel_integrand E (x_spline (t_fft E)) n l sn sl (vx i)) n l sn sl (vx i) kmin kmax = vy i).
      { unfold vy, table_y. destruct i as [|i]; [lia|].
        assert (Hs : i < min_sep_len) by lia. destruct (Nat.ltb_spec i min_sep_len); [|lia].
        unfold integrate_function. fold vx.
        assert (Pos : rlt 0 (vx (S i)) = true).
        { apply rlt_true. rewrite Ev. apply min_sep_range. apply nth_In. exact Hi'. }
        rewrite Pos, andb_true_r. fold pw. unfold pw.
        destruct (rle (local sl l) (local sn n)); [reflexivity|].
        replace (Rpower (vx (S i)) 0) with 1%R; [rewrite Rmult_1_r; reflexivity|].
        unfold Rpower. rewrite Rmult_0_l, exp_0. reflexivity. }
      rewrite E3. reflexivity.
    - rewrite Ec. cbn [rbind]. clear Ec body.
      match goal with |- rfor _ _ ?b _ = _ => set (body := b) end.
      assert (Hd : total - N = 43) by lia.
      destruct (fill2_from R N (total - N) body vx vy cx cy) as (dx & dy & Ed & Ldx & Ldy & Wd & Od).
      + lia.
      + lia.
      + intros i p Hi Hlx Hly. unfold body.
        assert (Hi' : i - (total - N) < N) by lia.
        unfold gx. rewrite load_map by exact Hi'. cbn [rbind].
        assert (Ev : grid 1 (kmax / kmin) N (i - (total - N)) = vx i).
        { unfold vx. destruct i as [|i]; [lia|]. cbn [table_x].
          destruct (Nat.ltb_spec i min_sep_len) as [L|L]; [unfold min_sep_len in L; lia|]. f_equal.
          unfold min_sep_len. lia. }
        rewrite load_map by exact Hi'.
        assert (Ew : gy (i - (total - N)) = vy i).
        { unfold vy, table_y, gy. rewrite Ev. fold vx. destruct i as [|i]; [lia|].
          destruct (Nat.ltb_spec i min_sep_len) as [L|L]; [unfold min_sep_len in L; lia|]. f_equal. f_equal.
          unfold min_sep_len. lia. }
        rewrite Ev, Ew. reflexivity.
      + rewrite Ed. f_equal. rewrite <- Ht.
        assert (Lall : forall i, i < total ->
                  nth_error dx i = Some (Some (vx i)) /\ nth_error dy i = Some (Some (vy i))).
        { intros i Hi. destruct (lt_dec i (total - N)) as [L|L].
          - destruct (Od i) as [-> ->]; [lia|]. destruct i as [|i].
            + destruct (Oc 0) as [-> ->]; [lia|]. rewrite Wx, Wy. split; [reflexivity|].
              do 2 f_equal. unfold x0, vy, table_y, integrate_function.
              assert (Z0 : rlt 0 0 = false) by (apply rlt_false; lra).
              rewrite Z0, andb_false_r. destruct (rle _ _); reflexivity.
            + apply Wc. unfold min_sep_len. lia.
          - apply Wd. lia. }
        f_equal; apply all_some; try lia; intros i Hi; apply Lall; exact Hi. }
  split; [exact EQ|]. rewrite !map_length, !seq_length. split; [reflexivity|]. split; [reflexivity|].
  assert (SI : strictly_increasing (map vx (seq 0 (N + 43)))).
  { replace (N + 43) with (N + min_sep_len + 1) by (unfold min_sep_len; lia). apply table_grid; [exact R1|lia]. }
  split; [rewrite nth_mapseq by lia; reflexivity|]. split; [exact SI|]. split.
  - unfold init_spline. destruct (Nat.eqb_spec (N + 43) 0); [lia|].
    rewrite !firstn_all2 by (rewrite !map_length, seq_length; lia). rewrite !values_ok. cbn [rbind].
    destruct (Nat.ltb_spec (N + 43) (min_size method)) as [L|L].
    + exfalso. revert L. unfold min_size.
      do 8 (destruct method as [|method]; [lia|]). lia.
    + rewrite !map_length, !seq_length, Nat.eqb_refl. cbn [negb orb].
      destruct (increasing_dec _) as [I|I]; [reflexivity|]. exfalso. apply I. apply increasing_nth. exact SI.
  - split; [intros i Hi; rewrite nth_mapseq by exact Hi; reflexivity|].
    split; [|exact TW]. intros i Hi. rewrite nth_mapseq by exact Hi. reflexivity.
Qed.

(** A range narrower than e^0.92, in particular k_max <= k_min: the process ends
    instead of building the tables. *)
Theorem C18_narrow_refuted : forall N n l sn sl kmin kmax,
  1 <= N -> (0 < kmin)%R -> (INR (N - 1) / INR N * ln (kmax / kmin) < 92 / 100)%R ->
  renormalizable E N n l sn sl kmin kmax = Exited.
Proof.
  intros N n l sn sl kmin kmax H P Hr. unfold renormalizable.
  rewrite C42_narrow_exits_refuted by assumption. reflexivity.
Qed.

(** No samples: undefined behaviour. *)
Theorem C18_no_samples_refuted : forall n l sn sl kmin kmax,
  renormalizable E 0 n l sn sl kmin kmax = Undefined.
Proof. reflexivity. Qed.
End WithExternals.

(** The tables of the divergent integral, and the redshifts of the tables of
    non-linear spectra. *)
Theorem C18_divergent :
  strictly_increasing divergent_seps /\ strictly_increasing zero_separation_seps /\
  nth 0 zero_separation_seps 1%R = 0%R /\ strictly_increasing z_array /\
  (forall x, In x divergent_seps -> (0 < x <= 20000)%R).
Proof.
  split; [apply increasing_nth; apply qincreasing_ok; vm_compute; reflexivity|].
  split.
  { apply increasing_nth.
    assert (Ez : zero_separation_seps = map Q2R (0%Q :: tl coffe_sep_q)).
    { unfold zero_separation_seps, coffe_sep. cbn [map]. rewrite RMicromega.Q2R_0. reflexivity. }
    rewrite Ez.
    apply qincreasing_ok. vm_compute. reflexivity. }
  split; [reflexivity|]. split.
  { intros i j H. unfold z_array in *. rewrite map_length, seq_length in H. rewrite !nth_mapseq by lia.
    assert (INR i < INR j)%R by (apply lt_INR; lia). lra. }
  intros x H. unfold divergent_seps, coffe_sep in H. apply in_map_iff in H. destruct H as (q & <- & H).
  assert (F : forallb (fun q => negb (Qle_bool q 0) && Qle_bool q 20000)%bool coffe_sep_q = true) by (vm_compute; reflexivity).
  rewrite forallb_forall in F. specialize (F q H). apply andb_prop in F. destruct F as [A B].
  assert (A' : (0 < q)%Q) by (apply Qnot_le_lt; intros C; apply Qle_bool_iff in C; rewrite C in A; discriminate).
  apply Qle_bool_iff in B. apply Qlt_Rlt in A'. apply Qle_Rle in B. unfold Q2R in A' at 1. unfold Q2R in B at 2. cbn in A', B. lra.
Qed.

(** The distances of the renormalisation table are 201 equally spaced ones from 0
    to the largest distance, and increase exactly when that is positive. *)
Theorem C18_distances : forall chi_max,
  List.length (chi_array chi_max) = 201 /\
  nth 0 (chi_array chi_max) 1%R = 0%R /\ nth 200 (chi_array chi_max) 0%R = chi_max /\
  (forall i, i < 200 -> nth (S i) (chi_array chi_max) 0%R = (nth i (chi_array chi_max) 0 + chi_max / 200)%R) /\
  (strictly_increasing (chi_array chi_max) <-> (0 < chi_max)%R).
Proof.
  intros c. unfold chi_array at 1. rewrite map_length, seq_length. split; [reflexivity|].
  split; [unfold chi_array; rewrite nth_mapseq by lia; cbn; lra|].
  split; [unfold chi_array; rewrite nth_mapseq by lia; rewrite INR_IZR_INZ; cbn; lra|].
  split; [intros i Hi; unfold chi_array; rewrite !nth_mapseq by lia; rewrite S_INR; field|]. split.
  - intros H. specialize (H 0 200). unfold chi_array in H. rewrite map_length, seq_length in H.
    rewrite !nth_mapseq in H by lia. specialize (H ltac:(lia)). rewrite INR_IZR_INZ in H. cbn in H. lra.
  - intros P i j H. unfold chi_array in *. rewrite map_length, seq_length in H. rewrite !nth_mapseq by lia.
    assert (L : (INR i < INR j)%R) by (apply lt_INR; lia).
    assert (INR i / 200 * (c - 0) < INR j / 200 * (c - 0))%R; [|lra].
    apply Rmult_lt_compat_r; lra.
Qed.

Example C18_nonvacuous :
  5 <= 8 /\ (0 < 1)%R /\ (1 < exp 4)%R /\
  (92 / 100 <= INR (8 - 1) / INR 8 * ln (exp 4 / 1))%R /\
  (forall i, i < 8 -> (INR i / INR 8 * ln (exp 4 / 1) <> 46 / 100)%R) /\
  (INR (8 - 1) / INR 8 * ln (1 / 1) < 92 / 100)%R.
Proof.
  assert (L : ln (exp 4 / 1) = 4%R) by (unfold Rdiv; rewrite Rinv_1, Rmult_1_r; apply ln_exp).
  rewrite L. split; [lia|]. split; [lra|]. split.
  - pose proof (exp_ineq1 4 ltac:(lra)). lra.
  - split; [cbn; lra|]. split.
    + intros i Hi. do 8 (destruct i as [|i]; [cbn; lra|]). lia.
    + replace (1 / 1)%R with 1%R by lra. rewrite ln_1. lra.
Qed.

Print Assumptions C18_tables_partial.
Print Assumptions C18_narrow_refuted.
Print Assumptions C18_no_samples_refuted.
Print Assumptions C18_divergent.
Print Assumptions C18_distances.
