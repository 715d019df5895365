(** * Properties of the covariance: C23 - C28, C62 *)
From Coq Require Import ZArith Reals List Lia Lra Bool Arith QArith Qreals FunctionalExtensionality.
From Coquelicot Require Import Coquelicot.
From Coq Require Import List.
From Verif Require Import Arrays Numeric Coupling Covariance CovLemmas.
Import ListNotations.
Open Scope nat_scope.

(** ** Reading the output *)
(** The value a run yields for redshift number k, multipole and separation numbers (i, m)
    of the first and (j, n) of the second data point. *)
Definition cov (X : cov_ext) (I : cov_in) (k i m j n : nat) : option R :=
  match covariance_init X I with
  | Done out =>
      match nth_error out (position (List.length (ci_ells I)) (List.length (ci_sep I)) k i m j n) with
      | Some (_, v) => v
      | None => None
      end
  | _ => None
  end.
Definition in_range (I : cov_in) (k i m j n : nat) : Prop :=
  k < redshifts I /\ i < List.length (ci_ells I) /\ m < List.length (ci_sep I)
  /\ j < List.length (ci_ells I) /\ n < List.length (ci_sep I).

(** The 2D transform treats its two arguments alike, as the double Bessel integral does. *)
Definition fft_symmetric (X : cov_ext) : Prop := forall p l1 l2 r1 r2, e_fft X p l1 l2 r1 r2 = e_fft X p l2 l1 r2 r1.

Lemma cov_entry : forall X I k i m j n, shape_ok I -> in_range I k i m j n -> cov X I k i m j n = entry_at X I k i m j n.
Proof.
  intros X I k i m j n S H. unfold cov. rewrite run_ok by exact S.
  rewrite nth_error_map, nth_points by (apply in_points; exact H). reflexivity.
Qed.
Lemma cov_some : forall X I k i m j n, shape_ok I -> in_range I k i m j n -> exists v, cov X I k i m j n = Some v.
Proof. intros. rewrite cov_entry by assumption. apply entry_some; [assumption|]. apply in_points. assumption. Qed.

(** ** Symmetries of the pieces *)
Lemma sgn_opp : forall a, sgn (- a) = sgn a.
Proof. intros a. unfold sgn, csign. rewrite Z.abs_opp. reflexivity. Qed.
Lemma sgn_swap : forall l1 l2, sgn (Z.quot (l2 - l1) 2) = sgn (Z.quot (l1 - l2) 2).
Proof.
  intros l1 l2. replace (l2 - l1)%Z with (- (l1 - l2))%Z by lia. rewrite Z.quot_opp_l by lia. apply sgn_opp.
Qed.
Lemma coupling_swap : forall n m a b, coupling n m a b = coupling m n a b.
Proof. intros. unfold coupling. apply Qeq_eqR. apply legendre_swap_nm. Qed.
Lemma coupling_swap_ab : forall n m a b, coupling n m a b = coupling n m b a.
Proof. intros. unfold coupling. apply Qeq_eqR. apply legendre_swap_ab. Qed.
Lemma kr_swap : forall i j, kr i j = kr j i.
Proof. intros. unfold kr, kronecker. rewrite Z.eqb_sym. reflexivity. Qed.
Lemma kr_eq : forall i, kr i i = 1%R.
Proof. intros. unfold kr, kronecker. rewrite Z.eqb_refl. reflexivity. Qed.
Lemma kr_neq : forall i j, i <> j -> kr i j = 0%R.
Proof. intros i j H. unfold kr, kronecker. apply Z.eqb_neq in H. rewrite H. reflexivity. Qed.
Lemma coefficient_swap : forall b1 b2 f l, coefficient b1 b2 f l = coefficient b2 b1 f l.
Proof.
  intros b1 b2 f l. unfold coefficient. destruct (l =? 0)%Z; [unfold Rdiv; ring|].
  destruct (l =? 2)%Z; [unfold Rdiv; ring|reflexivity].
Qed.
Lemma prefactor_swap : forall l1 l2, prefactor l1 l2 = prefactor l2 l1.
Proof. intros. unfold prefactor. f_equal. ring. Qed.
Lemma integral_swap : forall X p r1 r2 delta l1 l2 k1 k2,
  cov_integral X p r1 r2 delta l1 l2 k1 k2 = cov_integral X p r2 r1 delta l2 l1 k1 k2.
Proof.
  intros. unfold cov_integral. do 4 f_equal. extensionality k. ring.
Qed.
Lemma up_swap : forall X I t z i j m n, (ci_fftlog I = true -> fft_symmetric X) ->
  up X I t z i j m n = up X I t z j i n m.
Proof.
  intros X I t z i j m n F. unfold up.
  destruct (nth_error (ci_ells I) i) as [l1|], (nth_error (ci_ells I) j) as [l2|]; try reflexivity;
  destruct (nth_error (ci_sep I) m) as [r1|], (nth_error (ci_sep I) n) as [r2|]; try reflexivity.
  destruct (spectrum_of X I z) as [[[[p p2] kmin] kmax]|]; [|reflexivity].
  rewrite (prefactor_swap l2 l1).
  destruct (ci_fftlog I).
  - rewrite (F eq_refl 1%nat l2 l1), (F eq_refl 2%nat l2 l1). reflexivity.
  - destruct (integral_delta I z) as [delta|]; [|reflexivity].
    destruct (if t then ci_mixed I else ci_cosmic I); [|reflexivity].
    rewrite (integral_swap X p r2 r1), (integral_swap X p2 r2 r1). reflexivity.
Qed.
Lemma full_up : forall X I t z i j m n, (ci_fftlog I = true -> fft_symmetric X) ->
  full X I t z i j m n = if on I t then up X I t z i j m n else None.
Proof.
  intros X I t z i j m n F. unfold full. destruct (on I t); [|reflexivity].
  destruct (i <=? j); [reflexivity|]. apply up_swap. exact F.
Qed.
Lemma cosmic_sum_swap : forall I z l1 l2, cosmic_sum I z l1 l2 = cosmic_sum I z l2 l1.
Proof.
  intros I z l1 l2. unfold cosmic_sum. cbv zeta. f_equal. cbn [list_prod even_orders map app fold_left].
  rewrite !(coupling_swap l1 l2). reflexivity.
Qed.
Lemma mixed_sum_swap : forall I b l1 l2, mixed_sum I b l1 l2 = mixed_sum I b l2 l1.
Proof.
  intros I b l1 l2. unfold mixed_sum. cbv zeta. f_equal. cbn [even_orders fold_left].
  rewrite !(coupling_swap l1 l2). reflexivity.
Qed.
Lemma poisson_swap : forall I b k m n l1 l2, poisson_part I b k m n l1 l2 = poisson_part I b k n m l2 l1.
Proof.
  intros I b k m n l1 l2. unfold poisson_part. destruct (ci_poisson I); [|reflexivity].
  destruct (nth_error (ci_pix I) k) as [pix|]; [|reflexivity].
  destruct (Nat.eq_dec m n) as [->|N].
  - destruct (nth_error (ci_sep I) n) as [r|]; [|reflexivity].
    destruct (Z.eq_dec l1 l2) as [->|L]; [reflexivity|].
    rewrite (kr_neq l1 l2 L), (kr_neq l2 l1 (not_eq_sym L)). f_equal. unfold Rdiv. ring.
  - destruct (nth_error (ci_sep I) m), (nth_error (ci_sep I) n); try reflexivity.
    rewrite (kr_neq (Z.of_nat m) (Z.of_nat n)), (kr_neq (Z.of_nat n) (Z.of_nat m)) by lia. f_equal. unfold Rdiv. ring.
Qed.

(** ** C23 *)
(** Bins, separations, multipoles, densities, biases, populations and flags are arbitrary;
    the quadrature and the Bessel functions too. *)
Theorem C23_symmetric_partial : forall X I k i m j n,
  shape_ok I -> in_range I k i m j n -> (ci_fftlog I = true -> fft_symmetric X) ->
  exists v, cov X I k i m j n = Some v /\ cov X I k j n i m = Some v.
Proof.
  intros X I k i m j n S H F.
  assert (H' : in_range I k j n i m) by (unfold in_range in *; tauto).
  rewrite !cov_entry by assumption.
  destruct (entry_some X I k i m j n S (proj2 (in_points I k i m j n) H)) as [v E]. exists v. split; [exact E|].
  rewrite <- E. unfold entry_at. destruct (bin_of X I k) as [b|]; [|reflexivity].
  destruct (nth_error (ci_ells I) i) as [l1|], (nth_error (ci_ells I) j) as [l2|]; try reflexivity.
  rewrite (poisson_swap I b k n m l2 l1). destruct (poisson_part I b k m n l1 l2) as [p|]; [|reflexivity].
  unfold mixed_entry, cosmic_entry. rewrite !full_up by exact F.
  rewrite (up_swap X I true _ j i n m), (up_swap X I false _ j i n m) by exact F.
  assert (M : forall v, mixed_of I b l2 l1 v = mixed_of I b l1 l2 v).
  { intros w. unfold mixed_of. rewrite (sgn_swap l2 l1), (mixed_sum_swap I b l2 l1), (Z.add_comm l2 l1). reflexivity. }
  assert (C : forall v, cosmic_of I b l2 l1 v = cosmic_of I b l1 l2 v).
  { intros w. unfold cosmic_of. rewrite (sgn_swap l2 l1), (cosmic_sum_swap I _ l2 l1). reflexivity. }
  destruct (ci_mixed I); [destruct (if on I true then _ else _) as [w|]; [rewrite M|reflexivity]|];
  (destruct (ci_cosmic I); [destruct (if on I false then _ else _) as [u|]; [rewrite C|reflexivity]|]; reflexivity).
Qed.
Print Assumptions C23_symmetric_partial.

(** ** C26: every combination once, with its own coordinates *)
Theorem C26_coordinates : forall X I, shape_ok I ->
  exists out, covariance_init X I = Done out
    /\ List.length out = redshifts I * List.length (ci_ells I) * List.length (ci_sep I)
                         * List.length (ci_ells I) * List.length (ci_sep I)
    (* every combination has a place, with its coordinates and a value *)
    /\ (forall k i m j n, in_range I k i m j n -> exists p z1 z2 l1 l2 r1 r2 v,
          nth_error out p = Some (Some {| cc_z1 := z1; cc_z2 := z2; cc_l1 := l1; cc_l2 := l2; cc_r1 := r1; cc_r2 := r2 |}, Some v)
          /\ nth_error (if ci_avg I then ci_zmin I else ci_zmean I) k = Some z1
          /\ nth_error (if ci_avg I then ci_zmax I else ci_zmean I) k = Some z2
          /\ nth_error (ci_ells I) i = Some l1 /\ nth_error (ci_ells I) j = Some l2
          /\ nth_error (ci_sep I) m = Some r1 /\ nth_error (ci_sep I) n = Some r2
          /\ p = position (List.length (ci_ells I)) (List.length (ci_sep I)) k i m j n)
    (* and every place belongs to one combination *)
    /\ (forall p, p < List.length out -> exists k i m j n, in_range I k i m j n
          /\ p = position (List.length (ci_ells I)) (List.length (ci_sep I)) k i m j n)
    /\ (forall k i m j n k' i' m' j' n', in_range I k i m j n -> in_range I k' i' m' j' n' ->
          position (List.length (ci_ells I)) (List.length (ci_sep I)) k i m j n
          = position (List.length (ci_ells I)) (List.length (ci_sep I)) k' i' m' j' n' ->
          (k, i, m, j, n) = (k', i', m', j', n')).
Proof.
  intros X I S. exists (map (cell_at X I) (points I)). split; [apply run_ok; exact S|].
  split; [rewrite map_length, points_length; unfold cov_size; lia|].
  set (nl := List.length (ci_ells I)). set (ns := List.length (ci_sep I)).
  split; [|split].
  - intros k i m j n H. pose proof (proj2 (in_points I k i m j n) H) as P.
    destruct (coord_some I k i m j n S P) as [c Ec]. destruct (entry_some X I k i m j n S P) as [v Ev].
    unfold coord_of in Ec.
    destruct (nth_error (if ci_avg I then ci_zmin I else ci_zmean I) k) as [z1|] eqn:Z1; [|discriminate].
    destruct (nth_error (if ci_avg I then ci_zmax I else ci_zmean I) k) as [z2|] eqn:Z2; [|discriminate].
    destruct (nth_error (ci_ells I) i) as [l1|] eqn:L1; [|discriminate].
    destruct (nth_error (ci_ells I) j) as [l2|] eqn:L2; [|discriminate].
    destruct (nth_error (ci_sep I) m) as [r1|] eqn:R1; [|discriminate].
    destruct (nth_error (ci_sep I) n) as [r2|] eqn:R2; [|discriminate].
    exists (position nl ns k i m j n), z1, z2, l1, l2, r1, r2, v. split; [|repeat split; assumption].
    rewrite nth_error_map, nth_points by exact P. cbn [option_map cell_at]. unfold coord_of.
    rewrite Z1, Z2, L1, L2, R1, R2, Ev. reflexivity.
  - intros p Hp. rewrite map_length, points_length in Hp. unfold cov_size in Hp. fold nl ns in Hp.
    assert (Hnl : nl <> 0) by nia. assert (Hns : ns <> 0) by nia.
    set (n := p mod ns). set (p1 := p / ns). set (j := p1 mod nl). set (p2 := p1 / nl).
    set (m := p2 mod ns). set (p3 := p2 / ns). set (i := p3 mod nl). set (k := p3 / nl).
    assert (E0 : p = ns * p1 + n) by (apply Nat.div_mod; exact Hns).
    assert (E1 : p1 = nl * p2 + j) by (apply Nat.div_mod; exact Hnl).
    assert (E2 : p2 = ns * p3 + m) by (apply Nat.div_mod; exact Hns).
    assert (E3 : p3 = nl * k + i) by (apply Nat.div_mod; exact Hnl).
    assert (B0 : n < ns) by (apply Nat.mod_upper_bound; exact Hns).
    assert (B1 : j < nl) by (apply Nat.mod_upper_bound; exact Hnl).
    assert (B2 : m < ns) by (apply Nat.mod_upper_bound; exact Hns).
    assert (B3 : i < nl) by (apply Nat.mod_upper_bound; exact Hnl).
    clearbody n p1 j p2 m p3 i k.
    exists k, i, m, j, n. split.
    + unfold in_range. fold nl ns. repeat split; try assumption.
      destruct (Nat.lt_ge_cases k (redshifts I)) as [L|L]; [exact L|exfalso].
      assert (nl * redshifts I <= p3) by nia. assert (ns * (nl * redshifts I) <= p2) by nia.
      assert (nl * (ns * (nl * redshifts I)) <= p1) by nia.
      assert (ns * (nl * (ns * (nl * redshifts I))) <= p) by nia. nia.
    + unfold position. subst p p1 p2 p3. ring.
  - intros k i m j n k' i' m' j' n' (_ & Hi & Hm & Hj & Hn) (_ & Hi' & Hm' & Hj' & Hn') E. unfold position in E.
    fold nl in Hi, Hi', Hj, Hj'. fold ns in Hm, Hm', Hn, Hn'.
    apply pair_inj in E; [|assumption|assumption]. destruct E as [E ->].
    apply pair_inj in E; [|assumption|assumption]. destruct E as [E ->].
    apply pair_inj in E; [|assumption|assumption]. destruct E as [E ->].
    apply pair_inj in E; [|assumption|assumption]. destruct E as [-> ->]. reflexivity.
Qed.
Print Assumptions C26_coordinates.

(** ** C25: the parts *)
Definition with_parts (I : cov_in) (poisson mixed cosmic : bool) : cov_in :=
  {| ci_avg := ci_avg I; ci_ells := ci_ells I; ci_sep := ci_sep I; ci_zmean := ci_zmean I; ci_deltaz := ci_deltaz I;
     ci_zmin := ci_zmin I; ci_zmax := ci_zmax I; ci_fsky := ci_fsky I; ci_n1 := ci_n1 I; ci_n2 := ci_n2 I; ci_pix := ci_pix I;
     ci_cosmic := cosmic; ci_mixed := mixed; ci_poisson := poisson; ci_window := ci_window I;
     ci_nonlinear := ci_nonlinear I; ci_class := ci_class I; ci_fftlog := ci_fftlog I; ci_bins := ci_bins I;
     ci_den := ci_den I; ci_rsd := ci_rsd I; ci_pop1 := ci_pop1 I; ci_pop2 := ci_pop2 I; ci_pop3 := ci_pop3 I; ci_pop4 := ci_pop4 I;
     ci_bias := ci_bias I; ci_growth := ci_growth I; ci_D1 := ci_D1 I; ci_chi := ci_chi I; ci_conf := ci_conf I; ci_h := ci_h I |}.
Lemma shape_parts : forall I p m c, shape_ok I -> shape_ok (with_parts I p m c).
Proof. intros I p m c [H1 H2 H3 H4 H5 H6 H7 H8 H9]. constructor; assumption. Qed.

(** The part a run with only one of the flags yields. *)
Definition poisson_only (I : cov_in) := with_parts I true false false.
Definition mixed_only (I : cov_in) := with_parts I false true false.
Definition cosmic_only (I : cov_in) := with_parts I false false true.

Theorem C25_parts : forall X I k i m j n, shape_ok I -> in_range I k i m j n ->
  exists p x c,
    cov X (poisson_only I) k i m j n = Some p
    /\ cov X (mixed_only I) k i m j n = Some x
    /\ cov X (cosmic_only I) k i m j n = Some c
    /\ (forall a b d : bool, cov X (with_parts I a b d) k i m j n
          = Some ((if a then p else 0) + (if b then x else 0) + (if d then c else 0))%R)
    (* Poisson noise only for equal multipoles and the same separation *)
    /\ (i < List.length (ci_ells I) -> (nth_error (ci_ells I) i <> nth_error (ci_ells I) j \/ m <> n) -> p = 0%R).
Proof.
  intros X I k i m j n S H.
  assert (P : forall a b d, exists v, cov X (with_parts I a b d) k i m j n = Some v
            /\ entry_at X (with_parts I a b d) k i m j n = Some v).
  { intros a b d. rewrite cov_entry by (try apply shape_parts; assumption).
    destruct (entry_some X (with_parts I a b d) k i m j n (shape_parts I a b d S) (proj2 (in_points _ k i m j n) H)) as [v E].
    exists v. split; exact E. }
  destruct (bin_some X I k S (proj1 H)) as [b Eb].
  pose proof H as (Hk & Hi & Hm & Hj & Hn).
  destruct (nth_error_lt _ _ _ Hi) as [l1 E1]. destruct (nth_error_lt _ _ _ Hj) as [l2 E2].
  destruct (poisson_some (poisson_only I) b k m n l1 l2 (shape_parts I _ _ _ S) Hk Hm Hn) as [p Ep].
  destruct (mixed_some X (mixed_only I) b k i m j n l1 l2 (shape_parts I _ _ _ S) (proj2 (in_points _ k i m j n) H)) as [x Ex].
  destruct (cosmic_some X (cosmic_only I) b k i m j n l1 l2 (shape_parts I _ _ _ S) (proj2 (in_points _ k i m j n) H)) as [c Ec].
  assert (G : forall a0 b0 d0, cov X (with_parts I a0 b0 d0) k i m j n
          = Some ((if a0 then p else 0) + (if b0 then x else 0) + (if d0 then c else 0))%R).
  { intros a0 b0 d0. rewrite cov_entry by (try apply shape_parts; assumption). unfold entry_at.
    change (bin_of X (with_parts I a0 b0 d0) k) with (bin_of X I k). rewrite Eb.
    cbn [with_parts ci_ells]. rewrite E1, E2.
    assert (A1 : poisson_part (with_parts I a0 b0 d0) b k m n l1 l2 = Some (if a0 then p else 0%R)).
    { destruct a0; [exact Ep|reflexivity]. }
    assert (A2 : mixed_entry X (with_parts I a0 b0 d0) b k i m j n l1 l2 = Some (if b0 then x else 0%R)).
    { destruct b0; [|reflexivity]. rewrite <- Ex. unfold mixed_entry. cbn [with_parts mixed_only ci_mixed].
      assert (Q : full X (with_parts I a0 true d0) true (zi (with_parts I a0 true d0) k) i j m n
                = full X (mixed_only I) true (zi (mixed_only I) k) i j m n) by reflexivity.
      rewrite Q. reflexivity. }
    assert (A3 : cosmic_entry X (with_parts I a0 b0 d0) b k i m j n l1 l2 = Some (if d0 then c else 0%R)).
    { destruct d0; [|reflexivity]. rewrite <- Ec. unfold cosmic_entry. cbn [with_parts cosmic_only ci_cosmic].
      assert (Q : full X (with_parts I a0 b0 true) false (zi (with_parts I a0 b0 true) k) i j m n
                = full X (cosmic_only I) false (zi (cosmic_only I) k) i j m n) by reflexivity.
      rewrite Q. reflexivity. }
    rewrite A1, A2, A3. reflexivity. }
  exists p, x, c. repeat split.
  - unfold poisson_only. rewrite G. f_equal. ring.
  - unfold mixed_only. rewrite G. f_equal. ring.
  - unfold cosmic_only. rewrite G. f_equal. ring.
  - exact G.
  - intros _ D. unfold poisson_part in Ep. cbn [poisson_only with_parts ci_poisson ci_pix ci_sep] in Ep.
    destruct (nth_error (ci_pix I) k); [|discriminate]. destruct (nth_error (ci_sep I) m); [|discriminate].
    destruct (nth_error (ci_sep I) n); [|discriminate]. injection Ep as <-.
    destruct D as [D|D].
    + rewrite (kr_neq l1 l2) by congruence. unfold Rdiv. ring.
    + rewrite (kr_neq (Z.of_nat m) (Z.of_nat n)) by lia. unfold Rdiv. ring.
Qed.
Print Assumptions C25_parts.

(** ** C24: exchanging the populations of the two data vectors *)
Definition with_pops (I : cov_in) (p1 p2 p3 p4 : Z) (n1 n2 : list R) : cov_in :=
  {| ci_avg := ci_avg I; ci_ells := ci_ells I; ci_sep := ci_sep I; ci_zmean := ci_zmean I; ci_deltaz := ci_deltaz I;
     ci_zmin := ci_zmin I; ci_zmax := ci_zmax I; ci_fsky := ci_fsky I; ci_n1 := n1; ci_n2 := n2; ci_pix := ci_pix I;
     ci_cosmic := ci_cosmic I; ci_mixed := ci_mixed I; ci_poisson := ci_poisson I; ci_window := ci_window I;
     ci_nonlinear := ci_nonlinear I; ci_class := ci_class I; ci_fftlog := ci_fftlog I; ci_bins := ci_bins I;
     ci_den := ci_den I; ci_rsd := ci_rsd I; ci_pop1 := p1; ci_pop2 := p2; ci_pop3 := p3; ci_pop4 := p4;
     ci_bias := ci_bias I; ci_growth := ci_growth I; ci_D1 := ci_D1 I; ci_chi := ci_chi I; ci_conf := ci_conf I; ci_h := ci_h I |}.

(** [density p] is the list of densities of population p: the densities given to the run are
    those of the populations numbered 1 and 2. *)
Theorem C24_populations_partial : forall X I (density : Z -> list R) p1 p2 p3 p4 k i m j n,
  let before := with_pops I p1 p2 p3 p4 (density p1) (density p2) in
  let after := with_pops I p3 p4 p1 p2 (density p3) (density p4) in
  shape_ok before -> shape_ok after -> in_range I k i m j n -> (ci_fftlog I = true -> fft_symmetric X) ->
  exists v, cov X before k i m j n = Some v /\ cov X after k j n i m = Some v.
Proof.
  intros X I density p1 p2 p3 p4 k i m j n before after S1 S2 H F.
  destruct (C23_symmetric_partial X after k i m j n S2 H F) as (v & V1 & V2). exists v. split; [|exact V2].
  rewrite <- V1. rewrite !cov_entry by assumption.
  unfold entry_at.
  destruct (bin_some X before k S1 (proj1 H)) as [b Eb]. destruct (bin_some X after k S2 (proj1 H)) as [b' Eb'].
  rewrite Eb, Eb'.
  assert (D1 : nth_error (density p1) k = Some (b_n1 b) /\ nth_error (density p2) k = Some (b_n2 b)
            /\ nth_error (density p3) k = Some (b_n1 b') /\ nth_error (density p4) k = Some (b_n2 b')
            /\ b_z b = b_z b' /\ b_volume b = b_volume b').
  { clear -Eb Eb'. unfold bin_of in Eb, Eb'. unfold before, after in *. cbn [with_pops ci_avg ci_n1 ci_n2 ci_fsky ci_zmin ci_zmax ci_zmean ci_deltaz ci_h] in *.
    destruct (nth_error (density p1) k) as [a1|]; [|discriminate]. destruct (nth_error (density p2) k) as [a2|]; [|discriminate].
    destruct (nth_error (density p3) k) as [a3|]; [|discriminate]. destruct (nth_error (density p4) k) as [a4|]; [|discriminate].
    destruct (nth_error (ci_fsky I) k); [|discriminate]. destruct (ci_avg I).
    - destruct (nth_error (ci_zmin I) k); [|discriminate]. destruct (nth_error (ci_zmax I) k); [|discriminate].
      injection Eb as <-. injection Eb' as <-. repeat split.
    - destruct (nth_error (ci_zmean I) k); [|discriminate]. destruct (nth_error (ci_deltaz I) k); [|discriminate].
      injection Eb as <-. injection Eb' as <-. repeat split. }
  destruct D1 as (A1 & A2 & A3 & A4 & Ez & Ev).
  change (ci_ells before) with (ci_ells I). change (ci_ells after) with (ci_ells I).
  destruct (nth_error (ci_ells I) i) as [l1|], (nth_error (ci_ells I) j) as [l2|]; try reflexivity.
  assert (E13 : p1 = p3 -> b_n1 b = b_n1 b') by (intros ->; congruence).
  assert (E14 : p1 = p4 -> b_n1 b = b_n2 b') by (intros ->; congruence).
  assert (E23 : p2 = p3 -> b_n2 b = b_n1 b') by (intros ->; congruence).
  assert (E24 : p2 = p4 -> b_n2 b = b_n2 b') by (intros ->; congruence).
  assert (K : forall p q a a', (p = q -> a = a') -> (kr p q / a = kr q p / a')%R).
  { intros p q a a' E. destruct (Z.eq_dec p q) as [->|N]; [rewrite (E eq_refl); reflexivity|].
    rewrite (kr_neq p q), (kr_neq q p) by congruence. unfold Rdiv. ring. }
  assert (Po : poisson_part before b k m n l1 l2 = poisson_part after b' k m n l1 l2).
  { unfold poisson_part. cbn [before after with_pops ci_poisson ci_pix ci_sep ci_pop1 ci_pop2 ci_pop3 ci_pop4 ci_window].
    destruct (ci_poisson I); [|reflexivity]. destruct (nth_error (ci_pix I) k) as [pix|]; [|reflexivity].
    destruct (nth_error (ci_sep I) m) as [rm|]; [|reflexivity]. destruct (nth_error (ci_sep I) n) as [rn|]; [|reflexivity].
    f_equal. rewrite <- Ev.
    set (G := IZR (2 * l1 + 1)). set (W := if ci_window I then _ else _).
    pose proof (K p1 p3 _ _ E13) as K13. pose proof (K p2 p4 _ _ E24) as K24.
    pose proof (K p1 p4 _ _ E14) as K14. pose proof (K p2 p3 _ _ E23) as K23.
    transitivity (G / 4 / PI * kr l1 l2 * kr (Z.of_nat m) (Z.of_nat n)
       * ((kr p1 p3 / b_n1 b) * (kr p2 p4 / b_n2 b) + sgn l2 * (kr p1 p4 / b_n1 b) * (kr p2 p3 / b_n2 b)) * W / b_volume b)%R;
      [unfold Rdiv; ring|]. rewrite K13, K24, K14, K23. unfold Rdiv. ring. }
  rewrite Po. destruct (poisson_part after b' k m n l1 l2) as [p|]; [|reflexivity].
  assert (Fu : forall t, full X before t (zi before k) i j m n = full X after t (zi after k) i j m n) by reflexivity.
  assert (Mx : forall v, mixed_of before b l1 l2 v = mixed_of after b' l1 l2 v).
  { intros w. unfold mixed_of. cbn [before after with_pops ci_nonlinear ci_D1]. rewrite Ez, Ev. do 2 f_equal.
    unfold mixed_sum. cbv zeta.
    cbn [before after with_pops ci_pop1 ci_pop2 ci_pop3 ci_pop4]. unfold coefficient_pair.
    change (bias_at before) with (bias_at I). change (bias_at after) with (bias_at I).
    change (growth_at before) with (growth_at I). change (growth_at after) with (growth_at I). rewrite Ez.
    pose proof (K p1 p3 _ _ E13) as K13. pose proof (K p2 p4 _ _ E24) as K24.
    pose proof (K p1 p4 _ _ E14) as K14. pose proof (K p2 p3 _ _ E23) as K23.
    f_equal. cbn [even_orders fold_left].
    set (B := bias_at I (b_z b')). set (f := growth_at I (b_z b')).
    assert (T : forall a, (coefficient (B p1) (B p3) f a * kr p2 p4 / b_n2 b + coefficient (B p2) (B p4) f a * kr p1 p3 / b_n1 b
                  + coefficient (B p1) (B p4) f a * kr p2 p3 / b_n2 b + coefficient (B p2) (B p3) f a * kr p1 p4 / b_n1 b
                = coefficient (B p3) (B p1) f a * kr p4 p2 / b_n2 b' + coefficient (B p4) (B p2) f a * kr p3 p1 / b_n1 b'
                  + coefficient (B p3) (B p2) f a * kr p4 p1 / b_n2 b' + coefficient (B p4) (B p1) f a * kr p3 p2 / b_n1 b')%R).
    { intros a. rewrite (coefficient_swap (B p3) (B p1)), (coefficient_swap (B p4) (B p2)), (coefficient_swap (B p3) (B p2)),
        (coefficient_swap (B p4) (B p1)).
      unfold Rdiv in *. rewrite !Rmult_assoc. rewrite K13, K24, K14, K23. ring. }
    rewrite !T. reflexivity. }
  assert (Cs : forall v, cosmic_of before b l1 l2 v = cosmic_of after b' l1 l2 v).
  { intros w. unfold cosmic_of. cbn [before after with_pops ci_nonlinear ci_D1]. rewrite Ez, Ev. do 2 f_equal.
    unfold cosmic_sum. cbv zeta. cbn [before after with_pops ci_pop1 ci_pop2 ci_pop3 ci_pop4]. unfold coefficient_pair.
    change (bias_at before) with (bias_at I). change (bias_at after) with (bias_at I).
    change (growth_at before) with (growth_at I). change (growth_at after) with (growth_at I).
    set (B := bias_at I (b_z b')). set (f := growth_at I (b_z b')).
    f_equal. cbn [list_prod even_orders map app fold_left].
    rewrite (coefficient_swap (B p3) (B p1)), (coefficient_swap (B p4) (B p2)), (coefficient_swap (B p3) (B p2)),
        (coefficient_swap (B p4) (B p1)).
    rewrite !(coefficient_swap (B p3) (B p1)), !(coefficient_swap (B p4) (B p2)), !(coefficient_swap (B p3) (B p2)),
        !(coefficient_swap (B p4) (B p1)).
    rewrite (coupling_swap_ab l1 l2 2 0), (coupling_swap_ab l1 l2 4 0), (coupling_swap_ab l1 l2 4 2).
    replace (sgn 0) with 1%R by reflexivity. replace (sgn 2) with 1%R by reflexivity. replace (sgn 4) with 1%R by reflexivity.
    ring. }
  unfold mixed_entry, cosmic_entry. rewrite !Fu.
  change (ci_mixed before) with (ci_mixed I). change (ci_mixed after) with (ci_mixed I).
  change (ci_cosmic before) with (ci_cosmic I). change (ci_cosmic after) with (ci_cosmic I).
  destruct (ci_mixed I); [destruct (full X after true _ i j m n) as [w|]; [rewrite Mx|reflexivity]|];
  (destruct (ci_cosmic I); [destruct (full X after false _ i j m n) as [u|]; [rewrite Cs|reflexivity]|]; reflexivity).
Qed.
Print Assumptions C24_populations_partial.

(** ** Helpers for failing runs *)
Lemma for_list_none : forall W S0 (l : list W) (f : W -> S0 -> option S0) w, In w l -> (forall s, f w s = None) ->
  forall s, for_list l f s = None.
Proof.
  induction l as [|x r IH]; intros f w Hw Hf s; [destruct Hw|]. cbn [for_list]. destruct Hw as [->|Hw].
  - rewrite Hf. reflexivity.
  - destruct (f x s); [|reflexivity]. apply (IH f w Hw Hf).
Qed.
Lemma value_pass_none : forall X I st k i m j n, k < List.length (ci_n1 I) ->
  i < List.length (ci_ells I) -> m < List.length (ci_sep I) -> j < List.length (ci_ells I) -> n < List.length (ci_sep I) ->
  cov_value X I (cov_dims I) st k i m j n = None -> value_pass X I st = None.
Proof.
  intros X I st k i m j n Hk Hi Hm Hj Hn E. unfold value_pass. cbv zeta.
  apply (for_list_none _ _ _ _ k); [apply in_upto; exact Hk|]. intros s. destruct (bin_of X I k); [|reflexivity].
  apply (for_list_none _ _ _ _ ((i, m), (j, n))).
  - unfold data_points. rewrite !in_prod_iff, !in_upto. cbn [d_l d_s cov_dims]. tauto.
  - intros s'. rewrite E. reflexivity.
Qed.
Lemma init_undefined : forall X I, (forall st, value_pass X I st = None) -> forall out, covariance_init X I <> Done out.
Proof.
  intros X I H out. unfold covariance_init. cbv zeta.
  destruct (ci_fftlog I && Nat.odd (ci_bins I) && _ && _); [discriminate|].
  destruct (all_integrals X I) as [st|]; [|discriminate]. rewrite H. discriminate.
Qed.

(** More densities than redshifts (the C program does not compare the lengths): the run
    reads past the redshifts. *)
Theorem C26_more_densities_refuted : forall X I,
  redshifts I < List.length (ci_n1 I) -> forall out, covariance_init X I <> Done out.
Proof.
  intros X I H. apply init_undefined. intros st. unfold value_pass. cbv zeta.
  apply (for_list_none _ _ _ _ (redshifts I)); [apply in_upto; exact H|]. intros s.
  assert (N : forall T (l : list T), List.length l <= redshifts I -> nth_error l (redshifts I) = None)
    by (intros; apply nth_error_None; assumption).
  unfold bin_of. destruct (nth_error (ci_n1 I) (redshifts I)); [|reflexivity].
  destruct (nth_error (ci_n2 I) (redshifts I)); [|reflexivity]. destruct (nth_error (ci_fsky I) (redshifts I)); [|reflexivity].
  unfold redshifts in *. destruct (ci_avg I); rewrite N; (reflexivity || apply le_n).
Qed.
Print Assumptions C26_more_densities_refuted.

(** Averaged covariance with a nonlinear spectrum: the integrals are made for the
    redshifts z_mean, but used for those of the bins z_min, z_max. *)
Theorem C26_average_nonlinear_refuted : forall X I,
  ci_avg I = true -> ci_nonlinear I = true -> (ci_mixed I = true \/ ci_cosmic I = true) ->
  List.length (ci_zmean I) < redshifts I -> List.length (ci_n1 I) = redshifts I ->
  ci_ells I <> [] -> ci_sep I <> [] ->
  forall out, covariance_init X I <> Done out.
Proof.
  intros X I A N P Hz Hn1 He Hs. apply init_undefined. intros st.
  assert (L1 : 0 < List.length (ci_ells I)) by (destruct (ci_ells I); [congruence|cbn; lia]).
  assert (L2 : 0 < List.length (ci_sep I)) by (destruct (ci_sep I); [congruence|cbn; lia]).
  apply (value_pass_none X I st (List.length (ci_zmean I)) 0 0 0 0); try assumption; [lia|].
  unfold cov_value. destruct (bin_of X I _) as [b|]; [|reflexivity].
  destruct (nth_error (ci_ells I) 0) as [l|]; [|reflexivity].
  destruct (poisson_part I b _ 0 0 l l); [|reflexivity].
  assert (Rn : forall mm ij nm, rd3 (cov_dims I) mm (if ci_nonlinear I then List.length (ci_zmean I) else 0) ij nm = None).
  { intros mm ij nm. rewrite N. unfold rd3, get3, inside. cbn [cov_dims d_z]. rewrite N.
    destruct (Nat.ltb_spec (List.length (ci_zmean I)) (List.length (ci_zmean I))); [lia|]. reflexivity. }
  unfold mixed_part, cosmic_part. rewrite !Rn. destruct P as [->| ->].
  - reflexivity.
  - destruct (ci_mixed I); reflexivity.
Qed.
Print Assumptions C26_average_nonlinear_refuted.

(** Fewer densities than redshifts: the last elements get coordinates but no value. *)
Theorem C26_no_densities_refuted : forall X I, shape_ok I ->
  exists out, covariance_init X (with_pops I (ci_pop1 I) (ci_pop2 I) (ci_pop3 I) (ci_pop4 I) [] []) = Done out
   /\ forall k i m j n, in_range I k i m j n -> exists c,
        nth_error out (position (List.length (ci_ells I)) (List.length (ci_sep I)) k i m j n) = Some (Some c, None).
Proof.
  intros X I S. set (I' := with_pops I _ _ _ _ [] []).
  assert (Rd : readable X I') by exact (shape_readable X I S).
  destruct (integrals_ok X I' Rd) as (st & E & _).
  assert (B : exists cs, coord_pass I' = Some cs /\ map Some cs
     = map (fun p : nat * ((nat * nat) * (nat * nat)) => let '(k, ((i, m), (j, n))) := p in coord_of I k i m j n) (points I)).
  { change (coord_pass I') with (coord_pass I). unfold coord_pass.
    destruct (append_loops _ ccoord (fun k (w : (nat * nat) * (nat * nat)) => let '((i, m), (j, n)) := w in coord_of I k i m j n)
        (fun k => true) (cov_size I)
        (data_points (List.length (ci_ells I)) (List.length (ci_sep I))) (upto (redshifts I)) []) as (vs & E1 & M).
    - intros k [[i m] [j n]] Hk Hw.
      assert (P : In (k, ((i, m), (j, n))) (points I)) by (apply in_prod; assumption).
      destruct (coord_some I k i m j n S P) as [v ->]. discriminate.
    - reflexivity.
    - rewrite <- points_length. unfold points. rewrite prod_length. cbn [List.length]. apply le_n.
    - exists vs. split.
      + rewrite app_nil_l in E1. rewrite <- E1. apply for_list_ext. intros k s _.
        apply for_list_ext. intros [[i m] [j n]] s' _. reflexivity.
      + rewrite M. apply map_ext. intros [k [[i m] [j n]]]. reflexivity. }
  destruct B as (cs & Ec & Mc).
  exists (assemble (cov_size I') cs []). split.
  - unfold covariance_init. cbv zeta.
    assert (Ev : ci_fftlog I' && Nat.odd (ci_bins I') = false).
    { change (ci_fftlog I && Nat.odd (ci_bins I) = false). destruct (ci_fftlog I) eqn:F; [|reflexivity]. cbn [andb].
      rewrite <- Nat.negb_even, (sh_bins I S F). reflexivity. }
    rewrite Ev. cbn [andb]. rewrite E.
    assert (V : value_pass X I' st = Some []) by reflexivity. rewrite V, Ec. reflexivity.
  - intros k i m j n H. pose proof (proj2 (in_points I k i m j n) H) as P.
    destruct (coord_some I k i m j n S P) as [c Hc]. exists c.
    set (p := position _ _ k i m j n).
    assert (Hp : p < cov_size I).
    { rewrite <- points_length. apply nth_error_Some. unfold p. rewrite nth_points by exact P. discriminate. }
    unfold assemble. rewrite nth_error_map, (nth_upto (cov_size I') p Hp). cbn [option_map].
    rewrite (map_some_nth _ _ _ p Mc), nth_error_map. unfold p. rewrite nth_points by exact P. cbn [option_map]. rewrite Hc.
    destruct (position _ _ k i m j n); reflexivity.
Qed.
Print Assumptions C26_no_densities_refuted.

(** ** C27: every bin is computed from its own inputs *)
Definition pick {T} (k : nat) (l : list T) : list T := firstn 1 (skipn k l).
Lemma pick_0 : forall T (l : list T) k, nth_error (pick k l) 0 = nth_error l k.
Proof. intros T l k. revert l. induction k as [|k IH]; intros [|x l]; try reflexivity. exact (IH l). Qed.
Lemma pick_length : forall T (l : list T) k, k < List.length l -> List.length (pick k l) = 1.
Proof. intros T l k H. unfold pick. rewrite firstn_length, skipn_length. lia. Qed.

(** A run for one redshift, two data points only. *)
Definition alone (I : cov_in) (k : nat) (l1 l2 : Z) (r1 r2 : R) : cov_in :=
  {| ci_avg := ci_avg I; ci_ells := [l1; l2]; ci_sep := [r1; r2];
     ci_zmean := pick k (ci_zmean I); ci_deltaz := pick k (ci_deltaz I);
     ci_zmin := pick k (ci_zmin I); ci_zmax := pick k (ci_zmax I); ci_fsky := pick k (ci_fsky I);
     ci_n1 := pick k (ci_n1 I); ci_n2 := pick k (ci_n2 I); ci_pix := pick k (ci_pix I);
     ci_cosmic := ci_cosmic I; ci_mixed := ci_mixed I; ci_poisson := ci_poisson I; ci_window := ci_window I;
     ci_nonlinear := ci_nonlinear I; ci_class := ci_class I; ci_fftlog := ci_fftlog I; ci_bins := ci_bins I;
     ci_den := ci_den I; ci_rsd := ci_rsd I; ci_pop1 := ci_pop1 I; ci_pop2 := ci_pop2 I; ci_pop3 := ci_pop3 I; ci_pop4 := ci_pop4 I;
     ci_bias := ci_bias I; ci_growth := ci_growth I; ci_D1 := ci_D1 I; ci_chi := ci_chi I; ci_conf := ci_conf I; ci_h := ci_h I |}.
Lemma alone_shape : forall I k l1 l2 r1 r2, shape_ok I -> k < redshifts I -> shape_ok (alone I k l1 l2 r1 r2).
Proof.
  intros I k l1 l2 r1 r2 S H.
  assert (R1 : redshifts (alone I k l1 l2 r1 r2) = 1).
  { unfold redshifts in *. cbn [alone ci_avg ci_zmin ci_zmean]. destruct (ci_avg I); apply pick_length; exact H. }
  constructor; rewrite ?R1; cbn [alone ci_n1 ci_n2 ci_fsky ci_pix ci_avg ci_zmax ci_deltaz ci_nonlinear ci_zmean ci_fftlog ci_bins].
  - apply pick_length. rewrite (sh_n1 I S). exact H.
  - apply pick_length. rewrite (sh_n2 I S). exact H.
  - apply pick_length. rewrite (sh_fsky I S). exact H.
  - apply pick_length. rewrite (sh_pix I S). exact H.
  - intros A. apply pick_length. rewrite (sh_zmax I S A). exact H.
  - intros A. apply pick_length. rewrite (sh_deltaz I S A). exact H.
  - intros A N. apply pick_length. rewrite (sh_avg I S A N). exact H.
  - lia.
  - exact (sh_bins I S).
Qed.

(** The value for a redshift and two data points is the one of a run that is given that
    redshift's inputs and those two data points only.  The hypothesis on the pixel sizes
    is what the program needs: see the refutation below. *)
Theorem C27_own_inputs_partial : forall X I k i m j n l1 l2 r1 r2,
  shape_ok I -> in_range I k i m j n -> (ci_fftlog I = true -> fft_symmetric X) ->
  (ci_window I = true -> ci_nonlinear I = false -> nth_error (ci_pix I) k = nth_error (ci_pix I) 0) ->
  nth_error (ci_ells I) i = Some l1 -> nth_error (ci_ells I) j = Some l2 ->
  nth_error (ci_sep I) m = Some r1 -> nth_error (ci_sep I) n = Some r2 ->
  exists v, cov X I k i m j n = Some v
         /\ cov X (alone I k l1 l2 r1 r2) 0 0 0 1 (if m =? n then 0 else 1) = Some v.
Proof.
  intros X I k i m j n l1 l2 r1 r2 S H F W E1 E2 E3 E4.
  destruct (cov_some X I k i m j n S H) as [v Hv]. exists v. split; [exact Hv|]. rewrite <- Hv.
  pose proof (alone_shape I k l1 l2 r1 r2 S (proj1 H)) as S'.
  set (J := alone I k l1 l2 r1 r2) in *. set (n' := if m =? n then 0 else 1).
  assert (En : nth_error (ci_sep J) n' = Some r2).
  { unfold n'. destruct (Nat.eqb_spec m n) as [->|N]; [|reflexivity]. cbn. congruence. }
  assert (RJ : redshifts J = 1).
  { destruct H as (Hk & _). unfold redshifts in *. unfold J. cbn [alone ci_avg ci_zmin ci_zmean]. destruct (ci_avg I); apply pick_length; exact Hk. }
  assert (H' : in_range J 0 0 0 1 n').
  { unfold in_range. rewrite RJ. unfold J, n'. cbn [alone ci_ells ci_sep List.length]. destruct (m =? n); lia. }
  rewrite !cov_entry by assumption. unfold entry_at.
  assert (Eb : bin_of X J 0 = bin_of X I k).
  { unfold bin_of, J. cbn [alone ci_n1 ci_n2 ci_fsky ci_avg ci_zmin ci_zmax ci_zmean ci_deltaz ci_h].
    rewrite !pick_0. reflexivity. }
  rewrite Eb. destruct (bin_of X I k) as [b|]; [|reflexivity].
  change (nth_error (ci_ells J) 0) with (Some l1). change (nth_error (ci_ells J) 1) with (Some l2). rewrite E1, E2.
  assert (Ep : poisson_part J b 0 0 n' l1 l2 = poisson_part I b k m n l1 l2).
  { unfold poisson_part. rewrite En. change (nth_error (ci_sep J) 0) with (Some r1).
    change (ci_poisson J) with (ci_poisson I). change (ci_pix J) with (pick k (ci_pix I)). rewrite pick_0, E3, E4.
    change (ci_window J) with (ci_window I). change (ci_pop1 J) with (ci_pop1 I). change (ci_pop2 J) with (ci_pop2 I).
    change (ci_pop3 J) with (ci_pop3 I). change (ci_pop4 J) with (ci_pop4 I).
    assert (Kr : kr (Z.of_nat 0) (Z.of_nat n') = kr (Z.of_nat m) (Z.of_nat n)).
    { unfold n'. destruct (Nat.eqb_spec m n) as [->|N]; [rewrite !kr_eq; reflexivity|]. rewrite !kr_neq by lia. reflexivity. }
    rewrite Kr. reflexivity. }
  rewrite Ep. destruct (poisson_part I b k m n l1 l2) as [p|]; [|reflexivity].
  assert (Es : spectrum_of X J (zi J 0) = spectrum_of X I (zi I k)).
  { unfold spectrum_of, zi. change (ci_class J) with (ci_class I). change (ci_nonlinear J) with (ci_nonlinear I).
    destruct (ci_class I && ci_nonlinear I) eqn:C; [|reflexivity]. apply andb_true_iff in C. destruct C as [_ ->].
    change (ci_zmean J) with (pick k (ci_zmean I)). rewrite pick_0. reflexivity. }
  assert (Ed : integral_delta J (zi J 0) = integral_delta I (zi I k)).
  { unfold integral_delta, zi. change (ci_window J) with (ci_window I). change (ci_nonlinear J) with (ci_nonlinear I).
    change (ci_pix J) with (pick k (ci_pix I)). destruct (ci_window I) eqn:Wi; [|reflexivity].
    destruct (ci_nonlinear I) eqn:Nl; rewrite pick_0; [reflexivity|]. apply W; reflexivity. }
  assert (Ef : forall t, full X J t (zi J 0) 0 1 0 n' = full X I t (zi I k) i j m n).
  { intros t. rewrite !full_up by exact F. change (on J t) with (on I t). destruct (on I t); [|reflexivity].
    unfold up. rewrite E1, E2, E3, E4, En, Es, Ed. reflexivity. }
  unfold mixed_entry, cosmic_entry. rewrite !Ef. reflexivity.
Qed.
Print Assumptions C27_own_inputs_partial.

(** With a linear spectrum and bins of finite width, the mixed and cosmic parts use the first
    pixel size for every redshift. *)
Definition with_pix (I : cov_in) (pix : list R) : cov_in :=
  {| ci_avg := ci_avg I; ci_ells := ci_ells I; ci_sep := ci_sep I; ci_zmean := ci_zmean I; ci_deltaz := ci_deltaz I;
     ci_zmin := ci_zmin I; ci_zmax := ci_zmax I; ci_fsky := ci_fsky I; ci_n1 := ci_n1 I; ci_n2 := ci_n2 I; ci_pix := pix;
     ci_cosmic := ci_cosmic I; ci_mixed := ci_mixed I; ci_poisson := ci_poisson I; ci_window := ci_window I;
     ci_nonlinear := ci_nonlinear I; ci_class := ci_class I; ci_fftlog := ci_fftlog I; ci_bins := ci_bins I;
     ci_den := ci_den I; ci_rsd := ci_rsd I; ci_pop1 := ci_pop1 I; ci_pop2 := ci_pop2 I; ci_pop3 := ci_pop3 I; ci_pop4 := ci_pop4 I;
     ci_bias := ci_bias I; ci_growth := ci_growth I; ci_D1 := ci_D1 I; ci_chi := ci_chi I; ci_conf := ci_conf I; ci_h := ci_h I |}.
Theorem C27_later_pixels_ignored_refuted : forall X I p rest rest',
  ci_nonlinear I = false -> ci_poisson I = false ->
  shape_ok (with_pix I (p :: rest)) -> List.length rest = List.length rest' ->
  covariance_init X (with_pix I (p :: rest)) = covariance_init X (with_pix I (p :: rest')).
Proof.
  intros X I p rest rest' N P S L. set (J := with_pix I (p :: rest)) in *. set (J' := with_pix I (p :: rest')).
  assert (S' : shape_ok J').
  { destruct S as [H1 H2 H3 H4 H5 H6 H7 H8 H9]. constructor; try assumption.
    cbn [J' with_pix ci_pix List.length]. rewrite <- L. exact H4. }
  rewrite !run_ok by assumption. f_equal. change (points J') with (points J). apply map_ext.
  intros [k [[i m] [j n]]]. cbn [cell_at]. f_equal. unfold entry_at. change (bin_of X J' k) with (bin_of X J k).
  destruct (bin_of X J k) as [b|]; [|reflexivity].
  change (ci_ells J') with (ci_ells J). destruct (nth_error (ci_ells J) i) as [l1|]; [|reflexivity].
  destruct (nth_error (ci_ells J) j) as [l2|]; [|reflexivity].
  assert (Ep : forall K, ci_poisson K = false -> poisson_part K b k m n l1 l2 = Some 0%R).
  { intros K HK. unfold poisson_part. rewrite HK. reflexivity. }
  rewrite (Ep J P), (Ep J' P).
  assert (Ef : forall t, full X J' t (zi J' k) i j m n = full X J t (zi J k) i j m n).
  { intros t. unfold zi. change (ci_nonlinear J') with (ci_nonlinear I). change (ci_nonlinear J) with (ci_nonlinear I). rewrite N.
    reflexivity. }
  unfold mixed_entry, cosmic_entry. rewrite !Ef. reflexivity.
Qed.
Print Assumptions C27_later_pixels_ignored_refuted.

(** ** C62: the spectrum at the redshift of the bin *)
(** The power spectrum at redshift z: CLASS's for a nonlinear type, else the linear one of
    today scaled by the growth factor. *)
Definition spectrum_at (X : cov_ext) (I : cov_in) (z : R) : R -> R :=
  if ci_nonlinear I then e_zpk X z else fun k => ((ci_D1 I z) ^ 2 * e_pk X k)%R.
Definition k_from (X : cov_ext) (I : cov_in) : R := if ci_nonlinear I then e_zkmin X else e_kmin X.
Definition k_to (X : cov_ext) (I : cov_in) : R := if ci_nonlinear I then e_zkmax X else e_kmax X.

Theorem C62_spectrum_of_bin_partial : forall X I k i m j n b l1 l2 r1 r2 pix,
  shape_ok I -> in_range I k i m j n ->
  ci_fftlog I = false -> (ci_nonlinear I = true -> ci_class I = true /\ ci_avg I = false) ->
  (* the splines through P^2 hold squares; the quadrature is homogeneous *)
  (forall q, e_pk2 X q = (e_pk X q ^ 2)%R) -> (forall z q, e_zpk2 X z q = (e_zpk X z q ^ 2)%R) ->
  (forall c f x y, e_quad X (fun q => (c * f q)%R) x y = (c * e_quad X f x y)%R) ->
  bin_of X I k = Some b ->
  nth_error (ci_ells I) i = Some l1 -> nth_error (ci_ells I) j = Some l2 ->
  nth_error (ci_sep I) m = Some r1 -> nth_error (ci_sep I) n = Some r2 ->
  (if ci_window I then nth_error (ci_pix I) (if ci_nonlinear I then k else 0) else Some 0%R) = Some pix ->
  let P := spectrum_at X I (b_z b) in
  let j1 q := windowed_bessel X l1 q r1 pix in
  let j2 q := windowed_bessel X l2 q r2 pix in
  let Q f := (IZR ((2 * l1 + 1) * (2 * l2 + 1)) * (2 / PI) * e_quad X (fun q => q ^ 2 * f q * j1 q * j2 q) (k_from X I) (k_to X I))%R in
  cov X (mixed_only I) k i m j n
    = Some (sgn (Z.quot (l2 - l1) 2) * sgn (l1 + l2) * (Q P / PI) * mixed_sum I b l1 l2 / b_volume b)%R
  /\ cov X (cosmic_only I) k i m j n
    = Some (sgn (Z.quot (l2 - l1) 2) * (Q (fun q => P q ^ 2) / (2 * PI)) * cosmic_sum I (b_z b) l1 l2 / b_volume b)%R.
Proof.
  intros X I k i m j n b l1 l2 r1 r2 pix S H F Nl P2 Z2 Hq Eb E1 E2 E3 E4 Ew P j1 j2 Q.
  assert (PI0 : PI <> 0%R) by apply PI_neq0.
  assert (Sp : spectrum_of X I (zi I k) = Some (if ci_nonlinear I then (e_zpk X (b_z b), e_zpk2 X (b_z b), e_zkmin X, e_zkmax X)
                                              else (e_pk X, e_pk2 X, e_kmin X, e_kmax X))).
  { unfold spectrum_of, zi. destruct (ci_nonlinear I) eqn:N; [|rewrite andb_false_r; reflexivity].
    destruct (Nl eq_refl) as [-> A]. cbn [andb].
    unfold bin_of in Eb. rewrite A in Eb. destruct (nth_error (ci_n1 I) k); [|discriminate]. destruct (nth_error (ci_n2 I) k); [|discriminate].
    destruct (nth_error (ci_fsky I) k); [|discriminate]. destruct (nth_error (ci_zmean I) k) as [z|]; [|discriminate].
    destruct (nth_error (ci_deltaz I) k); [|discriminate]. injection Eb as <-. reflexivity. }
  assert (Dl : integral_delta I (zi I k) = Some pix) by exact Ew.
  assert (G : forall t, full X (with_parts I false t (negb t)) t (zi I k) i j m n
     = Some (IZR ((2 * l1 + 1) * (2 * l2 + 1))
             * (2 * e_quad X (fun q => q * q * (if t then (if ci_nonlinear I then e_zpk X (b_z b) q else e_pk X q)
                                   else (if ci_nonlinear I then e_zpk2 X (b_z b) q else e_pk2 X q)) * j1 q * j2 q)
                   (k_from X I) (k_to X I) / PI) / (if t then 1 else 2) / PI)%R).
  { intros t. rewrite full_up by (cbn [with_parts ci_fftlog]; congruence). unfold on. cbn [with_parts ci_fftlog ci_mixed ci_cosmic]. rewrite F.
    replace (if t then t else negb t) with true by (destruct t; reflexivity).
    unfold up. cbn [with_parts ci_ells ci_sep ci_fftlog ci_mixed ci_cosmic]. rewrite E1, E2, E3, E4, F.
    change (spectrum_of X (with_parts I false t (negb t)) (zi I k)) with (spectrum_of X I (zi I k)). rewrite Sp.
    change (integral_delta (with_parts I false t (negb t)) (zi I k)) with (integral_delta I (zi I k)). rewrite Dl.
    unfold k_from, k_to, cov_integral, prefactor.
    destruct (ci_nonlinear I); destruct t; cbn [negb]; f_equal; unfold j1, j2; unfold Rdiv; rewrite ?Rinv_1, ?Rmult_1_r; reflexivity. }
  assert (C : forall t, cov X (with_parts I false t (negb t)) k i m j n
     = Some (if t then mixed_of I b l1 l2 match full X (with_parts I false t (negb t)) t (zi I k) i j m n with Some v => v | None => 0%R end
             else cosmic_of I b l1 l2 match full X (with_parts I false t (negb t)) t (zi I k) i j m n with Some v => v | None => 0%R end)).
  { intros t. rewrite cov_entry by (try apply shape_parts; assumption). unfold entry_at.
    change (bin_of X (with_parts I false t (negb t)) k) with (bin_of X I k). rewrite Eb.
    cbn [with_parts ci_ells]. rewrite E1, E2. unfold poisson_part. cbn [with_parts ci_poisson].
    unfold mixed_entry, cosmic_entry. cbn [with_parts ci_mixed ci_cosmic].
    change (zi (with_parts I false t (negb t)) k) with (zi I k).
    specialize (G t). destruct t; cbn [negb] in *; rewrite G; apply f_equal.
    - rewrite Rplus_0_l, Rplus_0_r. reflexivity.
    - rewrite !Rplus_0_l. reflexivity. }
  split.
  - unfold mixed_only. change (with_parts I false true false) with (with_parts I false true (negb true)). rewrite C, G. f_equal.
    unfold mixed_of, Q, P, spectrum_at. destruct (ci_nonlinear I) eqn:N.
    + assert (Eq : (fun q => (q * q * e_zpk X (b_z b) q * j1 q * j2 q)%R) = (fun q => (q ^ 2 * e_zpk X (b_z b) q * j1 q * j2 q)%R))
        by (extensionality q; ring).
      rewrite Eq. unfold Rdiv. rewrite Rinv_1. ring.
    + assert (Eq : (fun q => (q ^ 2 * (ci_D1 I (b_z b) ^ 2 * e_pk X q) * j1 q * j2 q)%R)
                 = (fun q => (ci_D1 I (b_z b) ^ 2 * (q * q * e_pk X q * j1 q * j2 q))%R))
        by (extensionality q; ring).
      rewrite Eq, Hq. unfold Rdiv. rewrite Rinv_1. ring.
  - unfold cosmic_only. change (with_parts I false false true) with (with_parts I false false (negb false)). rewrite C, G. f_equal.
    unfold cosmic_of, Q, P, spectrum_at. destruct (ci_nonlinear I) eqn:N.
    + assert (Eq : (fun q => (q * q * e_zpk2 X (b_z b) q * j1 q * j2 q)%R) = (fun q => (q ^ 2 * e_zpk X (b_z b) q ^ 2 * j1 q * j2 q)%R))
        by (extensionality q; rewrite Z2; ring).
      rewrite Eq. unfold Rdiv. rewrite Rinv_mult. ring.
    + assert (Eq : (fun q => (q ^ 2 * (ci_D1 I (b_z b) ^ 2 * e_pk X q) ^ 2 * j1 q * j2 q)%R)
                 = (fun q => (ci_D1 I (b_z b) ^ 4 * (q * q * e_pk2 X q * j1 q * j2 q))%R))
        by (extensionality q; rewrite P2; ring).
      rewrite Eq, Hq. unfold Rdiv. rewrite Rinv_mult. ring.
Qed.
Print Assumptions C62_spectrum_of_bin_partial.

(** Runs that do not look at the spectrum of the redshift, or at the growth factor. *)
Definition with_D1 (I : cov_in) (g : R -> R) : cov_in :=
  {| ci_avg := ci_avg I; ci_ells := ci_ells I; ci_sep := ci_sep I; ci_zmean := ci_zmean I; ci_deltaz := ci_deltaz I;
     ci_zmin := ci_zmin I; ci_zmax := ci_zmax I; ci_fsky := ci_fsky I; ci_n1 := ci_n1 I; ci_n2 := ci_n2 I; ci_pix := ci_pix I;
     ci_cosmic := ci_cosmic I; ci_mixed := ci_mixed I; ci_poisson := ci_poisson I; ci_window := ci_window I;
     ci_nonlinear := ci_nonlinear I; ci_class := ci_class I; ci_fftlog := ci_fftlog I; ci_bins := ci_bins I;
     ci_den := ci_den I; ci_rsd := ci_rsd I; ci_pop1 := ci_pop1 I; ci_pop2 := ci_pop2 I; ci_pop3 := ci_pop3 I; ci_pop4 := ci_pop4 I;
     ci_bias := ci_bias I; ci_growth := ci_growth I; ci_D1 := g; ci_chi := ci_chi I; ci_conf := ci_conf I; ci_h := ci_h I |}.
Definition with_class (X : cov_ext) (p p2 : R -> R -> R) : cov_ext :=
  {| e_quad := e_quad X; e_jl := e_jl X; e_Si := e_Si X; e_pk := e_pk X; e_pk2 := e_pk2 X; e_kmin := e_kmin X; e_kmax := e_kmax X;
     e_zpk := p; e_zpk2 := p2; e_zkmin := e_zkmin X; e_zkmax := e_zkmax X; e_fft := e_fft X |}.

Lemma shape_D1 : forall I g, shape_ok I -> shape_ok (with_D1 I g).
Proof. intros I g [H1 H2 H3 H4 H5 H6 H7 H8 H9]. constructor; assumption. Qed.

(** FFTlog with a nonlinear spectrum: neither the nonlinear spectrum nor the growth factor
    matters - only the transform of today's linear spectrum does. *)
Theorem C62_fftlog_nonlinear_refuted : forall X I p p2 g,
  shape_ok I -> ci_fftlog I = true -> ci_nonlinear I = true ->
  covariance_init (with_class X p p2) (with_D1 I g) = covariance_init X I.
Proof.
  intros X I p p2 g S F N. rewrite !run_ok by (try apply shape_D1; exact S). f_equal.
  change (points (with_D1 I g)) with (points I). apply map_ext_in. intros [k [[i m] [j n]]] H. apply in_points in H. cbn [cell_at].
  f_equal. unfold entry_at. change (bin_of (with_class X p p2) (with_D1 I g) k) with (bin_of X I k).
  destruct (bin_of X I k) as [b|]; [|reflexivity]. change (ci_ells (with_D1 I g)) with (ci_ells I).
  destruct (nth_error (ci_ells I) i) as [l1|]; [|reflexivity]. destruct (nth_error (ci_ells I) j) as [l2|]; [|reflexivity].
  change (poisson_part (with_D1 I g) b k m n l1 l2) with (poisson_part I b k m n l1 l2).
  destruct (poisson_part I b k m n l1 l2) as [po|]; [|reflexivity].
  assert (Eu : forall t z a c x y, up (with_class X p p2) (with_D1 I g) t z a c x y = up X I t z a c x y).
  { intros t z a c x y. unfold up, spectrum_of. cbn [with_D1 ci_ells ci_sep ci_class ci_nonlinear ci_zmean ci_fftlog]. rewrite F.
    destruct (nth_error (ci_ells I) a); [|reflexivity]. destruct (nth_error (ci_ells I) c); [|reflexivity].
    destruct (nth_error (ci_sep I) x); [|reflexivity]. destruct (nth_error (ci_sep I) y); [|reflexivity].
    destruct (ci_class I && ci_nonlinear I); [destruct (nth_error (ci_zmean I) z)|]; reflexivity. }
  assert (Ef : forall t, full (with_class X p p2) (with_D1 I g) t (zi (with_D1 I g) k) i j m n = full X I t (zi I k) i j m n).
  { intros t. unfold full. rewrite !Eu. reflexivity. }
  unfold mixed_entry, cosmic_entry. rewrite !Ef. unfold mixed_of, cosmic_of.
  cbn [with_D1 ci_nonlinear ci_D1 ci_mixed ci_cosmic]. rewrite N. reflexivity.
Qed.
Print Assumptions C62_fftlog_nonlinear_refuted.

(** A nonlinear type with a user's spectrum: that spectrum, not scaled to the redshift. *)
Theorem C62_user_spectrum_nonlinear_refuted : forall X I p p2 g,
  shape_ok I -> ci_class I = false -> ci_nonlinear I = true ->
  covariance_init (with_class X p p2) (with_D1 I g) = covariance_init X I.
Proof.
  intros X I p p2 g S F N. rewrite !run_ok by (try apply shape_D1; exact S). f_equal.
  change (points (with_D1 I g)) with (points I). apply map_ext_in. intros [k [[i m] [j n]]] H. apply in_points in H. cbn [cell_at].
  f_equal. unfold entry_at. change (bin_of (with_class X p p2) (with_D1 I g) k) with (bin_of X I k).
  destruct (bin_of X I k) as [b|]; [|reflexivity]. change (ci_ells (with_D1 I g)) with (ci_ells I).
  destruct (nth_error (ci_ells I) i) as [l1|]; [|reflexivity]. destruct (nth_error (ci_ells I) j) as [l2|]; [|reflexivity].
  change (poisson_part (with_D1 I g) b k m n l1 l2) with (poisson_part I b k m n l1 l2).
  destruct (poisson_part I b k m n l1 l2) as [po|]; [|reflexivity].
  assert (Eu : forall t z a c x y, up (with_class X p p2) (with_D1 I g) t z a c x y = up X I t z a c x y).
  { intros t z a c x y. unfold up, spectrum_of. cbn [with_D1 ci_ells ci_sep ci_class ci_nonlinear ci_zmean ci_fftlog]. rewrite F.
    reflexivity. }
  assert (Ef : forall t, full (with_class X p p2) (with_D1 I g) t (zi (with_D1 I g) k) i j m n = full X I t (zi I k) i j m n).
  { intros t. unfold full. rewrite !Eu. reflexivity. }
  unfold mixed_entry, cosmic_entry. rewrite !Ef. unfold mixed_of, cosmic_of.
  cbn [with_D1 ci_nonlinear ci_D1 ci_mixed ci_cosmic]. rewrite N. reflexivity.
Qed.
Print Assumptions C62_user_spectrum_nonlinear_refuted.

(** ** A concrete input *)
Definition ex_ext : cov_ext :=
  {| e_quad := fun f a b => ((b - a) * f ((a + b) / 2))%R; e_jl := fun _ x => (sin x / x)%R; e_Si := fun x => x;
     e_pk := fun _ => 1%R; e_pk2 := fun _ => 1%R; e_kmin := 0%R; e_kmax := 2%R;
     e_zpk := fun z _ => (1 + z)%R; e_zpk2 := fun z _ => ((1 + z) ^ 2)%R; e_zkmin := 0%R; e_zkmax := 2%R;
     e_fft := fun _ _ _ r1 r2 => (r1 * r2)%R |}.
Definition ex_in (n1 n2 : list R) (p1 p2 p3 p4 : Z) : cov_in :=
  {| ci_avg := false; ci_ells := [0; 2]%Z; ci_sep := [1; 2]%R; ci_zmean := [1; 2]%R; ci_deltaz := [1 / 2; 1 / 2]%R;
     ci_zmin := []; ci_zmax := []; ci_fsky := [1; 1]%R; ci_n1 := n1; ci_n2 := n2; ci_pix := [1; 1 / 2]%R;
     ci_cosmic := false; ci_mixed := true; ci_poisson := false; ci_window := false; ci_nonlinear := false; ci_class := true;
     ci_fftlog := false; ci_bins := 0; ci_den := true; ci_rsd := false; ci_pop1 := p1; ci_pop2 := p2; ci_pop3 := p3; ci_pop4 := p4;
     ci_bias := fun _ _ => 1%R; ci_growth := fun _ => 0%R; ci_D1 := fun _ => 1%R; ci_chi := fun z => z; ci_conf := fun _ => 1%R;
     ci_h := 1%R |}.
Lemma ex_shape : forall n1 n2 p1 p2 p3 p4, List.length n1 = 2 -> List.length n2 = 2 -> shape_ok (ex_in n1 n2 p1 p2 p3 p4).
Proof. intros n1 n2 p1 p2 p3 p4 H1 H2. constructor; cbn; try reflexivity; try assumption; try discriminate. Qed.
Example ex_hypotheses : shape_ok (ex_in [1; 1]%R [2; 2]%R 1 2 2 3) /\ in_range (ex_in [1; 1]%R [2; 2]%R 1 2 2 3) 1 0 1 1 0
  /\ fft_symmetric ex_ext /\ (forall q, e_pk2 ex_ext q = (e_pk ex_ext q ^ 2)%R)
  /\ (forall c f x y, e_quad ex_ext (fun q => (c * f q)%R) x y = (c * e_quad ex_ext f x y)%R).
Proof.
  split; [apply ex_shape; reflexivity|]. split; [cbn; unfold in_range; cbn; lia|].
  split; [intros p l1 l2 r1 r2; cbn; ring|]. split; [intros q; cbn; ring|]. intros c f x y. cbn. ring.
Qed.
(** The hypotheses of the refutations above: averaged and nonlinear, without z_mean for every bin. *)
Example ex_average : exists I, ci_avg I = true /\ ci_nonlinear I = true /\ ci_mixed I = true
  /\ List.length (ci_zmean I) < redshifts I /\ List.length (ci_n1 I) = redshifts I /\ ci_ells I <> [] /\ ci_sep I <> [].
Proof.
  exists {| ci_avg := true; ci_ells := [0; 2]%Z; ci_sep := [1; 2]%R; ci_zmean := [1]%R; ci_deltaz := [1 / 2; 1 / 2]%R;
     ci_zmin := [1; 2]%R; ci_zmax := [2; 3]%R; ci_fsky := [1; 1]%R; ci_n1 := [1; 1]%R; ci_n2 := [1; 1]%R; ci_pix := [1; 1 / 2]%R;
     ci_cosmic := false; ci_mixed := true; ci_poisson := false; ci_window := false; ci_nonlinear := true; ci_class := true;
     ci_fftlog := false; ci_bins := 0; ci_den := true; ci_rsd := false; ci_pop1 := 1; ci_pop2 := 1; ci_pop3 := 1; ci_pop4 := 1;
     ci_bias := fun _ _ => 1%R; ci_growth := fun _ => 0%R; ci_D1 := fun _ => 1%R; ci_chi := fun z => z; ci_conf := fun _ => 1%R;
     ci_h := 1%R |}.
  cbn. repeat split; try lia; discriminate.
Qed.

(** Exchanging the populations but not the densities: the mixed part is divided by the
    density of the wrong population. *)
Definition ex_factor : R := ((2 * (2 * (sin 1 / 1) ^ 2) / PI / PI) * (2 / 8) / (4 * PI * ((27 / 8 - 1 / 8) / 3)))%R.
Lemma ex_mixed : forall a1 a2 p1 p2 p3 p4, ex_factor <> 0%R /\
  cov ex_ext (ex_in [a1; a1] [a2; a2] p1 p2 p3 p4) 0 0 0 0 0
  = Some (ex_factor * (kr p2 p4 / a2 + kr p1 p3 / a1 + kr p2 p3 / a2 + kr p1 p4 / a1))%R.
Proof.
  intros a1 a2 p1 p2 p3 p4. set (I := ex_in [a1; a1] [a2; a2] p1 p2 p3 p4).
  assert (S : shape_ok I) by (apply ex_shape; reflexivity).
  assert (PI0 : PI <> 0%R) by apply PI_neq0.
  assert (S1 : sin 1 <> 0%R).
  { apply Rgt_not_eq. apply sin_gt_0; [lra|]. pose proof PI_RGT_0. pose proof PI2_1. lra. }
  unfold ex_factor. split.
  { apply Rmult_integral_contrapositive_currified; [|apply Rinv_neq_0_compat; lra].
    unfold Rdiv. repeat apply Rmult_integral_contrapositive_currified; try lra; try (apply Rinv_neq_0_compat; assumption);
      try assumption. }
  rewrite cov_entry; [|exact S|unfold in_range, I; cbn; lia].
  assert (C0 : coupling 0 0 0 0 = 2%R).
  { unfold coupling. replace (legendre_integral 0 0 0 0) with (2 # 1)%Q by (vm_compute; reflexivity). unfold Q2R. cbn. lra. }
  assert (C2 : coupling 0 0 2 0 = 0%R).
  { unfold coupling. replace (legendre_integral 0 0 2 0) with 0%Q by (vm_compute; reflexivity). unfold Q2R. cbn. lra. }
  assert (C4 : coupling 0 0 4 0 = 0%R).
  { unfold coupling. replace (legendre_integral 0 0 4 0) with 0%Q by (vm_compute; reflexivity). unfold Q2R. cbn. lra. }
  unfold entry_at, bin_of, poisson_part, mixed_entry, cosmic_entry, full, on, up, spectrum_of, integral_delta, zi, I.
  cbn [ex_in ci_n1 ci_n2 ci_fsky ci_avg ci_zmean ci_deltaz ci_ells ci_sep nth_error ci_poisson ci_mixed ci_cosmic ci_nonlinear ci_class
       ci_fftlog ci_window andb Nat.leb].
  f_equal. unfold mixed_of, mixed_sum, cov_integral, windowed_bessel, coefficient_pair, bias_at, growth_at, shell, prefactor.
  cbn [b_z b_volume b_n1 b_n2 ci_nonlinear ci_D1 ci_pop1 ci_pop2 ci_pop3 ci_pop4 ci_den ci_rsd ci_bias ci_growth ci_chi ci_h ex_in
       ex_ext e_quad e_jl e_pk e_kmin e_kmax even_orders fold_left].
  destruct (Req_EM_T 0 0) as [_|N]; [|congruence].
  rewrite C0, C2, C4. unfold coefficient. cbn [Z.eqb].
  replace (sgn (Z.quot (0 - 0) 2)) with 1%R by reflexivity. replace (sgn (0 + 0)) with 1%R by reflexivity.
  replace ((0 + 2) / 2)%R with 1%R by lra. replace (1 * 1)%R with 1%R by ring.
  replace (IZR ((2 * 0 + 1) * (2 * 0 + 1))) with 1%R by reflexivity.
  unfold Rdiv. rewrite ?Rinv_mult. 
  replace ((1 + 1 * / 2) ^ 3)%R with (27 * / 8)%R by lra. replace ((1 - 1 * / 2) ^ 3)%R with (1 * / 8)%R by lra.
  rewrite ?Rinv_1, ?Rmult_1_r. ring.
Qed.
Theorem C24_same_densities_refuted : exists X I p1 p2 p3 p4 n1 n2 v v',
  shape_ok (with_pops I p1 p2 p3 p4 n1 n2) /\ in_range I 0 0 0 0 0
  /\ cov X (with_pops I p1 p2 p3 p4 n1 n2) 0 0 0 0 0 = Some v
  /\ cov X (with_pops I p3 p4 p1 p2 n1 n2) 0 0 0 0 0 = Some v' /\ v <> v'.
Proof.
  destruct (ex_mixed 1 2 1 2 2 3) as (W0 & E). destruct (ex_mixed 1 2 2 3 1 2) as (_ & E').
  exists ex_ext, (ex_in [1; 1]%R [2; 2]%R 1 2 2 3), 1%Z, 2%Z, 2%Z, 3%Z, [1; 1]%R, [2; 2]%R.
  eexists. eexists. split; [apply ex_shape; reflexivity|]. split; [unfold in_range; cbn; lia|].
  split; [exact E|]. split; [exact E'|].
  rewrite (kr_neq 2 3), (kr_neq 1 2), (kr_neq 1 3), (kr_neq 3 2), (kr_neq 2 1), (kr_neq 3 1), kr_eq by lia.
  intros C. apply Rmult_eq_reg_l in C; [lra|exact W0].
Qed.
Print Assumptions C24_same_densities_refuted.

(** ** C28: Bessel functions averaged over a bin *)
(** Spherical Bessel functions: j_0 = sin x / x, j_1 = sin x / x^2 - cos x / x and
    j_(l+1) = (2 l + 1) / x j_l - j_(l-1). *)
Fixpoint sph_bessel_pair (l : nat) (x : R) : R * R :=
  match l with
  | O => (sin x / x, sin x / x ^ 2 - cos x / x)%R
  | S l' => let (a, b) := sph_bessel_pair l' x in (b, (2 * INR (S l') + 1) / x * b - a)%R
  end.
Definition sph_bessel (l : nat) (x : R) : R := fst (sph_bessel_pair l x).
Example sph_bessel_2 : forall x, x <> 0%R -> sph_bessel 2 x = ((3 / x ^ 2 - 1) * (sin x / x) - 3 * cos x / x ^ 2)%R.
Proof. intros x Hx. unfold sph_bessel. cbn [sph_bessel_pair fst]. cbn [INR]. field. exact Hx. Qed.

Lemma prim_derive : forall Si l x, (l <= 6)%nat -> (0 < x)%R ->
  (forall y, (0 < y)%R -> is_derive Si y (sin y / y)%R) ->
  is_derive (bessel_prim Si (Z.of_nat l)) x (x ^ 2 * sph_bessel l x)%R.
Proof.
  intros Si l x Hl Hx HS. specialize (HS x Hx).
  assert (Ex : ex_derive Si x) by (eexists; exact HS).
  assert (Dx : Derive Si x = (sin x / x)%R) by (apply is_derive_unique; exact HS).
  unfold sph_bessel.
  assert (Dx' : Derive (fun x0 : R => Si x0) x = (sin x / x)%R) by exact Dx.
  assert (X0 : x <> 0%R) by lra.
  destruct l as [|[|[|[|[|[|[|l]]]]]]]; [| | | | | | |lia];
    unfold bessel_prim; cbn [Z.of_nat Pos.of_succ_nat Pos.succ]; cbn [sph_bessel_pair fst INR]; auto_derive;
    try (repeat split; try exact Ex; try exact X0; repeat apply Rmult_integral_contrapositive_currified; try exact X0; lra).
  all: rewrite ?Dx'; field; exact X0.
Qed.
Lemma sph_bessel_continuous : forall l x, (0 < x)%R ->
  continuous (fun y => fst (sph_bessel_pair l y)) x /\ continuous (fun y => snd (sph_bessel_pair l y)) x.
Proof.
  intros l x Hx. assert (X0 : x <> 0%R) by lra.
  assert (D : ex_derive (fun y => fst (sph_bessel_pair l y)) x /\ ex_derive (fun y => snd (sph_bessel_pair l y)) x).
  { induction l as [|l [I1 I2]].
    - cbn [sph_bessel_pair fst snd]. split; auto_derive; repeat split; try exact X0; repeat apply Rmult_integral_contrapositive_currified; try exact X0; lra.
    - assert (Ea : forall y, fst (sph_bessel_pair (S l) y) = snd (sph_bessel_pair l y)).
      { intros y. cbn [sph_bessel_pair]. destruct (sph_bessel_pair l y). reflexivity. }
      assert (Eb : forall y, snd (sph_bessel_pair (S l) y)
                = ((2 * INR (S l) + 1) / y * snd (sph_bessel_pair l y) - fst (sph_bessel_pair l y))%R).
      { intros y. cbn [sph_bessel_pair]. destruct (sph_bessel_pair l y). reflexivity. }
      split.
      + apply (ex_derive_ext (fun y => snd (sph_bessel_pair l y))); [intros y; symmetry; apply Ea|exact I2].
      + apply (ex_derive_ext (fun y => ((2 * INR (S l) + 1) / y * snd (sph_bessel_pair l y) - fst (sph_bessel_pair l y))%R));
          [intros y; symmetry; apply Eb|].
        apply (ex_derive_minus (fun y => ((2 * INR (S l) + 1) / y * snd (sph_bessel_pair l y))%R)); [|exact I1].
        apply (ex_derive_mult (fun y => ((2 * INR (S l) + 1) / y)%R)); [|exact I2].
        auto_derive. exact X0. }
  destruct D as [D1 D2]. split; apply (ex_derive_continuous (V := R_NormedModule)); assumption.
Qed.
Lemma weighted_continuous : forall l k r, (0 < k)%R -> (0 < r)%R -> continuous (fun r => (r ^ 2 * sph_bessel l (k * r))%R) r.
Proof.
  intros l k r Hk Hr. apply (continuous_mult (fun r : R => (r ^ 2)%R)).
  - apply (ex_derive_continuous (V := R_NormedModule)). auto_derive. exact I.
  - apply (continuous_comp (fun r : R => (k * r)%R) (sph_bessel l)).
    + apply (ex_derive_continuous (V := R_NormedModule)). auto_derive. exact I.
    + apply sph_bessel_continuous. apply Rmult_lt_0_compat; assumption.
Qed.
Lemma shell_integral : forall a b, is_RInt (fun r => (r ^ 2)%R) a b (shell a b).
Proof.
  intros a b. evar_last.
  - apply (is_RInt_derive (fun r : R => (r ^ 3 / 3)%R) (fun r : R => (r ^ 2)%R)).
    + intros x _. auto_derive; [exact I|field].
    + intros x _. apply (ex_derive_continuous (V := R_NormedModule)). auto_derive. exact I.
  - assert (E : (b ^ 3 / 3 - a ^ 3 / 3 = (b ^ 3 - a ^ 3) / 3 :> R)%R) by field. exact E.
Qed.

(** The mean of j_l(k r) over the shell of width [delta] around [s], weighted by volume. *)
Definition shell_mean (l : nat) (k s delta : R) : R :=
  (RInt (fun r => r ^ 2 * sph_bessel l (k * r)) (s - delta / 2) (s + delta / 2)
   / RInt (fun r => r ^ 2) (s - delta / 2) (s + delta / 2))%R.

Theorem C28_binned_partial : forall X l k s delta,
  (l <= 6)%nat -> (0 < k)%R -> (0 < delta)%R -> (delta / 2 < s)%R ->
  (* the sine integral *)
  (forall y, (0 < y)%R -> is_derive (e_Si X) y (sin y / y)%R) ->
  windowed_bessel X (Z.of_nat l) k s delta = shell_mean l k s delta.
Proof.
  intros X l k s delta Hl Hk Hd Hs HS. unfold windowed_bessel, shell_mean.
  destruct (Req_EM_T delta 0) as [C|_]; [lra|].
  rewrite (is_RInt_unique _ _ _ _ (shell_integral _ _)).
  assert (Pr : is_RInt (fun r => (r ^ 2 * sph_bessel l (k * r))%R) (s - delta / 2) (s + delta / 2)
      (bessel_prim_k (e_Si X) (Z.of_nat l) k (s + delta / 2) - bessel_prim_k (e_Si X) (Z.of_nat l) k (s - delta / 2))%R).
  { apply (is_RInt_derive (bessel_prim_k (e_Si X) (Z.of_nat l) k) (fun r => (r ^ 2 * sph_bessel l (k * r))%R)).
    - intros r Hr. rewrite Rmin_left, Rmax_right in Hr by lra.
      assert (R0 : (0 < r)%R) by lra.
      pose proof (prim_derive (e_Si X) l (k * r) Hl (Rmult_lt_0_compat _ _ Hk R0) HS) as D.
      unfold bessel_prim_k.
      apply (is_derive_ext (fun r => (/ k ^ 3 * bessel_prim (e_Si X) (Z.of_nat l) (k * r))%R)); [intros t; unfold Rdiv; apply Rmult_comm|].
      evar_last.
      + apply is_derive_scal. apply (is_derive_comp (bessel_prim (e_Si X) (Z.of_nat l)) (fun r => (k * r)%R)).
        * exact D.
        * apply (is_derive_scal (fun r : R => r)). apply is_derive_id.
      + assert (E : (/ k ^ 3 * (k * 1 * ((k * r) ^ 2 * sph_bessel l (k * r))) = r ^ 2 * sph_bessel l (k * r) :> R)%R)
          by (field; lra). exact E.
    - intros r Hr. rewrite Rmin_left, Rmax_right in Hr by lra. apply weighted_continuous; lra. }
  rewrite (is_RInt_unique _ _ _ _ Pr). unfold Rdiv. ring.
Qed.
Print Assumptions C28_binned_partial.
Theorem C28_unbinned : forall X l k s, windowed_bessel X l k s 0 = e_jl X l (s * k).
Proof. intros. unfold windowed_bessel. destruct (Req_EM_T 0 0) as [_|N]; [reflexivity|congruence]. Qed.

(** For orders 7 to 10, which the parameter l accepts, the binned function is zero. *)
Lemma windowed_zero : forall X l k s delta, (7 <= l)%Z -> delta <> 0%R -> windowed_bessel X l k s delta = 0%R.
Proof.
  intros X l k s delta Hl Hd. unfold windowed_bessel. destruct (Req_EM_T delta 0) as [C|_]; [congruence|].
  assert (Z0 : forall x, bessel_prim (e_Si X) l x = 0%R).
  { intros x. unfold bessel_prim. destruct l as [|p|p]; try lia.
    destruct p as [[[p|p|]|[p|p|]|]|[[p|p|]|[p|p|]|]|]; try reflexivity; lia. }
  unfold bessel_prim_k. rewrite !Z0. unfold Rdiv. ring.
Qed.
Lemma bessel7_pos : exists x, (0 < x)%R /\ (0 < sph_bessel 7 x)%R.
Proof.
  set (x := (0 + 2 * INR 10 * PI)%R).
  assert (Sx : sin x = 0%R) by (unfold x; rewrite sin_period; apply sin_0).
  assert (Cx : cos x = 1%R) by (unfold x; rewrite cos_period; apply cos_0).
  assert (Bx : (60 < x)%R).
  { unfold x. pose proof PI2_3_2. cbn [INR]. lra. }
  clearbody x. exists x. split; [lra|].
  unfold sph_bessel. cbn [sph_bessel_pair fst]. rewrite Sx, Cx. cbn [INR].
  set (y := (/ x)%R).
  assert (Y : (0 < y < / 60)%R).
  { unfold y. split; [apply Rinv_0_lt_compat; lra|]. apply Rinv_lt_contravar; nra. }
  match goal with |- (0 < ?e)%R => replace e with (y * (1 - 378 * y ^ 2 + 17325 * y ^ 4 - 135135 * y ^ 6))%R end.
  2:{ unfold y. field. lra. }
  apply Rmult_lt_0_compat; [apply Y|].
  assert (Y2 : (0 < y ^ 2 < / 3600)%R) by (split; nra).
  set (u := (y ^ 2)%R) in *.
  replace (y ^ 4)%R with (u * u)%R by (unfold u; ring). replace (y ^ 6)%R with (u * u * u)%R by (unfold u; ring).
  clearbody u. nra.
Qed.
Theorem C28_order_7_refuted : exists l k s delta, (l <= 10)%nat /\ (0 < k)%R /\ (0 < delta)%R /\ (delta / 2 < s)%R
  /\ forall X, windowed_bessel X (Z.of_nat l) k s delta <> shell_mean l k s delta.
Proof.
  destruct bessel7_pos as (s & S0 & B).
  pose proof (weighted_continuous 7 1 s Rlt_0_1 S0) as C.
  assert (F0 : (0 < s ^ 2 * sph_bessel 7 (1 * s))%R).
  { rewrite Rmult_1_l. apply Rmult_lt_0_compat; [nra|exact B]. }
  destruct (C (fun v => (0 < v)%R)) as [eps He].
  { exists (mkposreal _ F0). intros v Hv. unfold ball in Hv. cbn in Hv. unfold AbsRing_ball, abs, minus, plus, opp in Hv. cbn in Hv.
    apply Rabs_def2 in Hv. lra. }
  set (d := (Rmin eps s / 2)%R).
  assert (D0 : (0 < d)%R) by (unfold d; pose proof (Rmin_glb_lt eps s 0 (cond_pos eps) S0); lra).
  assert (D1 : (d < eps)%R) by (unfold d; pose proof (Rmin_l eps s); pose proof (Rmin_glb_lt eps s 0 (cond_pos eps) S0); lra).
  assert (D2 : (d / 2 < s)%R) by (unfold d; pose proof (Rmin_r eps s); pose proof (Rmin_glb_lt eps s 0 (cond_pos eps) S0); lra).
  exists 7%nat, 1%R, s, d. split; [lia|]. split; [lra|]. split; [exact D0|]. split; [exact D2|].
  intros X. rewrite windowed_zero by (lia || lra). unfold shell_mean.
  assert (P1 : (0 < RInt (fun r => r ^ 2 * sph_bessel 7 (1 * r)) (s - d / 2) (s + d / 2))%R).
  { apply RInt_gt_0; [lra| |].
    - intros x Hx. apply He. unfold ball. cbn. unfold AbsRing_ball, abs, minus, plus, opp. cbn. apply Rabs_def1; lra.
    - intros x Hx. apply weighted_continuous; lra. }
  assert (P2 : (0 < RInt (fun r => r ^ 2) (s - d / 2) (s + d / 2))%R).
  { rewrite (is_RInt_unique _ _ _ _ (shell_integral _ _)). unfold shell.
    assert ((s - d / 2) ^ 3 < (s + d / 2) ^ 3)%R; [|lra]. apply Rminus_lt_0.
    replace ((s + d / 2) ^ 3 - (s - d / 2) ^ 3)%R with (3 * (s ^ 2 * d) + d ^ 3 / 4)%R by field.
    pose proof (Rmult_lt_0_compat _ _ (pow_lt s 2 S0) D0). pose proof (pow_lt d 3 D0). lra. }
  apply Rlt_not_eq. apply Rdiv_lt_0_compat; assumption.
Qed.
Print Assumptions C28_order_7_refuted.
