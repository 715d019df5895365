(** * C36: the drivers stay inside the arrays they are given

    The signal drivers and the covariance module read several of the caller's lists
    with one index.  A run that would leave a list ends in [Undefined]; the theorems
    say for which accepted configurations that cannot happen, and the refutations
    give accepted configurations for which it does. *)
From Coq Require Import ZArith Reals Bool List String Arith Lia Floats.SpecFloat.
From Coquelicot Require Import Coquelicot.
From Coq Require Import List.
From Verif Require Import Arrays Sched Drivers Props_Drivers PyParams PyState Numeric F64 Coupling Covariance CovLemmas Props_Cov Props_Numeric
  Parser ParserLemmas Props_Parser Bounds.
Import ListNotations.
Open Scope string_scope.
Open Scope list_scope.
Open Scope Z_scope.

(** ** The signal drivers *)
Section Signals.
Context {V : Type}.
Variables (x0 : f64) (mid : f64 -> f64 -> f64) (add : V -> V -> V)
  (integrate : f64 -> f64 -> f64 -> f64 -> f64 -> Z -> itype -> otype -> V).

(** The correlation function and its multipoles, for every content of the lists
    (whose product fits in memory): every run ends with an array. *)
Theorem C36_correlation : forall (W : world) s r, parser_init W = Done s ->
  (32 * Z.of_nat (List.length (floats_of s "z_mean") * List.length (floats_of s "mu") * List.length (floats_of s "sep")) < 2 ^ 64)%Z ->
  corrfunc_init x0 add integrate (floats_of s "z_mean") (floats_of s "mu") (floats_of s "sep") r -> r <> Drivers.Undefined.
Proof. intros W s r _ Fit H. apply C14_corrfunc in H; [|exact Fit]. rewrite H. discriminate. Qed.
Theorem C36_multipoles : forall (W : world) s r, parser_init W = Done s ->
  (32 * Z.of_nat (List.length (floats_of s "z_mean") * List.length (ints_of s "multipole_values") * List.length (floats_of s "sep")) < 2 ^ 64)%Z ->
  multipoles_init x0 add integrate (floats_of s "z_mean") (ints_of s "multipole_values") (floats_of s "sep") r -> r <> Drivers.Undefined.
Proof. intros W s r _ Fit H. apply C14_multipoles in H; [|exact Fit]. rewrite H. discriminate. Qed.

(** The averaged multipoles need a z_max for every z_min, which nothing checks. *)
Theorem C36_average_partial : forall (W : world) s r, parser_init W = Done s ->
  (List.length (floats_of s "zmin") <= List.length (floats_of s "zmax"))%nat ->
  (40 * Z.of_nat (List.length (floats_of s "zmin") * List.length (ints_of s "multipole_values") * List.length (floats_of s "sep")) < 2 ^ 64)%Z ->
  average_init x0 mid add integrate (floats_of s "zmin") (floats_of s "zmax") (ints_of s "multipole_values") (floats_of s "sep") r ->
  r <> Drivers.Undefined.
Proof. intros W s r _ L Fit H. apply C14_average_multipoles in H; [|exact L|exact Fit]. rewrite H. discriminate. Qed.

Definition three_bins : world :=
  with_settings [("output_type", GInt 3); ("separations_sampling", GInt 1); ("multipoles", GList [whole 0]);
                 ("z_min", GList [num 1 2; num 1 1]); ("z_max", GList [num 6 10])].
Theorem C36_average_refuted : exists s, parser_init three_bins = Done s /\ s "output_type" = VI 3
  /\ forall r, average_init x0 mid add integrate (floats_of s "zmin") (floats_of s "zmax") (ints_of s "multipole_values") (floats_of s "sep") r ->
       r = Drivers.Undefined.
Proof.
  assert (E : match parser_init three_bins with
              | Done s => Some (s "output_type", floats_of s "zmin", floats_of s "zmax", ints_of s "multipole_values", floats_of s "sep")
              | _ => None end = Some (VI 3, [lit 1 2; of_Z 1], [lit 6 10], [0], [of_Z 10])) by (vm_compute; reflexivity).
  destruct (parser_init three_bins) as [s| |]; try discriminate. exists s. split; [reflexivity|].
  injection E as E1 E2 E3 E4 E5. split; [exact E1|]. intros r. rewrite E2, E3, E4, E5. apply C14_average_multipoles_refuted.
Qed.
End Signals.
Print Assumptions C36_correlation.
Print Assumptions C36_multipoles.
Print Assumptions C36_average_partial.
Print Assumptions C36_average_refuted.

(** ** The redshift up to which the divergent integral is tabulated *)
Lemma sums_some : forall n i zs dzs, (i + n <= List.length zs)%nat ->
  (i + n <= List.length dzs)%nat -> exists l, sums i n zs dzs = Some l /\ List.length l = n
   /\ forall k z dz, (i <= k < i + n)%nat -> nth_error zs k = Some z -> nth_error dzs k = Some dz -> In (fadd z dz) l.
Proof.
  induction n as [|n IH]; intros i zs dzs Hz Hd.
  - exists []. split; [reflexivity|]. split; [reflexivity|]. intros; lia.
  - cbn [sums]. destruct (nth_error zs i) as [z|] eqn:Ez; [|apply nth_error_None in Ez; lia].
    destruct (nth_error dzs i) as [dz|] eqn:Ed; [|apply nth_error_None in Ed; lia].
    destruct (IH (S i) zs dzs) as (l & E & L & A); [lia|lia|]. rewrite E. eexists. split; [reflexivity|].
    split; [cbn [List.length]; lia|]. intros k z' dz' Hk Hz' Hd'. destruct (Nat.eq_dec k i) as [->|N].
    + left. congruence.
    + right. apply (A k); [lia|assumption|assumption].
Qed.
Lemma sums_none : forall n i zs dzs, (i <= List.length dzs < i + n)%nat -> sums i n zs dzs = None.
Proof.
  induction n as [|n IH]; intros i zs dzs H; [lia|]. cbn [sums]. destruct (nth_error zs i) as [z|]; [|reflexivity].
  destruct (nth_error dzs i) as [dz|] eqn:Ed; [|reflexivity].
  assert (i < List.length dzs)%nat by (apply nth_error_Some; congruence). rewrite IH by lia. reflexivity.
Qed.
Theorem C36_distance : forall t zs dzs zmax, t = 1 \/ t = 2 ->
  ((List.length zs <= List.length dzs)%nat <-> farthest t zs dzs zmax <> None).
Proof.
  intros t zs dzs zmax T. unfold farthest.
  assert (Q : ((t =? 1) || (t =? 2))%bool = true) by (destruct T as [->| ->]; reflexivity). rewrite Q. split; intros H.
  - destruct (sums_some (List.length zs) 0 zs dzs) as (l & E & _); [lia|lia|]. rewrite E. discriminate.
  - destruct (Nat.le_gt_cases (List.length zs) (List.length dzs)) as [L|L]; [exact L|].
    exfalso. apply H. rewrite sums_none by lia. reflexivity.
Qed.
Print Assumptions C36_distance.

(** Where it is computed it is the largest upper end of a bin: the table reaches every bin. *)
Lemma fltb_irr : forall x, fltb x x = false.
Proof.
  intros x. unfold fltb, SpecFloat.SFltb. destruct (is_nan x) eqn:N.
  - destruct x; try discriminate. reflexivity.
  - rewrite SFcompare_refl by exact N. reflexivity.
Qed.
Lemma max_fold : forall r x, let M := fold_left (fun c y => if fltb c y then y else c) r x in
  (M = x \/ fltb x M = true) /\ (forall y, In y r -> fltb M y = false) /\ In M (x :: r).
Proof.
  induction r as [|y r IH]; intros x; cbn [fold_left]; cbv zeta.
  - split; [left; reflexivity|]. split; [intros y []|left; reflexivity].
  - destruct (fltb x y) eqn:X.
    + destruct (IH y) as (A & B & C). cbv zeta in A, B, C. split; [|split].
      * right. destruct A as [->|A]; [exact X|exact (fltb_trans _ _ _ X A)].
      * intros z [<-|I]; [|exact (B z I)]. destruct A as [->|A]; [apply fltb_irr|].
        match goal with |- ?b = false => destruct b eqn:Q; [|reflexivity] end. pose proof (fltb_trans _ _ _ A Q) as Z. rewrite fltb_irr in Z. discriminate.
      * right. exact C.
    + destruct (IH x) as (A & B & C). cbv zeta in A, B, C. split; [exact A|]. split.
      * intros z [<-|I]; [|exact (B z I)]. destruct A as [->|A]; [exact X|].
        match goal with |- ?b = false => destruct b eqn:Q; [|reflexivity] end. rewrite (fltb_trans _ _ _ A Q) in X. discriminate.
      * destruct C as [C|C]; [left; exact C|right; right; exact C].
Qed.
Lemma max_array_max : forall l, l <> [] -> In (max_array l) l /\ forall y, In y l -> fltb (max_array l) y = false.
Proof.
  intros [|x r] H; [elim H; reflexivity|]. unfold max_array. destruct (max_fold r x) as (A & B & C). cbv zeta in A, B, C.
  split; [exact C|]. intros y [<-|I]; [|exact (B y I)]. destruct A as [->|A]; [apply fltb_irr|].
  match goal with |- ?b = false => destruct b eqn:Q; [|reflexivity] end. pose proof (fltb_trans _ _ _ A Q) as Z. rewrite fltb_irr in Z. discriminate.
Qed.
Theorem C36_farthest : forall t zs dzs zmax z, farthest t zs dzs zmax = Some (Some z) ->
  (t = 1 \/ t = 2 -> zs <> [] ->
     (exists k a b, nth_error zs k = Some a /\ nth_error dzs k = Some b /\ z = fadd a b)
     /\ forall k a b, nth_error zs k = Some a -> nth_error dzs k = Some b -> fltb z (fadd a b) = false)
  /\ (t = 3 -> zmax <> [] -> In z zmax /\ forall x, In x zmax -> fltb z x = false).
Proof.
  intros t zs dzs zmax z H. unfold farthest in H. split.
  - intros T NE. replace ((t =? 1) || (t =? 2))%bool with true in H by (destruct T as [->| ->]; reflexivity).
    destruct (sums 0 (List.length zs) zs dzs) as [l|] eqn:Sm; [|discriminate]. injection H as H.
    assert (G : forall n i l, sums i n zs dzs = Some l ->
       (forall x, In x l -> exists k a b, (i <= k)%nat /\ nth_error zs k = Some a /\ nth_error dzs k = Some b /\ x = fadd a b)
       /\ (forall k a b, (i <= k < i + n)%nat -> nth_error zs k = Some a -> nth_error dzs k = Some b -> In (fadd a b) l)
       /\ List.length l = n).
    { induction n as [|n IH]; intros i r Q; cbn [sums] in Q.
      - injection Q as <-. split; [intros x []|]. split; [intros; lia|reflexivity].
      - destruct (nth_error zs i) as [a|] eqn:Ea; [|discriminate]. destruct (nth_error dzs i) as [b|] eqn:Eb; [|discriminate].
        destruct (sums (S i) n zs dzs) as [r'|] eqn:R; [|discriminate]. injection Q as <-.
        destruct (IH (S i) r' R) as (A & B & C). split; [|split].
        + intros x [<-|I]; [exists i, a, b; repeat split; (lia || assumption)|].
          destruct (A x I) as (k & a' & b' & Hk & Q). exists k, a', b'. split; [lia|exact Q].
        + intros k a' b' Hk Qa Qb. destruct (Nat.eq_dec k i) as [->|Nk]; [left; congruence|right; apply (B k); [lia|assumption|assumption]].
        + cbn [List.length]. lia. }
    destruct (G _ _ _ Sm) as (A & B & C).
    assert (NL : l <> []) by (destruct l; [destruct zs; [elim NE; reflexivity|discriminate]|discriminate]).
    destruct (max_array_max l NL) as [M1 M2]. rewrite H in M1, M2. split.
    + destruct (A z M1) as (k & a & b & _ & Q). exists k, a, b. exact Q.
    + intros k a b Qa Qb. apply M2, (B k); [|exact Qa|exact Qb].
      split; [lia|]. apply nth_error_Some. congruence.
  - intros -> NE. cbn [Z.eqb Pos.eqb orb] in H. injection H as <-. exact (max_array_max zmax NE).
Qed.
Print Assumptions C36_farthest.
Example C36_farthest_met : farthest 2 [of_Z 1; of_Z 3; of_Z 2] [of_Z 1; of_Z 1; of_Z 1] [] = Some (Some (of_Z 4)).
Proof. vm_compute. reflexivity. Qed.

(** For the covariance types the integral is not tabulated with the user's lists, for
    type 3 the maximum of one list is taken; for types 1 and 2 the widths of the bins
    are never read from the settings: with two redshifts and the default single width
    the program reads past it. *)
Theorem C36_distance_refuted : exists s, parser_init (with_settings
    [("separations_sampling", GInt 4); ("correlation_contributions", GList [word "g4"])]) = Done s
  /\ s "output_type" = VI 2 /\ s "divergent" = VI 1
  /\ farthest (int_of s "output_type") (floats_of s "z_mean") (floats_of s "deltaz") (floats_of s "zmax") = None.
Proof.
  set (W := with_settings _).
  assert (E : match parser_init W with
              | Done s => Some (s "output_type", s "divergent",
                  farthest (int_of s "output_type") (floats_of s "z_mean") (floats_of s "deltaz") (floats_of s "zmax"))
              | _ => None end = Some (VI 2, VI 1, None)) by (vm_compute; reflexivity).
  destruct (parser_init W) as [s| |]; try discriminate. exists s. injection E as E1 E2 E3. repeat split; assumption.
Qed.
Print Assumptions C36_distance_refuted.

(** ** The covariance *)
Open Scope nat_scope.
Definition with_bins (I : cov_in) (n : nat) : cov_in :=
  {| ci_avg := ci_avg I; ci_ells := ci_ells I; ci_sep := ci_sep I; ci_zmean := ci_zmean I; ci_deltaz := ci_deltaz I;
     ci_zmin := ci_zmin I; ci_zmax := ci_zmax I; ci_fsky := ci_fsky I; ci_n1 := ci_n1 I; ci_n2 := ci_n2 I; ci_pix := ci_pix I;
     ci_cosmic := ci_cosmic I; ci_mixed := ci_mixed I; ci_poisson := ci_poisson I; ci_window := ci_window I;
     ci_nonlinear := ci_nonlinear I; ci_class := ci_class I; ci_fftlog := ci_fftlog I; ci_bins := n;
     ci_den := ci_den I; ci_rsd := ci_rsd I; ci_pop1 := ci_pop1 I; ci_pop2 := ci_pop2 I; ci_pop3 := ci_pop3 I; ci_pop4 := ci_pop4 I;
     ci_bias := ci_bias I; ci_growth := ci_growth I; ci_D1 := ci_D1 I; ci_chi := ci_chi I; ci_conf := ci_conf I; ci_h := ci_h I |}.
Lemma safe : forall X I, (forall I', I' = with_bins I 2 -> shape_ok I') -> covariance_init X I <> Numeric.Undefined.
Proof.
  intros X I S. specialize (S _ eq_refl). destruct (C26_coordinates X _ S) as (out & E & _).
  unfold covariance_init in E |- *. cbv zeta in E |- *. cbn [with_bins ci_fftlog ci_bins Nat.odd] in E.
  destruct (ci_fftlog I && Nat.odd (ci_bins I) && _ && _); [discriminate|].
  rewrite andb_false_r in E. cbn [andb] in E.
  assert (Q : all_integrals X (with_bins I 2) = all_integrals X I).
  { unfold all_integrals. cbn [with_bins ci_fftlog]. destruct (ci_fftlog I); reflexivity. }
  rewrite Q in E.
  destruct (all_integrals X I) as [st|]; [|discriminate].
  change (value_pass X (with_bins I 2) st) with (value_pass X I st) in E.
  change (coord_pass (with_bins I 2)) with (coord_pass I) in E.
  destruct (value_pass X I st); [|discriminate]. destruct (coord_pass I); [|discriminate]. discriminate.
Qed.
(** No redshift at all: nothing is read, unless a bin width is needed for the integrals. *)
Lemma safe_empty : forall X I, redshifts I = 0 -> List.length (ci_n1 I) = 0 -> ci_avg I = false -> ci_window I = false ->
  covariance_init X I <> Numeric.Undefined.
Proof.
  intros X I Z0 N A Wi. unfold covariance_init. cbv zeta. destruct (ci_fftlog I && Nat.odd (ci_bins I) && _ && _); [discriminate|].
  assert (Rd : readable X I).
  { intros z Hz. split.
    - unfold spectrum_of. destruct (ci_class I && ci_nonlinear I) eqn:C; [|discriminate]. apply andb_true_iff in C. destruct C as [_ C].
      unfold cov_dims in Hz. cbn [d_z] in Hz. rewrite C in Hz. unfold redshifts in Z0. rewrite A in Z0. lia.
    - intros _. unfold integral_delta. rewrite Wi. discriminate. }
  destruct (integrals_ok X I Rd) as (st & E & _). rewrite E.
  assert (V : value_pass X I st = Some []) by (unfold value_pass; cbv zeta; rewrite N; reflexivity).
  assert (Q : coord_pass I = Some []) by (unfold coord_pass; rewrite Z0; reflexivity).
  rewrite V, Q. discriminate.
Qed.

Lemma type_4 : forall W s, parser_init W = Done s -> c_int (w_conf W) "output_type" = Some 4%Z ->
  int_of s "output_type" = 4%Z /\ exists n, forall f, In f ["density1"; "density2"; "z_mean"; "deltaz"; "fsky"; "pixelsize"] ->
     List.length (floats_of s f) = n.
Proof.
  intros W s H T. split.
  - unfold int_of. rewrite (stored_type W s 4%Z H T). reflexivity.
  - destruct (C38_lengths W s 4%Z H T) as [L _]. destruct (L eq_refl) as (n & A). exists n. intros f F.
    destruct (A f F) as (l & E & Len). unfold floats_of. rewrite E. exact Len.
Qed.
(** Every accepted settings file for the covariance of the multipoles, whatever the
    lengths of its lists, the method of integration, the spectrum: the run ends, or the
    program stops with a message. *)
Theorem C36_covariance_partial : forall W s X val J, parser_init W = Done s ->
  c_int (w_conf W) "output_type" = Some 4%Z ->
  (* at least one redshift, or no binning in separation *)
  floats_of s "z_mean" <> [] \/ int_of s "covariance_window" = 0%Z ->
  covariance_init X (covariance_input val J s) <> Numeric.Undefined.
Proof.
  intros W s X val J H T NE. destruct (type_4 W s H T) as (O & n & L).
  destruct (floats_of s "z_mean") as [|z zs] eqn:Z0.
  - destruct NE as [NE|NE]; [congruence|]. apply safe_empty.
    + unfold redshifts. cbn [covariance_input ci_avg ci_zmean]. rewrite O, Z0. reflexivity.
    + cbn [covariance_input ci_n1]. rewrite map_length, (L "density1") by (cbn; tauto).
      rewrite <- (L "z_mean") by (cbn; tauto). rewrite Z0. reflexivity.
    + cbn [covariance_input ci_avg]. rewrite O. reflexivity.
    + cbn [covariance_input ci_window]. rewrite NE. reflexivity.
  - apply safe. intros I' ->.
    assert (Rn : redshifts (with_bins (covariance_input val J s) 2) = n).
    { unfold redshifts. cbn [with_bins covariance_input ci_avg ci_zmean]. rewrite O. cbn [Z.eqb Pos.eqb].
      rewrite map_length. apply L. cbn; tauto. }
    constructor; rewrite ?Rn; cbn [with_bins covariance_input ci_n1 ci_n2 ci_fsky ci_pix ci_avg ci_zmax ci_deltaz ci_nonlinear ci_zmean ci_fftlog ci_bins];
      try (rewrite map_length; apply L; cbn; tauto); try (rewrite O; discriminate).
    + intros _. rewrite map_length. apply L. cbn; tauto.
    + rewrite <- (L "z_mean") by (cbn; tauto). rewrite Z0. discriminate.
    + reflexivity.
Qed.
Print Assumptions C36_covariance_partial.

(** The averaged covariance is safe when there is a pixel size for every bin (not
    checked) and, for a nonlinear spectrum, a z_mean for every bin (not read). *)
Theorem C36_average_covariance_partial : forall W s X val J, parser_init W = Done s ->
  c_int (w_conf W) "output_type" = Some 5%Z ->
  floats_of s "zmin" <> [] ->
  List.length (floats_of s "pixelsize") = List.length (floats_of s "zmin") ->
  int_of s "pk_type" = 0%Z \/ List.length (floats_of s "z_mean") = List.length (floats_of s "zmin") ->
  covariance_init X (covariance_input val J s) <> Numeric.Undefined.
Proof.
  intros W s X val J H T NE P N.
  assert (O : int_of s "output_type" = 5%Z) by (unfold int_of; rewrite (stored_type W s 5%Z H T); reflexivity).
  destruct (C38_lengths W s 5%Z H T) as (_ & L0 & _). destruct (L0 eq_refl) as (n & A).
  assert (L : forall f, In f ["density1"; "density2"; "zmin"; "zmax"; "fsky"] -> List.length (floats_of s f) = n).
  { intros f F. destruct (A f F) as (l & E & Len). unfold floats_of. rewrite E. exact Len. }
  apply safe. intros I' ->.
  assert (Rn : redshifts (with_bins (covariance_input val J s) 2) = n).
  { unfold redshifts. cbn [with_bins covariance_input ci_avg ci_zmin]. rewrite O. cbn [Z.eqb Pos.eqb].
    rewrite map_length. apply L. cbn; tauto. }
  constructor; rewrite ?Rn; cbn [with_bins covariance_input ci_n1 ci_n2 ci_fsky ci_pix ci_avg ci_zmax ci_deltaz ci_nonlinear ci_zmean ci_fftlog ci_bins];
    try (rewrite map_length; apply L; cbn; tauto); try (rewrite O; discriminate).
  - rewrite map_length, P. apply L. cbn; tauto.
  - intros _. rewrite map_length. apply L. cbn; tauto.
  - intros _ Nl. rewrite map_length. destruct N as [N|N]; [rewrite N in Nl; discriminate|]. rewrite N. apply L. cbn; tauto.
  - rewrite <- (L "zmin") by (cbn; tauto). destruct (floats_of s "zmin"); [congruence|discriminate].
  - reflexivity.
Qed.
Print Assumptions C36_average_covariance_partial.

(** Two bins and the default single pixel size: accepted, and the second bin reads past it. *)
Theorem C36_average_covariance_refuted : exists s, parser_init (with_settings [("output_type", GInt 5)]) = Done s
  /\ forall X val J out, covariance_init X (covariance_input val J s) <> Done out.
Proof.
  set (W := with_settings _).
  assert (E : match parser_init W with
              | Done s => Some (List.length (floats_of s "density1"), List.length (floats_of s "pixelsize"),
                                List.length (ints_of s "multipole_values"), Nat.ltb 0 (List.length (floats_of s "sep")))
              | _ => None end = Some (2, 1, 2, true)) by (vm_compute; reflexivity).
  destruct (parser_init W) as [s| |]; try discriminate. injection E as E1 E2 E3 E4. apply Nat.ltb_lt in E4.
  exists s. split; [reflexivity|]. intros X val J. apply init_undefined. intros st.
  apply (value_pass_none X _ st 1 0 0 0 0); cbn [covariance_input ci_n1 ci_ells ci_sep]; rewrite ?map_length, ?E1, ?E3; try lia.
  unfold cov_value. destruct (bin_of X _ 1) as [b|]; [|reflexivity].
  destruct (nth_error (ci_ells _) 0) as [l|]; [|reflexivity].
  unfold poisson_part. cbn [covariance_input ci_poisson ci_pix].
  assert (Q : nth_error (map val (floats_of s "pixelsize")) 1 = None) by (apply nth_error_None; rewrite map_length, E2; apply le_n).
  rewrite Q. reflexivity.
Qed.
Print Assumptions C36_average_covariance_refuted.

(** *** The Python methods: the lists passed the length checks and z_mean is not empty. *)
Theorem C36_python_covariance : forall p X val J, cov_lengths_ok KCov p = true -> pl p L_z_mean <> [] ->
  covariance_init X (python_input val J false p) <> Numeric.Undefined.
Proof.
  intros p X val J L NE. apply safe. intros I' ->. unfold cov_lengths_ok in L. rewrite forallb_forall in L.
  assert (Q : forall x, In x [L_deltaz; L_density1; L_density2; L_pixelsize; L_fsky] -> List.length (pl p x) = List.length (pl p L_z_mean)).
  { intros x Hx. specialize (L x Hx). apply Nat.eqb_eq in L. symmetry. exact L. }
  constructor; unfold redshifts; cbn [with_bins python_input ci_n1 ci_n2 ci_fsky ci_pix ci_avg ci_zmax ci_deltaz ci_nonlinear ci_zmean ci_fftlog ci_bins];
    rewrite ?map_length; try (apply Q; cbn; tauto); try discriminate.
  - intros _. apply Q. cbn; tauto.
  - destruct (pl p L_z_mean); [congruence|discriminate].
  - reflexivity.
Qed.
Print Assumptions C36_python_covariance.
Theorem C36_python_average_partial : forall p X val J, cov_lengths_ok KACov p = true -> pl p L_zmin <> [] ->
  pi p I_pk_type = 0%Z \/ List.length (pl p L_z_mean) = List.length (pl p L_zmin) ->
  covariance_init X (python_input val J true p) <> Numeric.Undefined.
Proof.
  intros p X val J L NE N. apply safe. intros I' ->. unfold cov_lengths_ok in L. rewrite forallb_forall in L.
  assert (Q : forall x, In x [L_deltaz; L_zmax; L_density1; L_density2; L_pixelsize; L_fsky] -> List.length (pl p x) = List.length (pl p L_zmin)).
  { intros x Hx. specialize (L x Hx). apply Nat.eqb_eq in L. symmetry. exact L. }
  constructor; unfold redshifts; cbn [with_bins python_input ci_n1 ci_n2 ci_fsky ci_pix ci_avg ci_zmin ci_zmax ci_deltaz ci_nonlinear ci_zmean ci_fftlog ci_bins];
    rewrite ?map_length; try (apply Q; cbn; tauto); try discriminate.
  - intros _. apply Q. cbn; tauto.
  - intros _ Nl. destruct N as [N|N]; [rewrite N in Nl; discriminate|]. exact N.
  - destruct (pl p L_zmin); [congruence|discriminate].
  - reflexivity.
Qed.
Print Assumptions C36_python_average_partial.

(** *** Concrete cases *)
Example C36_covariance_nonvacuous : exists s,
  parser_init (with_settings [("output_type", GInt 4); ("separations_sampling", GInt 4); ("deltaz", GList [num 1 10; num 1 10]);
                              ("pixelsize", GList [whole 5; whole 8]); ("covariance_window", GInt 1)]) = Done s
  /\ List.length (floats_of s "z_mean") = 2 /\ List.length (floats_of s "pixelsize") = 2 /\ int_of s "covariance_window" = 1%Z.
Proof.
  set (W := with_settings _).
  assert (E : match parser_init W with
              | Done s => Some (List.length (floats_of s "z_mean"), List.length (floats_of s "pixelsize"), int_of s "covariance_window")
              | _ => None end = Some (2, 2, 1%Z)) by (vm_compute; reflexivity).
  destruct (parser_init W) as [s| |]; try discriminate. exists s. injection E as E1 E2 E3. repeat split; assumption.
Qed.
Example C36_average_covariance_nonvacuous : exists s,
  parser_init (with_settings [("output_type", GInt 5); ("pixelsize", GList [whole 5; whole 8])]) = Done s
  /\ List.length (floats_of s "zmin") = 2 /\ List.length (floats_of s "pixelsize") = 2 /\ int_of s "pk_type" = 0%Z.
Proof.
  set (W := with_settings _).
  assert (E : match parser_init W with
              | Done s => Some (List.length (floats_of s "zmin"), List.length (floats_of s "pixelsize"), int_of s "pk_type")
              | _ => None end = Some (2, 2, 0%Z)) by (vm_compute; reflexivity).
  destruct (parser_init W) as [s| |]; try discriminate. exists s. injection E as E1 E2 E3. repeat split; assumption.
Qed.
Example C36_average_nonvacuous : exists s,
  parser_init (with_settings [("output_type", GInt 3); ("separations_sampling", GInt 3);
                 ("z_min", GList [num 1 2; num 1 1]); ("z_max", GList [num 6 10; num 11 10])]) = Done s
  /\ List.length (floats_of s "zmin") = 2 /\ List.length (floats_of s "zmax") = 2 /\ List.length (floats_of s "sep") = 3.
Proof.
  set (W := with_settings _).
  assert (E : match parser_init W with
              | Done s => Some (List.length (floats_of s "zmin"), List.length (floats_of s "zmax"), List.length (floats_of s "sep"))
              | _ => None end = Some (2, 2, 3)) by (vm_compute; reflexivity).
  destruct (parser_init W) as [s| |]; try discriminate. exists s. injection E as E1 E2 E3. repeat split; assumption.
Qed.
Example C36_python_nonvacuous : exists p, cov_lengths_ok KCov p = true /\ cov_lengths_ok KACov p = true
  /\ List.length (pl p L_z_mean) = 2 /\ List.length (pl p L_zmin) = 2.
Proof.
  exists (mkParams (fun _ => S754_nan) (fun _ => 0%Z) (fun _ => true) (fun _ => [of_Z 1; of_Z 2]) [0%Z] (fun _ => [])).
  repeat split; vm_compute; reflexivity.
Qed.
