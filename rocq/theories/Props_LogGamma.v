(** * C83: the kernels of the logarithmic transforms are defined, and the two agree *)
From Coq Require Import ZArith QArith Qabs Reals Qreals List Lia Lra Bool Arith.
From Coquelicot Require Import Coquelicot.
From Coq Require Import List.
From Verif Require Import Arrays Numeric Fft Integrals Tables LogGamma.
From Verif Require Import Props_Fft Props_Tables Props_Values.
Import ListNotations.
Open Scope R_scope.

(** ** The approximated gamma function *)

(** Away from its poles (a [pole] is a non-positive integer) nothing is infinite, the program
    does not exit, the logarithm of either file is the same number and its exponential is what
    twofast_gamma returns; allowing deeper recursion changes nothing. *)
Theorem C83_defined : forall z, ~ pole z -> exists g,
  twofast_lgamma z = Done g /\ lngamma_lanczos z = Done g /\ twofast_gamma z = Done (cexp g)
  /\ forall n, twofast_lgamma_ (2 + n) z = Done g.
Proof.
  intros z H. destruct (lgamma_defined 0 z H) as [g [A [B D]]]. exists g. split; [exact A|]. split; [exact B|]. split; [exact D|].
  intros n. destruct (Rlt_le_dec (fst z) (1 / 2)) as [Hz|Hz].
  - assert (Un : forall m, twofast_lgamma_ (2 + m) z =
        let! s := of_opt (clog (csin (Cmult (RtoC PI) z))) in
        let! g := or_exit (twofast_right (Cminus (RtoC 1) z)) in Done (Cminus (Cminus (RtoC (ln PI)) s) g)).
    { intros m. cbn -[rlt clog csin twofast_right]. rewrite (proj2 (rlt_iff (fst z) (1 / 2)) Hz).
      assert (R : rlt (1 + - fst z) (1 / 2) = false) by (apply rlt_not; lra). rewrite R. reflexivity. }
    change (twofast_lgamma_ 2 z = Done g) in A. rewrite <- A. rewrite Un. symmetry. apply (Un 0%nat).
  - rewrite <- A. cbn -[rlt twofast_right]. rewrite (proj2 (rlt_not (fst z) (1 / 2)) Hz). reflexivity.
Qed.
Print Assumptions C83_defined.

(** Euler's reflection formula holds exactly (off the line where both arguments are on the
    branch computed directly). *)
Theorem C83_reflection : forall z a b, fst z <> 1 / 2 -> (forall k : Z, z <> RtoC (IZR k)) ->
  twofast_gamma z = Done a -> twofast_gamma (Cminus (RtoC 1) z) = Done b ->
  Cmult (Cmult a b) (csin (Cmult (RtoC PI) z)) = RtoC PI.
Proof.
  assert (L : forall z a b, fst z < 1 / 2 -> (forall k : Z, z <> RtoC (IZR k)) ->
    twofast_gamma z = Done a -> twofast_gamma (Cminus (RtoC 1) z) = Done b ->
    Cmult (Cmult a b) (csin (Cmult (RtoC PI) z)) = RtoC PI).
  { intros z a b Hz Hk A B.
    assert (Ns : csin (Cmult (RtoC PI) z) <> RtoC 0).
    { apply not_pole_sin; [|exact Hz]. intros [k E]. apply (Hk (- Z.of_nat k)%Z). rewrite E, opp_IZR, <- INR_IZR_INZ. reflexivity. }
    destruct (lgamma_right_half 1 (Cminus (RtoC 1) z)) as [w [E0 [_ [_ E1]]]]; [change (1 / 2 <= 1 + - fst z); lra|].
    destruct (lgamma_right_half 0 (Cminus (RtoC 1) z)) as [w' [E0' [_ [_ E2]]]]; [change (1 / 2 <= 1 + - fst z); lra|].
    assert (w' = w) by congruence. subst w'.
    unfold twofast_gamma in B. rewrite E1 in B. injection B as <-.
    unfold twofast_gamma in A. change (twofast_gamma_ 2 z) with (if rlt (fst z) (1 / 2) then
        let! g := twofast_gamma_ 1 (Cminus (RtoC 1) z) in
        let! u := of_opt (cquot (RtoC PI) (csin (Cmult (RtoC PI) z))) in of_opt (cquot u g)
      else or_exit (twofast_gamma_right z)) in A.
    rewrite (proj2 (rlt_iff (fst z) (1 / 2)) Hz), E2 in A. cbn [rbind] in A. rewrite cquot_some in A by exact Ns. cbn [rbind of_opt] in A.
    rewrite cquot_some in A by apply cexp_nz. cbn [of_opt] in A. injection A as <-. field. split; first [exact Ns | apply cexp_nz]. }
  intros z a b Hh Hk A B. destruct (Rlt_le_dec (fst z) (1 / 2)) as [Hz|Hz]; [apply (L z a b Hz Hk A B)|].
  assert (Z1 : Cminus (RtoC 1) (Cminus (RtoC 1) z) = z) by ring.
  assert (X : Cmult (Cmult b a) (csin (Cmult (RtoC PI) (Cminus (RtoC 1) z))) = RtoC PI).
  { apply L.
    - change (1 + - fst z < 1 / 2). lra.
    - intros k E. apply (Hk (1 - k)%Z). rewrite <- Z1, E, minus_IZR, RtoC_minus. reflexivity.
    - exact B.
    - rewrite Z1. exact A. }
  etransitivity; [|exact X]. rewrite (Cmult_comm a b). apply f_equal2; [reflexivity|].
  destruct z as [x y]. unfold csin, Cminus, Cplus, Copp, Cmult, RtoC; cbn [fst snd].
  replace (PI * (1 + - x) - 0 * (0 + - y)) with (- (PI * x) + PI) by ring.
  replace (PI * (0 + - y) + 0 * (1 + - x)) with (- (PI * y)) by ring.
  replace (PI * x - 0 * y) with (PI * x) by ring. replace (PI * y + 0 * x) with (PI * y) by ring.
  rewrite neg_sin, neg_cos, sin_neg, cos_neg. unfold cosh, sinh. rewrite ?Ropp_involutive. apply C_ext; cbn [fst snd]; match goal with |- ?u = ?v => change (@eq R u v) end; field.
Qed.
Print Assumptions C83_reflection.

(** Conjugate arguments give conjugate values. *)
Theorem C83_conjugate : forall z a, ~ pole z -> twofast_gamma z = Done a -> twofast_gamma (Cconj z) = Done (Cconj a).
Proof. intros z a H E. apply (gamma_conj_ 0 z a E H). Qed.
Print Assumptions C83_conjugate.

(** On the positive axis the value is real and positive. *)
Lemma peval_pos : forall p x, forallb (fun a => negb (Qle_bool a 0)) p = true -> p <> [] -> 0 < x ->
  exists v, peval p (RtoC x) = RtoC v /\ 0 < v.
Proof.
  induction p as [|a r IH]; intros x H N Hx; [contradiction|]. cbn [forallb] in H. apply andb_prop in H. destruct H as [A H].
  apply negb_true_iff in A. apply qC_pos in A. cbn [peval]. destruct r as [|b r].
  - exists (Q2R a). split; [cbn [peval]; unfold qC; ring|exact A].
  - destruct (IH x H ltac:(discriminate) Hx) as [v [E V]]. rewrite E. exists (Q2R a + x * v). split; [|nra].
    unfold qC. rewrite RtoC_plus, RtoC_mult. reflexivity.
Qed.
Lemma lanczos_sum_pos : forall x, 0 < x -> exists v, lanczos_sum (RtoC x) = RtoC v /\ 0 < v.
Proof.
  intros x Hx. unfold lanczos_sum.
  destruct (peval_pos (fst lanczos_fraction) x) as [u [U Up]]; [vm_compute; reflexivity|discriminate|exact Hx|].
  assert (Lf : exists p, snd lanczos_fraction = 0%Q :: p /\ forallb (fun a => negb (Qle_bool a 0)) p = true /\ p <> []).
  { eexists. split; [vm_compute; reflexivity|]. split; [vm_compute; reflexivity|discriminate]. }
  destruct Lf as [p [-> [Pp Pn]]]. destruct (peval_pos p x Pp Pn Hx) as [v [V Vp]].
  cbn [peval]. rewrite U, V, qC_0. exists (u / (x * v)). assert (0 < x * v) by nra. split; [|apply Rdiv_lt_0_compat; assumption].
  rewrite RtoC_div by lra. rewrite RtoC_mult. f_equal. ring.
Qed.
Lemma right_pos : forall x w, 0 < x -> twofast_right (RtoC x) = Some w -> exists g, cexp w = RtoC g /\ 0 < g.
Proof.
  intros x w Hx E. destruct (right_value (RtoC x) Hx) as [w' [lt [E' [El V]]]]. rewrite E in E'. injection E' as <-.
  destruct (lanczos_sum_pos x Hx) as [s [S Sp]].
  assert (Elt : lt = RtoC (ln (x + 13 / 2))).
  { unfold clog in El. destruct (Ceq_dec _ _); [discriminate|]. injection El as <-. rewrite <- RtoC_plus. unfold RtoC. apply f_equal2.
    - f_equal. change (x + 13 / 2, 0) with (RtoC (x + 13 / 2)). rewrite Cmod_R. apply Rabs_pos_eq. lra.
    - rewrite (proj2 (rlt_iff 0 (x + 13 / 2))) by lra. replace ((0 + 0) / (x + 13 / 2)) with 0 by (field; lra). apply atan_0. }
  rewrite V, Elt, S, <- RtoC_minus, <- RtoC_mult, <- RtoC_plus, !cexp_R, <- RtoC_inv, <- !RtoC_mult by apply Rgt_not_eq, exp_pos.
  eexists. split; [reflexivity|]. pose proof PI_RGT_0.
  repeat apply Rmult_lt_0_compat; try apply exp_pos; [apply sqrt_lt_R0; lra|apply Rinv_0_lt_compat, exp_pos|exact Sp].
Qed.
Theorem C83_positive : forall x, 0 < x -> exists g, twofast_gamma (RtoC x) = Done (RtoC g) /\ 0 < g.
Proof.
  intros x Hx. destruct (Rlt_le_dec x (1 / 2)) as [Hz|Hz].
  - destruct (lgamma_right_half 0 (RtoC (1 - x))) as [w [E0 [_ [_ E1]]]]; [cbn; lra|].
    destruct (right_pos (1 - x) w ltac:(lra) E0) as [g [G Gp]].
    assert (Sp : 0 < sin (PI * x)) by (apply sin_gt_0; pose proof PI_RGT_0; nra).
    assert (Es : csin (Cmult (RtoC PI) (RtoC x)) = RtoC (sin (PI * x))).
    { rewrite <- RtoC_mult. unfold csin, RtoC; cbn [fst snd]. apply C_ext; cbn [fst snd]; unfold cosh, sinh; rewrite Ropp_0, exp_0; field. }
    exists (PI / sin (PI * x) / g). split.
    + unfold twofast_gamma. change (twofast_gamma_ 2 (RtoC x)) with (if rlt x (1 / 2) then
        let! g := twofast_gamma_ 1 (Cminus (RtoC 1) (RtoC x)) in
        let! u := of_opt (cquot (RtoC PI) (csin (Cmult (RtoC PI) (RtoC x)))) in of_opt (cquot u g)
      else or_exit (twofast_gamma_right (RtoC x))).
      rewrite (proj2 (rlt_iff x (1 / 2)) Hz), <- RtoC_minus, E1, Es. cbn [rbind].
      rewrite cquot_some by (intros E; apply RtoC_inj in E; lra). cbn [rbind of_opt]. rewrite cquot_some by apply cexp_nz. cbn [of_opt].
      rewrite G, !RtoC_div by lra. reflexivity.
    + pose proof PI_RGT_0. repeat apply Rdiv_lt_0_compat; assumption.
  - destruct (lgamma_right_half 1 (RtoC x) Hz) as [w [E0 [_ [_ E1]]]]. destruct (right_pos x w Hx E0) as [g [G Gp]].
    exists g. split; [|exact Gp]. unfold twofast_gamma. rewrite E1, G. reflexivity.
Qed.
Print Assumptions C83_positive.

(** ** The kernels *)
(** At the frequency [t], with the bias [q] and the order [l], the gamma function is needed at: *)
Definition upper (t q l : R) : C := ((l + q) / 2, - t / 2).
Definition lower (t q l : R) : C := ((3 + l - q) / 2, t / 2).
Lemma upper_eq : forall t q l, Cdiv (Cplus (RtoC (1 + l)) (Cminus (RtoC (q - 1)) (Cmult (RtoC t) Ci))) (RtoC 2) = upper t q l.
Proof. intros. apply C_ext; unfold upper, Cdiv, Cinv, Ci, Cminus, Cplus, Copp, Cmult, RtoC; cbn [fst snd]; field. Qed.
Lemma lower_eq : forall t q l, Cdiv (Cminus (RtoC (2 + l)) (Cminus (RtoC (q - 1)) (Cmult (RtoC t) Ci))) (RtoC 2) = lower t q l.
Proof. intros. apply C_ext; unfold lower, Cdiv, Cinv, Ci, Cminus, Cplus, Copp, Cmult, RtoC; cbn [fst snd]; field. Qed.
Lemma upper_eq' : forall t q l, Cdiv (Cplus (RtoC l) (Cplus (RtoC q) (Cmult Ci (RtoC (- t))))) (RtoC 2) = upper t q l.
Proof. intros. apply C_ext; unfold upper, Cdiv, Cinv, Ci, Cminus, Cplus, Copp, Cmult, RtoC; cbn [fst snd]; field. Qed.
Lemma lower_eq' : forall t q l, Cdiv (Cminus (RtoC (3 + l)) (Cplus (RtoC q) (Cmult Ci (RtoC (- t))))) (RtoC 2) = lower t q l.
Proof. intros. apply C_ext; unfold lower, Cdiv, Cinv, Ci, Cminus, Cplus, Copp, Cmult, RtoC; cbn [fst snd]; field. Qed.
(** [alpha^(i t - q)] for a positive [alpha]. *)
Definition phase (alpha t q : R) : C := Cmult (RtoC (Rpower alpha (- q))) (cis (t * ln alpha)).

(** The kernel is the one of the Bessel transform: with the gamma function as computed,
    alpha^(it-q) 2^(q-2-it) sqrt(pi) Gamma((l+q-it)/2) / Gamma((3+l-q+it)/2). *)
Theorem C83_kernel : forall t q l alpha, ~ pole (upper t q l) -> ~ pole (lower t q l) ->
  exists u d, twofast_gamma (upper t q l) = Done u /\ twofast_gamma (lower t q l) = Done d /\ d <> RtoC 0
    /\ twofast_mql t q l alpha = Done (Cmult (phase alpha t q)
         (Cmult (RtoC (Rpower 2 (q - 2) * sqrt PI)) (Cmult (cis (- t * ln 2)) (Cdiv u d))))
    /\ g_l_at l q (- t) = Done (Cmult (RtoC (Rpower 2 q)) (Cmult (cis (- t * ln 2)) (Cdiv u d))).
Proof.
  intros t q l alpha Hu Hl. destruct (C83_defined _ Hu) as [a [A1 [A2 [A3 _]]]]. destruct (C83_defined _ Hl) as [b [B1 [B2 [B3 _]]]].
  exists (cexp a), (cexp b). split; [exact A3|]. split; [exact B3|]. split; [apply cexp_nz|]. split.
  - unfold twofast_mql. rewrite upper_eq, lower_eq, A1, B1. cbn [rbind]. f_equal. rewrite cexp_sub. apply f_equal2.
    + apply C_ext; unfold cpow_pos, phase, cexp, cis, Rpower, Ci, Cminus, Cplus, Copp, Cmult, RtoC; cbn [fst snd].
      * replace ((t * 0 - 0 * 1 + - q) * ln alpha - (t * 1 + 0 * 0 + - 0) * 0) with (- q * ln alpha) by ring.
        replace ((t * 0 - 0 * 1 + - q) * 0 + (t * 1 + 0 * 0 + - 0) * ln alpha) with (t * ln alpha) by ring. ring.
      * replace ((t * 0 - 0 * 1 + - q) * ln alpha - (t * 1 + 0 * 0 + - 0) * 0) with (- q * ln alpha) by ring.
        replace ((t * 0 - 0 * 1 + - q) * 0 + (t * 1 + 0 * 0 + - 0) * ln alpha) with (t * ln alpha) by ring. ring.
    + rewrite Cmult_assoc. f_equal.
      apply C_ext; unfold cpow_pos, cexp, cis, Rpower, Ci, Cminus, Cplus, Copp, Cmult, RtoC; cbn [fst snd];
        replace ((q - 1 + - (t * 0 - 0 * 1) + - (1)) * ln 2 - (0 + - (t * 1 + 0 * 0) + - 0) * 0) with ((q - 2) * ln 2) by ring;
        replace ((q - 1 + - (t * 0 - 0 * 1) + - (1)) * 0 + (0 + - (t * 1 + 0 * 0) + - 0) * ln 2) with (- t * ln 2) by ring; ring.
  - unfold g_l_at. rewrite upper_eq', lower_eq', A2, B2. cbn [rbind]. f_equal. rewrite cexp_sub, cexp_add. unfold Cdiv. rewrite <- Cmult_assoc.
    rewrite (Cmult_assoc (RtoC _)). f_equal.
    apply C_ext; unfold cexp, cis, Rpower, Ci, Cminus, Cplus, Copp, Cmult, RtoC; cbn [fst snd];
      replace ((q + (0 * - t - 1 * 0)) * ln 2 - (0 + (0 * 0 + 1 * - t)) * 0) with (q * ln 2) by ring;
      replace ((q + (0 * - t - 1 * 0)) * 0 + (0 + (0 * 0 + 1 * - t)) * ln 2) with (- t * ln 2) by ring; ring.
Qed.
Print Assumptions C83_kernel.

(** The kernel of the one-dimensional transform (twofast.c) is that of the two-dimensional one
    (twobessel.c) at the opposite frequency, up to the shift and the constant sqrt(pi)/4. *)
Theorem C83_same_kernel : forall t q l alpha, ~ pole (upper t q l) -> ~ pole (lower t q l) ->
  exists g, g_l_at l q (- t) = Done g /\
    twofast_mql t q l alpha = Done (Cmult (phase alpha t q) (Cmult (RtoC (sqrt PI / 4)) g)).
Proof.
  intros t q l alpha Hu Hl. destruct (C83_kernel t q l alpha Hu Hl) as [u [d [_ [_ [_ [M G]]]]]].
  eexists. split; [exact G|]. rewrite M. do 2 f_equal. rewrite !Cmult_assoc. apply f_equal2; [|reflexivity]. apply f_equal2; [|reflexivity].
  rewrite <- RtoC_mult. f_equal. replace (q - 2) with (q + - (2)) by ring. rewrite Rpower_plus, Rpower_Ropp.
  replace (Rpower 2 2) with 4; [field|]. replace 2 with (INR 2) at 2 by (cbn; lra). rewrite Rpower_pow by lra. cbn. lra.
Qed.
Print Assumptions C83_same_kernel.

(** Opposite frequencies have conjugate kernels: what the half-complex transforms (FFTW's c2r)
    and the second loop of twobessel.c (which conjugates instead of recomputing) take for granted. *)
Lemma cis_neg : forall x, cis (- x) = Cconj (cis x).
Proof. intros. unfold cis, Cconj; cbn [fst snd]. rewrite cos_neg, sin_neg. reflexivity. Qed.
Lemma pole_conj : forall z, ~ pole z -> ~ pole (Cconj z).
Proof. intros z H [k E]. apply H. exists k. rewrite <- (conj_conj z), E. apply conj_R. Qed.
Theorem C83_hermitian : forall t q l alpha, ~ pole (upper t q l) -> ~ pole (lower t q l) ->
  exists m g, twofast_mql t q l alpha = Done m /\ twofast_mql (- t) q l alpha = Done (Cconj m)
    /\ g_l_at l q (- t) = Done g /\ g_l_at l q t = Done (Cconj g).
Proof.
  intros t q l alpha Hu Hl.
  assert (Eu : upper (- t) q l = Cconj (upper t q l)) by (unfold upper, Cconj; cbn [fst snd]; f_equal; lra).
  assert (El : lower (- t) q l = Cconj (lower t q l)) by (unfold lower, Cconj; cbn [fst snd]; f_equal; lra).
  destruct (C83_kernel t q l alpha Hu Hl) as [u [d [U [D [Nd [M G]]]]]].
  destruct (C83_kernel (- t) q l alpha) as [u' [d' [U' [D' [Nd' [M' G']]]]]];
    [rewrite Eu; apply pole_conj; exact Hu | rewrite El; apply pole_conj; exact Hl |].
  rewrite Eu, (C83_conjugate _ _ Hu U) in U'. injection U' as <-. rewrite El, (C83_conjugate _ _ Hl D) in D'. injection D' as <-.
  rewrite Ropp_involutive in G'. eexists. eexists. split; [exact M|]. split; [rewrite M'|split; [exact G|rewrite G']]; f_equal.
  - unfold phase, Cdiv. rewrite !conj_mul, !conj_R, conj_inv, <- !cis_neg. do 2 f_equal; [f_equal; f_equal; ring|].
    do 2 f_equal. f_equal. ring.
  - unfold Cdiv. rewrite !conj_mul, !conj_R, conj_inv, <- !cis_neg. do 3 f_equal. ring.
Qed.
Print Assumptions C83_hermitian.

(** ** Every transform the program makes *)
(** Order and power of the integral with a given key. *)
Definition state_of (k : key) : istate := if key_half k then HalfInteger else Integer.
Definition order_of (k : key) : R := local (state_of k) (key_l k).
Definition power_of (k : key) : R := local (state_of k) (key_n k).

Lemma select_bounds : forall l nu, -1 <= l -> nu - 39 / 10 < l -> -2 <= nu ->
  - l < select_q l nu < 3 + l.
Proof.
  intros l nu H1 H2 H3. unfold select_q.
  set (lo := Rmax _ _). set (hi := Rmin _ _). 
  assert (Lo : - l <= lo /\ 9999 / 10000 - 1 - nu <= lo) by (split; [apply Rmax_r|apply Rmax_l]).
  assert (Lo' : lo = 9999 / 10000 - 1 - nu \/ lo = - l) by (unfold lo, Rmax; destruct (Rle_dec _ _); auto).
  assert (Hi : hi <= 2 /\ hi <= 9 / 10 + 3 - nu) by (split; [apply Rmin_r|apply Rmin_l]).
  assert (Hi' : hi = 2 \/ hi = 9 / 10 + 3 - nu) by (unfold hi, Rmin; destruct (Rle_dec _ _); auto).
  destruct (rlt lo ((2 + 9 / 10 + 9999 / 10000) / 2 - nu) && rlt ((2 + 9 / 10 + 9999 / 10000) / 2 - nu) hi)%bool eqn:E.
  - apply andb_prop in E. destruct E as [E1 E2]. apply rlt_iff in E1, E2. lra.
  - lra.
Qed.
Lemma select_regular : forall t l nu, -1 <= l -> nu - 39 / 10 < l -> -2 <= nu ->
  ~ pole (upper t (select_q l nu) l) /\ ~ pole (lower t (select_q l nu) l).
Proof.
  intros t l nu H1 H2 H3. pose proof (select_bounds l nu H1 H2 H3). split; intros [k E]; injection E as E _; pose proof (pos_INR k); lra.
Qed.
Lemma order_bounds : forall d ln nl mp ells k, Forall (fun l => (0 <= l)%Z) ells ->
  In k (integral_keys d ln nl mp ells) -> k <> K 4 0 false ->
  -1 <= order_of k /\ power_of k - 39 / 10 < order_of k /\ -2 <= power_of k.
Proof.
  intros d ln nl mp ells k Hl Hin Hk. unfold integral_keys in Hin. rewrite !in_app_iff in Hin. rewrite Forall_forall in Hl.
  destruct Hin as [H|[H|[H|[H|H]]]].
  - cbn in H. repeat (destruct H as [<-|H]; [unfold order_of, power_of; cbn; lra|]). destruct H.
  - destruct d; cbn in H; [destruct H as [<-|[]]; congruence|destruct H].
  - destruct (ln || nl)%bool; cbn in H; [destruct H as [<-|[]]|destruct H]. unfold order_of, power_of; cbn. lra.
  - destruct (nl && mp)%bool; [|destruct H]. apply in_map_iff in H. destruct H as [l [<- H]]. apply Hl in H. apply IZR_le in H.
    unfold order_of, power_of; cbn. lra.
  - destruct (ln && mp)%bool; [|destruct H]. apply in_flat_map in H. destruct H as [l [Il H]]. apply Hl in Il.
    unfold flat_den_len_keys in H. apply in_map_iff in H. destruct H as [j [<- J]]. apply in_seq in J.
    assert (Jl : (2 * Z.of_nat j <= l)%Z).
    { pose proof (Z.div_pos l 2 Il ltac:(lia)). assert (Z.of_nat j <= l / 2)%Z by lia. pose proof (Z.mul_div_le l 2 ltac:(lia)). lia. }
    unfold order_of, power_of; cbn [state_of key_half key_l key_n local]. 
    assert (0 <= l - 2 * Z.of_nat j)%Z by lia. apply IZR_le in H. 
    set (m := (l - 2 * Z.of_nat j)%Z) in *. rewrite !plus_IZR. lra.
Qed.
(** For every integral the program tabulates by a logarithmic transform (all but the divergent
    one, K 4 0, which it integrates) the kernel is defined at every frequency. *)
Theorem C83_transforms : forall divergent local_nonlocal nonlocal multipoles ells k t alpha,
  Forall (fun l => (0 <= l)%Z) ells ->
  In k (integral_keys divergent local_nonlocal nonlocal multipoles ells) -> k <> K 4 0 false ->
  exists m, twofast_mql t (select_q (order_of k) (power_of k)) (order_of k) alpha = Done m.
Proof.
  intros d ln nl mp ells k t alpha Hl Hin Hk. destruct (order_bounds d ln nl mp ells k Hl Hin Hk) as [B1 [B2 B3]].
  destruct (select_regular t _ _ B1 B2 B3) as [R1 R2]. destruct (C83_kernel t _ _ alpha R1 R2) as [u [dd [_ [_ [_ [M _]]]]]].
  eexists. exact M.
Qed.
Print Assumptions C83_transforms.

(** With the kernel of the program in place of an arbitrary one, the tables of C18 are complete: *)
Definition with_mql (E : tab_ext) : tab_ext :=
  {| t_fft := {| x_spline := x_spline (t_fft E); x_mql := twofast_mql |}; t_quad := t_quad E; t_jl := t_jl E;
     t_Jn := t_Jn E; t_gamma := t_gamma E; t_j0 := t_j0 E |}.
Theorem C83_tables : forall E divergent local_nonlocal nonlocal multipoles ells k N kmin kmax method,
  Forall (fun l => (0 <= l)%Z) ells ->
  In k (integral_keys divergent local_nonlocal nonlocal multipoles ells) -> k <> K 4 0 false ->
  (5 <= N)%nat -> (Z.of_nat N < 2 ^ 64)%Z -> 0 < kmin -> kmin < kmax ->
  92 / 100 <= INR (N - 1) / INR N * ln (kmax / kmin) ->
  (forall i, (i < N)%nat -> INR i / INR N * ln (kmax / kmin) <> 46 / 100) ->
  exists xs ys,
    renormalizable (with_mql E) N (key_n k) (key_l k) (state_of k) (state_of k) kmin kmax = Done (map Some xs, map Some ys) /\
    List.length xs = (N + 43)%nat /\ List.length ys = (N + 43)%nat /\ nth 0 xs 1 = 0 /\ strictly_increasing xs /\
    init_spline (map Some xs) (map Some ys) (N + 43) method = Done (combine xs ys).
Proof.
  intros E d ln nl mp ells k N kmin kmax method Hl Hin Hk HN Hz P1 P2 Hr He.
  destruct (C18_tables_partial (with_mql E) N (key_n k) (key_l k) (state_of k) (state_of k) kmin kmax method HN Hz P1 P2 Hr He)
    as (xs & ys & ff & T & Lx & Ly & X0 & SI & I & _).
  { intros t a. apply (C83_transforms d ln nl mp ells k t a Hl Hin Hk). }
  exists xs, ys. repeat split; try assumption. destruct xs; [cbn in Lx; lia|exact X0].
Qed.
Print Assumptions C83_tables.

(** The kernel of the program is not defined everywhere: at an order and bias of zero it meets the
    pole of the gamma function at zero frequency. *)
Theorem C83_everywhere_refuted : pole (upper 0 0 0) /\ forall alpha, twofast_mql 0 0 0 alpha = Undefined.
Proof.
  split.
  - exists 0%nat. unfold upper, RtoC. cbn. f_equal; field.
  - intros alpha. unfold twofast_mql. rewrite upper_eq. 
    assert (U : upper 0 0 0 = RtoC 0) by (unfold upper, RtoC; f_equal; field). rewrite U.
    assert (L : twofast_lgamma (RtoC 0) = Undefined).
    { unfold twofast_lgamma. cbn -[rlt clog csin twofast_right Cmult]. 
      rewrite (proj2 (rlt_iff 0 (1 / 2))) by lra. rewrite Cmult_0_r.
      assert (S : csin (RtoC 0) = RtoC 0).
      { unfold csin, RtoC; cbn [fst snd]. rewrite sin_0, cos_0. apply C_ext; cbn [fst snd]; unfold sinh; [ring|rewrite Ropp_0; field]. }
      rewrite S. unfold clog. destruct (Ceq_dec (RtoC 0) (RtoC 0)) as [_|N]; [reflexivity|contradiction]. }
    rewrite L. reflexivity.
Qed.
Print Assumptions C83_everywhere_refuted.

(** The published coefficients of Lanczos' approximation with g = 7 and nine terms.
    Specification or proof only; nothing in the code. *)
Definition published : list Q :=
  [99999999999980993227684700473478 # (10 ^ 32); 676520368121885098567009190444019 # (10 ^ 30);
   -125913921672240287047156078755283 # (10 ^ 29); 7713234287776530788486528258894 # (10 ^ 28);
   -17661502916214059906584551354 # (10 ^ 26); 12507343278686904814458936853 # (10 ^ 27);
   -13857109526572011689554707 # (10 ^ 26); 9984369578019570859563 # (10 ^ 27);
   150563273514931155834 # (10 ^ 27)].
(** The coefficients of the program are these, up to one rounding to a double. *)
Theorem C83_coefficients : Forall2 (fun c d => (Qabs.Qabs (c - d) <= Qabs.Qabs d * (1 # 2 ^ 52))%Q) (lanczos_first :: lanczos_rest) published.
Proof.
  unfold published, lanczos_first, lanczos_rest.
  repeat (constructor; [vm_compute; intro H; discriminate H|]). constructor.
Qed.
Print Assumptions C83_coefficients.

(** Concrete cases. *)
Example C83_met :
  ~ pole (RtoC (1 / 4)) /\ ~ pole (- (1 / 2), 3) /\
  In (K 5 3 true) (integral_keys true true true true [0; 2; 4]%Z) /\ In (K 1 (-1) true) (integral_keys true true true true [0; 2; 4]%Z) /\
  In (K 0 4 false) (integral_keys false false false false []) /\
  order_of (K 5 3 true) = 3 / 2 /\ power_of (K 5 3 true) = 5 / 2.
Proof.
  split; [intros [k E]; apply RtoC_inj in E; pose proof (pos_INR k); lra|].
  split; [intros [k E]; injection E as _ E; lra|].
  repeat split; try (cbn; tauto).
Qed.
