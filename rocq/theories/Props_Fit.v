(** * C46: the fitted polynomials reproduce polynomial biases *)
From Coq Require Import Reals List Lra Lia Psatz ClassicalEpsilon.
From Verif Require Import Numeric Fit.
Import ListNotations.
Open Scope R_scope.

(** ** Specification *)

(** Value of a polynomial given by its coefficients, lowest degree first. *)
Fixpoint peval (c : list R) (x : R) : R :=
  match c with [] => 0 | a :: t => a + x * peval t x end.

(** Sum of squared residuals of a linear model. *)
Definition residual (A : list (list R)) (y c : list R) : R :=
  fold_right Rplus 0 (map (fun p => (dot (fst p) c - snd p) ^ 2) (combine A y)).

(** What GSL documents: there is one coefficient per parameter, and no other
    choice has a smaller sum of squares (whenever a smallest one exists). *)
Definition least_squares (solve : solver) : Prop := forall k A y,
  (k <= length A)%nat -> length y = length A -> Forall (fun r => length r = k) A ->
  length (solve k A y) = k /\
  forall c, length c = k ->
    (forall c', length c' = k -> residual A y c <= residual A y c') ->
    residual A y (solve k A y) <= residual A y c.

(** ** Polynomials *)

Lemma dot_powers : forall c x k, dot (map (fun j => x ^ j) (seq k (length c))) c = x ^ k * peval c x.
Proof.
  induction c as [|a c IH]; intros x k; [unfold dot; simpl; ring|].
  unfold dot in *. cbn [length seq map combine fold_right fst snd peval].
  rewrite IH. simpl pow. ring.
Qed.

Lemma residual_nonneg : forall A y c, 0 <= residual A y c.
Proof.
  intros A y c. unfold residual.
  induction (combine A y) as [|p l IH]; cbn [map fold_right]; [lra|].
  pose proof (pow2_ge_0 (dot (fst p) c - snd p)). lra.
Qed.

Lemma residual_zero : forall A y c, residual A y c = 0 ->
  Forall (fun p => dot (fst p) c = snd p) (combine A y).
Proof.
  intros A y c. unfold residual. induction (combine A y) as [|p l IH]; intros H; [constructor|].
  cbn [map fold_right] in H.
  assert (N : 0 <= fold_right Rplus 0 (map (fun p => (dot (fst p) c - snd p) ^ 2) l)).
  { clear. induction l as [|p l IH]; cbn [map fold_right]; [lra|].
    pose proof (pow2_ge_0 (dot (fst p) c - snd p)). lra. }
  pose proof (pow2_ge_0 (dot (fst p) c - snd p)) as Q.
  constructor; [|apply IH; lra].
  assert (E : (dot (fst p) c - snd p) ^ 2 = 0) by lra.
  assert (dot (fst p) c - snd p = 0); [|lra].
  destruct (Req_dec (dot (fst p) c - snd p) 0) as [Z|Z]; [exact Z|].
  exfalso. revert E. apply pow_nonzero. exact Z.
Qed.

Lemma residual_exact : forall A y c, Forall (fun p => dot (fst p) c = snd p) (combine A y) ->
  residual A y c = 0.
Proof.
  intros A y c H. unfold residual. induction H as [|p l E _ IH]; [reflexivity|].
  cbn [map fold_right]. rewrite IH, E. ring.
Qed.

(** Division by [x - r]. *)
Fixpoint quot (c : list R) (r : R) : list R :=
  match c with
  | [] => []
  | _ :: t => match t with [] => [] | _ => peval t r :: quot t r end
  end.

Lemma quot_length : forall c r, length (quot c r) = (length c - 1)%nat.
Proof.
  induction c as [|a [|b c] IH]; intros r; [reflexivity|reflexivity|].
  change (S (length (quot (b :: c) r)) = length (a :: b :: c) - 1)%nat.
  rewrite IH. simpl. lia.
Qed.

Lemma quot_correct : forall c r x, peval c x = (x - r) * peval (quot c r) x + peval c r.
Proof.
  induction c as [|a [|b c] IH]; intros r x; [simpl; ring|simpl; ring|].
  change (quot (a :: b :: c) r) with (peval (b :: c) r :: quot (b :: c) r).
  change (peval (a :: b :: c) x) with (a + x * peval (b :: c) x).
  change (peval (a :: b :: c) r) with (a + r * peval (b :: c) r).
  change (peval (peval (b :: c) r :: quot (b :: c) r) x)
    with (peval (b :: c) r + x * peval (quot (b :: c) r) x).
  rewrite (IH r x). ring.
Qed.

Lemma quot_zero : forall c r, Forall (fun a => a = 0) (quot c r) -> peval c r = 0 ->
  Forall (fun a => a = 0) c.
Proof.
  induction c as [|a [|b c] IH]; intros r H E.
  - constructor.
  - simpl in E. constructor; [lra|constructor].
  - change (quot (a :: b :: c) r) with (peval (b :: c) r :: quot (b :: c) r) in H.
    inversion H as [|? ? P Q]; subst.
    assert (T : Forall (fun a => a = 0) (b :: c)) by (apply (IH r); assumption).
    constructor; [|exact T].
    change (peval (a :: b :: c) r) with (a + r * peval (b :: c) r) in E.
    assert (P' : peval (b :: c) r = 0) by exact P. rewrite P' in E. lra.
Qed.

(** A polynomial with as many roots as coefficients is zero. *)
Lemma roots_zero : forall pts c, NoDup pts -> length c = length pts ->
  (forall x, In x pts -> peval c x = 0) -> Forall (fun a => a = 0) c.
Proof.
  induction pts as [|r pts IH]; intros c N L H.
  - destruct c; [constructor|discriminate L].
  - inversion N as [|? ? N1 N2]; subst.
    assert (R : peval c r = 0) by (apply H; left; reflexivity).
    apply (quot_zero c r); [|exact R].
    apply IH; [exact N2|rewrite quot_length, L; simpl; lia|].
    intros x X. specialize (H x (or_intror X)).
    rewrite (quot_correct c r x), R in H.
    assert (x - r <> 0) by (intros Z; apply N1; replace r with x by lra; exact X).
    assert (E : (x - r) * peval (quot c r) x = 0) by lra.
    apply Rmult_integral in E. destruct E as [E|E]; [contradiction|exact E].
Qed.

Fixpoint pminus (c d : list R) : list R :=
  match c, d with
  | a :: c, b :: d => (a - b) :: pminus c d
  | _, _ => []
  end.

Lemma pminus_eval : forall c d x, length c = length d ->
  peval (pminus c d) x = peval c x - peval d x.
Proof.
  induction c as [|a c IH]; intros [|b d] x L; try discriminate L; [simpl; ring|].
  cbn [pminus peval]. rewrite IH by (simpl in L; lia). ring.
Qed.

Lemma pminus_length : forall c d, length c = length d -> length (pminus c d) = length c.
Proof.
  induction c as [|a c IH]; intros [|b d] L; try discriminate L; [reflexivity|].
  simpl. rewrite IH by (simpl in L; lia). reflexivity.
Qed.

Lemma pminus_zero : forall c d, length c = length d -> Forall (fun a => a = 0) (pminus c d) -> c = d.
Proof.
  induction c as [|a c IH]; intros [|b d] L H; try discriminate L; [reflexivity|].
  inversion H as [|? ? P Q]; subst. f_equal; [lra|]. apply IH; [simpl in L; lia|exact Q].
Qed.

(** ** The fit *)

Lemma combine_design : forall xs p (d : nat) c, length c = S d ->
  Forall (fun q => dot (fst q) c = snd q) (combine (design xs d) (map (peval p) xs)) <->
  Forall (fun x => peval c x = peval p x) xs.
Proof.
  intros xs p d c L. unfold design.
  induction xs as [|x xs IH]; [split; constructor|].
  cbn [map combine].
  assert (E : dot (map (fun j => x ^ j) (seq 0 (S d))) c = peval c x).
  { rewrite <- L, dot_powers. simpl. ring. }
  split; intros H; inversion H as [|? ? P Q]; subst; constructor.
  - exact (eq_trans (eq_sym E) P).
  - apply IH. exact Q.
  - exact (eq_trans E P).
  - apply IH. exact Q.
Qed.

(** C46.  For every least-squares solver, every polynomial of at most the
    fitted degree and every set of at least degree + 1 sampling points, the fit
    reproduces the polynomial at every sampling point; if degree + 1 of the
    points are distinct, it returns the polynomial's coefficients. *)
Theorem C46_fit : forall solve xs p degree,
  least_squares solve -> length p = S degree -> (S degree <= length xs)%nat ->
  let c := fit_polynomial solve xs (map (peval p) xs) degree in
  length c = S degree /\ (forall x, In x xs -> peval c x = peval p x) /\
  (forall pts, NoDup pts -> incl pts xs -> length pts = S degree -> c = p).
Proof.
  intros solve xs p degree LS LP LX c.
  assert (LA : length (design xs degree) = length xs) by (unfold design; apply map_length).
  destruct (LS (S degree) (design xs degree) (map (peval p) xs)) as [LC MIN].
  - rewrite LA. exact LX.
  - rewrite LA. apply map_length.
  - unfold design. apply Forall_map, Forall_forall. intros x _.
    rewrite map_length. apply seq_length.
  - fold (fit_polynomial solve xs (map (peval p) xs) degree) in LC, MIN. fold c in LC, MIN.
    assert (Z : residual (design xs degree) (map (peval p) xs) c = 0).
    { apply Rle_antisym; [|apply residual_nonneg].
      assert (R0 : residual (design xs degree) (map (peval p) xs) p = 0).
      2:{ apply Rle_trans with (residual (design xs degree) (map (peval p) xs) p); [|lra].
          apply MIN; [exact LP|]. intros c' _. rewrite R0. apply residual_nonneg. }
      apply residual_exact. apply combine_design; [exact LP|].
      apply Forall_forall. reflexivity. }
    assert (V : forall x, In x xs -> peval c x = peval p x).
    { apply Forall_forall. apply (combine_design xs p degree c LC). apply residual_zero. exact Z. }
    split; [exact LC|]. split; [exact V|].
    intros pts N I L. apply pminus_zero; [lia|].
    apply (roots_zero pts).
    + exact N.
    + rewrite pminus_length; lia.
    + intros x X. rewrite pminus_eval by lia. rewrite (V x (I x X)). ring.
Qed.

(** ** The biases *)

Lemma opt_all_map : forall (A B : Type) (f : A -> option B) l ys,
  opt_all (map f l) = Some ys -> Forall2 (fun a b => f a = Some b) l ys.
Proof.
  intros A B f. induction l as [|a l IH]; intros ys H; cbn [map opt_all] in H.
  - injection H as <-. constructor.
  - destruct (f a) as [b|] eqn:E; [|discriminate H]. cbn [bind] in H.
    destruct (opt_all (map f l)) as [t|]; [|discriminate H]. cbn [bind] in H.
    injection H as <-. constructor; [exact E|]. apply IH. reflexivity.
Qed.

(** For every mean redshift whose range lies inside the distance tables: if the
    bias is, on its table, a polynomial of at most the fitted degree in the
    comoving distance from the middle of the range, then the fitted polynomial
    gives back the bias at every redshift of the table. *)
Theorem C46_bias : forall solve F sep degree z_means l i z_mean co,
  least_squares solve ->
  bias_coefficients solve F sep degree z_means = Done l ->
  nth_error z_means i = Some z_mean -> nth_error l i = Some (Some co) ->
  (S degree <= length (bias_z F))%nat ->
  exists s_max z_min z_max d_mid,
    hd_error (rev sep) = Some s_max /\
    (exists d, chi F z_mean = Some d /\
       z_of_chi F (d - s_max) = Some z_min /\ z_of_chi F (d + s_max) = Some z_max) /\
    chi F ((z_min + z_max) / 2) = Some d_mid /\
    co_zmin co = z_min /\ co_zmax co = z_max /\ co_degree co = degree /\
    forall p, length p = S degree ->
      (forall z d, In z (bias_z F) -> chi F z = Some d -> bias_at F z = peval p (d - d_mid)) ->
      length (co_list co) = S degree /\
      forall z d, In z (bias_z F) -> chi F z = Some d ->
        peval (co_list co) (d - d_mid) = bias_at F z.
Proof.
  intros solve F sep degree z_means l i z_mean co LS H Z C LB.
  unfold bias_coefficients in H.
  destruct z_means as [|z0 zs]; [destruct i; discriminate Z|].
  destruct (rev sep) as [|s_max rest]; [discriminate H|].
  assert (HL : l = map (fit_at solve F s_max degree) (z0 :: zs))
    by (injection H; intros; symmetry; assumption).
  subst l. clear H. rewrite nth_error_map, Z in C. cbn [option_map] in C. injection C as C.
  unfold fit_at in C.
  destruct (chi F z_mean) as [d|] eqn:E1; [|discriminate C]. cbn [bind] in C.
  destruct (z_of_chi F (d - s_max)) as [z_min|] eqn:E2; [|discriminate C]. cbn [bind] in C.
  destruct (z_of_chi F (d + s_max)) as [z_max|] eqn:E3; [|discriminate C]. cbn [bind] in C.
  destruct (chi F ((z_min + z_max) / 2)) as [d_mid|] eqn:E4; [|discriminate C]. cbn [bind] in C.
  destruct (opt_all _) as [xs|] eqn:E5; [|discriminate C]. cbn [bind] in C.
  injection C as C. subst co.
  exists s_max, z_min, z_max, d_mid.
  split; [reflexivity|]. split; [exists d; auto|]. split; [exact E4|].
  split; [reflexivity|]. split; [reflexivity|]. split; [reflexivity|].
  cbn [co_list]. intros p LP HB.
  apply opt_all_map in E5.
  assert (LX : length xs = length (bias_z F)) by (clear - E5; induction E5; simpl; congruence).
  assert (YS : map (bias_at F) (bias_z F) = map (peval p) xs).
  { clear - E5 HB. induction E5 as [|z x zs xs E _ IH]; [reflexivity|].
    cbn [map]. f_equal.
    - destruct (chi F z) as [dz|] eqn:K; [|discriminate E]. injection E as <-.
      apply HB; [left; reflexivity|exact K].
    - apply IH. intros y dy Y D. apply HB; [right; exact Y|exact D]. }
  rewrite YS.
  destruct (C46_fit solve xs p degree LS LP) as [L [V _]]; [lia|].
  split; [exact L|].
  intros z dz I D. rewrite (HB z dz I D). apply V.
  clear - E5 I D. induction E5 as [|y x ys xs E _ IH]; [destruct I|].
  destruct I as [->|I]; [left|right; apply IH; exact I].
  rewrite D in E. injection E as E. congruence.
Qed.

(** ** What is false *)

(** A bias linear in the redshift is in general not reproduced by a fit of
    degree one: the fit is in the distance.  Witness: three redshifts whose
    distances are not proportional to them. *)
Definition bent : fit_input :=
  mkFit (fun z => Some (z * z)) (fun d => Some (sqrt d)) [0; 1; 2] (fun z => z).

Theorem C46_redshift_refuted : forall solve, least_squares solve ->
  exists l co, bias_coefficients solve bent [0] 1 [1] = Done l /\
    nth_error l 0 = Some (Some co) /\
    ~ (forall z d, In z (bias_z bent) -> chi bent z = Some d ->
         peval (co_list co) (d - 1) = bias_at bent z).
Proof.
  intros solve LS. unfold bias_coefficients. cbn [rev app map].
  unfold fit_at. cbn [chi bent bind z_of_chi bias_z map opt_all].
  replace (1 * 1 - 0) with 1 by ring. replace (1 * 1 + 0) with 1 by ring.
  rewrite sqrt_1. replace ((1 + 1) / 2 * ((1 + 1) / 2)) with 1 by field.
  eexists. eexists. split; [reflexivity|]. split; [reflexivity|].
  cbn [co_list]. unfold fit_polynomial.
  intros H.
  match type of H with forall z d, _ -> _ -> peval ?c _ = _ => set (q := c) in H end.
  assert (L : length q = 2%nat).
  { apply LS; [simpl; lia|reflexivity|].
    repeat (constructor; [reflexivity|]). constructor. }
  pose proof (H 0 (0 * 0) (or_introl eq_refl) eq_refl) as A.
  pose proof (H 1 (1 * 1) (or_intror (or_introl eq_refl)) eq_refl) as B.
  pose proof (H 2 (2 * 2) (or_intror (or_intror (or_introl eq_refl))) eq_refl) as C.
  destruct q as [|q0 [|q1 [|]]]; try discriminate L.
  cbn [peval bias_at bent] in A, B, C. lra.
Qed.

(** Without separations (they are not needed to compute a background) the
    routine reads outside the array. *)
Theorem C46_no_separations_refuted : forall solve F degree z zs,
  bias_coefficients solve F [] degree (z :: zs) = Undefined.
Proof. reflexivity. Qed.

(** If the largest separation exceeds the distance of a mean redshift, its
    coefficients are not numbers, whatever the bias. *)
Theorem C46_near_refuted : forall solve F s degree z d,
  chi F z = Some d -> d < s -> (forall y, y < 0 -> z_of_chi F y = None) ->
  bias_coefficients solve F [s] degree [z] = Done [None].
Proof.
  intros solve F s degree z d C L N. unfold bias_coefficients. cbn [rev app map].
  unfold fit_at. rewrite C. cbn [bind]. rewrite N by lra. reflexivity.
Qed.

(** ** The hypotheses are met: a least-squares solver exists, and so do biases
    as in the theorem, here a quadratic one. *)
Lemma least_squares_exists : exists solve, least_squares solve.
Proof.
  set (best := fun k A y c => length c = k /\
         forall c', length c' = k -> residual A y c <= residual A y c').
  exists (fun k A y =>
    if excluded_middle_informative (exists c, best k A y c)
    then epsilon (inhabits []) (best k A y) else repeat 0 k).
  intros k A y _ _ _.
  destruct (excluded_middle_informative (exists c, best k A y c)) as [E|E].
  - destruct (epsilon_spec (inhabits []) (best k A y) E) as [L M].
    split; [exact L|]. intros c LC _. apply M. exact LC.
  - split; [apply repeat_length|]. intros c LC M. exfalso. apply E. exists c. split; assumption.
Qed.

Definition flat : fit_input :=
  mkFit (fun z => Some z) (fun d => Some d) [0; 1; 2; 3] (fun z => 2 + 3 * (z - 1) + (z - 1) ^ 2).
Example C46_nonvacuous :
  (forall z d, In z (bias_z flat) -> chi flat z = Some d ->
     bias_at flat z = peval [2; 3; 1] (d - 1)) /\
  NoDup [0; 1; 2] /\ incl [0; 1; 2] (bias_z flat) /\
  (exists solve, least_squares solve).
Proof.
  split; [|split; [|split]].
  - intros z d _ H. injection H as <-. cbn [bias_at flat peval]. ring.
  - repeat constructor; simpl; intros H; repeat destruct H as [H|H]; try lra; contradiction.
  - intros x H. cbn [bias_z flat]. simpl in *. tauto.
  - exact least_squares_exists.
Qed.

Print Assumptions C46_fit.
Print Assumptions C46_bias.
Print Assumptions C46_redshift_refuted.
Print Assumptions C46_no_separations_refuted.
Print Assumptions C46_near_refuted.
