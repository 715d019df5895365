(** * The background: [src/background.c]

    [coffe_background_init] (background.c:301-696) with its integrands and its
    growth equation, over the real numbers.  What the code gets from GSL is a
    parameter: the one-dimensional quadrature and the ODE integrator.  The
    linear interpolation of the auxiliary tables is written out; splines of the
    final tables are not evaluated here. *)
From Coq Require Import Reals List Lra Lia.
From Verif Require Import Numeric.
Import ListNotations.
Open Scope R_scope.

(** The parameters read, [coffe_parameters_t] of common.h. *)
Record cosmo := mkCosmo {
  om_cdm : R; om_baryon : R; om_gamma : R; om_de : R;
  hub : R; w0 : R; wa : R
}.

(** The four bias splines read by the G functions (background.c:504-536). *)
Record biases := mkBiases { mag1 : R -> R; mag2 : R -> R; evo1 : R -> R; evo2 : R -> R }.

(** [COFFE_H0], common.h: 1/2997.92458 *)
Definition H0 : R := 100000 / 299792458.

(** External routines.  [x_quad f a b]: [coffe_integrate_1d_prec_gsl] or
    [_double_exponential], whichever the configuration selects.
    [x_evolve rhs a y b]: the repeated [gsl_odeiv2_evolve_apply] of
    background.c:474-480, from [a] with values [y] up to [b].  The step size and
    the work space the code carries from one row to the next are not modelled. *)
Record external := mkExternal {
  x_quad : (R -> R) -> R -> R -> R;
  x_evolve : (R -> R * R -> R * R) -> R -> R * R -> R -> R * R
}.

(** ** Linear interpolation ([gsl_interp_linear]).  The lookup is that of C16;
    outside the table GSL returns NaN, here the end segments are prolonged, and
    the code stays inside (see [Props_Background]). *)
(** gsl_interp_linear behind coffe_interp_spline, common.c:704-710. *)
Definition segment (p q : R * R) (x : R) : R :=
  snd p + (x - fst p) / (fst q - fst p) * (snd q - snd p).
Fixpoint linear (tab : list (R * R)) (x : R) : R :=
  match tab with
  | [] => 0
  | [p] => snd p
  | p :: ((q :: rest) as t) =>
      match rest with
      | [] => segment p q x
      | _ => if Rlt_dec x (fst q) then segment p q x else linear t x
      end
  end.

(** [coffe_dark_energy_eos], common.c:678-685 *)
Definition eos (c : cosmo) (z : R) : R := w0 c + wa c * z / (1 + z).

(** [integrand_w], background.c:255-262; [w] is the spline of the table. *)
Definition integrand_w (w : R -> R) (z : R) : R := (1 + w z) / (1 + z).

(** [integrand_x], background.c:268-276 *)
Definition integrand_x (w : R -> R) (a : R) : R := w (1 / a - 1) / a.

(** [E(z)^2]: the sum under the square roots of background.c:289-292 and 458-461. *)
Definition e2 (c : cosmo) (W z : R) : R :=
  (om_cdm c + om_baryon c) * (1 + z) ^ 3 + om_gamma c * (1 + z) ^ 4 + om_de c * W.

(** [integrand_comoving], background.c:283-295; [pow(x, 1./2)] is [sqrt x]. *)
Definition integrand_comoving (c : cosmo) (wint : R -> R) (z : R) : R :=
  1 / sqrt (e2 c (wint z) z).

(** The auxiliary tables, background.c:336-419: 16385 redshifts up to 100. *)
Definition aux_bins : nat := Nat.pow 2 14.
Definition aux_z (i : nat) : R := 100 * INR i / INR aux_bins.
Definition table (f : R -> R) : list (R * R) :=
  map (fun i => (aux_z i, f (aux_z i))) (seq 0 (S aux_bins)).
Definition w_spline (c : cosmo) : R -> R := linear (table (eos c)).
Definition wint_at (X : external) (w : R -> R) (z : R) : R :=
  exp (3 * x_quad X (integrand_w w) 0 z).
Definition wint_spline (X : external) (c : cosmo) : R -> R :=
  linear (table (wint_at X (w_spline c))).
Definition xint_at (X : external) (c : cosmo) (w : R -> R) (z : R) : R :=
  (om_cdm c + om_baryon c) / (1 - (om_cdm c + om_baryon c))
  * (if Req_EM_T z 0 then 1 else exp (- 3 * x_quad X (integrand_x w) (1 / (1 + z)) 1)).
Definition xint_spline (X : external) (c : cosmo) : R -> R :=
  linear (table (xint_at X c (w_spline c))).

(** [growth_rate_ode], background.c:196-213: the right-hand side, as a function
    of the values of the two splines at [z = 1/a - 1]. *)
Definition growth_rhs (w x a : R) (y : R * R) : R * R :=
  (snd y,
   - 3 / 2 * (1 - w / (1 + x)) * snd y / a + 3 / 2 * x / (1 + x) * fst y / a ^ 2).
Definition growth_ode (w x : R -> R) (a : R) (y : R * R) : R * R :=
  growth_rhs (w (1 / a - 1)) (x (1 / a - 1)) a y.

(** [growth_rate_jac], background.c:220-248: the matrix [dfdy], rows then columns. *)
Definition growth_jac (w x a : R) : (R * R) * (R * R) :=
  ((0, 1), (3 / 2 / a ^ 2 * (x / (1 + x)), - 3 / a / 2 / (1 - w / (1 + x)))).

(** One row of the table of background.c:443-537 (before the normalisation of
    [D1]).  [z = 15.*i/(double)(bins - 1)]. *)
Record brow := mkRow {
  b_z : R; b_a : R; b_H : R; b_cH : R; b_cHp : R; b_D1 : R; b_f : R;
  b_chi : R; b_G1 : R; b_G2 : R
}.

Definition row_z (bins i : nat) : R := 15 * INR i / INR (bins - 1).

Definition hubble_rate (c : cosmo) (W z : R) : R := sqrt (e2 c W z) * hub c * H0.

(** [conformal_Hz_prime], background.c:463-472 *)
Definition conformal_prime (c : cosmo) (w W z : R) : R :=
  - ((1 + z) ^ 3 * (2 * (1 + z) * om_gamma c + (om_cdm c + om_baryon c))
     + (1 + 3 * w) * om_de c * W) / (1 + z) ^ 2 / 2 * (hub c * H0) ^ 2.

(** background.c:504-536 *)
Definition g_function (mag evo : R -> R) (cHp cH chi z : R) : R :=
  if Rlt_dec (1 / 10000000000) z
  then cHp / cH ^ 2 + (2 - 5 * mag z) / (chi * cH) + 5 * mag z - evo z
  else 0.

Definition brow_at (X : external) (c : cosmo) (b : biases) (bins i : nat) : brow :=
  let z := row_z bins i in
  let w := w_spline c z in
  let wint := wint_spline X c z in
  let a := 1 / (1 + z) in
  let H := hubble_rate c wint z in
  let cH := a * H in
  let cHp := conformal_prime c w wint z in
  let y := if Rlt_dec (5 / 100) a
           then x_evolve X (growth_ode (w_spline c) (xint_spline X c)) (5 / 100) (5 / 100, 1) a
           else (5 / 100, 1) in
  let chi := x_quad X (integrand_comoving c (wint_spline X c)) 0 z / (hub c * H0) in
  mkRow z a H cH cHp (fst y) (snd y * a / fst y) chi
    (g_function (mag1 b) (evo1 b) cHp cH chi z)
    (g_function (mag2 b) (evo2 b) cHp cH chi z).

(** background.c:538-543: [D1[i] /= D1[0]]. *)
Definition normalise (D10 : R) (r : brow) : brow :=
  mkRow (b_z r) (b_a r) (b_H r) (b_cH r) (b_cHp r) (b_D1 r / D10) (b_f r)
    (b_chi r) (b_G1 r) (b_G2 r).

(** The smallest table GSL accepts for each interpolation method
    ([enum coffe_interp1d_type], common.h; sizes from GSL's documentation). *)
Definition min_size (method : nat) : nat :=
  match method with
  | 1 => 2 | 2 => 3 | 3 => 3 | 4 => 2 | 6 => 5 | 7 => 3
  | _ => 5
  end%nat.

Fixpoint increasing (l : list R) : Prop :=
  match l with
  | x :: ((y :: _) as t) => x < y /\ increasing t
  | _ => True
  end.
Definition increasing_dec : forall l, {increasing l} + {~ increasing l}.
Proof.
  induction l as [|x [|y l] IH].
  - left. exact I.
  - left. exact I.
  - destruct (Rlt_dec x y) as [A|A]; [destruct IH as [B|B]|].
    + left. split; assumption.
    + right. intros [_ C]. exact (B C).
    + right. intros [C _]. exact (A C).
Defined.

(** [coffe_background_init]: the rows of which the splines are made.  With no
    bins, [D1[0]] is read out of bounds (background.c:540).  With fewer bins
    than the interpolation method needs, [gsl_spline_alloc] returns NULL (the
    error handler is off) and [gsl_spline_init] dereferences it.  The inverse
    spline needs increasing distances: otherwise [gsl_spline_init] leaves it
    uninitialised. *)
Definition background_init (X : external) (c : cosmo) (b : biases) (bins method : nat)
    : res (list brow) :=
  let rows := map (brow_at X c b bins) (seq 0 bins) in
  match rows with
  | [] => Undefined
  | r0 :: _ =>
      if Nat.ltb bins (min_size method) then Undefined
      else if increasing_dec (map b_chi rows)
      then Done (map (normalise (b_D1 r0)) rows)
      else Undefined
  end.
