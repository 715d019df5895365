(** * The fragment of C used by src/functions.c

    A small language of expressions and statements, just large enough for the
    bodies of [functions_nonintegrated], [functions_single_integrated] and
    [functions_double_integrated] (src/functions.c:89-4016), with its meaning.

    Simplifications: [double] is the real line, so rounding, overflow and NaN
    are absent and [gsl_finite] (functions.c:1429, 3425, 3989) always holds; a
    spline (coffe_interp_spline, src/common.c:704-719) is a total function; the
    pointer returned by [coffe_find_integral] (src/integrals.c:140-169) may be
    NULL, and using it then is the outcome [Null]. *)
From Coq Require Import Reals ZArith Bool List Lia Lra.
Import ListNotations.
From Verif Require Import Integrals.

(** The ten members of [par->correlation_contrib], src/common.h (struct
    coffe_correlation_contributions). *)
Inductive contrib := den | rsd | d1 | d2 | g1 | g2 | g3 | len | g4 | g5.

(** The other switches read by functions.c: [pk_nonlinear] is
    [par->pk_type != COFFE_PK_LINEAR], [midpoint] is
    [par->midpoint_approximation], [output_multipoles] is
    [par->output_type == MULTIPOLES]. *)
Inductive flag :=
  | only_cross | flatsky_local | flatsky_local_nonlocal | flatsky_nonlocal
  | b_derivative | f_derivative | b_tilde_derivative | f_tilde_derivative
  | divergent | pk_nonlinear | midpoint | output_multipoles.

(** Members of [coffe_background_t] and [coffe_parameters_t] that are splines.
    The splines of background.h:23-45 and common.h:340-550 that functions.c:89-4253 evaluates. *)
Inductive spline :=
  | bg_comoving_distance | bg_z_as_chi | bg_f | bg_conformal_Hz | bg_G1 | bg_G2
  | bg_a | bg_D1
  | par_galaxy_bias1 | par_galaxy_bias2
  | par_magnification_bias1 | par_magnification_bias2
  | par_evolution_bias1 | par_evolution_bias2.

(** Members of one integral (src/common.h, struct coffe_integral_t): two
    splines in one variable and two in two variables. *)
Inductive table1 := result | renormalization_zero_separation.
Inductive table2 := result2d | renormalization.

(** The parameters and local variables of the three functions.  [res] is the
    variable [result]; [x_], [x_1], [x_2] are [x], [x1], [x2].
    The language of the functions of functions.c:89-4253. *)
Inductive var :=
  | z_mean | mu | sep | x_ | x_1 | x_2 | res
  | chi_mean | chi1 | chi2 | costheta | lambda1 | lambda2
  | z1 | z2 | z1_const | z2_const
  | f1 | f2 | fmean | curlyH1 | curlyH2 | curlyH_mean
  | b1 | b2 | bz_mean1 | bz_mean2 | G1 | G2 | Gz_mean1 | Gz_mean2
  | s1 | s2 | sz_mean1 | sz_mean2 | fevo1 | fevo2 | a1 | a2
  | r21 | r22 | r2 | ren | ren1 | ren2.

Scheme Equality for var.

Inductive expr :=
  | V (v : var)
  | Num (n : Z)                       (* a literal with an integral value *)
  | Dec (n : Z) (d : positive)        (* any other literal *)
  | Par_h | Omega0_cdm | Omega0_baryon | H0 | Pi
  | Plus (a b : expr) | Minus (a b : expr) | Times (a b : expr)
  | Over (a b : expr) | Neg (a : expr)
  | Pow (a : expr) (n : nat) | Sqrt (a : expr) | Fabs (a : expr)
  | Leg (n : nat) (a : expr)          (* gsl_sf_legendre_P1, _P2, _Pl(4, .) *)
  | Spl (f : spline) (a : expr)       (* coffe_interp_spline(&..->f, a) *)
  | Tab1 (k : key) (t : table1) (a : expr)
  | Tab2 (k : key) (t : table2) (a b : expr).

(** The language of the functions of functions.c:89-4253. *)
Inductive cond :=
  | Con (c : contrib) | Flag (f : flag) | Finite
  | Not (c : cond) | And (c d : cond) | Or (c d : cond)
  | Lt (a b : expr) | Eq (a b : expr).

Inductive stmt :=
  | Set_ (v : var) (e : expr)         (* v = e, also as a declaration *)
  | AddTo (e : expr)                  (* result += e *)
  | If (c : cond) (s t : list stmt)
  | Return (e : expr)
  | Exit.                             (* exit(EXIT_FAILURE) *)

Declare Scope c_scope.
Delimit Scope c_scope with c.
Bind Scope c_scope with expr.
Notation "a + b" := (Plus a b) : c_scope.
Notation "a - b" := (Minus a b) : c_scope.
Notation "a * b" := (Times a b) : c_scope.
Notation "a / b" := (Over a b) : c_scope.
Notation "- a" := (Neg a) : c_scope.
Notation "# n" := (Num n) (at level 0, n at level 0, format "# n") : c_scope.
Coercion V : var >-> expr.

Open Scope R_scope.

(** Everything outside the function: the parameters, the splines, the contents
    of the integral tables and which integrals the array holds.
    The pointers par, bg and integral passed to functions.c:89-4253. *)
Record env := mkEnv {
  con : contrib -> bool;
  sw : flag -> bool;
  spl : spline -> R -> R;
  tab1 : key -> table1 -> R -> R;
  tab2 : key -> table2 -> R -> R -> R;
  present : key -> bool;
  par_h : R; omega_cdm : R; omega_baryon : R }.

(** The local variables of functions.c:89-4253. *)
Definition store := var -> R.
Definition upd (s : store) (v : var) (r : R) : store :=
  fun w => if var_beq w v then r else s w.

(** Legendre polynomials (gsl_sf_legendre_P1, _P2, _Pl) by Bonnet's recurrence.
    gsl_sf_legendre_Pl, called in functions.c:89-4253. *)
Fixpoint legendre (n : nat) (u : R) : R :=
  match n with
  | O => 1
  | S m =>
      match m with
      | O => u
      | S m' => ((2 * INR m + 1) * u * legendre m u - INR m * legendre m' u) / INR n
      end
  end.

(** COFFE_H0, src/common.h: 1/2997.92458 (in h/Mpc). *)
Definition coffe_H0 : R := 100000 / 299792458.

Fixpoint eval (E : env) (s : store) (e : expr) : R :=
  match e with
  | V v => s v
  | Num n => IZR n
  | Dec n d => IZR n / IZR (Zpos d)
  | Par_h => par_h E
  | Omega0_cdm => omega_cdm E
  | Omega0_baryon => omega_baryon E
  | H0 => coffe_H0
  | Pi => PI
  | Plus a b => eval E s a + eval E s b
  | Minus a b => eval E s a - eval E s b
  | Times a b => eval E s a * eval E s b
  | Over a b => eval E s a / eval E s b
  | Neg a => - eval E s a
  | Pow a n => eval E s a ^ n
  | Sqrt a => sqrt (eval E s a)
  | Fabs a => Rabs (eval E s a)
  | Leg n a => legendre n (eval E s a)
  | Spl f a => spl E f (eval E s a)
  | Tab1 k t a => tab1 E k t (eval E s a)
  | Tab2 k t a b => tab2 E k t (eval E s a) (eval E s b)
  end.

(** The integrals an expression looks up.
    coffe_find_integral, integrals.c:140-170, as called in functions.c:89-4253. *)
Fixpoint keys_e (e : expr) : list key :=
  match e with
  | V _ | Num _ | Dec _ _ | Par_h | Omega0_cdm | Omega0_baryon | H0 | Pi => []
  | Plus a b | Minus a b | Times a b | Over a b => keys_e a ++ keys_e b
  | Neg a | Pow a _ | Sqrt a | Fabs a | Leg _ a | Spl _ a => keys_e a
  | Tab1 k _ a => k :: keys_e a
  | Tab2 k _ a b => k :: keys_e a ++ keys_e b
  end.

(** Comparisons of doubles in functions.c:89-4253. *)
Definition Rltb (a b : R) : bool := if Rlt_dec a b then true else false.
Definition Reqb (a b : R) : bool := if Req_EM_T a b then true else false.

Fixpoint holds (E : env) (s : store) (c : cond) : bool :=
  match c with
  | Con x => con E x
  | Flag f => sw E f
  | Finite => true
  | Not c => negb (holds E s c)
  | And c d => holds E s c && holds E s d
  | Or c d => holds E s c || holds E s d
  | Lt a b => Rltb (eval E s a) (eval E s b)
  | Eq a b => Reqb (eval E s a) (eval E s b)
  end.

(** How a piece of code ends: falls through, returns, calls [exit], or uses a
    null pointer.  C semantics of the statements of functions.c:89-4253. *)
Inductive outcome := Go (s : store) | Ret (r : R) | Exits | Null.

(** coffe_find_integral, integrals.c:140-170, as called in functions.c:89-4253. *)
Definition use (E : env) (e : expr) (o : outcome) : outcome :=
  if forallb (present E) (keys_e e) then o else Null.

Section Exec.
Variable E : env.
(** C semantics of the statements of functions.c:89-4253. *)
Fixpoint exec1 (s : store) (c : stmt) : outcome :=
  match c with
  | Set_ v e => use E e (Go (upd s v (eval E s e)))
  | AddTo e => use E e (Go (upd s res (s res + eval E s e)))
  | Return e => use E e (Ret (eval E s e))
  | Exit => Exits
  | If c p q =>
      (fix go (s : store) (l : list stmt) : outcome :=
         match l with
         | [] => Go s
         | c :: l => match exec1 s c with Go s' => go s' l | o => o end
         end) s (if holds E s c then p else q)
  end.

Fixpoint exec (s : store) (l : list stmt) : outcome :=
  match l with
  | [] => Go s
  | c :: l => match exec1 s c with Go s' => exec s' l | o => o end
  end.
End Exec.

Lemma exec1_If : forall E s c p q,
  exec1 E s (If c p q) = exec E s (if holds E s c then p else q).
Proof.
  intros. simpl. generalize (if holds E s c then p else q). intros l.
  revert s. induction l as [|c0 l IH]; intros s; simpl; [reflexivity|].
  destruct (exec1 E s c0); auto.
Qed.

Lemma exec_app : forall E l1 l2 s,
  exec E s (l1 ++ l2) =
  match exec E s l1 with Go s' => exec E s' l2 | o => o end.
Proof.
  induction l1 as [|c l1 IH]; intros; simpl; [reflexivity|].
  destruct (exec1 E s c); auto.
Qed.

(** Induction over statements. *)
Section StmtInd.
Variable P : stmt -> Prop.
Variable Q : list stmt -> Prop.
Hypothesis HS : forall v e, P (Set_ v e).
Hypothesis HA : forall e, P (AddTo e).
Hypothesis HI : forall c p q, Q p -> Q q -> P (If c p q).
Hypothesis HR : forall e, P (Return e).
Hypothesis HE : P Exit.
Hypothesis HN : Q [].
Hypothesis HC : forall c l, P c -> Q l -> Q (c :: l).
(** Specification or proof only; nothing in the code. *)
Fixpoint stmt_ind2 (c : stmt) : P c :=
  match c with
  | Set_ v e => HS v e
  | AddTo e => HA e
  | Return e => HR e
  | Exit => HE
  | If c p q =>
      HI c p q
        ((fix go l : Q l := match l with [] => HN | c :: l => HC c l (stmt_ind2 c) (go l) end) p)
        ((fix go l : Q l := match l with [] => HN | c :: l => HC c l (stmt_ind2 c) (go l) end) q)
  end.
Fixpoint stmts_ind2 (l : list stmt) : Q l :=
  match l with [] => HN | c :: l => HC c l (stmt_ind2 c) (stmts_ind2 l) end.
End StmtInd.
