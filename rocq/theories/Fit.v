(** * Polynomial fits of the biases: [coffe_fit_polynomial] (background.c:37-80)
    and [coffe_get_bias_coefficients] (background.c:83-146)

    Over the reals.  The least-squares solver [gsl_multifit_linear] is a
    parameter; splines are parameters too.  A spline asked for a value outside
    its table gives NaN (GSL's error handler is off), here [None]. *)
From Coq Require Import Reals List.
From Verif Require Import Numeric.
Import ListNotations.
Open Scope R_scope.

Definition dot (row c : list R) : R :=
  fold_right Rplus 0 (map (fun p => fst p * snd p) (combine row c)).

(** [gsl_matrix_set(X, i, j, pow(xi, j))], background.c:52-60 *)
Definition design (xs : list R) (degree : nat) : list (list R) :=
  map (fun x => map (fun j => x ^ j) (seq 0 (S degree))) xs.

(** [gsl_multifit_linear], with the number of parameters.  gsl_multifit_linear, called at background.c:65. *)
Definition solver := nat -> list (list R) -> list R -> list R.

(** [coffe_fit_polynomial]: the coefficients, degree + 1 of them.  coffe_fit_polynomial, background.c:37-80. *)
Definition fit_polynomial (solve : solver) (xs ys : list R) (degree : nat) : list R :=
  solve (S degree) (design xs degree) ys.

(** What [coffe_get_bias_coefficients] reads: the two splines of the background,
    and the table of the bias.  coffe_get_bias_coefficients, background.c:83-190. *)
Record fit_input := mkFit {
  chi : R -> option R;              (* comoving_distance *)
  z_of_chi : R -> option R;         (* z_as_chi *)
  bias_z : list R;                  (* bias->spline->x *)
  bias_at : R -> R                  (* coffe_interp_spline(bias, z) *)
}.

(** coffe_get_bias_coefficients, background.c:83-190. *)
Record coefficients := mkCoefficients {
  co_degree : nat; co_zmin : R; co_zmax : R; co_list : list R
}.

Definition bind {A B : Type} (o : option A) (k : A -> option B) : option B :=
  match o with Some a => k a | None => None end.

Fixpoint opt_all {A : Type} (l : list (option A)) : option (list A) :=
  match l with
  | [] => Some []
  | o :: t => bind o (fun a => bind (opt_all t) (fun t => Some (a :: t)))
  end.

(** One iteration of the loop over the mean redshifts, background.c:105-143.
    [None]: the coefficients are NaN. *)
Definition fit_at (solve : solver) (F : fit_input) (s_max : R) (degree : nat) (z_mean : R)
    : option coefficients :=
  bind (chi F z_mean) (fun d =>
  bind (z_of_chi F (d - s_max)) (fun z_min =>
  bind (z_of_chi F (d + s_max)) (fun z_max =>
  let z_mid := (z_min + z_max) / 2 in
  bind (chi F z_mid) (fun d_mid =>
  bind (opt_all (map (fun z => bind (chi F z) (fun dz => Some (dz - d_mid))) (bias_z F))) (fun xs =>
  let ys := map (bias_at F) (bias_z F) in
  Some (mkCoefficients degree z_min z_max (fit_polynomial solve xs ys degree))))))).

(** [sep[sep_size - 1]]: undefined when there are no separations.
    coffe_get_bias_coefficients, background.c:83-190. *)
Definition bias_coefficients (solve : solver) (F : fit_input) (sep : list R) (degree : nat)
    (z_means : list R) : res (list (option coefficients)) :=
  match z_means, rev sep with
  | [], _ => Done []
  | _, [] => Undefined
  | _, s_max :: _ => Done (map (fit_at solve F s_max degree) z_means)
  end.
