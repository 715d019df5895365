(** * Small numerical helpers of src/common.c, src/covariance.c and src/utils.c *)
From Coq Require Import ZArith Reals List Lia Lra Bool Arith SpecFloat.
From Verif Require Import F64 Arrays.
Import ListNotations.
Open Scope nat_scope.

(** Outcome of a C function: a value, [exit(EXIT_FAILURE)], or undefined behaviour
    (access outside an array, or use of a value never written).
    C semantics: how a call of a function of common.c ends. *)
Inductive res (A : Type) := Done (x : A) | Exited | Undefined.
Arguments Done {A}. Arguments Exited {A}. Arguments Undefined {A}.
Definition of_opt {A} (o : option A) : res A := match o with Some x => Done x | None => Undefined end.

(** ** coffe_generate_range, common.c:1181-1203.
    [result[i] = xmin + (xmax - xmin) * i / steps], once with real arithmetic and
    once with binary64 arithmetic ([i] and [steps] are converted to double). *)
Definition range_value (xmin xmax : R) (steps i : nat) : R :=
  (xmin + (xmax - xmin) * INR i / INR steps)%R.
Definition generate_range (xmin xmax : R) (steps : nat) : res (list (option R)) :=
  if Rle_dec xmax xmin then Exited
  else of_opt (for_ steps (fun i a => wr a i (Some (range_value xmin xmax steps i))) (fresh steps)).

Definition frange_value (xmin xmax : f64) (steps i : nat) : f64 :=
  fadd xmin (fdiv (fmul (fsub xmax xmin) (of_Z (Z.of_nat i))) (of_Z (Z.of_nat steps))).
Definition fgenerate_range (xmin xmax : f64) (steps : nat) : res (list (option f64)) :=
  if fleb xmax xmin then Exited
  else of_opt (for_ steps (fun i a => wr a i (Some (frange_value xmin xmax steps i))) (fresh steps)).

(** ** coffe_approx_equal, common.c:1206-1219, over the reals. *)
Definition approx_equal (a b rel eps : R) : bool :=
  if Req_EM_T a 0 then (if Rlt_dec (Rabs (a - b)) eps then true else false)
  else if Req_EM_T b 0 then (if Rlt_dec (Rabs (a - b)) eps then true else false)
  else if Rlt_dec (Rabs (a - b) / Rabs a) rel then true else false.

(** ** coffe_covariance_find, covariance.c:82-110. *)
Record coords := { co_z : R; co_l1 : Z; co_l2 : Z; co_s1 : R; co_s2 : R }.
Record entry := { en_co : coords; en_val : R }.
Definition co_match (c : coords) (z : R) (l1 l2 : Z) (s1 s2 : R) : bool :=
  (co_l1 c =? l1)%Z && (co_l2 c =? l2)%Z &&
  approx_equal (co_s1 c) s1 (/1000) 0 && approx_equal (co_s2 c) s2 (/1000) 0 &&
  approx_equal (co_z c) z (/1000) 0.
Fixpoint covariance_find (cov : list entry) (z : R) (l1 l2 : Z) (s1 s2 : R) : res entry :=
  match cov with
  | [] => Exited
  | e :: r => if co_match (en_co e) z l1 l2 s1 s2 then Done e else covariance_find r z l1 l2 s1 s2
  end.

(** ** copy_matrix_array, common.c:492-521.  [source] is an array of row pointers; the
    strings are "row", "column" or anything else.  The result is the array
    [*destination] points to afterwards, [None] when [*destination] is left alone. *)
Inductive copy_type := CopyRow | CopyColumn | CopyOther.
Definition rd2 {A} (m : list (list (option A))) (i j : nat) : option A :=
  match nth_error m i with Some r => rd r j | None => None end.
Definition copy_matrix {A} (source : list (list (option A))) (rows columns index : nat) (t : copy_type)
  : res (option (list (option A))) :=
  match t with
  | CopyRow =>
      if rows <=? index then Exited
      else match for_ columns (fun i d => match rd2 source index i with
                                          | Some x => wr d i (Some x) | None => None end) (fresh columns)
           with Some d => Done (Some d) | None => Undefined end
  | CopyColumn =>
      if columns <=? index then Exited
      else match for_ rows (fun i d => match rd2 source i index with
                                       | Some x => wr d i (Some x) | None => None end) (fresh rows)
           with Some d => Done (Some d) | None => Undefined end
  | CopyOther => Done None
  end.

(** ** Elementwise helpers, common.c:920-1001.
    Memory is a finite number of blocks; a pointer is a block number or NULL.  Two
    pointers may name the same block. *)
Section Elementwise.
Context {A : Type} (mul : A -> A -> A) (pow : A -> A -> A).
Definition memory := nat -> list (option A).
Definition upd (m : memory) (p : nat) (a : list (option A)) : memory :=
  fun q => if Nat.eqb q p then a else m q.

(** One assignment [out[i] = x].  As written in common.c:920-1001. *)
Definition put (m : memory) (p i : nat) (x : A) : option memory :=
  match wr (m p) i (Some x) with Some a => Some (upd m p a) | None => None end.

(** coffe_rescale_array, common.c:920-941. *)
Definition rescale_array (m : memory) (p : option nat) (size : nat) (factor : A) : res memory :=
  match p with
  | None => Exited
  | Some p => of_opt (for_ size (fun i m => match rd (m p) i with
                                            | Some x => put m p i (mul x factor) | None => None end) m)
  end.
(** coffe_multiply_array, common.c:944-970. *)
Definition multiply_array (m : memory) (out a1 a2 : option nat) (size : nat) : res memory :=
  match out, a1, a2 with
  | Some o, Some p, Some q =>
      of_opt (for_ size (fun i m => match rd (m p) i, rd (m q) i with
                                    | Some x, Some y => put m o i (mul x y) | _, _ => None end) m)
  | _, _, _ => Exited
  end.
(** coffe_multiply_power_array, common.c:973-1001. *)
Definition multiply_power_array (m : memory) (out a1 a2 : option nat) (size : nat) (power : A) : res memory :=
  match out, a1, a2 with
  | Some o, Some p, Some q =>
      of_opt (for_ size (fun i m => match rd (m p) i, rd (m q) i with
                                    | Some x, Some y => put m o i (mul x (pow y power)) | _, _ => None end) m)
  | _, _, _ => Exited
  end.
End Elementwise.

(** ** coffe_max_array_double, common.c:49-63, on binary64 numbers. *)
Definition max_array (a : list (option f64)) (size : nat) : option f64 :=
  match size with
  | O => Some S754_nan
  | S n =>
      match rd a 0 with
      | None => None
      | Some x => for_from 1 n (fun i cur => match rd a i with
                                             | Some y => Some (if fltb cur y then y else cur)
                                             | None => None end) x
      end
  end.

(** ** extrap_log_linear, utils.c:20-51.
    A double is a real number or [None], which stands for an infinity or a NaN: a
    logarithm of a number that is not positive and a division by zero give [None],
    and [None] propagates. *)
Definition xreal := option R.
Definition xln (x : xreal) : xreal :=
  match x with Some r => if Rlt_dec 0 r then Some (ln r) else None | None => None end.
Definition xdiv (x y : xreal) : xreal :=
  match x, y with Some a, Some b => if Req_EM_T b 0 then None else Some (a / b)%R | _, _ => None end.
Definition xexp (x : xreal) : xreal := option_map exp x.
Definition xadd (x y : xreal) : xreal := match x, y with Some a, Some b => Some (a + b)%R | _, _ => None end.
Definition xscale (k : Z) (x : xreal) : xreal := option_map (fun r => IZR k * r)%R x.

(** Reading the input at an index that may be negative.  utils.c:20-52. *)
Definition rdz (a : list R) (i : Z) : option R :=
  if (i <? 0)%Z then None else nth_error a (Z.to_nat i).
Definition nonpos (x : R) : bool := if Rle_dec x 0 then true else false.

Definition extrap_log_linear (fk : list R) (n_origin n_extra : nat) (large : list (option xreal))
  : option (list (option xreal)) :=
  let no := Z.of_nat n_origin in let ne := Z.of_nat n_extra in
  match rdz fk 1, rdz fk 0 with
  | Some f1, Some f0 =>
    let dln_left := xln (xdiv (Some f1) (Some f0)) in
    match for_ n_extra (fun i a =>
            wr a i (Some (if nonpos f0 then Some 0%R
                          else xexp (xadd (xln (Some f0)) (xscale (Z.of_nat i - ne) dln_left))))) large with
    | Some a1 =>
      match for_from n_extra n_origin (fun i a =>
              match rdz fk (Z.of_nat i - ne) with Some x => wr a i (Some (Some x)) | None => None end) a1 with
      | Some a2 =>
        match rdz fk (no - 1), rdz fk (no - 2) with
        | Some fl, Some fp =>
          let dln_right := xln (xdiv (Some fl) (Some fp)) in
          for_from (n_extra + n_origin) n_extra (fun i a =>
            wr a i (Some (if nonpos fl then Some 0%R
                          else xexp (xadd (xln (Some fl)) (xscale (Z.of_nat i - ne - no + 1) dln_right))))) a2
        | _, _ => None
        end
      | None => None
      end
    | None => None
    end
  | _, _ => None
  end.

(** ** twofast_window, twofast.c:54-90.  [Undefined]: [result] is used without having
    been assigned. *)
Definition rlt (a b : R) : bool := if Rlt_dec a b then true else false.
Definition rle (a b : R) : bool := if Rle_dec a b then true else false.
Definition twofast_window (value xmin xmax xleft xright : R) : res R :=
  if rle xmin xleft && rle xleft xright && rle xright xmax then
    if rlt xleft value && rlt value xright && rlt xmin value && rlt value xmax then Done 1%R
    else if rle value xmin || rle xmax value then Done 0%R
    else
      match (if rlt value xleft && rlt xmin value then Some ((value - xmin) / (xleft - xmin))%R
             else if rlt xright value && rlt value xmax then Some ((xmax - value) / (xmax - xright))%R
             else None) with
      | Some result => Done (result - sin (2 * PI * result) / 2 / PI)%R
      | None => Undefined
      end
  else Exited.
