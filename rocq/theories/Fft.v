(** * FFTlog transforms (src/twofast.c:240-483, src/twobessel.c:16-113, src/utils.c:224-258)

    Real arithmetic; complex numbers are Coquelicot's.  FFTW's plans are replaced by the
    transforms its manual defines. *)
From Coq Require Import ZArith Reals List Lia Lra Bool Arith.
From Coquelicot Require Import Coquelicot.
From Coq Require Import List.
From Verif Require Import Arrays Numeric.
Import ListNotations.
Open Scope nat_scope.

(** ** Outcomes in sequence *)
(** C semantics of twofast.c:252-470 and twobessel.c:16-113. *)
Definition rbind {A B} (r : res A) (f : A -> res B) : res B :=
  match r with Done x => f x | Exited => Exited | Undefined => Undefined end.
Notation "'let!' x ':=' r 'in' e" := (rbind r (fun x => e)) (at level 61, x pattern, right associativity).
Fixpoint rfor {S : Type} (i n : nat) (body : nat -> S -> res S) (st : S) : res S :=
  match n with O => Done st | S m => let! st' := body i st in rfor (Datatypes.S i) m body st' end.
Fixpoint rfor_list {I S : Type} (l : list I) (body : I -> S -> res S) (st : S) : res S :=
  match l with [] => Done st | i :: r => let! st' := body i st in rfor_list r body st' end.

(** [a[i]] and [a[i] = x] for an index that need not be inside.
    C semantics of twofast.c:252-470 and twobessel.c:16-113. *)
Definition load {A} (a : list (option A)) (i : Z) : res A :=
  if (i <? 0)%Z then Undefined else of_opt (rd a (Z.to_nat i)).
Definition store {A} (a : list (option A)) (i : Z) (x : A) : res (list (option A)) :=
  if (i <? 0)%Z then Undefined else of_opt (wr a (Z.to_nat i) (Some x)).
(** Every element; undefined if one was never written.  C semantics of twofast.c:252-470 and twobessel.c:16-113. *)
Fixpoint values {A} (a : list (option A)) : res (list A) :=
  match a with
  | [] => Done []
  | Some x :: r => let! xs := values r in Done (x :: xs)
  | None :: _ => Undefined
  end.
(** size_t arithmetic.  C semantics of twofast.c:252-470 and twobessel.c:16-113. *)
Definition size_t (z : Z) : Z := (z mod 2 ^ 64)%Z.

(** ** Complex numbers *)
(** Complex arithmetic of twofast.c:252-470 and twobessel.c:16-113. *)
Definition cis (t : R) : C := (cos t, sin t).
Definition csum (n : nat) (f : nat -> C) : C := fold_right Cplus (RtoC 0) (map f (seq 0 n)).
Definition rsum (n : nat) (f : nat -> R) : R := fold_right Rplus 0%R (map f (seq 0 n)).

(** FFTW r2c: [Y_k = sum_j x_j exp(-2 pi i j k / N)], k = 0 .. N/2.
    fftw_plan_dft_r2c_1d and fftw_plan_dft_c2r_1d, called in twofast.c:362-470. *)
Definition r2c (x : list R) (k : nat) : C :=
  csum (List.length x) (fun j => Cmult (RtoC (nth j x 0%R)) (cis (- (2 * PI * INR j * INR k / INR (List.length x))))).
(** FFTW c2r of a half-complex array: the sum over all N frequencies of the Hermitian
    completion; imaginary parts at k = 0 and, for even N, k = N/2 do not enter.
    fftw_plan_dft_r2c_1d and fftw_plan_dft_c2r_1d, called in twofast.c:362-470. *)
Definition c2r_weight (N k : nat) : R :=
  if k =? 0 then 1%R else if (Nat.even N && (k =? N / 2))%bool then 1%R else 2%R.
Definition c2r (N : nat) (X : list C) (j : nat) : R :=
  rsum (N / 2 + 1) (fun k => c2r_weight N k * fst (Cmult (nth k X (RtoC 0)) (cis (2 * PI * INR j * INR k / INR N))))%R.

(** ** twofast.c *)
(** What the code calls outside the modelled part: the spline of the input and the
    kernel twofast_mql (twofast.c:195-223), which may exit. *)
Record fft_ext := { x_spline : R -> R; x_mql : R -> R -> R -> R -> res C }.

(** twofast_selectqnu, twofast.c:240-250. *)
Definition select_q (l nu : R) : R :=
  let n1 := (9 / 10)%R in let n2 := (9999 / 10000)%R in
  let qmin := Rmax (n2 - 1 - nu) (- l) in
  let qmax := Rmin (n1 + 3 - nu) 2 in
  let qbest := ((2 + n1 + n2) / 2 - nu)%R in
  if (rlt qmin qbest && rlt qbest qmax)%bool then qbest else ((qmin + 2 * qmax) / 3)%R.

Definition grid (x0 ratio : R) (N i : nat) : R := (x0 * Rpower ratio (INR i / INR N))%R.
(** The window as called in twofast_fft_input.  twofast_window, twofast.c:54-90, as applied in twofast_1bessel. *)
Definition fft_window (k0 kmin kmax : R) (N : nat) (x : R) : res R :=
  let top := grid k0 (kmax / kmin) N (N - 1) in
  twofast_window x kmin top (exp (46 / 100) * kmin) (exp (- (46 / 100)) * top).

(** twofast_fft_input, twofast.c:252-360 (the C branch). *)
Definition fft_input (X : fft_ext) (N : nat) (q k0 kmin kmax : R) : res (list (option C)) :=
  let N2 := N / 2 + 1 in
  let L := (2 * PI * INR N / ln (kmax / kmin))%R in
  let! xs := rfor 0 N (fun i a => store a (Z.of_nat i) (grid k0 (kmax / kmin) N i)) (fresh N) in
  let! ys := rfor 0 N (fun i a =>
      let! w := fft_window k0 kmin kmax N (grid k0 (kmax / kmin) N i) in
      store a (Z.of_nat i)
        (Rpower (kmax / kmin) ((3 - q) * INR i / INR N) * x_spline X (grid k0 (kmax / kmin) N i) * w)%R) (fresh N) in
  let! y := values ys in
  let ft := map (fun k => Some (r2c y k)) (seq 0 N2) in
  rfor 0 N2 (fun i out =>
      let! x := load xs (size_t (Z.of_nat N2 - 2 + Z.of_nat i)) in
      let! w := fft_window k0 kmin kmax N x in
      let! z := load ft (Z.of_nat i) in
      store out (Z.of_nat i) (Cdiv (Cmult (RtoC w) (Cconj z)) (RtoC L))) (fresh N2).

(** twofast_1bessel, twofast.c:362-483 (the C branch).  [ox], [oy]: the caller's arrays. *)
Definition twofast_1bessel (X : fft_ext) (ox oy : list (option R)) (N : nat) (l nu r0 k0 kmin kmax : R)
  : res (list (option R) * list (option R)) :=
  let N2 := N / 2 + 1 in
  let qnu := select_q l nu in
  let G := ln (kmax / kmin) in
  let! ft := fft_input X N (qnu + nu) k0 kmin kmax in
  let! ox' := rfor 0 N (fun i a => store a (Z.of_nat i) (grid r0 (kmax / kmin) N i)) ox in
  let! pre := rfor 0 N (fun i a => store a (Z.of_nat i)
      (k0 * k0 * k0 * Rpower (kmax / kmin) (- ((qnu + nu) * INR i / INR N)) / PI / Rpower (r0 * k0) nu / G)%R) (fresh N) in
  let! tmp := rfor 0 N2 (fun i a =>
      let! z := load ft (Z.of_nat i) in
      let! m := x_mql X (2 * PI * INR i / G) qnu l (k0 * r0) in
      store a (Z.of_nat i) (Cmult z m)) (fresh N2) in
  let! ft' := rfor 0 N2 (fun i a => let! z := load tmp (Z.of_nat i) in store a (Z.of_nat i) z) ft in
  let! zs := values ft' in
  let y := map (fun j => Some (c2r N zs j)) (seq 0 N) in
  let! y' := rfor 0 N (fun i a => let! v := load a (Z.of_nat i) in let! p := load pre (Z.of_nat i) in
                                  store a (Z.of_nat i) (v * p)%R) y in
  let! oy' := rfor 0 N (fun i a => let! v := load y' (Z.of_nat i) in store a (Z.of_nat i) v) oy in
  Done (ox', oy').

(** The C++ branches of the complex operations, on real and imaginary parts. *)
(** twofast.c:306-343: [w * conj(z) / L], the window being a real number passed to creal, cimag. *)
Definition cpp_conj_scale (w : R) (z : C) (L : R) : C :=
  let cre := w in let cim := 0%R in
  ((cre * fst z / L + cim * snd z / L)%R, (- cre * snd z / L + cim * fst z / L)%R).
(** twofast.c:430-441: [z * m]. *)
Definition cpp_mult (z m : C) : C :=
  ((fst z * fst m - snd z * snd m)%R, (fst z * snd m + snd z * fst m)%R).
(** twobessel.c:73-77 and 86-90 for [out *= v; out = conj(out)]. *)
Definition cpp_scale_conj (out v : C) : C := ((fst out * fst v)%R, (- (snd out * snd v))%R).
(** twobessel.c:78-79 and 91-92, the C branch. *)
Definition c_scale_conj (out v : C) : C := Cconj (Cmult out v).

(** ** twobessel.c *)
(** A complex double, [None] for one with a NaN.  Complex arithmetic of twofast.c:252-470 and twobessel.c:16-113. *)
Definition xc := option C.
Definition xmul (z : xc) (w : option R) : xc :=
  match z, w with Some a, Some b => Some (Cmult a (RtoC b)) | _, _ => None end.
(** The array [out], [rows] rows of [cols] elements.  The arrays of twobessel.c:55-100. *)
Record mat := { m_rows : nat; m_cols : nat; m_at : nat -> nat -> xc }.
(** [out[i * cols + j] = f(out[i * cols + j])] with 0 <= j < cols; outside otherwise.
    The arrays of twobessel.c:55-100. *)
Definition modify (m : mat) (i j : Z) (f : xc -> xc) : res mat :=
  if ((0 <=? i) && (i <? Z.of_nat (m_rows m)) && (0 <=? j) && (j <? Z.of_nat (m_cols m)))%Z%bool
  then Done {| m_rows := m_rows m; m_cols := m_cols m;
               m_at := fun a b => if ((a =? Z.to_nat i) && (b =? Z.to_nat j))%bool then f (m_at m a b) else m_at m a b |}
  else Undefined.

(** c_window_2d, utils.c:224-258: [c_window_width] is 1/4 (covariance.c:376), so
    [(long)(half * width)] is [half / 4].  [W] is 0/0 when there is nothing to cut. *)
Definition edge (cut i : nat) : option R :=
  if cut =? 0 then None
  else Some (INR i / INR cut - 1 / (2 * PI) * sin (2 * INR i * PI / INR cut))%R.
Definition c_window_2d (out : mat) (half1 half2 : nat) : res mat :=
  let cut1 := half1 / 4 in let cut2 := half2 / 4 in
  let! out1 := rfor_list (seq 0 (cut2 + 1)) (fun j o =>
      rfor_list (seq 0 (2 * half1)) (fun i o =>
        modify o (Z.of_nat i) (Z.of_nat half2 - Z.of_nat j) (fun z => xmul z (edge cut2 j))) o) out in
  rfor_list (seq 0 (cut1 + 1)) (fun i o =>
      rfor_list (seq 0 (half2 + 1)) (fun j o =>
        let! o' := modify o (Z.of_nat half1 - Z.of_nat i) (Z.of_nat j) (fun z => xmul z (edge cut1 i)) in
        modify o' (Z.of_nat half1 + 1 + Z.of_nat i) (Z.of_nat j) (fun z => xmul z (edge cut1 i))) o) out1.

(** FFTW 2D r2c and c2r.  fftw_plan_dft_r2c_2d and fftw_plan_dft_c2r_2d, called at twobessel.c:60 and 100. *)
Definition r2c_2d (N1 N2 : nat) (P : nat -> nat -> R) (i j : nat) : C :=
  csum N1 (fun a => csum N2 (fun b =>
    Cmult (RtoC (P a b)) (cis (- (2 * PI * (INR a * INR i / INR N1 + INR b * INR j / INR N2)))))).
Definition c2r_2d (N1 N2 : nat) (F : nat -> nat -> xc) (a b : nat) : option R :=
  if forallb (fun ij => match F (fst ij) (snd ij) with Some _ => true | None => false end)
       (list_prod (seq 0 N1) (seq 0 (N2 / 2 + 1)))
  then Some (rsum (N2 / 2 + 1) (fun j => c2r_weight N2 j
         * rsum N1 (fun i => fst (Cmult (match F i j with Some z => z | None => RtoC 0 end)
                                       (cis (2 * PI * (INR a * INR i / INR N1 + INR b * INR j / INR N2))))))%R)
  else None.

(** What g_l computes (twobessel.c: g_l), an exponential; [g l nu eta]. *)
Definition kernel := Z -> R -> R -> C.
(** cpow(x, i t) for x > 0.  cpow in twobessel.c:73-92. *)
Definition cpow_i (x t : R) : C := cis (t * ln x).

(** The arrays two_sph_bessel fills, twobessel.c:16-113. *)
Record bessel2_out := { b2_r1 : list (option R); b2_r2 : list (option R); b2_at : nat -> nat -> option R }.
(** two_sph_bessel, twobessel.c:16-113 (the C branch).  [k1], [k2]: N1 and N2 doubles;
    [f]: the N1 x N2 table; exit(0) for an odd number of samples. *)
Definition two_sph_bessel (g : kernel) (k1 k2 : list (option R)) (f : nat -> nat -> R) (N1 N2 : nat)
    (l1 l2 : Z) (nu1 nu2 : R) (cpp : bool) : res bessel2_out :=
  if Nat.odd N1 then Exited else if Nat.odd N2 then Exited
  else
    let half1 := N1 / 2 in let half2 := N2 / 2 in
    let! k10 := load k1 0 in let! k20 := load k2 0 in
    let! k11 := load k1 1 in let! k21 := load k2 1 in
    let dln1 := ln (k11 / k10) in let dln2 := ln (k21 / k20) in
    let eta1 i := (2 * PI / dln1 / INR N1 * INR i)%R in
    let eta2 j := (2 * PI / dln2 / INR N2 * INR j)%R in
    let! r1 := rfor 0 N1 (fun i a => let! k := load k1 (Z.of_nat N1 - 1 - Z.of_nat i) in store a (Z.of_nat i) (1 / k)%R) (fresh N1) in
    let! r2 := rfor 0 N2 (fun i a => let! k := load k2 (Z.of_nat N2 - 1 - Z.of_nat i) in store a (Z.of_nat i) (1 / k)%R) (fresh N2) in
    let! r10 := load r1 0 in let! r20 := load r2 0 in
    let! k1s := values k1 in let! k2s := values k2 in
    let Pb a b := (f a b / Rpower (nth a k1s 0) nu1 / Rpower (nth b k2s 0) nu2)%R in
    let out := {| m_rows := N1; m_cols := half2 + 1; m_at := fun i j => Some (r2c_2d N1 N2 Pb i j) |} in
    let! out1 := c_window_2d out half1 half2 in
    let times := if cpp then cpp_scale_conj else c_scale_conj in
    let step i j v o := modify o (Z.of_nat i) (Z.of_nat j) (fun z => option_map (fun z => times z v) z) in
    let! out2 := rfor_list (list_prod (seq 0 (half1 + 1)) (seq 0 (half2 + 1))) (fun ij o => let (i, j) := ij in
        step i j (Cmult (Cmult (Cmult (cpow_i (k20 * r20) (- eta2 j)) (g l2 nu2 (eta2 j))) (cpow_i (k10 * r10) (- eta1 i)))
                        (g l1 nu1 (eta1 i))) o) out1 in
    let! out3 := rfor_list (list_prod (seq (half1 + 1) (N1 - (half1 + 1))) (seq 0 (half2 + 1))) (fun ij o => let (i, j) := ij in
        step i j (Cmult (Cmult (Cmult (cpow_i (k20 * r20) (- eta2 j)) (g l2 nu2 (eta2 j))) (cpow_i (k10 * r10) (eta1 (N1 - i))))
                        (Cconj (g l1 nu1 (eta1 (N1 - i))))) o) out2 in
    let! r1s := values r1 in let! r2s := values r2 in
    Done {| b2_r1 := r1; b2_r2 := r2;
            b2_at := fun a b => option_map (fun y =>
               y * PI / (16 * INR N1 * INR N2 * Rpower (nth b r2s 0) nu2 * Rpower (nth a r1s 0) nu1))%R
               (c2r_2d N1 N2 (m_at out3) a b) |}.
