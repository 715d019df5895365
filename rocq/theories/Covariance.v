(** * The covariance module, src/covariance.c

    Real numbers stand for the doubles of the program (no rounding; a division by zero
    has the value Coq's reals give it).  Memory is explicit: reading or writing outside
    an array, or reading an element never written, makes the run [Undefined]. *)
From Coq Require Import ZArith Reals List Lia Lra Bool Arith QArith Qreals.
From Verif Require Import Numeric Coupling.
Import ListNotations.
Open Scope nat_scope.

Notation "'let*' x := a 'in' b" := (match a with Some x => b | None => None end)
  (at level 200, x pattern, a at level 100, b at level 200).

Fixpoint for_list {I S} (l : list I) (f : I -> S -> option S) (s : S) : option S :=
  match l with [] => Some s | i :: r => let* s' := f i s in for_list r f s' end.

(** ** Inputs: the fields of coffe_parameters_t and coffe_background_t the module reads.
    Splines are functions. *)
(** Members of coffe_parameters_t (common.h:340-550) and coffe_background_t (background.h:23-45). *)
Record cov_in := {
  ci_avg : bool;             (* output_type == COVARIANCE_AVERAGE_MULTIPOLES *)
  ci_ells : list Z;          (* multipole_values *)
  ci_sep : list R;
  ci_zmean : list R; ci_deltaz : list R;
  ci_zmin : list R; ci_zmax : list R;
  ci_fsky : list R;
  ci_n1 : list R; ci_n2 : list R;      (* density1, density2 *)
  ci_pix : list R;                     (* pixelsize *)
  ci_cosmic : bool; ci_mixed : bool; ci_poisson : bool; ci_window : bool;
  ci_nonlinear : bool;       (* pk_type != COFFE_PK_LINEAR *)
  ci_class : bool;           (* have_class *)
  ci_fftlog : bool;          (* covariance_integration_method *)
  ci_bins : nat;             (* covariance_integration_bins *)
  ci_den : bool; ci_rsd : bool;
  ci_pop1 : Z; ci_pop2 : Z; ci_pop3 : Z; ci_pop4 : Z;
  ci_bias : Z -> R -> R;     (* galaxy_bias1..4 *)
  ci_growth : R -> R; ci_D1 : R -> R; ci_chi : R -> R; ci_conf : R -> R;
  ci_h : R
}.

(** What the module calls: quadrature of a function over an interval (coffe_integrate_1d_*,
    with type and precision fixed), spherical Bessel functions, the sine integral, the
    interpolated 2D FFTlog transform of the given power of the spectrum.
    The integrals of covariance.c:150-470, called at 553-770. *)
Record cov_ext := {
  e_quad : (R -> R) -> R -> R -> R;
  e_jl : Z -> R -> R;
  e_Si : R -> R;
  (* splines through P(k) and through P(k)^2, and the range of k: the tabulated
     linear spectrum, and CLASS's spectrum at a redshift *)
  e_pk : R -> R; e_pk2 : R -> R; e_kmin : R; e_kmax : R;
  e_zpk : R -> R -> R; e_zpk2 : R -> R -> R; e_zkmin : R; e_zkmax : R;
  (* covariance_integrate_fftlog, covariance.c:357-470, of the normalised linear spectrum *)
  e_fft : nat -> Z -> Z -> R -> R -> R
}.

(** ** Coefficients *)
(** covariance_coefficient, covariance.c:40-57. *)
Definition coefficient (b1 b2 f : R) (ell : Z) : R :=
  (if ell =? 0 then b1 * b2 + (b1 + b2) * f / 3 + f ^ 2 / 5
   else if ell =? 2 then 2 * (b1 + b2) * f / 3 + 4 * f ^ 2 / 7
   else if ell =? 4 then 8 * f ^ 2 / 35
   else 0)%R%Z.

(** covariance_coefficient_pair, covariance.c:60-74; [bias] is the array of four. *)
Definition coefficient_pair (p1 p2 : Z) (bias : Z -> R) (f : R) (ell : Z) : R :=
  coefficient (bias p1) (bias p2) f ell.

(** ** Bessel functions averaged over a shell *)
(** covariance_volume_no_4pi, covariance.c:168-174. *)
Definition shell (rmin rmax : R) : R := ((rmax ^ 3 - rmin ^ 3) / 3)%R.

(** integral_power_spherical_bessel1_unit with n = 2, covariance.c:196-238. *)
Definition bessel_prim (Si : R -> R) (l : Z) (x : R) : R :=
  (match l with
   | 0 => - x * cos x + sin x
   | 1 => - 2 * cos x - x * sin x
   | 2 => x * cos x - 4 * sin x + 3 * Si x
   | 3 => 7 * cos x + ((-15 + x * x) * sin x) / x
   | 4 => ((105 / x - 2 * x) * cos x + (22 - 105 / x ^ 2) * sin x + 15 * Si x) / 2
   | 5 => ((315 * x - 16 * x ^ 3) * cos x - (315 - 105 * x ^ 2 + x ^ 4) * sin x) / x ^ 3
   | 6 => (x * (20790 - 1575 * x ^ 2 + 8 * x ^ 4) * cos x
           + (-20790 + 8505 * x ^ 2 - 176 * x ^ 4) * sin x
           + 105 * x ^ 4 * Si x) / (8 * x ^ 4)
   | _ => 0
   end)%R%Z.
(** integral_power_spherical_bessel1 with n = 2, covariance.c:244-253. *)
Definition bessel_prim_k (Si : R -> R) (l : Z) (k x : R) : R := (bessel_prim Si l (k * x) / k ^ 3)%R.

(** covariance_windowed_bessel, covariance.c:259-284. *)
Definition windowed_bessel (X : cov_ext) (l : Z) (k s delta : R) : R :=
  if Req_EM_T delta 0 then e_jl X l (s * k)
  else (1 / shell (s - delta / 2) (s + delta / 2)
        * (bessel_prim_k (e_Si X) l k (s + delta / 2) - bessel_prim_k (e_Si X) l k (s - delta / 2)))%R.

(** covariance_integrand and covariance_integral, covariance.c:290-351. *)
Definition cov_integral (X : cov_ext) (pk : R -> R) (chi1 chi2 delta : R) (l1 l2 : Z) (kmin kmax : R) : R :=
  (2 * e_quad X (fun k => k * k * pk k * windowed_bessel X l1 k chi1 delta * windowed_bessel X l2 k chi2 delta)
         kmin kmax / PI)%R.

(** ** Memory for the integrals: [integral[z][i * nl + j][ns * n + m]], covariance.c:530-547. *)
Definition mem3 := nat -> nat -> nat -> option R.
Record dims := { d_z : nat; d_l : nat; d_s : nat }.
Definition inside (d : dims) (z ij nm : nat) : bool :=
  (z <? d_z d) && (ij <? d_l d * d_l d) && (nm <? d_s d * d_s d).
Definition set3 (d : dims) (m : mem3) (z ij nm : nat) (v : option R) : option mem3 :=
  if inside d z ij nm
  then Some (fun a b c => if (a =? z) && (b =? ij) && (c =? nm) then v else m a b c)
  else None.
(** The element, [None] inside if it was never written.  C semantics of the arrays of covariance.c:530-547. *)
Definition get3 (d : dims) (m : mem3) (z ij nm : nat) : option (option R) :=
  if inside d z ij nm then Some (m z ij nm) else None.
Definition rd3 (d : dims) (m : mem3) (z ij nm : nat) : option R :=
  let* v := get3 d m z ij nm in v.
Definition empty3 : mem3 := fun _ _ _ => None.

(** The sizes of covariance.c:503-527. *)
Definition cov_dims (I : cov_in) : dims :=
  {| d_z := if ci_nonlinear I then List.length (ci_zmean I) else 1;
     d_l := List.length (ci_ells I); d_s := List.length (ci_sep I) |}.

(** The loops of covariance.c:651-652, 779-788. *)
Definition upto (n : nat) : list nat := seq 0 n.
(** [for i < n, for j = i .. n - 1] and [for i < n, for j < i].  The loops of covariance.c:651-652, 779-788. *)
Definition upper (n : nat) : list (nat * nat) := flat_map (fun i => map (fun j => (i, j)) (seq i (n - i))) (upto n).
Definition lower (n : nat) : list (nat * nat) := flat_map (fun i => map (fun j => (i, j)) (upto i)) (upto n).
Definition square (n : nat) : list (nat * nat) := list_prod (upto n) (upto n).

(** The spectrum of redshift number [z], covariance.c:553-597: CLASS's at z_mean[z] if CLASS
    is in use and the type is not linear, else the tabulated linear one. *)
Definition spectrum_of (X : cov_ext) (I : cov_in) (z : nat) : option ((R -> R) * (R -> R) * R * R) :=
  if ci_class I && ci_nonlinear I
  then let* zr := nth_error (ci_zmean I) z in Some (e_zpk X zr, e_zpk2 X zr, e_zkmin X, e_zkmax X)
  else Some (e_pk X, e_pk2 X, e_kmin X, e_kmax X).

(** The bin width used by the integrals of redshift number [z].  covariance.c:668-670. *)
Definition integral_delta (I : cov_in) (z : nat) : option R :=
  if ci_window I then nth_error (ci_pix I) z else Some 0%R.

(** covariance.c:661-662. *)
Definition prefactor (l1 l2 : Z) : R := IZR ((2 * l1 + 1) * (2 * l2 + 1)).

(** Standard integration, covariance.c:646-709: first the loop over (m, n) for P, then
    the one for P^2, for every i <= j.  (The OpenMP loops write distinct elements.) *)
Definition standard_pair (X : cov_ext) (I : cov_in) (d : dims) (z : nat) (ij : nat * nat) (st : mem3 * mem3)
  : option (mem3 * mem3) :=
  let (i, j) := ij in
  let* l1 := nth_error (ci_ells I) i in let* l2 := nth_error (ci_ells I) j in
  let* sp := spectrum_of X I z in let '(p, p2, kmin, kmax) := sp in
  let* st1 := for_list (square (d_s d)) (fun mn st =>
      let (m, n) := mn in
      if ci_mixed I then
        let* r1 := nth_error (ci_sep I) m in let* r2 := nth_error (ci_sep I) n in
        let* delta := integral_delta I z in
        let* a := set3 d (fst st) z (i * d_l d + j) (d_s d * n + m)
                    (Some (prefactor l1 l2 * cov_integral X p r1 r2 delta l1 l2 kmin kmax / PI)%R) in
        Some (a, snd st)
      else Some st) st in
  for_list (square (d_s d)) (fun mn st =>
      let (m, n) := mn in
      if ci_cosmic I then
        let* r1 := nth_error (ci_sep I) m in let* r2 := nth_error (ci_sep I) n in
        let* delta := integral_delta I z in
        let* a := set3 d (snd st) z (i * d_l d + j) (d_s d * n + m)
                    (Some (prefactor l1 l2 * cov_integral X p2 r1 r2 delta l1 l2 kmin kmax / 2 / PI)%R) in
        Some (fst st, a)
      else Some st) st1.

(** 2D FFTlog, covariance.c:710-770: covariance_integrate_fftlog fills the table
    (:455-464) whatever the flags.  The rescaling loop of :758-768, which multiplies every
    element just written by a constant, is merged into the writes. *)
Definition fft_pair (X : cov_ext) (I : cov_in) (d : dims) (z : nat) (ij : nat * nat) (st : mem3 * mem3)
  : option (mem3 * mem3) :=
  let (i, j) := ij in
  let* l1 := nth_error (ci_ells I) i in let* l2 := nth_error (ci_ells I) j in
  let* st1 := for_list (square (d_s d)) (fun mn st =>
      let (m, n) := mn in
      let* r1 := nth_error (ci_sep I) m in let* r2 := nth_error (ci_sep I) n in
      let* a := set3 d (fst st) z (i * d_l d + j) (d_s d * n + m)
                  (Some (e_fft X 1 l1 l2 r1 r2 * (prefactor l1 l2 * 2 / PI / PI))%R) in
      Some (a, snd st)) st in
  for_list (square (d_s d)) (fun mn st =>
      let (m, n) := mn in
      let* r1 := nth_error (ci_sep I) m in let* r2 := nth_error (ci_sep I) n in
      let* a := set3 d (snd st) z (i * d_l d + j) (d_s d * n + m)
                  (Some (e_fft X 2 l1 l2 r1 r2 * (prefactor l1 l2 / PI / PI))%R) in
      Some (fst st, a)) st1.

(** The transpose, covariance.c:779-788: elements are copied whether or not they were
    written. *)
Definition copy3 (d : dims) (m : mem3) (z ij nm ij' nm' : nat) : option mem3 :=
  let* v := get3 d m z ij' nm' in set3 d m z ij nm v.
Definition transpose_pair (d : dims) (z : nat) (ij : nat * nat) (st : mem3 * mem3) : option (mem3 * mem3) :=
  let (i, j) := ij in
  for_list (square (d_s d)) (fun mn st =>
    let (m, n) := mn in
    let* a := copy3 d (fst st) z (i * d_l d + j) (d_s d * n + m) (j * d_l d + i) (d_s d * m + n) in
    let* b := copy3 d (snd st) z (i * d_l d + j) (d_s d * n + m) (j * d_l d + i) (d_s d * m + n) in
    Some (a, b)) st.

(** covariance.c:548-788. *)
Definition all_integrals (X : cov_ext) (I : cov_in) : option (mem3 * mem3) :=
  let d := cov_dims I in
  let* st := for_list (upto (d_z d)) (fun z st =>
      (* the spectrum at z_mean[z] is read before the loops over the multipoles *)
      let* sp := spectrum_of X I z in
      for_list (upper (d_l d)) ((if ci_fftlog I then fft_pair else standard_pair) X I d z) st)
    (empty3, empty3) in
  for_list (upto (d_z d)) (fun z st => for_list (lower (d_l d)) (transpose_pair d z) st) st.

(** ** Values, covariance.c:790-1044 *)
(** Quantities of redshift number k.  covariance.c:796-841. *)
Record bin := { b_z : R; b_volume : R; b_n1 : R; b_n2 : R }.
(** covariance_volume_integrand, covariance.c:150-162. *)
Definition volume_integrand (I : cov_in) (z : R) : R :=
  (1 / ci_conf I z / (ci_chi I z) ^ 2 / (1 + z))%R.
Definition hubble_0 : R := (1 / (2997 + 92458 / 100000))%R.   (* COFFE_H0 *)
(** covariance.c:796-841. *)
Definition bin_of (X : cov_ext) (I : cov_in) (k : nat) : option bin :=
  let* n1 := nth_error (ci_n1 I) k in let* n2 := nth_error (ci_n2 I) k in
  let* fsky := nth_error (ci_fsky I) k in
  if ci_avg I then
    let* z1 := nth_error (ci_zmin I) k in let* z2 := nth_error (ci_zmax I) k in
    Some {| b_z := ((z1 + z2) / 2)%R;
            b_volume := (4 * PI * fsky / e_quad X (volume_integrand I) z1 z2 / (hubble_0 * ci_h I) ^ 2)%R;
            b_n1 := n1; b_n2 := n2 |}
  else
    let* z := nth_error (ci_zmean I) k in let* dz := nth_error (ci_deltaz I) k in
    Some {| b_z := z;
            b_volume := (4 * PI * fsky * shell (ci_chi I (z - dz)) (ci_chi I (z + dz)))%R;
            b_n1 := n1; b_n2 := n2 |}.

(** covariance.c:843-864. *)
Definition bias_at (I : cov_in) (z : R) (p : Z) : R := if ci_den I then ci_bias I p z else 0%R.
Definition growth_at (I : cov_in) (z : R) : R := if ci_rsd I then ci_growth I z else 0%R.
(** coffe_legendre_integral, common.c:1370-1398; coffe_kronecker_delta and coffe_sign, common.c:1401-1422. *)
Definition coupling (n m a b : Z) : R := Q2R (legendre_integral n m a b).
Definition kr (i j : Z) : R := IZR (kronecker i j).
Definition sgn (m : Z) : R := IZR (csign m).

(** The loops of covariance.c:873-894. *)
Definition even_orders : list Z := [0; 2; 4]%Z.
(** coeff_cosmic_sum, covariance.c:873-894. *)
Definition cosmic_sum (I : cov_in) (z : R) (l1 l2 : Z) : R :=
  let c p q l := coefficient_pair p q (bias_at I z) (growth_at I z) l in
  (fold_left (fun (acc : R) (ab : Z * Z) => let (a, b) := ab in
     acc + (c (ci_pop1 I) (ci_pop3 I) a * c (ci_pop2 I) (ci_pop4 I) b
            + sgn b * c (ci_pop1 I) (ci_pop4 I) a * c (ci_pop2 I) (ci_pop3 I) b)
         * coupling l1 l2 a b)
   (list_prod even_orders even_orders) 0 / 4)%R.
(** coeff_mixed_sum, covariance.c:896-938. *)
Definition mixed_sum (I : cov_in) (b : bin) (l1 l2 : Z) : R :=
  let c p q l := coefficient_pair p q (bias_at I (b_z b)) (growth_at I (b_z b)) l in
  (fold_left (fun (acc : R) (a : Z) =>
     acc + (c (ci_pop1 I) (ci_pop3 I) a * kr (ci_pop2 I) (ci_pop4 I) / b_n2 b
            + c (ci_pop2 I) (ci_pop4 I) a * kr (ci_pop1 I) (ci_pop3 I) / b_n1 b
            + c (ci_pop1 I) (ci_pop4 I) a * kr (ci_pop2 I) (ci_pop3 I) / b_n2 b
            + c (ci_pop2 I) (ci_pop3 I) a * kr (ci_pop1 I) (ci_pop4 I) / b_n1 b)
         * coupling l1 l2 a 0)
   even_orders 0 / 8)%R.

(** cov_poisson, covariance.c:946-989. *)
Definition poisson_part (I : cov_in) (b : bin) (k m n : nat) (l1 l2 : Z) : option R :=
  if ci_poisson I then
    let* pix := nth_error (ci_pix I) k in
    let* rm := nth_error (ci_sep I) m in let* rn := nth_error (ci_sep I) n in
    Some (IZR (2 * l1 + 1) / 4 / PI * kr l1 l2 * kr (Z.of_nat m) (Z.of_nat n)
          * (kr (ci_pop1 I) (ci_pop3 I) * kr (ci_pop2 I) (ci_pop4 I)
             + sgn l2 * kr (ci_pop1 I) (ci_pop4 I) * kr (ci_pop2 I) (ci_pop3 I))
          * (if ci_window I then 1 / shell (rm - pix / 2) (rm + pix / 2) else 1 / rn / rm / pix)
          / b_n1 b / b_n2 b / b_volume b)%R
  else Some 0%R.
(** cov_mixed, covariance.c:991-1006. *)
Definition mixed_part (I : cov_in) (d : dims) (pk : mem3) (b : bin) (k i j m n : nat) (l1 l2 : Z) : option R :=
  if ci_mixed I then
    let* v := rd3 d pk (if ci_nonlinear I then k else 0) (i * d_l d + j) (d_s d * n + m) in
    Some (sgn (Z.quot (l2 - l1) 2) * sgn (l1 + l2)
          * (if ci_nonlinear I then 1 else ci_D1 I (b_z b) * ci_D1 I (b_z b))
          * v * mixed_sum I b l1 l2 / b_volume b)%R
  else Some 0%R.
(** cov_cosmic, covariance.c:1008-1023. *)
Definition cosmic_part (I : cov_in) (d : dims) (pk2 : mem3) (b : bin) (k i j m n : nat) (l1 l2 : Z) : option R :=
  if ci_cosmic I then
    let* v := rd3 d pk2 (if ci_nonlinear I then k else 0) (i * d_l d + j) (d_s d * n + m) in
    Some (sgn (Z.quot (l2 - l1) 2)
          * (if ci_nonlinear I then 1
             else ci_D1 I (b_z b) * ci_D1 I (b_z b) * ci_D1 I (b_z b) * ci_D1 I (b_z b))
          * v * cosmic_sum I (b_z b) l1 l2 / b_volume b)%R
  else Some 0%R.

Definition cov_value (X : cov_ext) (I : cov_in) (d : dims) (st : mem3 * mem3) (k i m j n : nat) : option R :=
  let* b := bin_of X I k in
  let* l1 := nth_error (ci_ells I) i in let* l2 := nth_error (ci_ells I) j in
  let* p := poisson_part I b k m n l1 l2 in
  let* x := mixed_part I d (fst st) b k i j m n l1 l2 in
  let* c := cosmic_part I d (snd st) b k i j m n l1 l2 in
  Some (p + x + c)%R.

(** The loops [for i, for m, for j, for n].  The loops of covariance.c:866-869. *)
Definition data_points (nl ns : nat) : list (nat * nat * (nat * nat)) :=
  list_prod (list_prod (upto nl) (upto ns)) (list_prod (upto nl) (upto ns)).

(** The number of elements allocated, covariance.c:503-520. *)
Definition redshifts (I : cov_in) : nat := List.length (if ci_avg I then ci_zmin I else ci_zmean I).
Definition cov_size (I : cov_in) : nat :=
  let nl := List.length (ci_ells I) in let ns := List.length (ci_sep I) in
  nl * nl * ns * ns * redshifts I.

(** covariance.c:790-1044: one value per (k, i, m, j, n), [array[index++] = value].  The state
    is the values written so far; [index] is their number. *)
Definition value_pass (X : cov_ext) (I : cov_in) (st : mem3 * mem3) : option (list R) :=
  let d := cov_dims I in
  for_list (upto (List.length (ci_n1 I))) (fun k vs =>
    let* b := bin_of X I k in
    for_list (data_points (d_l d) (d_s d)) (fun im_jn vs =>
      let '((i, m), (j, n)) := im_jn in
      let* v := cov_value X I d st k i m j n in
      if List.length vs <? cov_size I then Some (vs ++ [v]) else None) vs) [].

(** Coordinates: one redshift (z_mean, twice) or two (zmin, zmax).
    common.h:166-214; filled at covariance.c:1045-1077. *)
Record ccoord := { cc_z1 : R; cc_z2 : R; cc_l1 : Z; cc_l2 : Z; cc_r1 : R; cc_r2 : R }.
Definition coord_of (I : cov_in) (zi i m j n : nat) : option ccoord :=
  let* z1 := nth_error (if ci_avg I then ci_zmin I else ci_zmean I) zi in
  let* z2 := nth_error (if ci_avg I then ci_zmax I else ci_zmean I) zi in
  let* l1 := nth_error (ci_ells I) i in let* l2 := nth_error (ci_ells I) j in
  let* r1 := nth_error (ci_sep I) m in let* r2 := nth_error (ci_sep I) n in
  Some {| cc_z1 := z1; cc_z2 := z2; cc_l1 := l1; cc_l2 := l2; cc_r1 := r1; cc_r2 := r2 |}.
(** covariance.c:1045-1077. *)
Definition coord_pass (I : cov_in) : option (list ccoord) :=
  for_list (upto (redshifts I)) (fun zi cs =>
    for_list (data_points (List.length (ci_ells I)) (List.length (ci_sep I))) (fun im_jn cs =>
      let '((i, m), (j, n)) := im_jn in
      let* c := coord_of I zi i m j n in
      if List.length cs <? cov_size I then Some (cs ++ [c]) else None) cs) [].

(** The elements of the array as the caller sees them; [None]: value never written.
    covariance.h:24-46; covariance.c:1026-1077. *)
Definition cell := (option ccoord * option R)%type.
(** covariance.c:866-1077. *)
Definition assemble (size : nat) (cs : list ccoord) (vs : list R) : list cell :=
  map (fun i => (nth_error cs i, nth_error vs i)) (upto size).

(** coffe_covariance_init, covariance.c:477-1103 (with output_type one of the two covariances). *)
Definition covariance_init (X : cov_ext) (I : cov_in) : res (list cell) :=
  let d := cov_dims I in
  (* two_sph_bessel refuses an odd number of samples: exit(0), twobessel.c:17-18 *)
  if ci_fftlog I && Nat.odd (ci_bins I) && negb (d_z d =? 0) && negb (d_l d =? 0) then Exited
  else
    match all_integrals X I with
    | Some st =>
        match value_pass X I st, coord_pass I with
        | Some vs, Some cs => Done (assemble (cov_size I) cs vs)
        | _, _ => Undefined
        end
    | None => Undefined
    end.
