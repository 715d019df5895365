(** * src/signal.c: from the terms to one number

    [coffe_integrate] (signal.c:472-771) decides which of the three families of
    terms is needed, and integrates it.  The quadrature routines
    ([coffe_integrate_1d_prec_gsl], [coffe_integrate_1d_prec_double_exponential],
    [coffe_integrate_multidimensional], src/common.c:1004-1179) are kept
    abstract: [coffe_integrate] returns a [plan] saying which integrand is handed
    to which routine and with which factor. *)
From Coq Require Import Reals ZArith Bool List Lia Lra.
Import ListNotations.
From Verif Require Import Integrals CExpr Terms.
Open Scope R_scope.

(** ** Calls of the three functions *)
(** The arguments of functions.c:89-97, 1486-1495 and 3460-3470. *)
Definition args (zm m s : R) : store :=
  upd (upd (upd (fun _ => 0) z_mean zm) mu m) sep s.

(** functions.c:89-1484. *)
Definition ni_code : list stmt := ni_prelude ++ concat (map snd ni_blocks) ++ ni_final.
(** functions.c:1486-3457. *)
Definition si_code : list stmt := si_prelude ++ concat (map snd si_blocks) ++ si_final.
(** functions.c:3460-4016. *)
Definition di_code : list stmt := di_prelude ++ concat (map snd di_blocks) ++ di_final.

(** functions_nonintegrated, functions.c:89-1484. *)
Definition nonintegrated (E : env) (zm m s : R) : outcome :=
  exec E (args zm m s) ni_code.
(** functions_single_integrated, functions.c:1486-3457. *)
Definition single_integrated (E : env) (zm m s x : R) : outcome :=
  exec E (upd (args zm m s) x_ x) si_code.
(** functions_double_integrated, functions.c:3460-4016. *)
Definition double_integrated (E : env) (zm m s x1 x2 : R) : outcome :=
  exec E (upd (upd (args zm m s) x_1 x1) x_2 x2) di_code.

(** functions_flatsky_lensing_lensing_multipoles, functions.c:4020-4132.
    [gsl_sf_fact(l / 2)] divides integers. *)
Definition flat_len_len (E : env) (zm s : R) (l : nat) (x : R) : outcome :=
  let k := K 1 (Z.of_nat l) false in
  let chi := spl E bg_comoving_distance zm in
  let z := spl E bg_z_as_chi (chi * x) in
  let pre :=
    INR (2 * l + 1) * INR (fact l) / 2 ^ l / INR (fact (l / 2)) ^ 2
    * 9 * (omega_cdm E + omega_baryon E) ^ 2
    * (2 - 5 * spl E par_magnification_bias1 zm)
    * (2 - 5 * spl E par_magnification_bias2 zm)
    * chi ^ 3 / 8 / PI in
  let r :=
    if sw E pk_nonlinear && sw E midpoint
    then pre * tab2 E k result2d z (x * s) * (1 + z) ^ 2 * (x * (1 - x)) ^ 2
    else pre * tab1 E k result (x * s) * spl E bg_D1 z ^ 2 * (1 + z) ^ 2
         * (x * (1 - x)) ^ 2 in
  if present E k then
    Ret (if Nat.ltb 0 l then r * x * s * (coffe_H0 * par_h E) ^ 4
         else r * (coffe_H0 * par_h E) ^ 4)
  else Null.

(** One term of the sum in functions_flatsky_density_lensing_multipoles
    (functions.c:4170-4188 and 4211-4229). *)
Definition flat_den_len_key (l k : nat) : key :=
  K (Z.of_nat l - 2 * Z.of_nat k + 3) (Z.of_nat l - 2 * Z.of_nat k + 1) true.
Definition flat_den_len_coef (l k : nat) : R :=
  (-1) ^ k / 2 ^ k * C l k * C (2 * l - 2 * k) l * INR (fact (l / 2 - k)).

(** pow(2, 1 - l / 2) with an integer, possibly negative, exponent.  functions.c:4020-4132. *)
Definition pow2 (n : Z) : R := powerRZ 2 n.

(** functions_flatsky_density_lensing_multipoles, functions.c:4136-4253. *)
Definition flat_den_len (E : env) (zm s : R) (l : nat) : outcome :=
  let nonlin := sw E pk_nonlinear && sw E midpoint in
  let ks := seq 0 (S (l / 2)) in
  let sum :=
    fold_left Rplus
      (map (fun k => flat_den_len_coef l k
              * (if nonlin then tab2 E (flat_den_len_key l k) result2d zm s
                 else tab1 E (flat_den_len_key l k) result s)) ks) 0 in
  let fac :=
    - 3 * (omega_cdm E + omega_baryon E) / PI / 8 * INR (2 * l + 1)
    * (if nonlin then 1 else spl E bg_D1 zm * spl E bg_D1 zm)
    * (1 + zm) * s
    * ((2 - 5 * spl E par_magnification_bias1 zm) * spl E par_galaxy_bias2 zm
       + (2 - 5 * spl E par_magnification_bias2 zm) * spl E par_galaxy_bias1 zm)
    * pow2 (1 - Z.of_nat (l / 2)) in
  if Nat.even l then
    if forallb (fun k => present E (flat_den_len_key l k)) ks
    then Ret (sum * fac / sqrt (2 * PI) * (coffe_H0 * par_h E) ^ 2)
    else Null
  else Ret (0 / sqrt (2 * PI) * (coffe_H0 * par_h E) ^ 2).

(** ** coffe_integrate *)
(** The cases of signal.c:472-771. *)
Inductive family := NonIntegrated | SingleIntegrated | DoubleIntegrated.
Inductive kind := Corrfunc | Multipoles | AverageMultipoles.

(** What is evaluated: a value, or an integrand given to a quadrature over the
    unit interval ([Quad1]) or the unit cube of some dimension ([QuadN]),
    times a factor.  The cases of signal.c:472-771. *)
Inductive plan :=
  | Zero
  | Value (c : R) (o : outcome)
  | Quad1 (c : R) (f : R -> outcome)
  | QuadN (dim : nat) (c : R) (f : list R -> outcome)
  | Both (p q : plan).

(** The arguments of coffe_integrate, signal.c:472-490. *)
Record point := mkPoint {
  p_z : R; p_zmin : R; p_zmax : R; p_sep : R; p_mu : R; p_l : nat }.

(** signal.c:83-110. *)
Definition scale (o : outcome) (g : R) : outcome :=
  match o with Ret r => Ret (r * g) | o => o end.

(** Factor [gsl_sf_legendre_Pl(l, mu)], left out for l = 0
    (signal.c:95-109 and the other integrands). *)
Definition times_legendre (l : nat) (m : R) (o : outcome) : outcome :=
  if Nat.eqb l 0 then o else scale o (legendre l m).

Definition coord (v : list R) (i : nat) : R := nth i v 0.

(** The redshift of an average-multipole integrand, signal.c:265-276. *)
Definition av_z (E : env) (p : point) (u : R) : R :=
  let z1 := spl E bg_z_as_chi (spl E bg_comoving_distance (p_zmin p) + p_sep p / 2) in
  let z2 := spl E bg_z_as_chi (spl E bg_comoving_distance (p_zmax p) - p_sep p / 2) in
  (z2 - z1) * u + z1.

(** ... and its weight, signal.c:281-285. *)
Definition av_weight (E : env) (z : R) : R :=
  / spl E bg_conformal_Hz z / (1 + z) * (coffe_H0 * par_h E).

Definition local_on (E : env) : bool :=
  con E den || con E rsd || con E d1 || con E d2 || con E g1 || con E g2 || con E g3.
Definition integrated_on (E : env) : bool := con E len || con E g4 || con E g5.

(** The 21 pairs of signal.c:559-581. *)
Definition single_on (E : env) : bool :=
  con E len && con E den || con E len && con E rsd || con E len && con E d1
  || con E len && con E d2 || con E len && con E g1 || con E len && con E g2
  || con E len && con E g3
  || con E g4 && con E den || con E g4 && con E rsd || con E g4 && con E d1
  || con E g4 && con E d2 || con E g4 && con E g1 || con E g4 && con E g2
  || con E g4 && con E g3
  || con E g5 && con E den || con E g5 && con E rsd || con E g5 && con E d1
  || con E g5 && con E d2 || con E g5 && con E g1 || con E g5 && con E g2
  || con E g5 && con E g3.

(** The condition of signal.c:637-666. *)
Definition single_full_on (E : env) : bool :=
  con E len && con E d2 || con E len && con E g1 || con E len && con E g2
  || con E len && con E g3
  || con E g4 && con E den || con E g4 && con E rsd || con E g4 && con E d1
  || con E g4 && con E d2 || con E g4 && con E g1 || con E g4 && con E g2
  || con E g4 && con E g3
  || con E g5 && con E den || con E g5 && con E rsd || con E g5 && con E d1
  || con E g5 && con E d2 || con E g5 && con E g1 || con E g5 && con E g2
  || con E g5 && con E g3
  || (con E den || con E rsd || con E d1) && con E len
     && negb (sw E flatsky_local_nonlocal).

Definition coffe_integrate (E : env) (p : point) (f : family) (o : kind) : plan :=
  let zm := p_z p in let s := p_sep p in let l := p_l p in
  let two_l_1 := INR (2 * l + 1) in
  match f with
  | NonIntegrated =>
      if negb (local_on E) then Zero else
      match o with
      | Corrfunc => Value 1 (nonintegrated E zm (p_mu p) s)
      | Multipoles =>
          Quad1 two_l_1 (fun x =>
            let m := 2 * x - 1 in times_legendre l m (nonintegrated E zm m s))
      | AverageMultipoles =>
          QuadN 2 two_l_1 (fun v =>
            let z := av_z E p (coord v 0) in let m := 2 * coord v 1 - 1 in
            scale (times_legendre l m (nonintegrated E z m s)) (av_weight E z))
      end
  | SingleIntegrated =>
      if negb (single_on E) then Zero else
      match o with
      | Corrfunc => Quad1 1 (fun x => single_integrated E zm (p_mu p) s x)
      | Multipoles =>
          Both
            (if (con E den || con E rsd || con E d1) && con E len
                && sw E flatsky_local_nonlocal
             then if con E den then Value (2 * PI * PI) (flat_den_len E zm s l) else Zero
             else Zero)
            (if single_full_on E then
               QuadN 2 two_l_1 (fun v =>
                 let m := 2 * coord v 0 - 1 in
                 times_legendre l m (single_integrated E zm m s (coord v 1)))
             else Zero)
      | AverageMultipoles =>
          QuadN 3 two_l_1 (fun v =>
            let z := av_z E p (coord v 0) in let m := 2 * coord v 1 - 1 in
            scale (times_legendre l m (single_integrated E z m s (coord v 2)))
                  (av_weight E z))
      end
  | DoubleIntegrated =>
      if negb (integrated_on E) then Zero else
      match o with
      | Corrfunc =>
          QuadN 2 1 (fun v => double_integrated E zm (p_mu p) s (coord v 0) (coord v 1))
      | Multipoles =>
          Both
            (if con E len && sw E flatsky_nonlocal && negb (sw E only_cross)
                && Nat.even l
             then Quad1 (2 * PI * PI) (fun x => flat_len_len E zm s l x)
             else Zero)
            (if con E g4 || con E g5 || con E len && negb (sw E flatsky_nonlocal) then
               QuadN 3 two_l_1 (fun v =>
                 let m := 2 * coord v 0 - 1 in
                 times_legendre l m
                   (double_integrated E zm m s (coord v 1) (coord v 2)))
             else Zero)
      | AverageMultipoles =>
          QuadN 4 two_l_1 (fun v =>
            let z := av_z E p (coord v 0) in let m := 2 * coord v 1 - 1 in
            scale (times_legendre l m
                     (double_integrated E z m s (coord v 2) (coord v 3)))
                  (av_weight E z))
      end
  end.

(** ** Running a plan *)

(** A quadrature routine: what it returns for each integrand.  common.c:1004-1178, called in signal.c:472-771. *)
Record quadrature := mkQuad {
  q1 : (R -> R) -> R;
  qn : nat -> (list R -> R) -> R }.

(** The number produced by a call that returned.  signal.c:472-771. *)
Definition value (o : outcome) : R := match o with Ret r => r | _ => 0 end.

Fixpoint run (Q : quadrature) (p : plan) : R :=
  match p with
  | Zero => 0
  | Value c o => c * value o
  | Quad1 c f => c * q1 Q (fun x => value (f x))
  | QuadN d c f => c * qn Q d (fun v => value (f v))
  | Both p q => run Q p + run Q q
  end.

(** No evaluation uses a null pointer, whatever points the quadrature visits.
    Specification or proof only; nothing in the code. *)
Fixpoint no_null (p : plan) : Prop :=
  match p with
  | Zero => True
  | Value _ o => o <> Null
  | Quad1 _ f => forall x, f x <> Null
  | QuadN _ _ f => forall v, f v <> Null
  | Both p q => no_null p /\ no_null q
  end.

(** The number the drivers store: the three families added
    (corrfunc.c:96-140, multipoles.c:90-135, average_multipoles.c:108-154). *)
Definition signal (Q : quadrature) (E : env) (p : point) (o : kind) : R :=
  run Q (coffe_integrate E p NonIntegrated o)
  + run Q (coffe_integrate E p SingleIntegrated o)
  + run Q (coffe_integrate E p DoubleIntegrated o).
