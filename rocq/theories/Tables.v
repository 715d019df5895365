(** * The tables of the integrals I^n_l (src/integrals.c:76-126, 189-573, 773-905)

    Real arithmetic; the literals of the two lists of separations are taken
    exactly.  GSL's quadrature, Bessel functions and Gamma function are
    parameters of the model. *)
From Coq Require Import ZArith QArith Qreals Reals List Lia Lra Bool Arith.
From Coquelicot Require Import Coquelicot.
From Coq Require Import List.
From Verif Require Import Arrays Numeric Fft Background.
Import ListNotations.
Open Scope nat_scope.

(** [coffe_sep], integrals.c:76-96; [NORM(X)] is [X] (integrals.c:42). *)
Definition coffe_sep_q : list Q :=
  [1#1000000; 1#200000; 1#10000; 1#200; 1#100; 1#50; 1#20; 1#10; 1#5; 2#5; 4#5; 1; 3#2; 2;
   3; 4; 5; 6; 7; 8; 9; 10; 11; 12; 13; 14; 15; 16; 17; 18; 19; 20; 21; 22; 23; 24; 25; 26;
   27; 28; 29; 30; 32; 34; 36; 38; 40; 42; 44; 46; 48; 50; 52; 54; 56; 58; 60; 62; 64; 66;
   68; 70; 72; 74; 76; 78; 80; 81; 82; 83; 84; 85; 86; 87; 88; 89; 90; 91; 92; 93; 94; 95;
   191#2; 96; 193#2; 97; 195#2; 98; 197#2; 99; 199#2; 100; 201#2; 101; 203#2; 102; 205#2;
   103; 207#2; 104; 209#2; 105; 106; 107; 108; 109; 110; 112; 114; 116; 118; 120; 124; 128;
   132; 136; 140; 144; 148; 152; 156; 160; 164; 168; 172; 176; 180; 185; 190; 195; 200; 205;
   210; 215; 220; 225; 230; 235; 240; 250; 260; 270; 280; 290; 300; 320; 340; 360; 380; 400;
   420; 440; 460; 480; 500; 520; 540; 560; 580; 600; 620; 640; 660; 680; 700; 750; 800; 850;
   900; 950; 1000; 1050; 1100; 1150; 1200; 1250; 1300; 1350; 1400; 1450; 1500; 1550; 1600;
   1650; 1700; 1750; 1800; 1850; 1900; 1950; 2000; 2050; 2100; 2150; 2200; 2250; 2300; 2350;
   2400; 2450; 2500; 2550; 2600; 2650; 2700; 2750; 2800; 2850; 2900; 2950; 3000; 3050; 3100;
   3150; 3200; 3250; 3300; 3350; 3400; 3450; 3500; 3550; 3600; 3650; 3700; 3750; 3800; 3850;
   3900; 3950; 4000; 4050; 4100; 4150; 4200; 4250; 4300; 4350; 4400; 4450; 4500; 4550; 4600;
   4650; 4700; 4750; 4800; 4850; 4900; 4950; 5000; 5050; 5100; 5150; 5200; 5250; 5300; 5350;
   5400; 5450; 5500; 5550; 5600; 5650; 5700; 5750; 5800; 5850; 5900; 5950; 6000; 6050; 6100;
   6150; 6200; 6250; 6300; 6350; 6400; 6450; 6500; 6550; 6600; 7000; 8000; 9000; 10000;
   11000; 12000; 13000; 14000; 15000; 16000; 17000; 18000; 19000; 20000]%Q.
Definition coffe_sep : list R := map Q2R coffe_sep_q.

(** [min_sep], integrals.c:111-126. *)
Definition min_sep_q : list Q :=
  [1#1000000; 1#100000; 1#10000; 1#1000; 1#500; 1#200; 7#1000; 1#125; 9#1000; 1#100;
   11#1000; 3#250; 1#80; 13#1000; 27#2000; 3#200; 1#50; 1#40; 3#100; 7#200; 1#20; 7#100;
   2#25; 9#100; 1#10; 11#100; 3#25; 1#8; 13#100; 27#200; 3#20; 7#40; 1#5; 1#4; 3#10; 7#20;
   2#5; 1#2; 3#5; 7#10; 4#5; 9#10]%Q.
Definition min_sep : list R := map Q2R min_sep_q.
Definition min_sep_len : nat := 42.

(** [enum coffe_integer_state]  integrals.h:23. *)
Inductive istate := Integer | HalfInteger.

(** What integrals.c:580-1423 calls. *)
Record tab_ext := {
  t_fft : fft_ext;
  t_quad : (R -> R) -> R -> R -> R;  (* coffe_integrate_1d_prec_gsl, precision 1e-5 *)
  t_jl : Z -> R -> R;                (* gsl_sf_bessel_jl *)
  t_Jn : Z -> R -> R;                (* gsl_sf_bessel_Jn *)
  t_gamma : R -> R;                  (* gsl_sf_gamma *)
  t_j0 : R -> R                      (* gsl_sf_bessel_j0 *)
}.

Section Tables.
Variable E : tab_ext.
Open Scope R_scope.

(** [integrals_check_parameters], integrals.c:189-208 *)
Definition local (s : istate) (n : Z) : R :=
  match s with HalfInteger => IZR n / 2 | Integer => IZR n end.

(** [integrals_coefficients], integrals.c:215-231 *)
Definition coefficient (l : Z) (s : istate) : R :=
  match s with
  | HalfInteger => 1 / Rpower 2 (IZR l / 2 + 1 / 2) / t_gamma E (IZR l / 2 + 3 / 2)
  | Integer => sqrt (PI / 2) / Rpower 2 (IZR l + 1 / 2) / t_gamma E (IZR l + 3 / 2)
  end.

(** [integrals_prefactor], integrals.c:238-269; [P] is the spline. *)
Definition prefactor (P : R -> R) (n l : Z) (sn sl : istate) (k : R) : R :=
  match sn, sl with
  | HalfInteger, HalfInteger => sqrt (PI / 2) * Rpower k (2 + local sl l - local sn n) * P k
  | _, _ => Rpower k (2 + local sl l - local sn n) * P k
  end.

(** [(int)((l + 1) / 2)]: C division truncates.  integrals.c:238-269. *)
Definition half_order (l : Z) : Z := Z.quot (l + 1) 2.

(** [integrals_bessel_integrand], integrals.c:280-325 *)
Definition bessel_integrand (P : R -> R) (n l : Z) (sn sl : istate) (r k : R) : R :=
  k * k * P k *
  match sl with
  | HalfInteger => sqrt (PI / 2) * t_Jn E (half_order l) (k * r) / Rpower (k * r) (local sn n + 1 / 2)
  | Integer => t_jl E l (k * r) / Rpower (k * r) (local sn n)
  end.

(** [integrals_integrate_function], integrals.c:333-383; [f] is the integrand
    with its parameters. *)
Definition integrate_function (f : R -> R) (n l : Z) (sn sl : istate) (sep kmin kmax : R) : R :=
  let result := t_quad E f kmin kmax in
  let output := if (rle (local sl l) (local sn n) && rlt 0 sep)%bool
                then result * Rpower sep (local sn n - local sl l) else result in
  output / 2 / PI / PI.

(** [coffe_integrals_renormalizable], integrals.c:459-573, with
    [coffe_multiply_power_array], common.c:973-995: the arrays of length
    [output_len + min_sep_len + 1] of abscissae and values. *)
Definition renormalizable (N : nat) (n l : Z) (sn sl : istate) (kmin kmax : R)
    : res (list (option R) * list (option R)) :=
  let P := x_spline (t_fft E) in
  let total := (N + min_sep_len + 1)%nat in
  let! fft := twofast_1bessel (t_fft E) (fresh N) (fresh N) N (local sl l) (local sn n) 1 kmin kmin kmax in
  let fft_x := fst fft in
  let! fft_y :=
    if rle (local sl l) (local sn n)
    then rfor 0 N (fun i a =>
           let! v := load a (Z.of_nat i) in
           let! x := load fft_x (Z.of_nat i) in
           store a (Z.of_nat i) (v * Rpower x (local sn n - local sl l))) (snd fft)
    else Done (snd fft) in
  let x0_result :=
    if rle (local sl l) (local sn n)
    then integrate_function (prefactor P n l sn sl) n l sn sl 0 kmin kmax * coefficient l sl
    else 0 in
  let! ox := store (fresh total) 0 0 in
  let! oy := store (fresh total) 0 x0_result in
  let! out := rfor 1 min_sep_len (fun i o =>
      let! x := of_opt (nth_error min_sep (i - 1)) in
      let! ox := store (fst o) (Z.of_nat i) x in
      let! x := load ox (Z.of_nat i) in
      let! oy := store (snd o) (Z.of_nat i)
                   (integrate_function (bessel_integrand P n l sn sl x) n l sn sl x kmin kmax) in
      Done (ox, oy)) (ox, oy) in
  rfor (total - N) N (fun i o =>
      let! x := load fft_x (Z.of_nat (i - (total - N))) in
      let! ox := store (fst o) (Z.of_nat i) x in
      let! y := load fft_y (Z.of_nat (i - (total - N))) in
      let! oy := store (snd o) (Z.of_nat i) y in
      Done (ox, oy)) out.

(** [coffe_rescale_array], common.c:920-942 *)
Definition rescale (a : list (option R)) (size : nat) (factor : R) : res (list (option R)) :=
  rfor 0 size (fun i a => let! v := load a (Z.of_nat i) in store a (Z.of_nat i) (v * factor)) a.

(** The table of the flat-sky density-lensing terms, integrals.c:911-975: the
    values are rescaled before the spline is made. *)
Definition flat_table (N : nat) (kmin kmax : R) : res (list (option R) * list (option R)) :=
  let! o := renormalizable N 1 (-1) HalfInteger HalfInteger kmin kmax in
  let! y := rescale (snd o) (N + min_sep_len + 1) (sqrt (2 / PI) * 2 * PI * PI) in
  Done (fst o, y).

(** [integrals_renormalization0_integrand] and [integrals_renormalization],
    integrals.c:388-444 *)
Definition renormalization0_integrand (P : R -> R) (r k : R) : R :=
  P k * (1 - t_j0 E (k * r) ^ 2) / k / k.
Definition renormalization_integrand (P : R -> R) (chi1 chi2 k : R) : R :=
  P k * t_j0 E (k * chi1) * t_j0 E (k * chi2) / k / k.
Definition renormalization_entry (chi1 chi2 kmin kmax : R) : R :=
  t_quad E (renormalization_integrand (x_spline (t_fft E)) chi1 chi2) kmin kmax / 2 / PI / PI.

(** The three tables of the divergent integral at a separation, integrals.c:791-845:
    the second is made by the same function with n = 4 and l = 0, and its first
    value is set to 0. *)
Definition divergent_entry (r kmin kmax : R) : R :=
  integrate_function (bessel_integrand (x_spline (t_fft E)) 4 0 Integer Integer r) 4 0 Integer Integer r kmin kmax.
Definition zero_separation_entry (r kmin kmax : R) : R :=
  integrate_function (renormalization0_integrand (x_spline (t_fft E)) r) 4 0 Integer Integer r kmin kmax.
Definition divergent_values (kmin kmax : R) : list R := map (fun r => divergent_entry r kmin kmax) coffe_sep.
Definition zero_separation_values (kmin kmax : R) : list R :=
  0 :: tl (map (fun r => zero_separation_entry r kmin kmax) coffe_sep).
End Tables.

(** The tables in redshift and separation, integrals.c:668-760, 976-1077,
    1142-1240 and 1306-1400: [Pz i] is the spectrum at the [i]-th redshift, and
    the result has the redshift as its first index.  Nothing rescales it. *)
Definition with_spectrum (E : tab_ext) (P : R -> R) : tab_ext :=
  {| t_fft := {| x_spline := P; x_mql := x_mql (t_fft E) |}; t_quad := t_quad E; t_jl := t_jl E;
     t_Jn := t_Jn E; t_gamma := t_gamma E; t_j0 := t_j0 E |}.
Definition z_size : nat := 100.
Definition evolved_table (E : tab_ext) (Pz : nat -> R -> R) (N : nat) (n l : Z) (sn sl : istate) (kmin kmax : R)
    : res (list (option R)) :=
  let len := N + min_sep_len + 1 in
  rfor 0 z_size (fun i a =>
    let! t := renormalizable (with_spectrum E (Pz i)) N n l sn sl kmin kmax in
    rfor 0 len (fun j a =>
      let! v := load (snd t) (Z.of_nat j) in
      store a (Z.of_nat (j * z_size + i)) v) a) (fresh (z_size * len)).

(** [coffe_init_spline], common.c:524-576, with GSL's requirements: at least one
    point or the process ends; a table shorter than the method needs or whose
    abscissae do not increase leaves the spline unusable. *)
Definition init_spline (xs ys : list (option R)) (bins method : nat) : res (list (R * R)) :=
  if (bins =? 0)%nat then Exited
  else let! x := values (firstn bins xs) in
       let! y := values (firstn bins ys) in
       if (bins <? min_size method)%nat then Undefined
       else if (negb (bins =? length x) || negb (bins =? length y))%nat%bool then Undefined
       else if increasing_dec x then Done (combine x y) else Undefined.

(** The two tables of the divergent integral, integrals.c:791-848, and the
    distances and redshifts of the two-dimensional tables, integrals.c:683-684
    and 878-883. *)
Definition divergent_seps : list R := coffe_sep.
Definition zero_separation_seps : list R := 0%R :: tl coffe_sep.
Definition chi_array (chi_max : R) : list R :=
  map (fun j => (0 + INR j / 200 * (chi_max - 0))%R) (seq 0 201).
Definition z_array : list R := map (fun i => (0 + 3 * INR i / 100)%R) (seq 0 100).
