(** * The terms of src/functions.c

    Transcribed by tools/terms_from_c.py from src/functions.c, block by block;
    each definition cites the lines it transcribes.  The code between
    [#ifdef HAVE_CLASS] and [#endif] is included; since all of it is guarded by
    [par->pk_type != COFFE_PK_LINEAR && par->midpoint_approximation], the build
    without CLASS is the same code with [midpoint] false.  The messages printed
    before [exit] are left out.  Integer literals used in floating-point
    expressions are [Num]; the transcription refuses integer divisions, so none
    occurs. *)
From Coq Require Import ZArith List.
Import ListNotations.
From Verif Require Import Integrals CExpr.
Open Scope c_scope.

(** Local variables of [functions_nonintegrated], functions.c:98-127. *)
Definition ni_prelude : list stmt :=
 [Set_ chi_mean (Spl bg_comoving_distance z_mean);
  Set_ chi1 (chi_mean - sep * mu / #2);
  Set_ chi2 (chi_mean + sep * mu / #2);
  Set_ costheta ((#2 * chi_mean * chi_mean - sep * sep + mu * mu * sep * sep
   / #2) / (#2 * chi_mean * chi_mean - mu * mu * sep * sep / #2));
  Set_ res #0;
  Set_ z1 (Spl bg_z_as_chi chi1);
  Set_ z2 (Spl bg_z_as_chi chi2);
  Set_ f1 (Spl bg_f z1);
  Set_ f2 (Spl bg_f z2);
  Set_ fmean (Spl bg_f z_mean);
  Set_ curlyH1 (Spl bg_conformal_Hz z1);
  Set_ curlyH2 (Spl bg_conformal_Hz z2);
  Set_ curlyH_mean (Spl bg_conformal_Hz z_mean);
  Set_ b1 (Spl par_galaxy_bias1 z1);
  Set_ b2 (Spl par_galaxy_bias2 z2);
  Set_ bz_mean1 (Spl par_galaxy_bias1 z_mean);
  Set_ bz_mean2 (Spl par_galaxy_bias2 z_mean);
  Set_ G1 (Spl bg_G1 z1);
  Set_ G2 (Spl bg_G2 z2);
  Set_ Gz_mean1 (Spl bg_G1 z_mean);
  Set_ Gz_mean2 (Spl bg_G2 z_mean);
  Set_ s1 (Spl par_magnification_bias1 z1);
  Set_ s2 (Spl par_magnification_bias2 z2);
  Set_ fevo1 (Spl par_evolution_bias1 z1);
  Set_ fevo2 (Spl par_evolution_bias2 z2);
  Set_ a1 (Spl bg_a z1);
  Set_ a2 (Spl bg_a z2)].

(** functions.c:130-229. *)
Definition ni_den_den : list stmt :=
 [If (And (Con den) (Not (Flag only_cross)))
   [If (Flag flatsky_local)
     [If (And (Flag pk_nonlinear) (Flag midpoint))
       [AddTo (bz_mean1 * bz_mean2 * Tab2 (K 0 0 false) result2d z_mean sep)]
       [If (Or (Flag b_derivative) (Flag b_tilde_derivative))
         [AddTo (#2 * bz_mean1 * Tab1 (K 0 0 false) result sep)]
         [If (Or (Flag f_derivative) (Flag f_tilde_derivative))
           [AddTo #0]
           [AddTo (bz_mean1 * bz_mean2 * Tab1 (K 0 0 false) result sep)]]]]
     [If (And (Flag pk_nonlinear) (Flag midpoint))
       [AddTo (b1 * b2 * Tab2 (K 0 0 false) result2d z_mean sep)]
       [AddTo (b1 * b2 * Tab1 (K 0 0 false) result sep)]]]
   []].

(** functions.c:231-362. *)
Definition ni_rsd_rsd : list stmt :=
 [If (And (Con rsd) (Not (Flag only_cross)))
   [If (Flag flatsky_local)
     [If (And (Flag pk_nonlinear) (Flag midpoint))
       [AddTo (fmean * fmean * Tab2 (K 0 0 false) result2d z_mean sep / #5 -
         #4 * fmean * fmean * Tab2 (K 0 2 false) result2d z_mean sep / #7 *
         Leg 2 mu + #8 * fmean * fmean * Tab2 (K 0 4 false) result2d z_mean
         sep / #35 * Leg 4 mu)]
       [If (Or (Flag b_derivative) (Flag b_tilde_derivative))
         [AddTo #0]
         [If (Or (Flag f_derivative) (Flag f_tilde_derivative))
           [AddTo (#2 * fmean * Tab1 (K 0 0 false) result sep / #5 - #8 *
             fmean * Tab1 (K 0 2 false) result sep / #7 * Leg 2 mu + #16 *
             fmean * Tab1 (K 0 4 false) result sep / #35 * Leg 4 mu)]
           [AddTo (fmean * fmean * Tab1 (K 0 0 false) result sep / #5 - #4 *
             fmean * fmean * Tab1 (K 0 2 false) result sep / #7 * Leg 2 mu +
             #8 * fmean * fmean * Tab1 (K 0 4 false) result sep / #35 * Leg 4
             mu)]]]]
     [If (And (Flag pk_nonlinear) (Flag midpoint))
       [AddTo (f1 * f2 * (#1 + #2 * Pow costheta 2) / #15 * Tab2 (K 0 0
         false) result2d z_mean sep - f1 * f2 / #21 * (#1 + #11 * Pow
         costheta 2 + #18 * costheta * (Pow costheta 2 - #1) * chi1 * chi2 /
         sep / sep) * Tab2 (K 0 2 false) result2d z_mean sep + f1 * f2 * (#4
         * (#3 * Pow costheta 2 - #1) * (Pow chi1 4 + Pow chi2 4) / #35 / Pow
         sep 4 + chi1 * chi2 * (#3 + Pow costheta 2) * (#3 * (#3 + Pow
         costheta 2) * chi1 * chi2 - #8 * (Pow chi1 2 + Pow chi2 2) *
         costheta) / #35 / Pow sep 4) * Tab2 (K 0 4 false) result2d z_mean
         sep)]
       [AddTo (f1 * f2 * (#1 + #2 * Pow costheta 2) / #15 * Tab1 (K 0 0
         false) result sep - f1 * f2 / #21 * (#1 + #11 * Pow costheta 2 + #18
         * costheta * (Pow costheta 2 - #1) * chi1 * chi2 / sep / sep) * Tab1
         (K 0 2 false) result sep + f1 * f2 * (#4 * (#3 * Pow costheta 2 -
         #1) * (Pow chi1 4 + Pow chi2 4) / #35 / Pow sep 4 + chi1 * chi2 *
         (#3 + Pow costheta 2) * (#3 * (#3 + Pow costheta 2) * chi1 * chi2 -
         #8 * (Pow chi1 2 + Pow chi2 2) * costheta) / #35 / Pow sep 4) * Tab1
         (K 0 4 false) result sep)]]]
   []].

(** functions.c:364-573. *)
Definition ni_d1_d1 : list stmt :=
 [If (And (Con d1) (Not (Flag only_cross)))
   [If (Flag flatsky_local)
     [If (And (Flag pk_nonlinear) (Flag midpoint))
       [AddTo (curlyH_mean * curlyH_mean * fmean * fmean * Gz_mean1 *
         Gz_mean2 * Tab2 (K 2 0 false) result2d z_mean sep / #3 + #2 *
         curlyH_mean * curlyH_mean * fmean * fmean * Gz_mean1 * Gz_mean2 *
         Pow sep 2 * Tab2 (K 2 2 false) result2d z_mean sep * Leg 2 mu / #3)]
       [AddTo (curlyH_mean * curlyH_mean * fmean * fmean * Gz_mean1 *
         Gz_mean2 * Tab1 (K 2 0 false) result sep / #3 + #2 * curlyH_mean *
         curlyH_mean * fmean * fmean * Gz_mean1 * Gz_mean2 * Pow sep 2 * Tab1
         (K 2 2 false) result sep * Leg 2 mu / #3)]]
     [If (And (Flag pk_nonlinear) (Flag midpoint))
       [AddTo (curlyH1 * curlyH2 * f1 * f2 * G1 * G2 * costheta * Tab2 (K 2 0
         false) result2d z_mean sep / #3 - curlyH1 * curlyH2 * f1 * f2 * G1 *
         G2 * ((chi2 - chi1 * costheta) * (chi1 - chi2 * costheta) + Pow sep
         2 * costheta / #3) * Tab2 (K 2 2 false) result2d z_mean sep)]
       [AddTo (curlyH1 * curlyH2 * f1 * f2 * G1 * G2 * costheta * Tab1 (K 2 0
         false) result sep / #3 - curlyH1 * curlyH2 * f1 * f2 * G1 * G2 *
         ((chi2 - chi1 * costheta) * (chi1 - chi2 * costheta) + Pow sep 2 *
         costheta / #3) * Tab1 (K 2 2 false) result sep)]]]
   []].

(** functions.c:575-597. *)
Definition ni_d2_d2 : list stmt :=
 [If (And (Con d2) (Not (Flag only_cross)))
   [AddTo ((#3 - fevo1) * (#3 - fevo2) * Pow curlyH1 2 * Pow curlyH2 2 * f1 *
     f2 * (Tab1 (K 4 0 false) result sep - Tab2 (K 4 0 false) renormalization
     chi1 chi2))]
   []].

(** functions.c:599-621. *)
Definition ni_g1_g1 : list stmt :=
 [If (And (Con g1) (Not (Flag only_cross)))
   [AddTo (Pow (H0 * Par_h) 4 * (#9 * Pow (Omega0_cdm + Omega0_baryon) 2 *
     (#1 + G1) * (#1 + G2) / #4 / a1 / a2 * (Tab1 (K 4 0 false) result sep -
     Tab2 (K 4 0 false) renormalization chi1 chi2)))]
   []].

(** functions.c:623-645. *)
Definition ni_g2_g2 : list stmt :=
 [If (And (Con g2) (Not (Flag only_cross)))
   [AddTo (Pow (H0 * Par_h) 4 * (#9 * Pow (Omega0_cdm + Omega0_baryon) 2 *
     (#5 * s1 - #2) * (#5 * s2 - #2) / #4 / a1 / a2 * (Tab1 (K 4 0 false)
     result sep - Tab2 (K 4 0 false) renormalization chi1 chi2)))]
   []].

(** functions.c:647-669. *)
Definition ni_g3_g3 : list stmt :=
 [If (And (Con g3) (Not (Flag only_cross)))
   [AddTo (Pow (H0 * Par_h) 4 * (#9 * Pow (Omega0_cdm + Omega0_baryon) 2 *
     (f1 - #1) * (f2 - #1) / #4 / a1 / a2 * (Tab1 (K 4 0 false) result sep -
     Tab2 (K 4 0 false) renormalization chi1 chi2)))]
   []].

(** functions.c:671-771. *)
Definition ni_den_rsd : list stmt :=
 [If (And (Con den) (Con rsd))
   [If (Flag flatsky_local)
     [If (And (Flag pk_nonlinear) (Flag midpoint))
       [AddTo ((bz_mean1 * fmean / #3 + bz_mean2 * fmean / #3) * Tab2 (K 0 0
         false) result2d z_mean sep - (#2 * bz_mean1 * fmean / #3 + #2 *
         bz_mean2 * fmean / #3) * Tab2 (K 0 2 false) result2d z_mean sep *
         Leg 2 mu)]
       [If (Or (Flag b_derivative) (Flag b_tilde_derivative))
         [AddTo ((fmean / #3 + fmean / #3) * Tab1 (K 0 0 false) result sep -
           (#2 * fmean / #3 + #2 * fmean / #3) * Tab1 (K 0 2 false) result
           sep * Leg 2 mu)]
         [If (Or (Flag f_derivative) (Flag f_tilde_derivative))
           [AddTo ((bz_mean1 / #3 + bz_mean2 / #3) * Tab1 (K 0 0 false)
             result sep - (#2 * bz_mean1 / #3 + #2 * bz_mean2 / #3) * Tab1 (K
             0 2 false) result sep * Leg 2 mu)]
           [AddTo ((bz_mean1 * fmean / #3 + bz_mean2 * fmean / #3) * Tab1 (K
             0 0 false) result sep - (#2 * bz_mean1 * fmean / #3 + #2 *
             bz_mean2 * fmean / #3) * Tab1 (K 0 2 false) result sep * Leg 2
             mu)]]]]
     [If (And (Flag pk_nonlinear) (Flag midpoint))
       [AddTo ((b1 * f2 / #3 + b2 * f1 / #3) * Tab2 (K 0 0 false) result2d
         z_mean sep - (b1 * f2 * (#2 / #3 - (#1 - Pow costheta 2) * Pow (chi1
         / sep) 2) + b2 * f1 * (#2 / #3 - (#1 - Pow costheta 2) * Pow (chi2 /
         sep) 2)) * Tab2 (K 0 2 false) result2d z_mean sep)]
       [AddTo ((b1 * f2 / #3 + b2 * f1 / #3) * Tab1 (K 0 0 false) result sep
         - (b1 * f2 * (#2 / #3 - (#1 - Pow costheta 2) * Pow (chi1 / sep) 2)
         + b2 * f1 * (#2 / #3 - (#1 - Pow costheta 2) * Pow (chi2 / sep) 2))
         * Tab1 (K 0 2 false) result sep)]]]
   []].

(** functions.c:773-855. *)
Definition ni_den_d1 : list stmt :=
 [If (And (Con den) (Con d1))
   [If (Flag flatsky_local)
     [If (And (Flag pk_nonlinear) (Flag midpoint))
       [AddTo ((bz_mean1 * fmean * curlyH_mean * Gz_mean2 * Leg 1 mu +
         bz_mean2 * fmean * curlyH_mean * Gz_mean1 * Leg 1 (- mu)) * sep *
         Tab2 (K 1 1 false) result2d z_mean sep)]
       [AddTo ((bz_mean1 * fmean * curlyH_mean * Gz_mean2 * Leg 1 mu +
         bz_mean2 * fmean * curlyH_mean * Gz_mean1 * Leg 1 (- mu)) * sep *
         Tab1 (K 1 1 false) result sep)]]
     [If (And (Flag pk_nonlinear) (Flag midpoint))
       [AddTo ((- (b1 * f2 * curlyH2 * G2 * (chi1 * costheta - chi2) + b2 *
         f1 * curlyH1 * G1 * (chi2 * costheta - chi1))) * Tab2 (K 1 1 false)
         result2d z_mean sep)]
       [AddTo ((- (b1 * f2 * curlyH2 * G2 * (chi1 * costheta - chi2) + b2 *
         f1 * curlyH1 * G1 * (chi2 * costheta - chi1))) * Tab1 (K 1 1 false)
         result sep)]]]
   []].

(** functions.c:857-867. *)
Definition ni_den_d2 : list stmt :=
 [If (And (Con den) (Con d2))
   [AddTo (((#3 - fevo2) * b1 * f2 * Pow curlyH2 2 + (#3 - fevo1) * b2 * f1 *
     Pow curlyH1 2) * Tab1 (K 2 0 false) result sep)]
   []].

(** functions.c:869-879. *)
Definition ni_den_g1 : list stmt :=
 [If (And (Con den) (Con g1))
   [AddTo (Pow (H0 * Par_h) 2 * ((- (b1 * #3 * (Omega0_cdm + Omega0_baryon) /
     #2 / a2 * (#1 + G2) + b2 * #3 * (Omega0_cdm + Omega0_baryon) / #2 / a1 *
     (#1 + G1))) * Tab1 (K 2 0 false) result sep))]
   []].

(** functions.c:881-891. *)
Definition ni_den_g2 : list stmt :=
 [If (And (Con den) (Con g2))
   [AddTo (Pow (H0 * Par_h) 2 * ((- (b1 * #3 * (Omega0_cdm + Omega0_baryon) /
     #2 / a2 * (#5 * s2 - #2) + b2 * #3 * (Omega0_cdm + Omega0_baryon) / #2 /
     a1 * (#5 * s1 - #2))) * Tab1 (K 2 0 false) result sep))]
   []].

(** functions.c:893-903. *)
Definition ni_den_g3 : list stmt :=
 [If (And (Con den) (Con g3))
   [AddTo (Pow (H0 * Par_h) 2 * ((- (b1 * #3 * (Omega0_cdm + Omega0_baryon) /
     #2 / a2 * (f2 - #1) + b2 * #3 * (Omega0_cdm + Omega0_baryon) / #2 / a1 *
     (f1 - #1))) * Tab1 (K 2 0 false) result sep))]
   []].

(** functions.c:905-1143. *)
Definition ni_rsd_d1 : list stmt :=
 [If (And (Con rsd) (Con d1))
   [If (Flag flatsky_local)
     [If (And (Flag pk_nonlinear) (Flag midpoint))
       [AddTo ((- #3) / #5 * (fmean * fmean * curlyH_mean * Gz_mean2 * Leg 1
         (- mu) + fmean * fmean * curlyH_mean * Gz_mean1 * Leg 1 mu) * Tab2
         (K 1 1 false) result2d z_mean sep * sep + (fmean * fmean *
         curlyH_mean * Gz_mean2 * #2 / #5 * Leg 3 (- mu) + fmean * fmean *
         curlyH_mean * Gz_mean1 * #2 / #5 * Leg 3 mu) * Tab2 (K 1 3 false)
         result2d z_mean sep * sep)]
       [AddTo ((- #3) / #5 * (fmean * fmean * curlyH_mean * Gz_mean2 * Leg 1
         (- mu) + fmean * fmean * curlyH_mean * Gz_mean1 * Leg 1 mu) * Tab1
         (K 1 1 false) result sep * sep + (fmean * fmean * curlyH_mean *
         Gz_mean2 * #2 / #5 * Leg 3 (- mu) + fmean * fmean * curlyH_mean *
         Gz_mean1 * #2 / #5 * Leg 3 mu) * Tab1 (K 1 3 false) result sep *
         sep)]]
     [If (And (Flag pk_nonlinear) (Flag midpoint))
       [AddTo ((f1 * f2 * curlyH2 * G2 * ((#1 + #2 * Pow costheta 2) * chi2 -
         #3 * chi1 * costheta) / #5 + f2 * f1 * curlyH1 * G1 * ((#1 + #2 *
         Pow costheta 2) * chi1 - #3 * chi2 * costheta) / #5) * Tab2 (K 1 1
         false) result2d z_mean sep + (f1 * f2 * curlyH2 * G2 * ((#1 - #3 *
         costheta * costheta) * Pow chi2 3 + costheta * (#5 + Pow costheta 2)
         * Pow chi2 2 * chi1 - #2 * (#2 + Pow costheta 2) * chi2 * Pow chi1 2
         + #2 * Pow chi1 3 * costheta) / #5 + f2 * f1 * curlyH1 * G1 * ((#1 -
         #3 * costheta * costheta) * Pow chi1 3 + costheta * (#5 + Pow
         costheta 2) * Pow chi1 2 * chi2 - #2 * (#2 + Pow costheta 2) * chi1
         * Pow chi2 2 + #2 * Pow chi2 3 * costheta) / #5) * Tab2 (K 1 3
         false) result2d z_mean sep / Pow sep 2)]
       [AddTo ((f1 * f2 * curlyH2 * G2 * ((#1 + #2 * Pow costheta 2) * chi2 -
         #3 * chi1 * costheta) / #5 + f2 * f1 * curlyH1 * G1 * ((#1 + #2 *
         Pow costheta 2) * chi1 - #3 * chi2 * costheta) / #5) * Tab1 (K 1 1
         false) result sep + (f1 * f2 * curlyH2 * G2 * ((#1 - #3 * costheta *
         costheta) * Pow chi2 3 + costheta * (#5 + Pow costheta 2) * Pow chi2
         2 * chi1 - #2 * (#2 + Pow costheta 2) * chi2 * Pow chi1 2 + #2 * Pow
         chi1 3 * costheta) / #5 + f2 * f1 * curlyH1 * G1 * ((#1 - #3 *
         costheta * costheta) * Pow chi1 3 + costheta * (#5 + Pow costheta 2)
         * Pow chi1 2 * chi2 - #2 * (#2 + Pow costheta 2) * chi1 * Pow chi2 2
         + #2 * Pow chi2 3 * costheta) / #5) * Tab1 (K 1 3 false) result sep
         / Pow sep 2)]]]
   []].

(** functions.c:1145-1163. *)
Definition ni_rsd_d2 : list stmt :=
 [If (And (Con rsd) (Con d2))
   [AddTo (((#3 - fevo2) / #3 * f1 * f2 * Pow curlyH2 2 + (#3 - fevo1) / #3 *
     f2 * f1 * Pow curlyH1 2) * Tab1 (K 2 0 false) result sep - ((#3 - fevo2)
     * f1 * f2 * Pow curlyH2 2 * (#2 / #3 * Pow sep 2 - (#1 - Pow costheta 2)
     * Pow chi2 2) + (#3 - fevo1) * f2 * f1 * Pow curlyH1 2 * (#2 / #3 * Pow
     sep 2 - (#1 - Pow costheta 2) * Pow chi1 2)) * Tab1 (K 2 2 false) result
     sep)]
   []].

(** functions.c:1165-1181. *)
Definition ni_rsd_g1 : list stmt :=
 [If (And (Con rsd) (Con g1))
   [AddTo (Pow (H0 * Par_h) 2 * ((- ((Omega0_cdm + Omega0_baryon) / #2 / a2 *
     f1 * (#1 + G2) + (Omega0_cdm + Omega0_baryon) / #2 / a1 * f2 * (#1 +
     G1))) * Tab1 (K 2 0 false) result sep + (#3 * (Omega0_cdm +
     Omega0_baryon) / #2 / a2 * f1 * (#1 + G2) * (#2 / #3 * Pow sep 2 - (#1 -
     Pow costheta 2) * Pow chi2 2) + #3 * (Omega0_cdm + Omega0_baryon) / #2 /
     a1 * f2 * (#1 + G1) * (#2 / #3 * Pow sep 2 - (#1 - Pow costheta 2) * Pow
     chi1 2)) * Tab1 (K 2 2 false) result sep))]
   []].

(** functions.c:1183-1199. *)
Definition ni_rsd_g2 : list stmt :=
 [If (And (Con rsd) (Con g2))
   [AddTo (Pow (H0 * Par_h) 2 * ((- ((Omega0_cdm + Omega0_baryon) / #2 / a2 *
     f1 * (#5 * s2 - #2) + (Omega0_cdm + Omega0_baryon) / #2 / a1 * f2 * (#5
     * s1 - #2))) * Tab1 (K 2 0 false) result sep + (#3 * (Omega0_cdm +
     Omega0_baryon) / #2 / a2 * f1 * (#5 * s2 - #2) * (#2 / #3 * Pow sep 2 -
     (#1 - Pow costheta 2) * Pow chi2 2) + #3 * (Omega0_cdm + Omega0_baryon)
     / #2 / a1 * f2 * (#5 * s1 - #2) * (#2 / #3 * Pow sep 2 - (#1 - Pow
     costheta 2) * Pow chi1 2)) * Tab1 (K 2 2 false) result sep))]
   []].

(** functions.c:1201-1218. *)
Definition ni_rsd_g3 : list stmt :=
 [If (And (Con rsd) (Con g3))
   [AddTo (Pow (H0 * Par_h) 2 * ((- ((Omega0_cdm + Omega0_baryon) / #2 / a2 *
     f1 * (f2 - #1) + (Omega0_cdm + Omega0_baryon) / #2 / a1 * f2 * (f1 -
     #1))) * Tab1 (K 2 0 false) result sep + (#3 * (Omega0_cdm +
     Omega0_baryon) / #2 / a2 * f1 * (f2 - #1) * (#2 / #3 * Pow sep 2 - (#1 -
     Pow costheta 2) * Pow chi2 2) + #3 * (Omega0_cdm + Omega0_baryon) / #2 /
     a1 * f2 * (f1 - #1) * (#2 / #3 * Pow sep 2 - (#1 - Pow costheta 2) * Pow
     chi1 2)) * Tab1 (K 2 2 false) result sep))]
   []].

(** functions.c:1220-1230. *)
Definition ni_d1_d2 : list stmt :=
 [If (And (Con d1) (Con d2))
   [AddTo ((- ((#3 - fevo2) * curlyH1 * Pow curlyH2 2 * f1 * f2 * (chi2 *
     costheta - chi1) + (#3 - fevo1) * curlyH2 * Pow curlyH1 2 * f2 * f1 *
     (chi1 * costheta - chi2))) * Tab1 (K 3 1 false) result sep)]
   []].

(** functions.c:1232-1242. *)
Definition ni_d1_g1 : list stmt :=
 [If (And (Con d1) (Con g1))
   [AddTo (Pow (H0 * Par_h) 2 * ((#3 * (Omega0_cdm + Omega0_baryon) / #2 / a2
     * curlyH1 * f1 * (#1 + G2) * (chi2 * costheta - chi1) + #3 * (Omega0_cdm
     + Omega0_baryon) / #2 / a1 * curlyH2 * f2 * (#1 + G1) * (chi1 * costheta
     - chi2)) * Tab1 (K 3 1 false) result sep))]
   []].

(** functions.c:1244-1254. *)
Definition ni_d1_g2 : list stmt :=
 [If (And (Con d1) (Con g2))
   [AddTo (Pow (H0 * Par_h) 2 * ((#3 * (Omega0_cdm + Omega0_baryon) / #2 / a2
     * curlyH1 * f1 * (#5 * s2 - #2) * (chi2 * costheta - chi1) + #3 *
     (Omega0_cdm + Omega0_baryon) / #2 / a1 * curlyH2 * f2 * (#5 * s1 - #2) *
     (chi1 * costheta - chi2)) * Tab1 (K 3 1 false) result sep))]
   []].

(** functions.c:1256-1266. *)
Definition ni_d1_g3 : list stmt :=
 [If (And (Con d1) (Con g3))
   [AddTo (Pow (H0 * Par_h) 2 * ((#3 * (Omega0_cdm + Omega0_baryon) / #2 / a2
     * curlyH1 * f1 * (f2 - #1) * (chi2 * costheta - chi1) + #3 * (Omega0_cdm
     + Omega0_baryon) / #2 / a1 * curlyH2 * f2 * (f1 - #1) * (chi1 * costheta
     - chi2)) * Tab1 (K 3 1 false) result sep))]
   []].

(** functions.c:1268-1293. *)
Definition ni_d2_g1 : list stmt :=
 [If (And (Con d2) (Con g1))
   [AddTo (Pow (H0 * Par_h) 2 * ((- (#3 * (#3 - fevo1) * (Omega0_cdm +
     Omega0_baryon) / #2 / a2 * Pow curlyH1 2 * f1 * (#1 + G2) + #3 * (#3 -
     fevo2) * (Omega0_cdm + Omega0_baryon) / #2 / a1 * Pow curlyH2 2 * f2 *
     (#1 + G1))) * (Tab1 (K 4 0 false) result sep - Tab2 (K 4 0 false)
     renormalization chi1 chi2)))]
   []].

(** functions.c:1295-1320. *)
Definition ni_d2_g2 : list stmt :=
 [If (And (Con d2) (Con g2))
   [AddTo (Pow (H0 * Par_h) 2 * ((- (#3 * (#3 - fevo1) * (Omega0_cdm +
     Omega0_baryon) / #2 / a2 * Pow curlyH1 2 * f1 * (#5 * s2 - #2) + #3 *
     (#3 - fevo2) * (Omega0_cdm + Omega0_baryon) / #2 / a1 * Pow curlyH2 2 *
     f2 * (#5 * s1 - #2))) * (Tab1 (K 4 0 false) result sep - Tab2 (K 4 0
     false) renormalization chi1 chi2)))]
   []].

(** functions.c:1322-1347. *)
Definition ni_d2_g3 : list stmt :=
 [If (And (Con d2) (Con g3))
   [AddTo (Pow (H0 * Par_h) 2 * ((- (#3 * (#3 - fevo1) * (Omega0_cdm +
     Omega0_baryon) / #2 / a2 * Pow curlyH1 2 * f1 * (f2 - #1) + #3 * (#3 -
     fevo2) * (Omega0_cdm + Omega0_baryon) / #2 / a1 * Pow curlyH2 2 * f2 *
     (f1 - #1))) * (Tab1 (K 4 0 false) result sep - Tab2 (K 4 0 false)
     renormalization chi1 chi2)))]
   []].

(** functions.c:1349-1374. *)
Definition ni_g1_g2 : list stmt :=
 [If (And (Con g1) (Con g2))
   [AddTo (Pow (H0 * Par_h) 4 * ((#9 * Pow (Omega0_cdm + Omega0_baryon) 2 /
     #4 / a1 / a2 * (#1 + G1) * (#5 * s2 - #2) + #9 * Pow (Omega0_cdm +
     Omega0_baryon) 2 / #4 / a2 / a1 * (#1 + G2) * (#5 * s1 - #2)) * (Tab1 (K
     4 0 false) result sep - Tab2 (K 4 0 false) renormalization chi1 chi2)))]
   []].

(** functions.c:1376-1401. *)
Definition ni_g1_g3 : list stmt :=
 [If (And (Con g1) (Con g3))
   [AddTo (Pow (H0 * Par_h) 4 * ((#9 * Pow (Omega0_cdm + Omega0_baryon) 2 /
     #4 / a1 / a2 * (#1 + G1) * (f2 - #1) + #9 * Pow (Omega0_cdm +
     Omega0_baryon) 2 / #4 / a2 / a1 * (#1 + G2) * (f1 - #1)) * (Tab1 (K 4 0
     false) result sep - Tab2 (K 4 0 false) renormalization chi1 chi2)))]
   []].

(** functions.c:1403-1428. *)
Definition ni_g2_g3 : list stmt :=
 [If (And (Con g2) (Con g3))
   [AddTo (Pow (H0 * Par_h) 4 * (#9 * Pow (Omega0_cdm + Omega0_baryon) 2 / #4
     * ((#5 * s1 - #2) * (f2 - #1) / a1 / a2 + (#5 * s2 - #2) * (f1 - #1) /
     a2 / a1) * (Tab1 (K 4 0 false) result sep - Tab2 (K 4 0 false)
     renormalization chi1 chi2)))]
   []].

(** The pair blocks of [functions_nonintegrated] in source order.  functions.c:130-1428. *)
Definition ni_blocks : list (contrib * contrib * list stmt) :=
  [(den, den, ni_den_den);
   (rsd, rsd, ni_rsd_rsd);
   (d1, d1, ni_d1_d1);
   (d2, d2, ni_d2_d2);
   (g1, g1, ni_g1_g1);
   (g2, g2, ni_g2_g2);
   (g3, g3, ni_g3_g3);
   (den, rsd, ni_den_rsd);
   (den, d1, ni_den_d1);
   (den, d2, ni_den_d2);
   (den, g1, ni_den_g1);
   (den, g2, ni_den_g2);
   (den, g3, ni_den_g3);
   (rsd, d1, ni_rsd_d1);
   (rsd, d2, ni_rsd_d2);
   (rsd, g1, ni_rsd_g1);
   (rsd, g2, ni_rsd_g2);
   (rsd, g3, ni_rsd_g3);
   (d1, d2, ni_d1_d2);
   (d1, g1, ni_d1_g1);
   (d1, g2, ni_d1_g2);
   (d1, g3, ni_d1_g3);
   (d2, g1, ni_d2_g1);
   (d2, g2, ni_d2_g2);
   (d2, g3, ni_d2_g3);
   (g1, g2, ni_g1_g2);
   (g1, g3, ni_g1_g3);
   (g2, g3, ni_g2_g3)].

(** How [functions_nonintegrated] returns, functions.c:1429-1483. *)
Definition ni_final : list stmt :=
 [If Finite
   [If (And (Flag pk_nonlinear) (Flag midpoint))
     [Return res]
     [If (Or (Flag b_derivative) (Flag f_derivative))
       [Return (res * Pow (Spl bg_D1 z_mean) 2)]
       [If (Or (Flag b_tilde_derivative) (Flag f_tilde_derivative))
         [Return (res * Pow (Spl bg_D1 z_mean) 1)]
         [If (Flag flatsky_local)
           [Return (res * Pow (Spl bg_D1 z_mean) 2)]
           [Return (res * Spl bg_D1 z1 * Spl bg_D1 z2)]]]]]
   [Exit]].

(** Local variables of [functions_single_integrated], functions.c:1496-1556. *)
Definition si_prelude : list stmt :=
 [Set_ res #0;
  Set_ chi_mean (Spl bg_comoving_distance z_mean);
  Set_ chi1 (chi_mean - sep * mu / #2);
  Set_ chi2 (chi_mean + sep * mu / #2);
  Set_ costheta ((#2 * chi_mean * chi_mean - sep * sep + mu * mu * sep * sep
   / #2) / (#2 * chi_mean * chi_mean - mu * mu * sep * sep / #2));
  Set_ lambda1 (chi1 * x_);
  Set_ lambda2 (chi2 * x_);
  Set_ r21 (lambda2 * lambda2 + chi1 * chi1 - #2 * chi1 * lambda2 * costheta);
  Set_ r22 (lambda1 * lambda1 + chi2 * chi2 - #2 * chi2 * lambda1 * costheta);
  If (Lt r21 #0)
   [Set_ r21 #0]
   [];
  If (Lt r22 #0)
   [Set_ r22 #0]
   [];
  Set_ z1_const (Spl bg_z_as_chi chi1);
  Set_ z2_const (Spl bg_z_as_chi chi2);
  Set_ z1 (Spl bg_z_as_chi lambda1);
  Set_ z2 (Spl bg_z_as_chi lambda2);
  Set_ s1 (Spl par_magnification_bias1 z1_const);
  Set_ s2 (Spl par_magnification_bias2 z2_const);
  Set_ sz_mean1 (Spl par_magnification_bias1 z_mean);
  Set_ sz_mean2 (Spl par_magnification_bias2 z_mean);
  Set_ b1 (Spl par_galaxy_bias1 z1_const);
  Set_ b2 (Spl par_galaxy_bias2 z2_const);
  Set_ bz_mean1 (Spl par_galaxy_bias1 z_mean);
  Set_ bz_mean2 (Spl par_galaxy_bias2 z_mean);
  Set_ ren1 #0;
  Set_ ren2 #0;
  If (Flag divergent)
   [If (Eq r21 #0)
     [Set_ ren1 (Tab1 (K 4 0 false) renormalization_zero_separation lambda2)]
     [Set_ ren1 (Tab1 (K 4 0 false) result (Sqrt r21) - Tab2 (K 4 0 false)
       renormalization lambda2 chi1)];
    If (Eq r22 #0)
     [Set_ ren2 (Tab1 (K 4 0 false) renormalization_zero_separation lambda1)]
     [Set_ ren2 (Tab1 (K 4 0 false) result (Sqrt r22) - Tab2 (K 4 0 false)
       renormalization lambda1 chi2)]]
   []].

(** functions.c:1559-2052. *)
Definition si_den_len : list stmt :=
 [If (And (Con den) (Con len))
   [If (And (Flag flatsky_local_nonlocal) (Not (Flag output_multipoles)))
     [If (And (Flag pk_nonlinear) (Flag midpoint))
       [AddTo (Pow (H0 * Par_h) 2 * ((- #3) * (Omega0_cdm + Omega0_baryon) /
         Pi / #8 * (#1 + z_mean) * Fabs mu * sep * ((#2 - #5 * sz_mean1) *
         bz_mean2 + (#2 - #5 * sz_mean2) * bz_mean1) * Tab2 (K 1 (-1) true)
         result2d z_mean (sep * Sqrt (#1 - mu * mu))))]
       [AddTo (Pow (H0 * Par_h) 2 * ((- #3) * (Omega0_cdm + Omega0_baryon) /
         Pi / #8 * Spl bg_D1 z_mean * Spl bg_D1 z_mean * (#1 + z_mean) * Fabs
         mu * sep * ((#2 - #5 * sz_mean1) * bz_mean2 + (#2 - #5 * sz_mean2) *
         bz_mean1) * Tab1 (K 1 (-1) true) result (sep * Sqrt (#1 - mu *
         mu))))]]
     [If (Not (Flag flatsky_local_nonlocal))
       [If (And (Not (Eq r21 #0)) (Not (Eq r22 #0)))
         [If (And (Flag pk_nonlinear) (Flag midpoint))
           [AddTo (Pow (H0 * Par_h) 2 * ((- #3) * (Omega0_cdm +
             Omega0_baryon) / #2 * (b1 * (#2 - #5 * s2) * chi2 * (#1 - x_) /
             Spl bg_a z2 * (#2 * chi1 * costheta * Tab2 (K 1 1 false)
             result2d ((z1_const + z2) / #2) (Sqrt r21) - chi1 * chi1 *
             lambda2 * (#1 - costheta * costheta) * Tab2 (K 0 2 false)
             result2d ((z1_const + z2) / #2) (Sqrt r21) / r21) + b2 * (#2 -
             #5 * s1) * chi1 * (#1 - x_) / Spl bg_a z1 * (#2 * chi2 *
             costheta * Tab2 (K 1 1 false) result2d ((z2_const + z1) / #2)
             (Sqrt r22) - chi2 * chi2 * lambda1 * (#1 - costheta * costheta)
             * Tab2 (K 0 2 false) result2d ((z2_const + z1) / #2) (Sqrt r22)
             / r22))))]
           [AddTo (Pow (H0 * Par_h) 2 * ((- #3) * (Omega0_cdm +
             Omega0_baryon) / #2 * (b1 * (#2 - #5 * s2) * Spl bg_D1 z1_const
             * chi2 * (#1 - x_) * Spl bg_D1 z2 / Spl bg_a z2 * (#2 * chi1 *
             costheta * Tab1 (K 1 1 false) result (Sqrt r21) - chi1 * chi1 *
             lambda2 * (#1 - costheta * costheta) * Tab1 (K 0 2 false) result
             (Sqrt r21) / r21) + b2 * (#2 - #5 * s1) * Spl bg_D1 z2_const *
             chi1 * (#1 - x_) * Spl bg_D1 z1 / Spl bg_a z1 * (#2 * chi2 *
             costheta * Tab1 (K 1 1 false) result (Sqrt r22) - chi2 * chi2 *
             lambda1 * (#1 - costheta * costheta) * Tab1 (K 0 2 false) result
             (Sqrt r22) / r22))))]]
         [If (And (Eq r21 #0) (Not (Eq r22 #0)))
           [If (Flag pk_nonlinear)
             [AddTo (Pow (H0 * Par_h) 2 * ((- #3) * (Omega0_cdm +
               Omega0_baryon) / #2 * (b1 * (#2 - #5 * s2) * chi2 * (#1 - x_)
               / Spl bg_a z2 * (#2 * chi1 * Tab2 (K 1 1 false) result2d
               ((z1_const + z2) / #2) #0) + b2 * (#2 - #5 * s1) * chi1 * (#1
               - x_) / Spl bg_a z1 * (#2 * chi2 * costheta * Tab2 (K 1 1
               false) result2d ((z2_const + z1) / #2) (Sqrt r22) - chi2 *
               chi2 * lambda1 * (#1 - costheta * costheta) * Tab2 (K 0 2
               false) result2d ((z2_const + z1) / #2) (Sqrt r22) / r22))))]
             [AddTo (Pow (H0 * Par_h) 2 * ((- #3) * (Omega0_cdm +
               Omega0_baryon) / #2 * (b1 * (#2 - #5 * s2) * chi2 * Spl bg_D1
               z1_const * (#1 - x_) * Spl bg_D1 z2 / Spl bg_a z2 * (#2 * chi1
               * Tab1 (K 1 1 false) result #0) + b2 * (#2 - #5 * s1) * chi1 *
               Spl bg_D1 z2_const * (#1 - x_) * Spl bg_D1 z1 / Spl bg_a z1 *
               (#2 * chi2 * costheta * Tab1 (K 1 1 false) result (Sqrt r22) -
               chi2 * chi2 * lambda1 * (#1 - costheta * costheta) * Tab1 (K 0
               2 false) result (Sqrt r22) / r22))))]]
           [If (And (Not (Eq r21 #0)) (Eq r22 #0))
             [If (And (Flag pk_nonlinear) (Flag midpoint))
               [AddTo (Pow (H0 * Par_h) 2 * ((- #3) * (Omega0_cdm +
                 Omega0_baryon) / #2 * (b1 * (#2 - #5 * s2) * chi2 * (#1 -
                 x_) / Spl bg_a z2 * (#2 * chi1 * costheta * Tab2 (K 1 1
                 false) result2d ((z1_const + z2) / #2) (Sqrt r21) - chi1 *
                 chi1 * lambda2 * (#1 - costheta * costheta) * Tab2 (K 0 2
                 false) result2d ((z1_const + z2) / #2) (Sqrt r21) / r21) +
                 b2 * (#2 - #5 * s1) * chi1 * (#1 - x_) / Spl bg_a z1 * (#2 *
                 chi2 * Tab2 (K 0 2 false) result2d ((z2_const + z1) / #2)
                 #0))))]
               [AddTo (Pow (H0 * Par_h) 2 * ((- #3) * (Omega0_cdm +
                 Omega0_baryon) / #2 * (b1 * (#2 - #5 * s2) * Spl bg_D1
                 z1_const * chi2 * (#1 - x_) * Spl bg_D1 z2 / Spl bg_a z2 *
                 (#2 * chi1 * costheta * Tab1 (K 1 1 false) result (Sqrt r21)
                 - chi1 * chi1 * lambda2 * (#1 - costheta * costheta) * Tab1
                 (K 0 2 false) result (Sqrt r21) / r21) + b2 * (#2 - #5 * s1)
                 * Spl bg_D1 z2_const * chi1 * (#1 - x_) * Spl bg_D1 z1 / Spl
                 bg_a z1 * (#2 * chi2 * Tab1 (K 1 1 false) result #0))))]]
             [If (And (Flag pk_nonlinear) (Flag midpoint))
               [AddTo (Pow (H0 * Par_h) 2 * ((- #3) * (Omega0_cdm +
                 Omega0_baryon) / #2 * (b1 * (#2 - #5 * s2) * (#1 - x_) / Spl
                 bg_a z2 * (#2 * chi1 * chi2 * Tab2 (K 0 2 false) result2d
                 ((z1_const + z2) / #2) #0) + b2 * (#2 - #5 * s1) * (#1 - x_)
                 / Spl bg_a z1 * (#2 * chi2 * chi1 * Tab2 (K 0 2 false)
                 result2d ((z2_const + z1) / #2) #0))))]
               [AddTo (Pow (H0 * Par_h) 2 * ((- #3) * (Omega0_cdm +
                 Omega0_baryon) / #2 * (b1 * (#2 - #5 * s2) * Spl bg_D1
                 z1_const * (#1 - x_) * Spl bg_D1 z2 / Spl bg_a z2 * (#2 *
                 chi1 * chi2 * Tab1 (K 1 1 false) result #0) + b2 * (#2 - #5
                 * s1) * Spl bg_D1 z2_const * (#1 - x_) * Spl bg_D1 z1 / Spl
                 bg_a z1 * (#2 * chi2 * chi1 * Tab1 (K 1 1 false) result
                 #0))))]]]]]
       []]]
   []].

(** functions.c:2054-2483. *)
Definition si_rsd_len : list stmt :=
 [If (And (Con rsd) (Con len))
   [If (Not (Flag flatsky_local_nonlocal))
     [If (And (Not (Eq r21 #0)) (Not (Eq r22 #0)))
       [If (And (Flag pk_nonlinear) (Flag midpoint))
         [AddTo (Pow (H0 * Par_h) 2 * (#3 * (Omega0_cdm + Omega0_baryon) / #2
           * (chi2 * Spl bg_f z1_const * (#2 - #5 * s2) * (#1 - x_) / Spl
           bg_a z2 * ((lambda2 - #6 * chi1 * costheta + #3 * lambda2 * (#2 *
           costheta * costheta - #1)) * Tab2 (K 0 0 false) result2d
           ((z1_const + z2) / #2) (Sqrt r21) / #15 - (#6 * chi1 * chi1 * chi1
           * costheta - chi1 * chi1 * lambda2 * (#9 * costheta * costheta +
           #11) + chi1 * lambda2 * lambda2 * costheta * (#3 * (#2 * costheta
           * costheta - #1) + #19) - #2 * lambda2 * lambda2 * lambda2 * (#3 *
           (#2 * costheta * costheta - #1) + #1)) * Tab2 (K 0 2 false)
           result2d ((z1_const + z2) / #2) (Sqrt r21) / r21 / #21) + chi1 *
           Spl bg_f z2_const * (#2 - #5 * s1) * (#1 - x_) / Spl bg_a z1 *
           ((lambda1 - #6 * chi2 * costheta + #3 * lambda1 * (#2 * costheta *
           costheta - #1)) * Tab2 (K 0 0 false) result2d ((z2_const + z1) /
           #2) (Sqrt r22) / #15 - (#6 * chi2 * chi2 * chi2 * costheta - chi2
           * chi2 * lambda1 * (#9 * costheta * costheta + #11) + chi2 *
           lambda1 * lambda1 * costheta * (#3 * (#2 * costheta * costheta -
           #1) + #19) - #2 * lambda1 * lambda1 * lambda1 * (#3 * (#2 *
           costheta * costheta - #1) + #1)) * Tab2 (K 0 2 false) result2d
           ((z2_const + z1) / #2) (Sqrt r22) / r22 / #21))))]
         [AddTo (Pow (H0 * Par_h) 2 * (#3 * (Omega0_cdm + Omega0_baryon) / #2
           * (chi2 * Spl bg_f z1_const * (#2 - #5 * s2) * Spl bg_D1 z1_const
           * (#1 - x_) * Spl bg_D1 z2 / Spl bg_a z2 * ((lambda2 - #6 * chi1 *
           costheta + #3 * lambda2 * (#2 * costheta * costheta - #1)) * Tab1
           (K 0 0 false) result (Sqrt r21) / #15 - (#6 * chi1 * chi1 * chi1 *
           costheta - chi1 * chi1 * lambda2 * (#9 * costheta * costheta +
           #11) + chi1 * lambda2 * lambda2 * costheta * (#3 * (#2 * costheta
           * costheta - #1) + #19) - #2 * lambda2 * lambda2 * lambda2 * (#3 *
           (#2 * costheta * costheta - #1) + #1)) * Tab1 (K 0 2 false) result
           (Sqrt r21) / r21 / #21) + chi1 * Spl bg_f z2_const * (#2 - #5 *
           s1) * Spl bg_D1 z2_const * (#1 - x_) * Spl bg_D1 z1 / Spl bg_a z1
           * ((lambda1 - #6 * chi2 * costheta + #3 * lambda1 * (#2 * costheta
           * costheta - #1)) * Tab1 (K 0 0 false) result (Sqrt r22) / #15 -
           (#6 * chi2 * chi2 * chi2 * costheta - chi2 * chi2 * lambda1 * (#9
           * costheta * costheta + #11) + chi2 * lambda1 * lambda1 * costheta
           * (#3 * (#2 * costheta * costheta - #1) + #19) - #2 * lambda1 *
           lambda1 * lambda1 * (#3 * (#2 * costheta * costheta - #1) + #1)) *
           Tab1 (K 0 2 false) result (Sqrt r22) / r22 / #21))))];
        If (Lt (Fabs mu) (Dec 999 1000))
         [If (And (Flag pk_nonlinear) (Flag midpoint))
           [AddTo (Pow (H0 * Par_h) 2 * (#3 * (Omega0_cdm + Omega0_baryon) /
             #2 * (chi2 * Spl bg_f z1_const * (#2 - #5 * s2) * (#1 - x_) /
             Spl bg_a z2 * ((- ((- #4) * Pow chi1 5 * costheta - Pow chi1 3 *
             Pow lambda2 2 * costheta * (#2 * costheta * costheta - #1 + #7)
             + Pow chi1 2 * Pow lambda2 3 * (Pow costheta 4 + #12 * costheta
             * costheta - #21) - #3 * chi1 * Pow lambda2 4 * costheta * (#2 *
             costheta * costheta - #1 - #5) - Pow lambda2 5 * (#3 * (#2 *
             costheta * costheta - #1) + #1) + #12 * Pow chi1 4 * lambda2)) *
             Tab2 (K 0 4 false) result2d ((z1_const + z2) / #2) (Sqrt r21) /
             r21 / r21 / #35) + chi1 * Spl bg_f z2_const * (#2 - #5 * s1) *
             (#1 - x_) / Spl bg_a z1 * ((- ((- #4) * Pow chi2 5 * costheta -
             Pow chi2 3 * Pow lambda1 2 * costheta * (#2 * costheta *
             costheta - #1 + #7) + Pow chi2 2 * Pow lambda1 3 * (Pow costheta
             4 + #12 * costheta * costheta - #21) - #3 * chi2 * Pow lambda1 4
             * costheta * (#2 * costheta * costheta - #1 - #5) - Pow lambda1
             5 * (#3 * (#2 * costheta * costheta - #1) + #1) + #12 * Pow chi2
             4 * lambda1)) * Tab2 (K 0 4 false) result2d ((z2_const + z1) /
             #2) (Sqrt r22) / r22 / r22 / #35))))]
           [AddTo (Pow (H0 * Par_h) 2 * (#3 * (Omega0_cdm + Omega0_baryon) /
             #2 * (chi2 * Spl bg_f z1_const * (#2 - #5 * s2) * Spl bg_D1
             z1_const * (#1 - x_) * Spl bg_D1 z2 / Spl bg_a z2 * ((- ((- #4)
             * Pow chi1 5 * costheta - Pow chi1 3 * Pow lambda2 2 * costheta
             * (#2 * costheta * costheta - #1 + #7) + Pow chi1 2 * Pow
             lambda2 3 * (Pow costheta 4 + #12 * costheta * costheta - #21) -
             #3 * chi1 * Pow lambda2 4 * costheta * (#2 * costheta * costheta
             - #1 - #5) - Pow lambda2 5 * (#3 * (#2 * costheta * costheta -
             #1) + #1) + #12 * Pow chi1 4 * lambda2)) * Tab1 (K 0 4 false)
             result (Sqrt r21) / r21 / r21 / #35) + chi1 * Spl bg_f z2_const
             * (#2 - #5 * s1) * Spl bg_D1 z2_const * (#1 - x_) * Spl bg_D1 z1
             / Spl bg_a z1 * ((- ((- #4) * Pow chi2 5 * costheta - Pow chi2 3
             * Pow lambda1 2 * costheta * (#2 * costheta * costheta - #1 +
             #7) + Pow chi2 2 * Pow lambda1 3 * (Pow costheta 4 + #12 *
             costheta * costheta - #21) - #3 * chi2 * Pow lambda1 4 *
             costheta * (#2 * costheta * costheta - #1 - #5) - Pow lambda1 5
             * (#3 * (#2 * costheta * costheta - #1) + #1) + #12 * Pow chi2 4
             * lambda1)) * Tab1 (K 0 4 false) result (Sqrt r22) / r22 / r22 /
             #35))))]]
         [If (And (Flag pk_nonlinear) (Flag midpoint))
           [AddTo (Pow (H0 * Par_h) 2 * (#3 * (Omega0_cdm + Omega0_baryon) /
             #2 * (chi2 * Spl bg_f z1_const * (#2 - #5 * s2) * (#1 - x_) /
             Spl bg_a z2 * #4 * (lambda2 + chi1) * Tab2 (K 0 4 false)
             result2d ((z1_const + z2) / #2) (Sqrt r21) / #35 + chi1 * Spl
             bg_f z2_const * (#2 - #5 * s1) * (#1 - x_) / Spl bg_a z1 * #4 *
             (lambda1 + chi2) * Tab2 (K 0 4 false) result2d ((z2_const + z1)
             / #2) (Sqrt r22) / #35)))]
           [AddTo (Pow (H0 * Par_h) 2 * (#3 * (Omega0_cdm + Omega0_baryon) /
             #2 * (chi2 * Spl bg_f z1_const * (#2 - #5 * s2) * Spl bg_D1
             z1_const * (#1 - x_) * Spl bg_D1 z2 / Spl bg_a z2 * #4 *
             (lambda2 + chi1) * Tab1 (K 0 4 false) result (Sqrt r21) / #35 +
             chi1 * Spl bg_f z2_const * (#2 - #5 * s1) * Spl bg_D1 z2_const *
             (#1 - x_) * Spl bg_D1 z1 / Spl bg_a z1 * #4 * (lambda1 + chi2) *
             Tab1 (K 0 4 false) result (Sqrt r22) / #35)))]]]
       [If (And (Eq r21 #0) (Not (Eq r22 #0)))
         [AddTo (Pow (H0 * Par_h) 2 * (#3 * (Omega0_cdm + Omega0_baryon) / #2
           * (chi2 * Spl bg_f z1_const * (#2 - #5 * s2) * Spl bg_D1 z1_const
           * (#1 - chi1 / chi2) * Spl bg_D1 z2 / Spl bg_a z2 * ((- #2) * chi1
           * Tab1 (K 0 0 false) result #0 / #15) + chi1 * Spl bg_f z2_const *
           (#2 - #5 * s1) * Spl bg_D1 z2_const * (#1 - x_) * Spl bg_D1 z1 /
           Spl bg_a z1 * ((lambda1 - #6 * chi2 * costheta + #3 * lambda1 *
           (#2 * costheta * costheta - #1)) * Tab1 (K 0 0 false) result (Sqrt
           r22) / #15 - (#6 * chi2 * chi2 * chi2 * costheta - chi2 * chi2 *
           lambda1 * (#9 * costheta * costheta + #11) + chi2 * lambda1 *
           lambda1 * costheta * (#3 * (#2 * costheta * costheta - #1) + #19)
           - #2 * lambda1 * lambda1 * lambda1 * (#3 * (#2 * costheta *
           costheta - #1) + #1)) * Tab1 (K 0 2 false) result (Sqrt r22) / r22
           / #21 - ((- #4) * Pow chi2 5 * costheta - Pow chi2 3 * Pow lambda1
           2 * costheta * (#2 * costheta * costheta - #1 + #7) + Pow chi2 2 *
           Pow lambda1 3 * (Pow costheta 4 + #12 * costheta * costheta - #21)
           - #3 * chi2 * Pow lambda1 4 * costheta * (#2 * costheta * costheta
           - #1 - #5) - Pow lambda1 5 * (#3 * (#2 * costheta * costheta - #1)
           + #1) + #12 * Pow chi2 4 * lambda1) * Tab1 (K 0 4 false) result
           (Sqrt r22) / r22 / r22 / #35))))]
         [If (And (Not (Eq r21 #0)) (Eq r22 #0))
           [AddTo (Pow (H0 * Par_h) 2 * (#3 * (Omega0_cdm + Omega0_baryon) /
             #2 * (chi2 * Spl bg_f z1_const * (#2 - #5 * s2) * Spl bg_D1
             z1_const * (#1 - x_) * Spl bg_D1 z2 / Spl bg_a z2 * ((lambda2 -
             #6 * chi1 * costheta + #3 * lambda2 * (#2 * costheta * costheta
             - #1)) * Tab1 (K 0 0 false) result (Sqrt r21) / #15 - (#6 * chi1
             * chi1 * chi1 * costheta - chi1 * chi1 * lambda2 * (#9 *
             costheta * costheta + #11) + chi1 * lambda2 * lambda2 * costheta
             * (#3 * (#2 * costheta * costheta - #1) + #19) - #2 * lambda2 *
             lambda2 * lambda2 * (#3 * (#2 * costheta * costheta - #1) + #1))
             * Tab1 (K 0 2 false) result (Sqrt r21) / r21 / #21 - ((- #4) *
             Pow chi1 5 * costheta - Pow chi1 3 * Pow lambda2 2 * costheta *
             (#2 * costheta * costheta - #1 + #7) + Pow chi1 2 * Pow lambda2
             3 * (Pow costheta 4 + #12 * costheta * costheta - #21) - #3 *
             chi1 * Pow lambda2 4 * costheta * (#2 * costheta * costheta - #1
             - #5) - Pow lambda2 5 * (#3 * (#2 * costheta * costheta - #1) +
             #1) + #12 * Pow chi1 4 * lambda2) * Tab1 (K 0 4 false) result
             (Sqrt r21) / r21 / r21 / #35) + chi1 * Spl bg_f z2_const * (#2 -
             #5 * s1) * Spl bg_D1 z2_const * (#1 - chi2 / chi1) * Spl bg_D1
             z1 / Spl bg_a z1 * ((- #2) * chi2 * Tab1 (K 0 0 false) result #0
             / #15))))]
           [AddTo (Pow (H0 * Par_h) 2 * (#3 * (Omega0_cdm + Omega0_baryon) /
             #2 * (chi2 * Spl bg_f z1_const * (#2 - #5 * s2) * Spl bg_D1
             z1_const * (#1 - chi1 / chi2) * Spl bg_D1 z2 / Spl bg_a z2 * ((-
             #2) * chi1 * Tab1 (K 0 0 false) result #0 / #15) + chi1 * Spl
             bg_f z2_const * (#2 - #5 * s1) * Spl bg_D1 z2_const * (#1 - chi2
             / chi1) * Spl bg_D1 z1 / Spl bg_a z1 * ((- #2) * chi2 * Tab1 (K
             0 0 false) result #0 / #15))))]]]]
     []]
   []].

(** functions.c:2485-2999. *)
Definition si_d1_len : list stmt :=
 [If (And (Con d1) (Con len))
   [If (Not (Flag flatsky_local_nonlocal))
     [If (And (Not (Eq r21 #0)) (Not (Eq r22 #0)))
       [If (And (Flag pk_nonlinear) (Flag midpoint))
         [AddTo (Pow (H0 * Par_h) 2 * (#3 * (Omega0_cdm + Omega0_baryon) / #2
           * (chi2 * Spl bg_conformal_Hz z1_const * Spl bg_f z1_const * Spl
           bg_G1 z1_const * (#2 - #5 * s2) * (#1 - x_) / Spl bg_a z2 * (#2 *
           (costheta * (lambda2 * lambda2 - #2 * chi1 * chi1) + chi1 *
           lambda2 * (#2 * (#2 * costheta * costheta - #1) - #1)) * Tab2 (K 1
           1 false) result2d ((z1_const + z2) / #2) (Sqrt r21) / #15 + #2 *
           costheta * Tab2 (K 2 0 false) result2d ((z1_const + z2) / #2)
           (Sqrt r21) / #3 - (#4 * Pow chi1 4 * costheta - Pow chi1 3 *
           lambda2 * (costheta * costheta + #9) + chi1 * chi1 * lambda2 *
           lambda2 * costheta * (costheta * costheta + #5) - #2 * chi1 * Pow
           lambda2 3 * (#2 * costheta * costheta - #1 - #2) - #2 * Pow
           lambda2 4 * costheta) * Tab2 (K 1 3 false) result2d ((z1_const +
           z2) / #2) (Sqrt r21) / r21 / #15) + chi1 * Spl bg_conformal_Hz
           z2_const * Spl bg_f z2_const * Spl bg_G1 z2_const * (#2 - #5 * s2)
           * (#1 - x_) / Spl bg_a z1 * (#2 * (costheta * (lambda1 * lambda1 -
           #2 * chi2 * chi2) + chi2 * lambda1 * (#2 * (#2 * costheta *
           costheta - #1) - #1)) * Tab2 (K 1 1 false) result2d ((z1 +
           z2_const) / #2) (Sqrt r22) / #15 + #2 * costheta * Tab2 (K 2 0
           false) result2d ((z1 + z2_const) / #2) (Sqrt r22) / #3 - (#4 * Pow
           chi2 4 * costheta - Pow chi2 3 * lambda1 * (costheta * costheta +
           #9) + chi2 * chi2 * lambda1 * lambda1 * costheta * (costheta *
           costheta + #5) - #2 * chi2 * Pow lambda1 3 * (#2 * costheta *
           costheta - #1 - #2) - #2 * Pow lambda1 4 * costheta) * Tab2 (K 1 3
           false) result2d ((z1 + z2_const) / #2) (Sqrt r22) / r22 / #15))))]
         [AddTo (Pow (H0 * Par_h) 2 * (#3 * (Omega0_cdm + Omega0_baryon) / #2
           * (chi2 * Spl bg_conformal_Hz z1_const * Spl bg_f z1_const * Spl
           bg_G1 z1_const * (#2 - #5 * s2) * Spl bg_D1 z1_const * (#1 - x_) *
           Spl bg_D1 z2 / Spl bg_a z2 * (#2 * (costheta * (lambda2 * lambda2
           - #2 * chi1 * chi1) + chi1 * lambda2 * (#2 * (#2 * costheta *
           costheta - #1) - #1)) * Tab1 (K 1 1 false) result (Sqrt r21) / #15
           + #2 * costheta * Tab1 (K 2 0 false) result (Sqrt r21) / #3 - (#4
           * Pow chi1 4 * costheta - Pow chi1 3 * lambda2 * (costheta *
           costheta + #9) + chi1 * chi1 * lambda2 * lambda2 * costheta *
           (costheta * costheta + #5) - #2 * chi1 * Pow lambda2 3 * (#2 *
           costheta * costheta - #1 - #2) - #2 * Pow lambda2 4 * costheta) *
           Tab1 (K 1 3 false) result (Sqrt r21) / r21 / #15) + chi1 * Spl
           bg_conformal_Hz z2_const * Spl bg_f z2_const * Spl bg_G1 z2_const
           * (#2 - #5 * s2) * Spl bg_D1 z2_const * (#1 - x_) * Spl bg_D1 z1 /
           Spl bg_a z1 * (#2 * (costheta * (lambda1 * lambda1 - #2 * chi2 *
           chi2) + chi2 * lambda1 * (#2 * (#2 * costheta * costheta - #1) -
           #1)) * Tab1 (K 1 1 false) result (Sqrt r22) / #15 + #2 * costheta
           * Tab1 (K 2 0 false) result (Sqrt r22) / #3 - (#4 * Pow chi2 4 *
           costheta - Pow chi2 3 * lambda1 * (costheta * costheta + #9) +
           chi2 * chi2 * lambda1 * lambda1 * costheta * (costheta * costheta
           + #5) - #2 * chi2 * Pow lambda1 3 * (#2 * costheta * costheta - #1
           - #2) - #2 * Pow lambda1 4 * costheta) * Tab1 (K 1 3 false) result
           (Sqrt r22) / r22 / #15))))]]
       [If (And (Eq r21 #0) (Not (Eq r22 #0)))
         [If (And (Flag pk_nonlinear) (Flag midpoint))
           [AddTo (Pow (H0 * Par_h) 2 * (#3 * (Omega0_cdm + Omega0_baryon) /
             #2 * (chi2 * Spl bg_conformal_Hz z1_const * Spl bg_f z1_const *
             Spl bg_G1 z1_const * (#2 - #5 * s2) * (#1 - x_) / Spl bg_a z2 *
             (#2 * Tab2 (K 2 0 false) result2d ((z1_const + z2) / #2) #0 /
             #3) + chi1 * Spl bg_conformal_Hz z2_const * Spl bg_f z2_const *
             Spl bg_G1 z2_const * (#2 - #5 * s2) * (#1 - x_) / Spl bg_a z1 *
             (#2 * (costheta * (lambda1 * lambda1 - #2 * chi2 * chi2) + chi2
             * lambda1 * (#2 * (#2 * costheta * costheta - #1) - #1)) * Tab2
             (K 1 1 false) result2d ((z1 + z2_const) / #2) (Sqrt r22) / #15 +
             #2 * costheta * Tab2 (K 2 0 false) result2d ((z1 + z2_const) /
             #2) (Sqrt r22) / #3 - (#4 * Pow chi2 4 * costheta - Pow chi2 3 *
             lambda1 * (costheta * costheta + #9) + chi2 * chi2 * lambda1 *
             lambda1 * costheta * (costheta * costheta + #5) - #2 * chi2 *
             Pow lambda1 3 * (#2 * costheta * costheta - #1 - #2) - #2 * Pow
             lambda1 4 * costheta) * Tab2 (K 1 3 false) result2d ((z1 +
             z2_const) / #2) (Sqrt r22) / r22 / #15))))]
           [AddTo (Pow (H0 * Par_h) 2 * (#3 * (Omega0_cdm + Omega0_baryon) /
             #2 * (chi2 * Spl bg_conformal_Hz z1_const * Spl bg_f z1_const *
             Spl bg_G1 z1_const * (#2 - #5 * s2) * Spl bg_D1 z1_const * (#1 -
             x_) * Spl bg_D1 z2 / Spl bg_a z2 * (#2 * Tab1 (K 2 0 false)
             result #0 / #3) + chi1 * Spl bg_conformal_Hz z2_const * Spl bg_f
             z2_const * Spl bg_G1 z2_const * (#2 - #5 * s2) * Spl bg_D1
             z2_const * (#1 - x_) * Spl bg_D1 z1 / Spl bg_a z1 * (#2 *
             (costheta * (lambda1 * lambda1 - #2 * chi2 * chi2) + chi2 *
             lambda1 * (#2 * (#2 * costheta * costheta - #1) - #1)) * Tab1 (K
             1 1 false) result (Sqrt r22) / #15 + #2 * costheta * Tab1 (K 2 0
             false) result (Sqrt r22) / #3 - (#4 * Pow chi2 4 * costheta -
             Pow chi2 3 * lambda1 * (costheta * costheta + #9) + chi2 * chi2
             * lambda1 * lambda1 * costheta * (costheta * costheta + #5) - #2
             * chi2 * Pow lambda1 3 * (#2 * costheta * costheta - #1 - #2) -
             #2 * Pow lambda1 4 * costheta) * Tab1 (K 1 3 false) result (Sqrt
             r22) / r22 / #15))))]]
         [If (And (Not (Eq r21 #0)) (Eq r22 #0))
           [If (And (Flag pk_nonlinear) (Flag midpoint))
             [AddTo (Pow (H0 * Par_h) 2 * (#3 * (Omega0_cdm + Omega0_baryon)
               / #2 * (chi2 * Spl bg_conformal_Hz z1_const * Spl bg_f
               z1_const * Spl bg_G1 z1_const * (#2 - #5 * s2) * (#1 - x_) /
               Spl bg_a z2 * (#2 * (costheta * (lambda2 * lambda2 - #2 * chi1
               * chi1) + chi1 * lambda2 * (#2 * (#2 * costheta * costheta -
               #1) - #1)) * Tab2 (K 1 1 false) result2d ((z1_const + z2) /
               #2) (Sqrt r21) / #15 + #2 * costheta * Tab2 (K 2 0 false)
               result2d ((z1_const + z2) / #2) (Sqrt r21) / #3 - (#4 * Pow
               chi1 4 * costheta - Pow chi1 3 * lambda2 * (costheta *
               costheta + #9) + chi1 * chi1 * lambda2 * lambda2 * costheta *
               (costheta * costheta + #5) - #2 * chi1 * Pow lambda2 3 * (#2 *
               costheta * costheta - #1 - #2) - #2 * Pow lambda2 4 *
               costheta) * Tab2 (K 1 3 false) result2d ((z1_const + z2) / #2)
               (Sqrt r21) / r21 / #15) + chi1 * Spl bg_conformal_Hz z2_const
               * Spl bg_f z2_const * Spl bg_G1 z2_const * (#2 - #5 * s2) *
               (#1 - x_) / Spl bg_a z1 * (#2 * Tab2 (K 2 0 false) result2d
               ((z1 + z2_const) / #2) #0 / #3))))]
             [AddTo (Pow (H0 * Par_h) 2 * (#3 * (Omega0_cdm + Omega0_baryon)
               / #2 * (chi2 * Spl bg_conformal_Hz z1_const * Spl bg_f
               z1_const * Spl bg_G1 z1_const * (#2 - #5 * s2) * Spl bg_D1
               z1_const * (#1 - x_) * Spl bg_D1 z2 / Spl bg_a z2 * (#2 *
               (costheta * (lambda2 * lambda2 - #2 * chi1 * chi1) + chi1 *
               lambda2 * (#2 * (#2 * costheta * costheta - #1) - #1)) * Tab1
               (K 1 1 false) result (Sqrt r21) / #15 + #2 * costheta * Tab1
               (K 2 0 false) result (Sqrt r21) / #3 - (#4 * Pow chi1 4 *
               costheta - Pow chi1 3 * lambda2 * (costheta * costheta + #9) +
               chi1 * chi1 * lambda2 * lambda2 * costheta * (costheta *
               costheta + #5) - #2 * chi1 * Pow lambda2 3 * (#2 * costheta *
               costheta - #1 - #2) - #2 * Pow lambda2 4 * costheta) * Tab1 (K
               1 3 false) result (Sqrt r21) / r21 / #15) + chi1 * Spl
               bg_conformal_Hz z2_const * Spl bg_f z2_const * Spl bg_G1
               z2_const * (#2 - #5 * s2) * Spl bg_D1 z2_const * (#1 - x_) *
               Spl bg_D1 z1 / Spl bg_a z1 * (#2 * Tab1 (K 2 0 false) result
               #0 / #3))))]]
           [If (And (Flag pk_nonlinear) (Flag midpoint))
             [AddTo (Pow (H0 * Par_h) 2 * (#3 * (Omega0_cdm + Omega0_baryon)
               / #2 * (chi2 * Spl bg_conformal_Hz z1_const * Spl bg_f
               z1_const * Spl bg_G1 z1_const * (#2 - #5 * s2) * (#1 - x_) /
               Spl bg_a z2 * (#2 * Tab2 (K 2 0 false) result2d ((z1_const +
               z2) / #2) #0 / #3) + chi1 * Spl bg_conformal_Hz z2_const * Spl
               bg_f z2_const * Spl bg_G1 z2_const * (#2 - #5 * s2) * (#1 -
               x_) / Spl bg_a z1 * (#2 * Tab2 (K 2 0 false) result2d ((z1 +
               z2_const) / #2) #0 / #3))))]
             [AddTo (Pow (H0 * Par_h) 2 * (#3 * (Omega0_cdm + Omega0_baryon)
               / #2 * (chi2 * Spl bg_conformal_Hz z1_const * Spl bg_f
               z1_const * Spl bg_G1 z1_const * (#2 - #5 * s2) * Spl bg_D1
               z1_const * (#1 - x_) * Spl bg_D1 z2 / Spl bg_a z2 * (#2 * Tab1
               (K 2 0 false) result #0 / #3) + chi1 * Spl bg_conformal_Hz
               z2_const * Spl bg_f z2_const * Spl bg_G1 z2_const * (#2 - #5 *
               s2) * Spl bg_D1 z2_const * (#1 - x_) * Spl bg_D1 z1 / Spl bg_a
               z1 * (#2 * Tab1 (K 2 0 false) result #0 / #3))))]]]]]
     []]
   []].

(** functions.c:3001-3031. *)
Definition si_d2_len : list stmt :=
 [If (And (Con d2) (Con len))
   [AddTo (Pow (H0 * Par_h) 2 * ((- #3) * (Omega0_cdm + Omega0_baryon) / #2 *
     (chi2 * (#3 - Spl par_evolution_bias1 z1_const) * Spl bg_f z1_const *
     Pow (Spl bg_conformal_Hz z1_const) 2 * (#2 - #5 * s2) * Spl bg_D1
     z1_const * ((#1 - x_) * Spl bg_D1 z2 / Spl bg_a z2 * (#2 * chi1 *
     costheta * Tab1 (K 3 1 false) result (Sqrt r21) - chi1 * chi1 * lambda2
     * (#1 - costheta * costheta) * Tab1 (K 2 2 false) result (Sqrt r21))) +
     chi1 * (#3 - Spl par_evolution_bias2 z2_const) * Spl bg_f z2_const * Pow
     (Spl bg_conformal_Hz z2_const) 2 * (#2 - #5 * s1) * Spl bg_D1 z2_const *
     ((#1 - x_) * Spl bg_D1 z1 / Spl bg_a z1 * (#2 * chi2 * costheta * Tab1
     (K 3 1 false) result (Sqrt r22) - chi2 * chi2 * lambda1 * (#1 - costheta
     * costheta) * Tab1 (K 2 2 false) result (Sqrt r22))))))]
   []].

(** functions.c:3033-3061. *)
Definition si_g1_len : list stmt :=
 [If (And (Con g1) (Con len))
   [AddTo (Pow (H0 * Par_h) 4 * (#9 * (Omega0_cdm + Omega0_baryon) *
     (Omega0_cdm + Omega0_baryon) / #4 * (chi2 * (#1 + Spl bg_G1 z1_const) *
     (#2 - #5 * s2) * Spl bg_D1 z1_const * ((#1 - x_) * Spl bg_D1 z2 / Spl
     bg_a z2 * (#2 * chi1 * costheta * Tab1 (K 3 1 false) result (Sqrt r21) -
     chi1 * chi1 * lambda2 * (#1 - costheta * costheta) * Tab1 (K 2 2 false)
     result (Sqrt r21))) + chi1 * (#1 + Spl bg_G2 z2_const) * (#2 - #5 * s1)
     * Spl bg_D1 z2_const * ((#1 - x_) * Spl bg_D1 z1 / Spl bg_a z1 * (#2 *
     chi2 * costheta * Tab1 (K 3 1 false) result (Sqrt r22) - chi2 * chi2 *
     lambda1 * (#1 - costheta * costheta) * Tab1 (K 2 2 false) result (Sqrt
     r22))))))]
   []].

(** functions.c:3063-3091. *)
Definition si_g2_len : list stmt :=
 [If (And (Con g2) (Con len))
   [AddTo (Pow (H0 * Par_h) 4 * (#9 * (Omega0_cdm + Omega0_baryon) *
     (Omega0_cdm + Omega0_baryon) / #4 * (chi2 * (#5 * s1 - #2) * (#2 - #5 *
     s2) * Spl bg_D1 z1_const * ((#1 - x_) * Spl bg_D1 z2 / Spl bg_a z2 * (#2
     * chi1 * costheta * Tab1 (K 3 1 false) result (Sqrt r21) - chi1 * chi1 *
     lambda2 * (#1 - costheta * costheta) * Tab1 (K 2 2 false) result (Sqrt
     r21))) + chi1 * (#5 * s2 - #2) * (#2 - #5 * s1) * Spl bg_D1 z2_const *
     ((#1 - x_) * Spl bg_D1 z1 / Spl bg_a z1 * (#2 * chi2 * costheta * Tab1
     (K 3 1 false) result (Sqrt r22) - chi2 * chi2 * lambda1 * (#1 - costheta
     * costheta) * Tab1 (K 2 2 false) result (Sqrt r22))))))]
   []].

(** functions.c:3093-3121. *)
Definition si_g3_len : list stmt :=
 [If (And (Con g3) (Con len))
   [AddTo (Pow (H0 * Par_h) 4 * (#9 * (Omega0_cdm + Omega0_baryon) *
     (Omega0_cdm + Omega0_baryon) / #4 * (chi2 * (Spl bg_f z1_const - #1) *
     (#2 - #5 * s2) * Spl bg_D1 z1_const * ((#1 - x_) * Spl bg_D1 z2 / Spl
     bg_a z2 * (#2 * chi1 * costheta * Tab1 (K 3 1 false) result (Sqrt r21) -
     chi1 * chi1 * lambda2 * (#1 - costheta * costheta) * Tab1 (K 2 2 false)
     result (Sqrt r21))) + chi1 * (Spl bg_f z2_const - #1) * (#2 - #5 * s1) *
     Spl bg_D1 z2_const * ((#1 - x_) * Spl bg_D1 z1 / Spl bg_a z1 * (#2 *
     chi2 * costheta * Tab1 (K 3 1 false) result (Sqrt r22) - chi2 * chi2 *
     lambda1 * (#1 - costheta * costheta) * Tab1 (K 2 2 false) result (Sqrt
     r22))))))]
   []].

(** functions.c:3123-3141. *)
Definition si_den_g4 : list stmt :=
 [If (And (Con den) (Con g4))
   [AddTo (Pow (H0 * Par_h) 2 * ((- #3) * (Omega0_cdm + Omega0_baryon) * (b1
     * (#2 - #5 * s2) * Spl bg_D1 z1_const * Spl bg_D1 z2 / Spl bg_a z2 *
     Tab1 (K 2 0 false) result (Sqrt r21) + b2 * (#2 - #5 * s1) * Spl bg_D1
     z2_const * Spl bg_D1 z1 / Spl bg_a z1 * Tab1 (K 2 0 false) result (Sqrt
     r22))))]
   []].

(** functions.c:3143-3163. *)
Definition si_den_g5 : list stmt :=
 [If (And (Con den) (Con g5))
   [AddTo (Pow (H0 * Par_h) 2 * ((- #3) * (Omega0_cdm + Omega0_baryon) *
     (chi2 * b1 * Spl bg_G2 z2_const * Spl bg_D1 z1_const * Spl
     bg_conformal_Hz z2 * (Spl bg_f z2 - #1) * Spl bg_D1 z2 * Spl bg_a z2 *
     Tab1 (K 2 0 false) result (Sqrt r21) + chi1 * b2 * Spl bg_G1 z1_const *
     Spl bg_D1 z2_const * Spl bg_conformal_Hz z1 * (Spl bg_f z1 - #1) * Spl
     bg_D1 z1 * Spl bg_a z1 * Tab1 (K 2 0 false) result (Sqrt r22))))]
   []].

(** functions.c:3165-3190. *)
Definition si_rsd_g4 : list stmt :=
 [If (And (Con rsd) (Con g4))
   [AddTo (Pow (H0 * Par_h) 2 * (#3 * (Omega0_cdm + Omega0_baryon) * (Spl
     bg_f z1_const * (#2 - #5 * s2) * Spl bg_D1 z1_const * Spl bg_D1 z2 / Spl
     bg_a z2 * ((#2 * r21 / #3 + (costheta * costheta - #1) * lambda2 *
     lambda2) * Tab1 (K 2 2 false) result (Sqrt r21) - Tab1 (K 2 0 false)
     result (Sqrt r21) / #3) + Spl bg_f z2_const * (#2 - #5 * s1) * Spl bg_D1
     z2_const * Spl bg_D1 z1 / Spl bg_a z1 * ((#2 * r22 / #3 + (costheta *
     costheta - #1) * lambda1 * lambda1) * Tab1 (K 2 2 false) result (Sqrt
     r22) - Tab1 (K 2 0 false) result (Sqrt r22) / #3))))]
   []].

(** functions.c:3192-3219. *)
Definition si_rsd_g5 : list stmt :=
 [If (And (Con rsd) (Con g5))
   [AddTo (Pow (H0 * Par_h) 2 * (#3 * (Omega0_cdm + Omega0_baryon) * (chi2 *
     Spl bg_f z1_const * Spl bg_G2 z2_const * Spl bg_D1 z1_const * Spl
     bg_conformal_Hz z2 * (Spl bg_f z2 - #1) * Spl bg_D1 z2 / Spl bg_a z2 *
     ((#2 * r21 / #3 + (costheta * costheta - #1) * lambda2 * lambda2) * Tab1
     (K 2 2 false) result (Sqrt r21) - Tab1 (K 2 0 false) result (Sqrt r21) /
     #3) + chi1 * Spl bg_f z2_const * Spl bg_G1 z1_const * Spl bg_D1 z2_const
     * Spl bg_conformal_Hz z1 * (Spl bg_f z1 - #1) * Spl bg_D1 z1 / Spl bg_a
     z1 * ((#2 * r22 / #3 + (costheta * costheta - #1) * lambda1 * lambda1) *
     Tab1 (K 2 2 false) result (Sqrt r22) - Tab1 (K 2 0 false) result (Sqrt
     r22) / #3))))]
   []].

(** functions.c:3221-3236. *)
Definition si_d1_g4 : list stmt :=
 [If (And (Con d1) (Con g4))
   [AddTo (Pow (H0 * Par_h) 2 * (#3 * (Omega0_cdm + Omega0_baryon) * (Spl
     bg_conformal_Hz z1_const * Spl bg_f z1_const * (#2 - #5 * s2) * Spl
     bg_D1 z1_const * Spl bg_D1 z2 / Spl bg_a z2 * (lambda2 * costheta -
     chi1) * Tab1 (K 3 1 false) result (Sqrt r21) + Spl bg_conformal_Hz
     z2_const * Spl bg_f z2_const * (#2 - #5 * s1) * Spl bg_D1 z2_const * Spl
     bg_D1 z1 / Spl bg_a z1 * (lambda1 * costheta - chi2) * Tab1 (K 3 1
     false) result (Sqrt r22))))]
   []].

(** functions.c:3238-3257. *)
Definition si_d1_g5 : list stmt :=
 [If (And (Con d1) (Con g5))
   [AddTo (Pow (H0 * Par_h) 2 * (#3 * (Omega0_cdm + Omega0_baryon) * (chi2 *
     Spl bg_conformal_Hz z1_const * Spl bg_f z1_const * Spl bg_G2 z2_const *
     Spl bg_D1 z1_const * Spl bg_conformal_Hz z2 * (Spl bg_f z2 - #1) * Spl
     bg_D1 z2 / Spl bg_a z2 * (lambda2 * costheta - chi1) * Tab1 (K 3 1
     false) result (Sqrt r21) + chi1 * Spl bg_conformal_Hz z2_const * Spl
     bg_f z2_const * Spl bg_G1 z1_const * Spl bg_D1 z2_const * Spl
     bg_conformal_Hz z1 * (Spl bg_f z1 - #1) * Spl bg_D1 z1 / Spl bg_a z1 *
     (lambda1 * costheta - chi2) * Tab1 (K 3 1 false) result (Sqrt r22))))]
   []].

(** functions.c:3259-3276. *)
Definition si_d2_g4 : list stmt :=
 [If (And (Con d2) (Con g4))
   [AddTo (Pow (H0 * Par_h) 2 * ((- #3) * (Omega0_cdm + Omega0_baryon) * ((#3
     - Spl par_evolution_bias1 z1_const) * Spl bg_f z1_const * Pow (Spl
     bg_conformal_Hz z1_const) 2 * (#2 - #5 * s2) * Spl bg_D1 z1_const * Spl
     bg_D1 z2 / Spl bg_a z2 * ren1 + (#3 - Spl par_evolution_bias2 z2_const)
     * Spl bg_f z2_const * Pow (Spl bg_conformal_Hz z2_const) 2 * (#2 - #5 *
     s1) * Spl bg_D1 z2_const * Spl bg_D1 z1 / Spl bg_a z1 * ren2)))]
   []].

(** functions.c:3278-3297. *)
Definition si_d2_g5 : list stmt :=
 [If (And (Con d2) (Con g5))
   [AddTo (Pow (H0 * Par_h) 2 * ((- #3) * (Omega0_cdm + Omega0_baryon) *
     (chi2 * (#3 - Spl par_evolution_bias1 z1_const) * Spl bg_f z1_const *
     Pow (Spl bg_conformal_Hz z1_const) 2 * Spl bg_G2 z2_const * Spl bg_D1
     z1_const * Spl bg_conformal_Hz z2 * (Spl bg_f z2 - #1) * Spl bg_D1 z2 /
     Spl bg_a z2 * ren1 + chi1 * (#3 - Spl par_evolution_bias2 z2_const) *
     Spl bg_f z2_const * Pow (Spl bg_conformal_Hz z2_const) 2 * Spl bg_G1
     z1_const * Spl bg_D1 z2_const * Spl bg_conformal_Hz z1 * (Spl bg_f z1 -
     #1) * Spl bg_D1 z1 / Spl bg_a z1 * ren2)))]
   []].

(** functions.c:3299-3316. *)
Definition si_g1_g4 : list stmt :=
 [If (And (Con g1) (Con g4))
   [AddTo (Pow (H0 * Par_h) 4 * (#9 * (Omega0_cdm + Omega0_baryon) *
     (Omega0_cdm + Omega0_baryon) / #2 * ((#1 + Spl bg_G1 z1_const) * (#2 -
     #5 * s2) * Spl bg_D1 z1_const / Spl bg_a z1_const * Spl bg_D1 z2 / Spl
     bg_a z2 * ren1 + (#1 + Spl bg_G2 z2_const) * (#2 - #5 * s1) * Spl bg_D1
     z2_const / Spl bg_a z2_const * Spl bg_D1 z1 / Spl bg_a z1 * ren2)))]
   []].

(** functions.c:3318-3339. *)
Definition si_g1_g5 : list stmt :=
 [If (And (Con g1) (Con g5))
   [AddTo (Pow (H0 * Par_h) 4 * (#9 * (Omega0_cdm + Omega0_baryon) *
     (Omega0_cdm + Omega0_baryon) / #2 * (chi2 * (#1 + Spl bg_G1 z1_const) *
     Spl bg_G2 z2_const * Spl bg_D1 z1_const / Spl bg_a z1_const * Spl
     bg_conformal_Hz z2 * (Spl bg_f z2 - #1) * Spl bg_D1 z2 / Spl bg_a z2 *
     ren1 + chi1 * (#1 + Spl bg_G2 z2_const) * Spl bg_G1 z1_const * Spl bg_D1
     z2_const / Spl bg_a z2_const * Spl bg_conformal_Hz z1 * (Spl bg_f z1 -
     #1) * Spl bg_D1 z1 / Spl bg_a z1 * ren2)))]
   []].

(** functions.c:3341-3358. *)
Definition si_g2_g4 : list stmt :=
 [If (And (Con g2) (Con g4))
   [AddTo (Pow (H0 * Par_h) 4 * (#9 * (Omega0_cdm + Omega0_baryon) *
     (Omega0_cdm + Omega0_baryon) / #2 * ((#5 * s1 - #2) * (#2 - #5 * s2) *
     Spl bg_D1 z1_const / Spl bg_a z1_const * Spl bg_D1 z2 / Spl bg_a z2 *
     ren1 + (#5 * s2 - #2) * (#2 - #5 * s1) * Spl bg_D1 z2_const / Spl bg_a
     z2_const * Spl bg_D1 z1 / Spl bg_a z1 * ren2)))]
   []].

(** functions.c:3360-3381. *)
Definition si_g2_g5 : list stmt :=
 [If (And (Con g2) (Con g5))
   [AddTo (Pow (H0 * Par_h) 4 * (#9 * (Omega0_cdm + Omega0_baryon) *
     (Omega0_cdm + Omega0_baryon) / #2 * (chi2 * (#5 * s1 - #2) * Spl bg_G2
     z2_const * Spl bg_D1 z1_const / Spl bg_a z1_const * Spl bg_conformal_Hz
     z2 * (Spl bg_f z2 - #1) * Spl bg_D1 z2 / Spl bg_a z2 * ren1 + chi1 * (#5
     * s2 - #2) * Spl bg_G1 z1_const * Spl bg_D1 z2_const / Spl bg_a z2_const
     * Spl bg_conformal_Hz z1 * (Spl bg_f z1 - #1) * Spl bg_D1 z1 / Spl bg_a
     z1 * ren2)))]
   []].

(** functions.c:3383-3400. *)
Definition si_g3_g4 : list stmt :=
 [If (And (Con g3) (Con g4))
   [AddTo (Pow (H0 * Par_h) 4 * (#9 * (Omega0_cdm + Omega0_baryon) *
     (Omega0_cdm + Omega0_baryon) / #2 * ((Spl bg_f z1_const - #1) * (#2 - #5
     * s2) * Spl bg_D1 z1_const / Spl bg_a z1_const * Spl bg_D1 z2 / Spl bg_a
     z2 * ren1 + (Spl bg_f z2_const - #1) * (#2 - #5 * s1) * Spl bg_D1
     z2_const / Spl bg_a z2_const * Spl bg_D1 z1 / Spl bg_a z1 * ren2)))]
   []].

(** functions.c:3402-3423. *)
Definition si_g3_g5 : list stmt :=
 [If (And (Con g3) (Con g5))
   [AddTo (Pow (H0 * Par_h) 4 * (#9 * (Omega0_cdm + Omega0_baryon) *
     (Omega0_cdm + Omega0_baryon) / #2 * (chi2 * (Spl bg_f z1_const - #1) *
     Spl bg_G2 z2_const * Spl bg_D1 z1_const / Spl bg_a z1_const * Spl
     bg_conformal_Hz z2 * (Spl bg_f z2 - #1) * Spl bg_D1 z2 / Spl bg_a z2 *
     ren1 + chi1 * (Spl bg_f z2_const - #1) * Spl bg_G1 z1_const * Spl bg_D1
     z2_const / Spl bg_a z2_const * Spl bg_conformal_Hz z1 * (Spl bg_f z1 -
     #1) * Spl bg_D1 z1 / Spl bg_a z1 * ren2)))]
   []].

(** The pair blocks of [functions_single_integrated] in source order.  functions.c:1559-3423. *)
Definition si_blocks : list (contrib * contrib * list stmt) :=
  [(den, len, si_den_len);
   (rsd, len, si_rsd_len);
   (d1, len, si_d1_len);
   (d2, len, si_d2_len);
   (g1, len, si_g1_len);
   (g2, len, si_g2_len);
   (g3, len, si_g3_len);
   (den, g4, si_den_g4);
   (den, g5, si_den_g5);
   (rsd, g4, si_rsd_g4);
   (rsd, g5, si_rsd_g5);
   (d1, g4, si_d1_g4);
   (d1, g5, si_d1_g5);
   (d2, g4, si_d2_g4);
   (d2, g5, si_d2_g5);
   (g1, g4, si_g1_g4);
   (g1, g5, si_g1_g5);
   (g2, g4, si_g2_g4);
   (g2, g5, si_g2_g5);
   (g3, g4, si_g3_g4);
   (g3, g5, si_g3_g5)].

(** How [functions_single_integrated] returns, functions.c:3425-3456. *)
Definition si_final : list stmt :=
 [If Finite
   [Return res]
   [Exit]].

(** Local variables of [functions_double_integrated], functions.c:3471-3514. *)
Definition di_prelude : list stmt :=
 [Set_ res #0;
  Set_ chi_mean (Spl bg_comoving_distance z_mean);
  Set_ chi1 (chi_mean - sep * mu / #2);
  Set_ chi2 (chi_mean + sep * mu / #2);
  Set_ costheta ((#2 * chi_mean * chi_mean - sep * sep + mu * mu * sep * sep
   / #2) / (#2 * chi_mean * chi_mean - mu * mu * sep * sep / #2));
  Set_ lambda1 (chi1 * x_1);
  Set_ lambda2 (chi2 * x_2);
  Set_ r2 (lambda1 * lambda1 + lambda2 * lambda2 - #2 * lambda1 * lambda2 *
   costheta);
  If (Lt r2 #0)
   [Set_ r2 #0]
   [];
  Set_ z1_const (Spl bg_z_as_chi chi1);
  Set_ z2_const (Spl bg_z_as_chi chi2);
  Set_ z1 (Spl bg_z_as_chi lambda1);
  Set_ z2 (Spl bg_z_as_chi lambda2);
  Set_ s1 (Spl par_magnification_bias1 z1_const);
  Set_ s2 (Spl par_magnification_bias2 z2_const);
  Set_ sz_mean1 (Spl par_magnification_bias1 z_mean);
  Set_ sz_mean2 (Spl par_magnification_bias2 z_mean);
  Set_ ren #0;
  If (Flag divergent)
   [If (Not (Lt (Pow (Dec 1 1000000) 2) r2))
     [Set_ ren (Tab1 (K 4 0 false) renormalization_zero_separation lambda1)]
     [Set_ ren (Tab1 (K 4 0 false) result (Sqrt r2) - Tab2 (K 4 0 false)
       renormalization lambda1 lambda2)]]
   []].

(** functions.c:3517-3836. *)
Definition di_len_len : list stmt :=
 [If (And (Con len) (Not (Flag only_cross)))
   [If (And (Flag flatsky_nonlocal) (Not (Flag output_multipoles)))
     [AddTo (#9 * Pow (Omega0_cdm + Omega0_baryon) 2 * (#2 - #5 * sz_mean1) *
       (#2 - #5 * sz_mean2) * Pow chi_mean 3 / #8 / Pi * Tab1 (K 1 (-1) true)
       result (x_1 * sep * Sqrt (#1 - mu * mu)) * Pow (Spl bg_D1 (Spl
       bg_z_as_chi (x_1 * chi_mean))) 2 * Pow (#1 + Spl bg_z_as_chi (x_1 *
       chi_mean)) 2 * Pow (x_1 * (#1 - x_1)) 2)]
     [If (Not (Flag flatsky_nonlocal))
       [If (Lt (Dec 1 100000000000000000000) r2)
         [If (And (Flag pk_nonlinear) (Flag midpoint))
           [AddTo (#9 * (Omega0_cdm + Omega0_baryon) * (Omega0_cdm +
             Omega0_baryon) * (#2 - #5 * s1) * (#2 - #5 * s2) / #4 * chi1 *
             chi2 / Spl bg_a z1 / Spl bg_a z2 * (#1 - x_1) * (#1 - x_2) * (#2
             * (costheta * costheta - #1) * lambda1 * lambda2 * Tab2 (K 0 0
             false) result2d ((z1 + z2) / #2) (Sqrt r2) / #5 + #4 * costheta
             * Tab2 (K 2 0 false) result2d ((z1 + z2) / #2) (Sqrt r2) / #3 +
             #4 * costheta * (r2 + #6 * costheta * lambda1 * lambda2) * Tab2
             (K 1 1 false) result2d ((z1 + z2) / #2) (Sqrt r2) / #15 + #2 *
             (costheta * costheta - #1) * lambda1 * lambda2 * (#2 * r2 + #3 *
             costheta * lambda1 * lambda2) * Tab2 (K 0 2 false) result2d ((z1
             + z2) / #2) (Sqrt r2) / #7 / r2 + #2 * costheta * (#2 * r2 * r2
             + #12 * costheta * r2 * lambda1 * lambda2 + #15 * (costheta *
             costheta - #1) * lambda1 * lambda1 * lambda2 * lambda2) * Tab2
             (K 1 3 false) result2d ((z1 + z2) / #2) (Sqrt r2) / #15 / r2 +
             (costheta * costheta - #1) * lambda1 * lambda2 * (#6 * r2 * r2 +
             #30 * costheta * r2 * lambda1 * lambda2 + #35 * (costheta *
             costheta - #1) * lambda1 * lambda1 * lambda2 * lambda2) * Tab2
             (K 0 4 false) result2d ((z1 + z2) / #2) (Sqrt r2) / #35 / r2 /
             r2))]
           [AddTo (#9 * (Omega0_cdm + Omega0_baryon) * (Omega0_cdm +
             Omega0_baryon) * (#2 - #5 * s1) * (#2 - #5 * s2) / #4 * chi1 *
             chi2 * Spl bg_D1 z1 * Spl bg_D1 z2 / Spl bg_a z1 / Spl bg_a z2 *
             (#1 - x_1) * (#1 - x_2) * (#2 * (costheta * costheta - #1) *
             lambda1 * lambda2 * Tab1 (K 0 0 false) result (Sqrt r2) / #5 +
             #4 * costheta * Tab1 (K 2 0 false) result (Sqrt r2) / #3 + #4 *
             costheta * (r2 + #6 * costheta * lambda1 * lambda2) * Tab1 (K 1
             1 false) result (Sqrt r2) / #15 + #2 * (costheta * costheta -
             #1) * lambda1 * lambda2 * (#2 * r2 + #3 * costheta * lambda1 *
             lambda2) * Tab1 (K 0 2 false) result (Sqrt r2) / #7 / r2 + #2 *
             costheta * (#2 * r2 * r2 + #12 * costheta * r2 * lambda1 *
             lambda2 + #15 * (costheta * costheta - #1) * lambda1 * lambda1 *
             lambda2 * lambda2) * Tab1 (K 1 3 false) result (Sqrt r2) / #15 /
             r2 + (costheta * costheta - #1) * lambda1 * lambda2 * (#6 * r2 *
             r2 + #30 * costheta * r2 * lambda1 * lambda2 + #35 * (costheta *
             costheta - #1) * lambda1 * lambda1 * lambda2 * lambda2) * Tab1
             (K 0 4 false) result (Sqrt r2) / #35 / r2 / r2))]]
         [If (And (Flag pk_nonlinear) (Flag midpoint))
           [AddTo (#9 / #4 * Pow (Omega0_cdm + Omega0_baryon) 2 * (#2 - #5 *
             s1) * (#2 - #5 * s2) * chi1 * chi2 / Spl bg_a z1 / Spl bg_a z2 *
             (#1 - x_1) * (#1 - x_2) * (#4 + #24 * lambda1 * lambda2 * Tab2
             (K 2 0 false) result2d ((z1 + z2) / #2) (Sqrt r2) / #15))]
           [AddTo (#9 / #4 * Pow (Omega0_cdm + Omega0_baryon) 2 * (#2 - #5 *
             s1) * (#2 - #5 * s2) * chi1 * chi2 * Spl bg_D1 z1 * Spl bg_D1 z2
             / Spl bg_a z1 / Spl bg_a z2 * (#1 - x_1) * (#1 - x_2) * (#4 +
             #24 * lambda1 * lambda2 * Tab1 (K 1 1 false) result #0 / #15))]]]
       []]]
   []].

(** functions.c:3838-3852. *)
Definition di_g4_g4 : list stmt :=
 [If (And (Con g4) (Not (Flag only_cross)))
   [AddTo (#9 * (Omega0_cdm + Omega0_baryon) * (Omega0_cdm + Omega0_baryon) *
     (#2 - #5 * s1) * (#2 - #5 * s2) * Spl bg_D1 z1 * Spl bg_D1 z2 / Spl bg_a
     z1 / Spl bg_a z2 * ren)]
   []].

(** functions.c:3854-3875. *)
Definition di_g5_g5 : list stmt :=
 [If (And (Con g5) (Not (Flag only_cross)))
   [AddTo (#9 * (Omega0_cdm + Omega0_baryon) * (Omega0_cdm + Omega0_baryon) *
     Spl bg_G1 z1_const * Spl bg_G2 z2_const * chi1 * chi2 * Spl bg_D1 z1 *
     Spl bg_D1 z2 / Spl bg_a z1 / Spl bg_a z2 * Spl bg_conformal_Hz z1 * Spl
     bg_conformal_Hz z2 * (Spl bg_f z1 - #1) * (Spl bg_f z2 - #1) * ren)]
   []].

(** functions.c:3877-3918. *)
Definition di_g4_len : list stmt :=
 [If (And (Con g4) (Con len))
   [If (Not (Eq r2 #0))
     [AddTo (#9 * (Omega0_cdm + Omega0_baryon) * (Omega0_cdm + Omega0_baryon)
       / #2 * ((#2 - #5 * s1) * (#2 - #5 * s2) * (#1 - x_2) / x_2 * Spl bg_D1
       z1 * Spl bg_D1 z2 / Spl bg_a z1 / Spl bg_a z2 * (#2 * lambda1 *
       lambda2 * costheta * Tab1 (K 3 1 false) result (Sqrt r2) - lambda1 *
       lambda1 * lambda2 * lambda2 * (#1 - costheta * costheta) * Tab1 (K 2 2
       false) result (Sqrt r2)) + (#2 - #5 * s1) * (#2 - #5 * s2) * (#1 -
       x_1) / x_1 * Spl bg_D1 z1 * Spl bg_D1 z2 / Spl bg_a z1 / Spl bg_a z2 *
       (#2 * lambda1 * lambda2 * costheta * Tab1 (K 3 1 false) result (Sqrt
       r2) - lambda1 * lambda1 * lambda2 * lambda2 * (#1 - costheta *
       costheta) * Tab1 (K 2 2 false) result (Sqrt r2))))]
     [AddTo (#9 * (Omega0_cdm + Omega0_baryon) * (Omega0_cdm + Omega0_baryon)
       / #2 * ((#2 - #5 * s1) * (#2 - #5 * s2) * (#1 - x_2) / x_2 * Spl bg_D1
       z1 * Spl bg_D1 z2 / Spl bg_a z1 / Spl bg_a z2 * #2 * lambda1 * lambda2
       * Tab1 (K 3 1 false) result #0 + (#2 - #5 * s1) * (#2 - #5 * s2) * (#1
       - x_1) / x_1 * Spl bg_D1 z2 * Spl bg_D1 z1 / Spl bg_a z2 / Spl bg_a z1
       * #2 * lambda1 * lambda2 * Tab1 (K 3 1 false) result #0))]]
   []].

(** functions.c:3920-3965. *)
Definition di_g5_len : list stmt :=
 [If (And (Con g5) (Con len))
   [If (Not (Eq r2 #0))
     [AddTo (#9 * (Omega0_cdm + Omega0_baryon) * (Omega0_cdm + Omega0_baryon)
       / #2 * ((#2 - #5 * s2) * Spl bg_G1 z1_const * chi1 * Spl
       bg_conformal_Hz z1 * (Spl bg_conformal_Hz z1 - #1) * (#1 - x_2) / x_2
       * Spl bg_D1 z1 * Spl bg_D1 z2 / Spl bg_a z1 / Spl bg_a z2 * (#2 *
       lambda1 * lambda2 * costheta * Tab1 (K 3 1 false) result (Sqrt r2) -
       lambda1 * lambda1 * lambda2 * lambda2 * (#1 - costheta * costheta) *
       Tab1 (K 2 2 false) result (Sqrt r2)) + (#2 - #5 * s1) * Spl bg_G2
       z2_const * chi2 * Spl bg_conformal_Hz z2 * (Spl bg_conformal_Hz z2 -
       #1) * (#1 - x_1) / x_1 * Spl bg_D1 z1 * Spl bg_D1 z2 / Spl bg_a z1 /
       Spl bg_a z2 * (#2 * lambda1 * lambda2 * costheta * Tab1 (K 3 1 false)
       result (Sqrt r2) - lambda1 * lambda1 * lambda2 * lambda2 * (#1 -
       costheta * costheta) * Tab1 (K 2 2 false) result (Sqrt r2))))]
     [AddTo (#9 * (Omega0_cdm + Omega0_baryon) * (Omega0_cdm + Omega0_baryon)
       / #2 * ((#2 - #5 * s2) * Spl bg_G1 z1_const * chi1 * Spl
       bg_conformal_Hz z1 * (Spl bg_conformal_Hz z1 - #1) * (#1 - x_2) / x_2
       * Spl bg_D1 z1 * Spl bg_D1 z2 / Spl bg_a z1 / Spl bg_a z2 * #2 *
       lambda1 * lambda2 * Tab1 (K 3 1 false) result #0 + (#2 - #5 * s1) *
       Spl bg_G2 z2_const * chi2 * Spl bg_conformal_Hz z2 * (Spl
       bg_conformal_Hz z2 - #1) * (#1 - x_1) / x_1 * Spl bg_D1 z1 * Spl bg_D1
       z2 / Spl bg_a z1 / Spl bg_a z2 * #2 * lambda1 * lambda2 * Tab1 (K 3 1
       false) result #0))]]
   []].

(** functions.c:3967-3987. *)
Definition di_g4_g5 : list stmt :=
 [If (And (Con g4) (Con g5))
   [AddTo (#9 * (Omega0_cdm + Omega0_baryon) * (Omega0_cdm + Omega0_baryon) *
     (Spl bg_G2 z2_const * (#2 - #5 * s1) * chi2 * Spl bg_conformal_Hz z2 *
     (Spl bg_f z2 - #1) * Spl bg_D1 z1 * Spl bg_D1 z2 / Spl bg_a z1 / Spl
     bg_a z2 * ren + Spl bg_G1 z1_const * (#2 - #5 * s2) * chi1 * Spl
     bg_conformal_Hz z1 * (Spl bg_f z1 - #1) * Spl bg_D1 z1 * Spl bg_D1 z2 /
     Spl bg_a z1 / Spl bg_a z2 * ren))]
   []].

(** The pair blocks of [functions_double_integrated] in source order.  functions.c:3517-3987. *)
Definition di_blocks : list (contrib * contrib * list stmt) :=
  [(len, len, di_len_len);
   (g4, g4, di_g4_g4);
   (g5, g5, di_g5_g5);
   (g4, len, di_g4_len);
   (g5, len, di_g5_len);
   (g4, g5, di_g4_g5)].

(** How [functions_double_integrated] returns, functions.c:3988-4015. *)
Definition di_final : list stmt :=
 [If Finite
   [Return (res * Pow (H0 * Par_h) 4)]
   [Exit]].

