(** * The Python [Coffe] object as a state machine.

    The state is the parameter structure plus the lazily filled caches.  The
    numerical content of a cache is symbolic: a cache holds the values of the
    parameter fields (and of the other caches) that its C routine reads, so two
    caches with the same symbolic content hold the same numbers whatever the
    numerical routines compute.

    Not modelled: failure of numerical routines (GSL errors other than the ones
    listed), running out of memory, threads (see Sched.v), the deprecated file
    interface (see Config.v). *)
From Coq Require Import ZArith Bool List String Floats.SpecFloat.
From Verif Require Import F64 PyParams PySet Integrals.
Import ListNotations.
Open Scope Z_scope.

(** ** Which fields each C routine reads *)

(** coffe_background_init, background.c:301-696: every spline except G1, G2. *)
Definition bg_core_fields : list field :=
  [FF Omega0_cdm; FF Omega0_baryon; FF Omega0_gamma; FF Omega0_de; FF F_w0; FF F_wa;
   FF F_h; FI I_background_bins; FI I_integration_1d_type; FF F_integration_1d_prec].

(** G1 and G2 also read these (background.c:504-536).  The bias fit
    coefficients (639-683) are never read by any routine and left out. *)
Definition bg_G_fields : list field :=
  [FS S_magnification_bias1; FS S_magnification_bias2;
   FS S_evolution_bias1; FS S_evolution_bias2].

(** parse_external_power_spectrum, parser.c:323-533: what is passed to CLASS.
    Simplification: all of A_s, sigma8 and YHe are listed, although CLASS gets
    only one amplitude, and values are taken exactly instead of printed with
    "%e". *)
Definition class_fields : list field :=
  [FF F_h; FF F_T_cmb; FF Omega0_baryon; FF F_N_ur; FF F_YHe; FF Omega0_cdm;
   FF F_w0; FF F_wa; FI I_N_ncdm; FF F_m_ncdm; FF F_n_s; FF F_A_s; FF F_sigma8;
   FF F_k_max; FF F_k_per_decade_for_bao; FF F_k_per_decade_for_pk;
   FF F_start_large_k_at_tau_h_over_tau_k; FI I_l_max_g; FI I_l_max_ur;
   FF F_tol_perturb_integration; FF F_radiation_streaming_trigger;
   FF F_ur_fluid_trigger; FI I_pk_type].

(** coffe_integrals_init, integrals.c:580-1423, the content of each table
    except the divergent one; the interpolation method only matters for
    pk_type <> linear (integrals.c:640-770). *)
Definition int_fields (p : params) : list field :=
  [FF F_k_min_norm; FF F_k_max_norm; FI I_bessel_bins; FI I_pk_type]
  ++ (if pi p I_pk_type =? pk_LINEAR then [] else [FI I_covariance_interpolation_method]).

(** The divergent integral, integrals.c:773-914 (output_type is MULTIPOLES
    whenever Python calls it): chi_max comes from z_mean and deltaz. *)
Definition div_fields : list field :=
  [FL L_z_mean; FL L_deltaz; FI I_covariance_interpolation_method].

(** coffe_integrate and the term functions: signal.c:26-771, functions.c. *)
Definition signal_fields : list field :=
  [FB B_den; FB B_rsd; FB B_len; FB B_d1; FB B_d2; FB B_g1; FB B_g2; FB B_g3;
   FB B_g4; FB B_g5; FB B_only_cross; FB B_flatsky_local;
   FB B_flatsky_local_nonlocal; FB B_flatsky_nonlocal; FI I_pk_type;
   FF Omega0_cdm; FF Omega0_baryon; FF F_h;
   FS S_galaxy_bias1; FS S_galaxy_bias2; FS S_magnification_bias1;
   FS S_magnification_bias2; FS S_evolution_bias1; FS S_evolution_bias2;
   FI I_integration_bins; FI I_integration_1d_type; FF F_integration_1d_prec].

Inductive sigkind := SCorr | SMult | SAvg.
Inductive covkind := KCov | KACov.
Scheme Equality for sigkind.
Scheme Equality for covkind.

(** The coordinate grids: corrfunc.c:55-100, multipoles.c:48-95,
    average_multipoles.c:43-100. *)
Definition sig_coord_fields (k : sigkind) : list field :=
  match k with
  | SCorr => [FL L_z_mean; FL L_sep; FL L_mu]
  | SMult => [FL L_z_mean; FL L_sep; FM]
  | SAvg => [FL L_zmin; FL L_zmax; FL L_sep; FM]
  end.

(** coffe_covariance_init, covariance.c:477-1103. *)
Definition cov_fields (k : covkind) : list field :=
  [FL L_sep; FM; FL L_fsky; FL L_density1; FL L_density2; FL L_pixelsize;
   FI I_pop1; FI I_pop2; FI I_pop3; FI I_pop4;
   FB B_covariance_cosmic; FB B_covariance_mixed; FB B_covariance_poisson;
   FB B_covariance_window; FI I_covariance_integration_method;
   FI I_covariance_integration_bins; FI I_covariance_interpolation_method;
   FI I_integration_1d_type; FF F_integration_1d_prec; FI I_pk_type; FF F_h;
   FB B_den; FB B_rsd;
   FS S_galaxy_bias1; FS S_galaxy_bias2; FS S_galaxy_bias3; FS S_galaxy_bias4;
   FF F_k_min; FF F_k_max; FF F_k_min_norm; FF F_k_max_norm]
  ++ match k with
     | KCov => [FL L_z_mean; FL L_deltaz]
     | KACov => [FL L_zmin; FL L_zmax]
     end.

(** ** Symbolic cache contents *)

(** coffe_background_t, background.h:23-45. *)
Record bgc := mkBg { bg_core : list fval; bg_G : list fval }.

(** Where the current power-spectrum splines come from: the user
    (set_power_spectrum_linear) or CLASS run on a configuration.  coffe.pyx:2929-2996 and 3544-3547. *)
Inductive pksrc := PkUser (k pk : list f64) | PkClass (c : list fval).

(** coffe_integral_array_t, filled by integrals.c:580-1423. *)
Record intc := mkInt {
  ic_pk : pksrc;                      (* spectrum the tables were built from *)
  ic_cls : option (list fval);        (* CLASS structure, read if pk_type <> linear *)
  ic_view : list fval;
  ic_keys : list key;
  ic_div : option (list fval * list fval)  (* divergent part: its fields, background *)
}.

(** The arrays of corrfunc.c:55-152, multipoles.c:48-147, average_multipoles.c:43-168. *)
Record sig := mkSig {
  sg_core : list fval; sg_G : list fval;
  sg_pk : pksrc; sg_cls : option (list fval); sg_iview : list fval;
  sg_div : option (list fval * list fval);
  sg_view : list fval
}.

(** The arrays of covariance.c:477-1103. *)
Record covr := mkCov { cv_core : list fval; cv_pk : pksrc; cv_view : list fval }.

(** The object: coffe.pyx:460-533. *)
Record state := mkState {
  sp : params;
  c_bg : option bgc;
  c_pk : option pksrc;
  c_cls : option (list fval);     (* class_struct, never dropped by a setter *)
  c_int : option intc;
  c_sig : sigkind -> option sig;
  c_cov : covkind -> option covr
}.

(** coffe.pyx:497-533. *)
Definition init_state (p : params) : state :=
  mkState p None None None None (fun _ => None) (fun _ => None).

(** [Coffe()] without arguments, coffe.pyx:497-530. *)
Definition coffe0 : state := init_state default_params.

Definition setP (s : state) (p : params) : state :=
  mkState p (c_bg s) (c_pk s) (c_cls s) (c_int s) (c_sig s) (c_cov s).

(** The [_free_*] methods, coffe.pyx:948-992. *)
Definition dropped (l : list cache) (c : cache) : bool := existsb (cache_beq c) l.
Definition cache_of_sig (k : sigkind) : cache :=
  match k with SCorr => CCorr | SMult => CMult | SAvg => CAvg end.
Definition cache_of_cov (k : covkind) : cache :=
  match k with KCov => CCov | KACov => CACov end.
Definition drop (l : list cache) (s : state) : state :=
  mkState (sp s)
    (if dropped l CBg then None else c_bg s)
    (if dropped l CPk then None else c_pk s)
    (c_cls s)
    (if dropped l CInt then None else c_int s)
    (fun k => if dropped l (cache_of_sig k) then None else c_sig s k)
    (fun k => if dropped l (cache_of_cov k) then None else c_cov s k).

(** ** Results *)

(** Values handed back to Python (symbolic).  coffe.pyx:2998-3537. *)
Inductive outval :=
| ONone
| OParams (p : params)                     (* [parameters] *)
| OBackground (which : Z) (z : f64) (core : list fval)
| OMaxSep (z dz : f64) (core : list fval)
| OIntegral (k : key) (r : f64) (pk : pksrc) (cls : option (list fval)) (v : list fval)
            (dv : option (list fval * list fval))
| OPower (k z1 z2 : f64) (pk : pksrc) (core : list fval) (p : list fval)
| OSig (k : sigkind) (r : sig)
| OPoint (k : sigkind) (at_ : list f64) (r : sig)
| OCov (k : covkind) (r : covr).

(** Normal return, Python exception, or death of the process (undefined
    behaviour, exit() or abort()).  coffe.pyx:2998-3537. *)
Inductive res := Ok (o : outval) | Raise (e : exn) | Crash.

(** ** Initialisation routines *)

(** What CLASS returns: first and last wavenumber of its table.  parser.c:534-600. *)
Record class_lib := mkClass { klo : list fval -> f64; khi : list fval -> f64 }.

Section WithClass.
Variable cl : class_lib.

(** coffe.pyx:3538-3543.  Simplification: the only modelled failure is a grid
    with fewer than the five points GSL's Akima splines need (exit() for zero
    points, otherwise gsl_spline_alloc returns NULL, which gsl_spline_init
    dereferences: common.c:532-535, 569-574, background.c:316). *)
Definition bg_init (s : state) : option state :=
  if pi (sp s) I_background_bins <? 5 then None
  else Some (mkState (sp s)
               (Some (mkBg (view (sp s) bg_core_fields) (view (sp s) bg_G_fields)))
               (c_pk s) (c_cls s) (c_int s) (c_sig s) (c_cov s)).

(** parser.c:607-614: the wavenumber range is narrowed to the table. *)
Definition clamp_k (p : params) : params :=
  let c := view p class_fields in
  let p1 := if fltb (pf p F_k_min) (klo cl c)
            then setF (setF p F_k_min (klo cl c)) F_k_min_norm (klo cl c) else p in
  if fltb (khi cl c) (pf p1 F_k_max)
  then setF (setF p1 F_k_max (khi cl c)) F_k_max_norm (khi cl c) else p1.

(** coffe.pyx:3546-3548, parser.c:283-729. *)
Definition ps_init (s : state) : option state :=
  let c := view (sp s) class_fields in
  Some (mkState (clamp_k (sp s)) (c_bg s) (Some (PkClass c)) (Some c)
                (c_int s) (c_sig s) (c_cov s)).

Definition is_mult (p : params) : bool := pi p I_output_type =? out_MULTIPOLES.
Definition nonlinear (p : params) : bool := negb (pi p I_pk_type =? pk_LINEAR).

Definition keys_of (p : params) : list key :=
  integral_keys (pb p B_divergent) (pb p B_flatsky_local_nonlocal)
                (pb p B_flatsky_nonlocal) (is_mult p) (pm p).

(** coffe.pyx:3551-3556, integrals.c:580-1423.  Undefined behaviour: no power
    spectrum, no CLASS structure although pk_type is not linear, deltaz shorter
    than z_mean when the divergent integral is built (integrals.c:856-866). *)
Definition int_init (s : state) : option state :=
  let p := sp s in
  match c_pk s, c_bg s with
  | Some pk, Some bg =>
      if nonlinear p && (match c_cls s with None => true | _ => false end) then None
      else if pb p B_divergent &&
              Nat.ltb (List.length (pl p L_deltaz)) (List.length (pl p L_z_mean)) then None
      else Some (mkState p (c_bg s) (c_pk s) (c_cls s)
             (Some (mkInt pk (if nonlinear p then c_cls s else None)
                      (view p (int_fields p)) (keys_of p)
                      (if pb p B_divergent then Some (view p div_fields, bg_core bg) else None)))
             (c_sig s) (c_cov s))
  | _, _ => None
  end.

(** Contributions that need the divergent integral (functions.c:1271-1484,
    3160-3457, 3860-4016). *)
Definition needs_div (p : params) : bool :=
  pb p B_d2 || pb p B_g1 || pb p B_g2 || pb p B_g3 || pb p B_g4 || pb p B_g5.

(** The keys the term functions look up for the given output (Python never
    changes par->output_type, so the half-integer (1,-1) is never read:
    functions.c:2003, 3560).  signal.c:700-720 (lensing-lensing) and 618-640
    (density-lensing). *)
Definition needed_keys (k : sigkind) (p : params) (ells : list Z) : list key :=
  default_keys
  ++ (if needs_div p then [K 4 0 false] else [])
  ++ match k with
     | SMult =>
         (if pb p B_len && pb p B_flatsky_nonlocal && negb (pb p B_only_cross)
          then map (fun l => K 1 l false) (filter Z.even ells) else [])
         ++ (if pb p B_len && pb p B_den && pb p B_flatsky_local_nonlocal
             then flat_map flat_den_len_keys (filter Z.even ells) else [])
     | _ => []
     end.

(** One evaluation of the signal: the symbolic value, or undefined behaviour
    when a table is missing (NULL dereference).
    The arrays of corrfunc.c:55-152, multipoles.c:48-147, average_multipoles.c:43-168. *)
Definition sig_value (k : sigkind) (ells : list Z) (fs : list field) (s : state) : option sig :=
  let p := sp s in
  match c_bg s, c_int s with
  | Some bg, Some ic =>
      if forallb (has_key (ic_keys ic)) (needed_keys k p ells)
      then Some (mkSig (bg_core bg) (bg_G bg) (ic_pk ic) (ic_cls ic) (ic_view ic)
                       (if needs_div p then ic_div ic else None) (view p fs))
      else None
  | _, _ => None
  end.

Definition set_sig (s : state) (k : sigkind) (r : sig) : state :=
  mkState (sp s) (c_bg s) (c_pk s) (c_cls s) (c_int s)
          (fun k' => if sigkind_beq k k' then Some r else c_sig s k') (c_cov s).

(** corrfunc.c:55-152, multipoles.c:48-147, average_multipoles.c:43-168.  The
    averaged driver reads z_max up to the length of z_min. *)
Definition sig_init (k : sigkind) (s : state) : option state :=
  let p := sp s in
  match k with
  | SAvg => if Nat.ltb (List.length (pl p L_zmax)) (List.length (pl p L_zmin)) then None
            else match sig_value k (pm p) (signal_fields ++ sig_coord_fields k) s with
                 | Some r => Some (set_sig s k r) | None => None end
  | _ => match sig_value k (pm p) (signal_fields ++ sig_coord_fields k) s with
         | Some r => Some (set_sig s k r) | None => None end
  end.

(** coffe.pyx:3578-3585, covariance.c:477-1103: both covariance arrays are
    freed first (488-489).  Undefined behaviour of the averaged one: no redshift
    bin at all (668-697 reads pixelsize[0]), or, for pk_type <> linear, z_mean
    and z_min of different length (527, 668-697). *)
Definition cov_init (k : covkind) (s : state) : option state :=
  let p := sp s in
  match c_bg s, c_pk s with
  | Some bg, Some pk =>
      if match k with
         | KCov => false
         | KACov => (Nat.eqb (List.length (pl p L_zmin)) 0)
                    || (nonlinear p &&
                        negb (Nat.eqb (List.length (pl p L_z_mean)) (List.length (pl p L_zmin))))
         end
      then None
      else let r := mkCov (bg_core bg) pk (view p (cov_fields k)) in
           Some (mkState p (c_bg s) (c_pk s) (c_cls s) (c_int s) (c_sig s)
                   (fun k' => if covkind_beq k k' then Some r else None))
  | _, _ => None
  end.

(** ** Methods *)

(** E.g. coffe.pyx:3186-3195, 3257-3266, 3322-3331. *)
Definition is_some {A} (o : option A) : bool := match o with Some _ => true | None => false end.

(** [if not cached or recompute: init()].  E.g. coffe.pyx:3186-3195, 3257-3266, 3322-3331. *)
Definition ensure_bg (rc : bool) (s : state) : option state :=
  if is_some (c_bg s) && negb rc then Some s else bg_init s.
Definition ensure_pk (rc : bool) (s : state) : option state :=
  if is_some (c_pk s) && negb rc then Some s else ps_init s.
Definition ensure_int (rc : bool) (s : state) : option state :=
  if is_some (c_int s) && negb rc then Some s else int_init s.
Definition ensure_sig (k : sigkind) (rc : bool) (s : state) : option state :=
  if is_some (c_sig s k) && negb rc then Some s else sig_init k s.
Definition ensure_cov (k : covkind) (rc : bool) (s : state) : option state :=
  if is_some (c_cov s k) && negb rc then Some s else cov_init k s.

Definition bindo {A B} (o : option A) (f : A -> option B) : option B :=
  match o with Some a => f a | None => None end.
Notation "'do' x <- o ; f" := (bindo o (fun x => f))
  (at level 200, x name, o at level 100, f at level 200).

(** bg, power spectrum, integrals, in this order (coffe.pyx:3186-3193 etc.). *)
Definition ensure_base (rc : bool) (s : state) : option state :=
  do s1 <- ensure_bg rc s; do s2 <- ensure_pk rc s1; ensure_int rc s2.

Definition nonempty {A} (l : list A) : bool := match l with [] => false | _ => true end.

(** _check_coords_*, coffe.pyx:1064-1085. *)
Definition coords_ok (k : sigkind) (p : params) : bool :=
  match k with
  | SCorr => nonempty (pl p L_mu) && nonempty (pl p L_sep) && nonempty (pl p L_z_mean)
  | SMult => nonempty (pm p) && nonempty (pl p L_sep) && nonempty (pl p L_z_mean)
  | SAvg => nonempty (pm p) && nonempty (pl p L_sep) && nonempty (pl p L_zmin)
            && nonempty (pl p L_zmax)
  end.

(** _check_contributions, coffe.pyx:1087-1109. *)
Definition any_contribution (p : params) : bool :=
  pb p B_den || pb p B_rsd || pb p B_len || pb p B_d1 || needs_div p.
Definition mark_divergent (p : params) : params :=
  if needs_div p then setB p B_divergent true else p.

(** compute_corrfunc_bulk 3386-3425, compute_multipoles_bulk 3303-3341,
    compute_average_multipoles_bulk 3344-3383. *)
Definition compute_bulk (k : sigkind) (rc : bool) (s : state) : state * res :=
  if negb (coords_ok k (sp s)) then (s, Raise ValueError)
  else if negb (any_contribution (sp s)) then (s, Raise ValueError)
  else
    let s0 := setP s (mark_divergent (sp s)) in
    match bindo (ensure_base rc s0) (ensure_sig k rc) with
    | None => (s0, Crash)
    | Some s1 => match c_sig s1 k with
                 | Some r => (s1, Ok (OSig k r))
                 | None => (s1, Crash)
                 end
    end.

(** compute_corrfunc 3159-3229 and compute_multipole 3232-3300: the point is
    checked after the tables have been built.  [m] is mu or l. *)
Definition check_point (k : sigkind) (z r m : pyval) : (list f64 * list Z) + exn :=
  match check_num z f0 (of_Z 15) with
  | inr e => inr e
  | inl z' =>
      match check_num r f0 (of_Z 1500) with
      | inr e => inr e
      | inl r' =>
          match k with
          | SMult => match check_int m 0 10 with
                     | inr e => inr e
                     | inl l => inl ([z'; r'; of_Z l], [l])
                     end
          | _ => match check_num m (of_Z (-1)) f1 with
                 | inr e => inr e
                 | inl mu => inl ([z'; r'; mu], [])
                 end
          end
      end
  end.

Definition compute_point (k : sigkind) (z r m : pyval) (rc : bool) (s : state) : state * res :=
  if negb (coords_ok k (sp s)) then (s, Raise ValueError)
  else if negb (any_contribution (sp s)) then (s, Raise ValueError)
  else
    let s0 := setP s (mark_divergent (sp s)) in
    match ensure_base rc s0 with
    | None => (s0, Crash)
    | Some s1 =>
        match check_point k z r m with
        | inr e => (s1, Raise e)
        | inl (pt, ells) =>
            match sig_value k ells signal_fields s1 with
            | Some v => (s1, Ok (OPoint k pt v))
            | None => (s1, Crash)
            end
        end
    end.

(** maximum_separation 2764-2792: check z_mean in [0,15] and deltaz in
    [0, z_mean]. *)
Definition maxsep_ok (z dz : f64) : bool :=
  negb (fltb z f0) && negb (fltb (of_Z 15) z) && negb (fltb dz f0) && negb (fltb z dz).

Definition f2 := of_Z 2.

(** The length test and the loop over maximum_separation: 3446-3462 and
    3500-3516 ([zip] stops at the shorter list). *)
Definition cov_lengths_ok (k : covkind) (p : params) : bool :=
  let n := List.length (match k with KCov => pl p L_z_mean | KACov => pl p L_zmin end) in
  forallb (fun x => Nat.eqb n (List.length (pl p x)))
    (match k with
     | KCov => [L_deltaz; L_density1; L_density2; L_pixelsize; L_fsky]
     | KACov => [L_deltaz; L_zmax; L_density1; L_density2; L_pixelsize; L_fsky]
     end).
Definition cov_bins (k : covkind) (p : params) : list (f64 * f64) :=
  match k with
  | KCov => combine (pl p L_z_mean) (pl p L_deltaz)
  | KACov => map (fun zz => (fdiv (fadd (fst zz) (snd zz)) f2,
                             fdiv (fsub (snd zz) (fst zz)) f2))
                 (combine (pl p L_zmin) (pl p L_zmax))
  end.
(** In order: a bin that fails the check raises ValueError ([Some false]); one
    that reaches beyond redshift 15 leaves the distance table and GSL aborts
    ([None]). *)
Fixpoint check_bins (l : list (f64 * f64)) : option bool :=
  match l with
  | [] => Some true
  | (z, dz) :: r => if negb (maxsep_ok z dz) then Some false
                    else if fltb (of_Z 15) (fadd z dz) then None
                    else check_bins r
  end.

(** compute_covariance_bulk 3428-3480, compute_average_covariance_bulk
    3482-3535.  The temporary change of output_type is invisible outside. *)
Definition compute_cov (k : covkind) (rc : bool) (s : state) : state * res :=
  if negb (coords_ok SMult (sp s)) then (s, Raise ValueError)
  else if negb (any_contribution (sp s)) then (s, Raise ValueError)
  else
    let s0 := setP s (mark_divergent (sp s)) in
    if negb (cov_lengths_ok k (sp s)) then (s0, Raise ValueError)
    else
      match bindo (ensure_pk rc s0) (ensure_bg rc) with
      | None => (s0, Crash)
      | Some s1 =>
          match check_bins (cov_bins k (sp s1)) with
          | None => (s1, Crash)
          | Some false => (s1, Raise ValueError)
          | Some true =>
              match ensure_cov k rc s1 with
              | None => (s1, Crash)
              | Some s2 => match c_cov s2 k with
                           | Some r => (s2, Ok (OCov k r))
                           | None => (s2, Crash)
                           end
              end
          end
      end.

(** comoving_distance ... growth_rate, 2998-3156; [which] tells them apart. *)
Definition background_getter (which : Z) (z : pyval) (s : state) : state * res :=
  match check_num z f0 (of_Z 15) with
  | inr e => (s, Raise e)
  | inl z' =>
      match ensure_bg false s with
      | None => (s, Crash)
      | Some s1 => match c_bg s1 with
                   | Some b => (s1, Ok (OBackground which z' (bg_core b)))
                   | None => (s1, Crash)
                   end
      end
  end.

(** maximum_separation as a method, 2764-2792.  z_mean + deltaz above 15 leaves
    the table: GSL aborts. *)
Definition maximum_separation (z dz : pyval) (s : state) : state * res :=
  match check_num z f0 (of_Z 15) with
  | inr e => (s, Raise e)
  | inl z' =>
      match check_num dz f0 z' with
      | inr e => (s, Raise e)
      | inl dz' =>
          match ensure_bg false s with
          | None => (s, Crash)
          | Some s1 =>
              if fltb (of_Z 15) (fadd z' dz') then (s1, Crash)
              else match c_bg s1 with
                   | Some b => (s1, Ok (OMaxSep z' dz' (bg_core b)))
                   | None => (s1, Crash)
                   end
          end
      end
  end.

(** integral(), 1657-1713. *)
Definition integral_method (r n l : pyval) (s : state) : state * res :=
  match check_num r f0 (of_Z 25000), check_int n (-2) 4, check_int l 0 4 with
  | inr e, _, _ | _, inr e, _ | _, _, inr e => (s, Raise e)
  | inl r', inl n', inl l' =>
      match ensure_base false s with
      | None => (s, Crash)
      | Some s1 =>
          match c_int s1 with
          | None => (s1, Crash)
          | Some ic =>
              let k := K n' l' false in
              if has_key (ic_keys ic) k
              then (s1, Ok (OIntegral k r' (ic_pk ic) (ic_cls ic) (ic_view ic)
                          (if key_eqb k (K 4 0 false) then ic_div ic else None)))
              else (s1, Raise ValueError)
          end
      end
  end.

(** Whether a wavenumber lies in the table that is interpolated: outside, GSL
    aborts the process (gsl_spline_eval with the default error handler).  coffe.pyx:2821-2893. *)
Definition in_table (src : pksrc) (k : f64) : bool :=
  match src with
  | PkClass c => negb (fltb k (klo cl c)) && negb (fltb (khi cl c) k)
  | PkUser ks _ => negb (fltb k (hd S754_nan ks)) && negb (fltb (last ks S754_nan) k)
  end.

(** cross_spectrum 2821-2858 and power_spectrum 2861-2893: k is checked against
    k_min and k_max before the spectrum is initialised.  A user-supplied spectrum
    has no redshift-dependent table (NULL dereference for pk_type <> linear).
    Simplification: the redshift range [0, 2.97] of that table is not checked. *)
Definition spectrum_method (cross : bool) (k z1 z2 : pyval) (s : state) : state * res :=
  match check_num k (pf (sp s) F_k_min) (pf (sp s) F_k_max),
        check_num z1 f0 (of_Z 15), check_num z2 f0 (of_Z 15) with
  | inr e, _, _ | _, inr e, _ | _, _, inr e => (s, Raise e)
  | inl k', inl z1', inl z2' =>
      match bindo (ensure_pk false s) (ensure_bg false) with
      | None => (s, Crash)
      | Some s1 =>
          match c_pk s1, c_bg s1 with
          | Some pk, Some b =>
              if negb (in_table pk k') then (s1, Crash)
              else if negb cross && nonlinear (sp s1) &&
                      match pk with PkUser _ _ => true | _ => false end
              then (s1, Crash)
              else (s1, Ok (OPower k' z1' z2' pk (bg_core b) (view (sp s1) [FI I_pk_type])))
          | _, _ => (s1, Crash)
          end
      end
  end.

(** ** Assignments *)

(** The property setters, coffe.pyx:1001-2927. *)
Definition set_attr (a : attr) (v : pyval) (s : state) : state * res :=
  match attr_update a v (sp s) with
  | Keep => (s, Ok ONone)
  | Put p => (drop (attr_frees a) (setP s p), Ok ONone)
  | Reject e => (s, Raise e)
  | Part p e => (setP s p, Raise e)
  end.

(** [np.sort] on floats: NaN last.  Called at coffe.pyx:169 and 2952. *)
Definition sort_le (x y : f64) : bool := is_nan y || fleb x y.
Fixpoint insert (x : f64) (l : list f64) : list f64 :=
  match l with
  | [] => [x]
  | y :: r => if sort_le x y then x :: l else y :: insert x r
  end.
Definition np_sort (l : list f64) : list f64 := fold_right insert [] l.
Definition is_sorted (l : list f64) : bool :=
  forallb (fun xy => allclose (fst xy) (snd xy)) (combine l (np_sort l)).

(** gsl_spline_init needs strictly increasing abscissae and the Akima type at
    least five of them; otherwise GSL's default handler aborts
    (common.c:569-574). *)
Fixpoint strictly_increasing (l : list f64) : bool :=
  match l with
  | x :: ((y :: _) as r) => fltb x y && strictly_increasing r
  | _ => true
  end.
Definition spline_ok (l : list f64) : bool :=
  Nat.leb 5 (List.length l) && strictly_increasing l.

(** set_galaxy_bias1 ... set_evolution_bias2, 1728-1931, through set_spline
    158-193.  Inputs are sequences of floats (other element types are a
    TypeError inside NumPy and change nothing). *)
Definition set_bias (k : sfield) (x y : list f64) (s : state) : state * res :=
  if negb (is_sorted x) then (s, Raise ValueError)
  else if negb (Nat.eqb (List.length x) (List.length y)) then (s, Raise ValueError)
  else match x with
       | [] => (s, Raise IndexError)
       | x0 :: _ =>
           if fltb x0 f0 then (s, Raise ValueError)
           else if fltb (of_Z 15) (last x x0) then (s, Raise ValueError)
           else if negb (spline_ok x) then (s, Crash)
           else (drop [CCorr; CMult] (setP s (setS (sp s) k (combine x y))), Ok ONone)
       end.

(** set_power_spectrum_linear, 2929-2995. *)
Definition set_power_spectrum (k pk : list f64) (s : state) : state * res :=
  if negb (is_sorted k) then (s, Raise ValueError)
  else if negb (Nat.eqb (List.length k) (List.length pk)) then (s, Raise ValueError)
  else
    let s1 := drop [CPk] s in
    match k with
    | [] => (s1, Raise IndexError)
    | k0 :: _ =>
        let kn := last k k0 in
        let p := setF (setF (setF (setF (sp s1) F_k_min k0) F_k_max kn)
                            F_k_min_norm k0) F_k_max_norm kn in
        if negb (spline_ok k) then (setP s1 p, Crash)
        else (mkState p (c_bg s1) (Some (PkUser k pk)) (c_cls s1) None (c_sig s1) (c_cov s1),
              Ok ONone)
    end.

(** [parameters], 1137-1154: every writable attribute is assigned its own
    value; AttributeError is swallowed, any other exception propagates. *)
Fixpoint reassign_all (l : list attr) (s : state) : state * res :=
  match l with
  | [] => (s, Ok (OParams (sp s)))
  | a :: r =>
      match set_attr a (get_attr a (sp s)) s with
      | (s1, Raise AttributeError) => reassign_all r s1
      | (s1, Raise e) => (s1, Raise e)
      | (s1, Crash) => (s1, Crash)
      | (s1, Ok _) => reassign_all r s1
      end
  end.
Definition read_parameters (s : state) : state * res := reassign_all all_attrs s.

(** set_parameters, 1157-1168.  [None] is a name that is no attribute. *)
Fixpoint assign_seq (l : list (attr * pyval)) (s : state) : state * res :=
  match l with
  | [] => (s, Ok ONone)
  | (a, v) :: r => match set_attr a v s with
                   | (s1, Ok _) => assign_seq r s1
                   | other => other
                   end
  end.
Fixpoint known (l : list (option attr * pyval)) : option (list (attr * pyval)) :=
  match l with
  | [] => Some []
  | (Some a, v) :: r => match known r with Some k => Some ((a, v) :: k) | None => None end
  | (None, _) :: _ => None
  end.
Definition set_parameters (l : list (option attr * pyval)) (s : state) : state * res :=
  match known l with
  | None => (s, Raise AttributeError)
  | Some k => assign_seq k s
  end.

(** reset_contributions, 2702-2708: all writable names containing "has_". *)
Definition has_attrs : list attr :=
  [A_has_binned_covariance; A_has_d1; A_has_d2; A_has_density; A_has_flatsky_local;
   A_has_flatsky_local_nonlocal; A_has_flatsky_nonlocal; A_has_g1; A_has_g2;
   A_has_g3; A_has_g4; A_has_g5; A_has_lensing; A_has_only_cross_correlations; A_has_rsd].
Definition reset_contributions (s : state) : state * res :=
  match read_parameters s with
  | (s1, Ok _) => assign_seq (map (fun a => (a, VBool false)) has_attrs) s1
  | other => other
  end.

(** ** Histories *)

(** The public methods of coffe.pyx:237-3590. *)
Inductive op :=
| OpSet (a : attr) (v : pyval)
| OpSetBias (k : sfield) (x y : list f64)
| OpSetPk (k pk : list f64)
| OpParameters
| OpSetParameters (l : list (option attr * pyval))
| OpReset
| OpBackground (which : Z) (z : pyval)
| OpMaxSep (z dz : pyval)
| OpIntegral (r n l : pyval)
| OpSpectrum (cross : bool) (k z1 z2 : pyval)
| OpPoint (k : sigkind) (z r m : pyval) (rc : bool)
| OpBulk (k : sigkind) (rc : bool)
| OpCov (k : covkind) (rc : bool).

Definition step (o : op) (s : state) : state * res :=
  match o with
  | OpSet a v => set_attr a v s
  | OpSetBias k x y => set_bias k x y s
  | OpSetPk k pk => set_power_spectrum k pk s
  | OpParameters => read_parameters s
  | OpSetParameters l => set_parameters l s
  | OpReset => reset_contributions s
  | OpBackground w z => background_getter w z s
  | OpMaxSep z dz => maximum_separation z dz s
  | OpIntegral r n l => integral_method r n l s
  | OpSpectrum c k z1 z2 => spectrum_method c k z1 z2 s
  | OpPoint k z r m rc => compute_point k z r m rc s
  | OpBulk k rc => compute_bulk k rc s
  | OpCov k rc => compute_cov k rc s
  end.

(** A history: exceptions are caught by the caller, a crash ends it.  The public methods of coffe.pyx:237-3590. *)
Fixpoint run (l : list op) (s : state) : option state :=
  match l with
  | [] => Some s
  | o :: r => match step o s with
              | (_, Crash) => None
              | (s1, _) => run r s1
              end
  end.

End WithClass.
