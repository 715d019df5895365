(** * The command-line tool of the Python package, python/coffe/__main__.py.

    Arguments are parsed by argparse (parse_args, 12-52), which ends the process
    unless a settings file, an output file and one of six kinds are given; the
    model starts from the kind and the parsed settings file (Config.v).  Not
    modelled: a settings file that cannot be opened or parsed, an output file
    that cannot be opened. *)
From Coq Require Import ZArith Bool List String Floats.SpecFloat.
From Verif Require Import F64 PyParams PySet PyState Config Drivers.
Import ListNotations.
Open Scope string_scope.
Open Scope list_scope.

(** ["bg", "cf", "mp", "cov", "avg_cov", "avg_mp"], __main__.py:41-46. *)
Inductive what := Bg | Cf | Mp | Cov | AvgCov | AvgMp.

(** What the numerical routines and CPython's formatting return.  What __main__.py:12-171 calls. *)
Record cli_ext := {
  x_sci : f64 -> string;                                   (* "%.10e" % x *)
  x_dec : Z -> string;                                     (* str(n) of an int *)
  x_integrate : sig -> f64 -> f64 -> f64 -> f64 -> f64 -> Z -> itype -> otype -> f64;   (* coffe_integrate, signal.c:472-771 *)
  x_mid : f64 -> f64 -> f64;                               (* the middle of a redshift bin, average_multipoles.c:98-121 *)
  x_covariance : covr -> nat -> f64;                       (* the value of an element of the covariance array *)
  x_background : list fval -> Z -> f64 -> f64              (* coffe_interp_spline on the table number [which] *)
}.

(** ** np.savetxt *)
(** Constants of the calls at __main__.py:58-160. *)
Definition tab : string := String (Ascii.ascii_of_nat 9) "".
Inductive fmt := Sci | Dec.                                (* "%.10e", "%d" *)
(** The [fmt] argument: one format for all columns, or a list.  Constants of the calls at __main__.py:58-160. *)
Inductive fmts := Same | Each (l : list fmt).
(** How the tool ends, with what it does to the output file.  How __main__.py:164-171 ends. *)
Inductive ending :=
| Wrote (lines : list string)                              (* the new contents *)
| Raised (e : exn)                                         (* the file is as before *)
| RaisedEmptied (e : exn)                                  (* the file has been opened for writing *)
| Killed.
Section Tool.
Variable E : cli_ext.
(** "%d" % x truncates a float.  (Simplification: NaN and infinities, which raise there, print as 0.).
    numpy.savetxt, called at __main__.py:83-160. *)
Definition cell (f : fmt) (x : f64) : string := match f with Sci => x_sci E x | Dec => x_dec E (trunc x) end.
Fixpoint cells_text (l : list fmt) (row : list f64) : list string :=
  match l, row with f :: l, x :: row => cell f x :: cells_text l row | _, _ => [] end.
Definition line (l : list string) : string := String.concat tab l.
(** numpy/lib/npyio.py savetxt with a header: the file is created first; a list without rows is a
    one-dimensional array, which counts as one column; a list of formats must have as many
    entries as there are columns. *)
Definition savetxt (f : fmts) (header : list string) (rows : list (list f64)) : ending :=
  let ncol := match rows with [] => 1%nat | r :: _ => List.length r end in
  match f with
  | Same => Wrote (("# " ++ line header)%string :: map (fun r => line (cells_text (repeat Sci ncol) r)) rows)
  | Each l => if Nat.eqb (List.length l) ncol
              then Wrote (("# " ++ line header)%string :: map (fun r => line (cells_text l r)) rows)
              else RaisedEmptied AttributeError
  end.

(** np.transpose of a two-dimensional array.  numpy.savetxt, called at __main__.py:83-160. *)
Definition transpose (m : list (list f64)) : list (list f64) :=
  match m with
  | [] => []
  | r :: _ => map (fun j => map (fun row => nth j row f0) m) (seq 0 (List.length r))
  end.

(** ** The kinds, compute_output 54-163 *)
Variables (X : cfg_ext) (v : visit) (cl : class_lib).

(** The methods of 65-73, numbered as in PyState ([comoving_distance], [hubble_rate], [scale_factor],
    [hubble_rate_conformal], [hubble_rate_conformal_derivative], [growth_factor], [growth_rate]:
    coffe.pyx:2998-3156), in the order of the columns. *)
Definition background_columns : list Z := [2; 1; 3; 4; 5; 6; 0]%Z.
Fixpoint background_row (l : list Z) (z : f64) (s : state) : state * (list f64 + option exn) :=
  match l with
  | [] => (s, inl [])
  | w :: l =>
      match background_getter w (VFloat z) s with
      | (s1, Ok (OBackground w' z' core)) =>
          match background_row l z s1 with
          | (s2, inl r) => (s2, inl (x_background E core w' z' :: r))
          | other => other
          end
      | (s1, Raise e) => (s1, inr (Some e))
      | (s1, _) => (s1, inr None)
      end
  end.
Fixpoint background_rows (zs : list f64) (s : state) : list (list f64) + option exn :=
  match zs with
  | [] => inl []
  | z :: zs =>
      match background_row background_columns z s with
      | (s1, inl r) => match background_rows zs s1 with
                       | inl rs => inl ((z :: r) :: rs)
                       | other => other
                       end
      | (_, inr e) => inr e
      end
  end.
Definition background_names : list string :=
  ["1)z"; "2)a"; "3)H[1/Mpc]"; "4)conformal_H[1/Mpc]"; "5)conformal_H_prime[1/Mpc^2]"; "6)D1"; "7)f"; "8)comoving_distance[Mpc]"].
(** 62-101; [cosmo.background_sampling] is the number of nodes. *)
Definition background_file (s : state) : ending :=
  match bg_init s with
  | None => Killed
  | Some s1 =>
      match background_rows (linspace f0 (of_Z 15) (Z.to_nat (pi (sp s1) I_background_bins))) s1 with
      | inl rows => savetxt Same background_names (transpose (transpose rows))
      | inr (Some e) => Raised e
      | inr None => Killed
      end
  end.

(** The elements [_] of the array a bulk method returns (coffe.pyx:3334-3341, 3375-3383, 3418-3425,
    3471-3480, 3525-3535; representation.py), as the columns of __main__.py:104, 111, 120, 131, 143-145. *)
Definition cf_row (x : cf_coords f64 * f64) : list f64 := [cf_sep (fst x); cf_mu (fst x); cf_z (fst x); snd x].
Definition mp_row (x : mp_coords f64 * f64) : list f64 := [mp_sep (fst x); of_Z (mp_l (fst x)); mp_z (fst x); snd x].
Definition av_row (x : av_coords f64 * f64) : list f64 :=
  [av_sep (fst x); of_Z (av_l (fst x)); av_zmin (fst x); av_zmax (fst x); snd x].
(** The elements of the covariance arrays: the loops of covariance.c:1045-1077 over redshift, multipole
    and separation of the first data point, multipole and separation of the second (C26). *)
Record cov_element := { ce_z1 : f64; ce_z2 : f64; ce_l1 : Z; ce_l2 : Z; ce_r1 : f64; ce_r2 : f64 }.
Definition cov_elements (zs : list (f64 * f64)) (ls : list Z) (seps : list f64) : list cov_element :=
  flat_map (fun z => flat_map (fun l1 => flat_map (fun r1 => flat_map (fun l2 => map (fun r2 =>
    {| ce_z1 := fst z; ce_z2 := snd z; ce_l1 := l1; ce_l2 := l2; ce_r1 := r1; ce_r2 := r2 |}) seps) ls) seps) ls) zs.
Definition cov_array (r : covr) (zs : list (f64 * f64)) (ls : list Z) (seps : list f64) : list (cov_element * f64) :=
  combine (cov_elements zs ls seps) (map (x_covariance E r) (seq 0 (List.length (cov_elements zs ls seps)))).
Definition cov_row (x : cov_element * f64) : list f64 :=
  [ce_r1 (fst x); ce_r2 (fst x); of_Z (ce_l1 (fst x)); of_Z (ce_l2 (fst x)); ce_z1 (fst x); snd x].
Definition avg_cov_row (x : cov_element * f64) : list f64 :=
  [ce_r1 (fst x); ce_r2 (fst x); of_Z (ce_l1 (fst x)); of_Z (ce_l2 (fst x)); ce_z1 (fst x); ce_z2 (fst x); snd x].

Definition cf_names : list string := ["r[Mpc]"; "mu"; "z"; "corrfunc_value"].
Definition mp_names : list string := ["r[Mpc]"; "l"; "z"; "multipoles_value"].
Definition av_names : list string := ["r[Mpc]"; "l"; "z_min"; "z_max"; "avg_multipoles_value"].
Definition cov_names : list string := ["r1[Mpc]"; "r2[Mpc]"; "l1"; "l2"; "z"; "covariance_multipoles_value"].
Definition avg_cov_names : list string := ["r1[Mpc]"; "r2[Mpc]"; "l1"; "l2"; "z_min"; "z_max"; "covariance_avg_multipoles_value"].

(** A method that ends without a value.  How __main__.py:164-171 ends. *)
Definition ends_as (r : res) : option ending :=
  match r with Ok _ => None | Raise e => Some (Raised e) | Crash => Some Killed end.

(** compute_output on the loaded object.  The drivers of the signals run in threads: a relation.
    __main__.py:55-160. *)
Inductive from_object (s : state) : what -> ending -> Prop :=
| O_bg : from_object s Bg (background_file s)
| O_cf_ends : forall s1 r e, compute_bulk cl SCorr false s = (s1, r) -> ends_as r = Some e -> from_object s Cf e
| O_cf_undefined : forall s1 r, compute_bulk cl SCorr false s = (s1, Ok (OSig SCorr r)) ->
    corrfunc_init f0 fadd (x_integrate E r) (pl (sp s1) L_z_mean) (pl (sp s1) L_mu) (pl (sp s1) L_sep) Undefined ->
    from_object s Cf Killed
| O_cf : forall s1 r l, compute_bulk cl SCorr false s = (s1, Ok (OSig SCorr r)) ->
    corrfunc_init f0 fadd (x_integrate E r) (pl (sp s1) L_z_mean) (pl (sp s1) L_mu) (pl (sp s1) L_sep) (Gives l) ->
    from_object s Cf (savetxt Same cf_names (map cf_row l))
| O_mp_ends : forall s1 r e, compute_bulk cl SMult false s = (s1, r) -> ends_as r = Some e -> from_object s Mp e
| O_mp_undefined : forall s1 r, compute_bulk cl SMult false s = (s1, Ok (OSig SMult r)) ->
    multipoles_init f0 fadd (x_integrate E r) (pl (sp s1) L_z_mean) (pm (sp s1)) (pl (sp s1) L_sep) Undefined ->
    from_object s Mp Killed
| O_mp : forall s1 r l, compute_bulk cl SMult false s = (s1, Ok (OSig SMult r)) ->
    multipoles_init f0 fadd (x_integrate E r) (pl (sp s1) L_z_mean) (pm (sp s1)) (pl (sp s1) L_sep) (Gives l) ->
    from_object s Mp (savetxt (Each [Sci; Dec; Sci; Sci]) mp_names (map mp_row l))
| O_av_ends : forall s1 r e, compute_bulk cl SAvg false s = (s1, r) -> ends_as r = Some e -> from_object s AvgMp e
| O_av_undefined : forall s1 r, compute_bulk cl SAvg false s = (s1, Ok (OSig SAvg r)) ->
    average_init f0 (x_mid E) fadd (x_integrate E r) (pl (sp s1) L_zmin) (pl (sp s1) L_zmax) (pm (sp s1)) (pl (sp s1) L_sep) Undefined ->
    from_object s AvgMp Killed
| O_av : forall s1 r l, compute_bulk cl SAvg false s = (s1, Ok (OSig SAvg r)) ->
    average_init f0 (x_mid E) fadd (x_integrate E r) (pl (sp s1) L_zmin) (pl (sp s1) L_zmax) (pm (sp s1)) (pl (sp s1) L_sep) (Gives l) ->
    from_object s AvgMp (savetxt (Each [Sci; Dec; Sci; Sci; Sci]) av_names (map av_row l))
| O_cov_ends : forall s1 r e, compute_cov cl KCov false s = (s1, r) -> ends_as r = Some e -> from_object s Cov e
| O_cov : forall s1 r, compute_cov cl KCov false s = (s1, Ok (OCov KCov r)) ->
    from_object s Cov (savetxt (Each [Sci; Sci; Dec; Dec; Sci; Sci]) cov_names
      (map cov_row (cov_array r (map (fun z => (z, z)) (pl (sp s1) L_z_mean)) (pm (sp s1)) (pl (sp s1) L_sep))))
| O_avg_cov_ends : forall s1 r e, compute_cov cl KACov false s = (s1, r) -> ends_as r = Some e -> from_object s AvgCov e
| O_avg_cov : forall s1 r, compute_cov cl KACov false s = (s1, Ok (OCov KACov r)) ->
    from_object s AvgCov (savetxt (Each [Sci; Sci; Dec; Dec; Sci; Sci; Sci]) avg_cov_names
      (map avg_cov_row (cov_array r (combine (pl (sp s1) L_zmin) (pl (sp s1) L_zmax)) (pm (sp s1)) (pl (sp s1) L_sep)))).

(** compute_output(args): [Coffe.from_file], then the kind.  __main__.py:164-171. *)
Inductive tool (f : file) (k : what) : ending -> Prop :=
| T_ends : forall s r e, from_file X v f = (s, r) -> ends_as r = Some e -> tool f k e
| T_runs : forall s o e, from_file X v f = (s, Ok o) -> from_object s k e -> tool f k e.
End Tool.
