(** * The results of the bulk methods as Python objects: python/coffe/representation.py (C88) *)
From Coq Require Import ZArith Bool Ascii String List.
From Verif Require Import F64 Drivers.
Import ListNotations.
Open Scope string_scope.

(** The five classes.  representation.py:47, 90, 139, 170, 201. *)
Inductive kind := Covariance | AverageCovariance | Corrfunc | Multipoles | AverageMultipoles.

(** [self._x = x] in the constructors: the field and the keyword argument it gets.
    representation.py:58-63, 102-108, 148-151, 179-182, 211-215. *)
Definition stored (k : kind) : list (string * string) :=
  match k with
  | Covariance => [("_r1", "r1"); ("_r2", "r2"); ("_l1", "l1"); ("_l2", "l2"); ("_z", "z"); ("_value", "value")]
  | AverageCovariance => [("_r1", "r1"); ("_r2", "r2"); ("_l1", "l1"); ("_l2", "l2"); ("_z_min", "z_min"); ("_z_max", "z_max");
                          ("_value", "value")]
  | Corrfunc => [("_r", "r"); ("_mu", "mu"); ("_z", "z"); ("_value", "value")]
  | Multipoles => [("_l", "l"); ("_r", "r"); ("_z", "z"); ("_value", "value")]
  | AverageMultipoles => [("_l", "l"); ("_r", "r"); ("_z_min", "z_min"); ("_z_max", "z_max"); ("_value", "value")]
  end.
(** The properties and the field each returns.
    representation.py:65-87, 110-136, 153-167, 184-198, 217-235. *)
Definition properties (k : kind) : list (string * string) :=
  match k with
  | Covariance => [("r1", "_r1"); ("r2", "_r2"); ("l1", "_l1"); ("l2", "_l2"); ("z", "_z"); ("value", "_value")]
  | AverageCovariance => [("r1", "_r1"); ("r2", "_r2"); ("l1", "_l1"); ("l2", "_l2"); ("z_min", "_z_min"); ("z_max", "_z_max");
                          ("value", "_value")]
  | Corrfunc => [("mu", "_mu"); ("r", "_r"); ("z", "_z"); ("value", "_value")]
  | Multipoles => [("l", "_l"); ("r", "_r"); ("z", "_z"); ("value", "_value")]
  | AverageMultipoles => [("l", "_l"); ("r", "_r"); ("z_min", "_z_min"); ("z_max", "_z_max"); ("value", "_value")]
  end.
Definition find_in (l : list (string * string)) (n : string) : option string :=
  option_map snd (List.find (fun x => String.eqb (fst x) n) l).

(** Python's order of names, by code points, and [dir]'s sorting.  [dir] at representation.py:15. *)
Fixpoint sle (a b : string) : bool :=
  match a, b with
  | EmptyString, _ => true
  | _, EmptyString => false
  | String c a, String d b => (N_of_ascii c <? N_of_ascii d)%N || ((N_of_ascii c =? N_of_ascii d)%N && sle a b)
  end.
Fixpoint insert (x : string) (l : list string) : list string :=
  match l with [] => [x] | y :: r => if sle x y then x :: l else y :: insert x r end.
Definition sorted_names (l : list string) : list string := fold_right insert [] l.

Section Objects.
Context {V : Type}.
(** The text of a value in an f-string or in str.format.  Python; not part of the code. *)
Variable show : V -> string.
(** The names of the class that begin with two underscores, which depend on the version of Python,
    and which of them have a [__set__].  Not part of the code; representation.py:16-17 asks for them. *)
Variable specials : list string.
Variable special_set : string -> bool.

Record object := { ob_kind : kind; ob_field : string -> option V }.
(** A call of the class with all its keyword arguments.  representation.py:48-63 and the four others. *)
Definition construct (k : kind) (args : string -> V) : object :=
  {| ob_kind := k; ob_field := fun f => option_map args (find_in (stored k) f) |}.
(** Reading a property; [None] where Python raises AttributeError.  representation.py:65-87 and the others. *)
Definition getattr (o : object) (n : string) : option V :=
  match find_in (properties (ob_kind o)) n with Some f => ob_field o f | None => None end.

(** The names [dir] lists: those of Python, of ABC and of Representation, and the properties.
    representation.py:4-33 for the class, 15 for [dir]. *)
Definition dir (k : kind) : list string :=
  sorted_names (specials ++ ["_abc_impl"; "to_dict"; "_repr_html_"] ++ map fst (properties k)).
(** [hasattr(getattr(cls, key), "__set__")]: properties have it, functions and ABC's data do not.
    representation.py:16. *)
Definition has_set (k : kind) (n : string) : bool :=
  match find_in (properties k) n with Some _ => true | None => prefix "__" n && special_set n end.

Fixpoint collect {A} (l : list (option A)) : option (list A) :=
  match l with
  | [] => Some []
  | None :: _ => None
  | Some a :: r => option_map (cons a) (collect r)
  end.
(** to_dict, representation.py:9-18; the entries in the order of insertion. *)
Definition to_dict (o : object) : option (list (string * V)) :=
  collect (map (fun key => option_map (pair key) (getattr o key))
               (filter (fun key => has_set (ob_kind o) key && negb (prefix "__" key)) (dir (ob_kind o)))).

(** [str.format] with positional arguments: each "{}" takes the next one; [None] where there is none
    left (IndexError).  Other uses of braces are not modelled: there are none.  representation.py:36, 43. *)
Fixpoint format (s : string) (l : list string) : option string :=
  match s with
  | EmptyString => Some EmptyString
  | String c r =>
      match r with
      | String d q =>
          if (Ascii.eqb c "{" && Ascii.eqb d "}")%char
          then match l with [] => None | x :: t => option_map (append x) (format q t) end
          else option_map (String c) (format r l)
      | EmptyString => Some s
      end
  end.
(** [s * n].  representation.py:36, 43. *)
Fixpoint times (n : nat) (s : string) : string := match n with O => "" | S n => s ++ times n s end.

(** _repr_html_, representation.py:32-45. *)
Definition html (o : object) : option string :=
  match to_dict o with
  | None => None
  | Some d =>
      let names := map fst d in
      let values := map (fun x => show (snd x)) d in
      match (match names with
             | [] => Some ""
             | _ => option_map (fun t => "<tr>" ++ t ++ "</tr>") (format (times (List.length names) "<th>{}</th>") names)
             end), format (times (List.length values) "<td>{}</td>") values with
      | Some temp, Some cells =>
          Some ("<table>" ++ ("<thead>" ++ temp ++ "</thead>") ++ ("<tbody>" ++ cells ++ "</tbody>") ++ "</table>")
      | _, _ => None
      end
  end.
End Objects.

(** The keyword arguments with which the bulk methods build their elements; multipoles as numbers.
    coffe.pyx:3334-3341, 3375-3383, 3418-3425. *)
Definition corrfunc_args (x : cf_coords f64 * f64) (n : string) : f64 :=
  if String.eqb n "z" then cf_z (fst x) else if String.eqb n "r" then cf_sep (fst x)
  else if String.eqb n "mu" then cf_mu (fst x) else snd x.
Definition multipoles_args (x : mp_coords f64 * f64) (n : string) : f64 :=
  if String.eqb n "z" then mp_z (fst x) else if String.eqb n "r" then mp_sep (fst x)
  else if String.eqb n "l" then of_Z (mp_l (fst x)) else snd x.
Definition average_args (x : av_coords f64 * f64) (n : string) : f64 :=
  if String.eqb n "z_min" then av_zmin (fst x) else if String.eqb n "z_max" then av_zmax (fst x)
  else if String.eqb n "r" then av_sep (fst x) else if String.eqb n "l" then of_Z (av_l (fst x)) else snd x.
