(** * Specification of cache coherence for the Python object.

    What "a fresh object holding the same parameters" means, and which
    operations are covered by the positive theorems. *)
From Coq Require Import ZArith Bool List String.
From Verif Require Import F64 PyParams PySet Integrals PyState.
Import ListNotations.
Open Scope Z_scope.

(** Two parameter structures agree on every field outside [l].  Specification or proof only; nothing in the code. *)
Definition same_except (l : list field) (p q : params) : Prop :=
  forall x, ~ In x l -> getf p x = getf q x.

(** The fields the library itself rewrites when it runs CLASS.  Specification or proof only; nothing in the code. *)
Definition k_range : list field :=
  [FF F_k_min; FF F_k_max; FF F_k_min_norm; FF F_k_max_norm].

(** An object that has never computed anything, with the given parameters and
    possibly a user-supplied linear spectrum.  Specification or proof only; nothing in the code. *)
Definition fresh_object (p : params) (u : option (list f64 * list f64)) : state :=
  mkState p None (match u with Some (k, pk) => Some (PkUser k pk) | None => None end)
          None None (fun _ => None) (fun _ => None).

(** The user-supplied spectrum in force, if any.  Specification or proof only; nothing in the code. *)
Definition user_spectrum (s : state) : option (list f64 * list f64) :=
  match c_pk s with Some (PkUser k pk) => Some (k, pk) | _ => None end.

(** [q] is a parameter set a user could have entered to get to the parameters
    [p] of a used object: equal up to the wavenumber range that running CLASS
    narrows, and to the internal "divergent" mark, which is unset.
    Specification or proof only; nothing in the code. *)
Definition could_have_entered (q p : params) : Prop :=
  same_except (FB B_divergent :: k_range) q p /\ pb q B_divergent = false.

(** Assignments covered by the coherence theorem of the signal output [k].
    Everything not listed is covered unconditionally.  Specification or proof only; nothing in the code. *)
Definition set_safe (k : sigkind) (s : state) (a : attr) : Prop :=
  match a with
  | A_z_mean | A_deltaz => c_int s = None \/ needs_div (sp s) = false
  | A_covariance_interpolation_method =>
      c_int s = None \/ (needs_div (sp s) = false /\ nonlinear (sp s) = false)
  | A_l => k <> SMult \/ c_int s = None \/
           (pb (sp s) B_flatsky_local_nonlocal = false /\ pb (sp s) B_flatsky_nonlocal = false)
  | A_sep | A_z_min | A_z_max => k <> SAvg \/ c_sig s SAvg = None
  | A_m_ncdm => c_pk s = None \/ feqb (pf (sp s) F_h) f0 = false
  | _ => True
  end.

Fixpoint seq_safe (k : sigkind) (l : list (attr * pyval)) (s : state) : Prop :=
  match l with
  | [] => True
  | (a, v) :: r => set_safe k s a /\
                   match set_attr a v s with
                   | (s1, Ok _) => seq_safe k r s1
                   | _ => True
                   end
  end.

Definition is_galaxy_bias (b : sfield) : bool :=
  match b with
  | S_galaxy_bias1 | S_galaxy_bias2 | S_galaxy_bias3 | S_galaxy_bias4 => true
  | _ => false
  end.

Definition op_safe (k : sigkind) (s : state) (o : op) : Prop :=
  match o with
  | OpSet a _ => set_safe k s a
  | OpSetParameters l => match known l with Some m => seq_safe k m s | None => True end
  | OpSetBias b _ _ =>
      (is_galaxy_bias b = true \/ c_bg s = None) /\ (k <> SAvg \/ c_sig s SAvg = None)
  | OpSetPk ks _ => (ks <> [] \/ c_int s = None) /\ c_sig s k = None /\ (nonlinear (sp s) = true -> c_cls s = None)
  | OpIntegral _ _ _ => c_int s <> None \/ needs_div (sp s) = false \/ pb (sp s) B_divergent = true
  | OpPoint _ _ _ _ rc => rc = false \/ c_sig s k = None
  | OpBulk k' rc => rc = false \/ k' = k \/ c_sig s k = None
  | OpCov _ rc => rc = false \/ (c_int s = None /\ c_sig s k = None)
  | _ => True
  end.

Fixpoint safe_history (cl : class_lib) (k : sigkind) (l : list op) (s : state) : Prop :=
  match l with
  | [] => True
  | o :: r => op_safe k s o /\
              match step cl o s with
              | (_, Crash) => True
              | (s1, _) => safe_history cl k r s1
              end
  end.

(** The same for the covariance output [k].  Specification or proof only; nothing in the code. *)
Definition cov_set_safe (k : covkind) (s : state) (a : attr) : Prop :=
  match a with
  | A_sep => c_cov s k = None
  | A_z_mean => k = KCov \/ nonlinear (sp s) = false \/ c_cov s k = None
  | A_m_ncdm => c_pk s = None \/ feqb (pf (sp s) F_h) f0 = false
  | _ => True
  end.

Fixpoint cov_seq_safe (k : covkind) (l : list (attr * pyval)) (s : state) : Prop :=
  match l with
  | [] => True
  | (a, v) :: r => cov_set_safe k s a /\
                   match set_attr a v s with
                   | (s1, Ok _) => cov_seq_safe k r s1
                   | _ => True
                   end
  end.

Definition cov_op_safe (k : covkind) (s : state) (o : op) : Prop :=
  match o with
  | OpSet a _ => cov_set_safe k s a
  | OpSetParameters l => match known l with Some m => cov_seq_safe k m s | None => True end
  | OpSetBias b _ _ => is_galaxy_bias b = false \/ c_cov s k = None
  | OpSetPk _ _ => c_cov s k = None
  | OpPoint _ _ _ _ rc => rc = false \/ c_cov s k = None
  | OpBulk _ rc => rc = false \/ c_cov s k = None
  | OpCov k' rc => rc = false \/ k' = k \/ c_cov s k = None
  | _ => True
  end.

Fixpoint cov_safe_history (cl : class_lib) (k : covkind) (l : list op) (s : state) : Prop :=
  match l with
  | [] => True
  | o :: r => cov_op_safe k s o /\
              match step cl o s with
              | (_, Crash) => True
              | (s1, _) => cov_safe_history cl k r s1
              end
  end.
