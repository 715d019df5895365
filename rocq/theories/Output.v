(** * The table of background functions: output_background, src/output.c:210-321 *)
From Coq Require Import ZArith Arith Bool Ascii String List Lia DecimalString.
From Verif Require Import FileIO.
Import ListNotations.
Open Scope nat_scope.

(** The names compared with [strcmp], output.c:224-289. *)
Inductive quantity := Qz | Qa | QH | QconfH | QconfHprime | QD1 | Qf | Qchi.
Definition str (s : string) : bytes := list_ascii_of_string s.
Definition qname (q : quantity) : bytes :=
  str match q with
      | Qz => "z" | Qa => "a" | QH => "H" | QconfH => "conformal_H"
      | QconfHprime => "conformal_H_prime" | QD1 => "D1" | Qf => "f"
      | Qchi => "comoving_distance" end.
(** The unit printed after the name.  output.c:224-289. *)
Definition qunit (q : quantity) : bytes :=
  str match q with
      | QH => "[1/Mpc]" | QconfH => "[1/Mpc]" | QconfHprime => "[1/Mpc^2]"
      | Qchi => "[Mpc]" | _ => "" end.

(** strcmp, called at output.c:224-289. *)
Fixpoint beqb (a b : bytes) : bool :=
  match a, b with
  | [], [] => true
  | x :: a, y :: b => Ascii.eqb x y && beqb a b
  | _, _ => false
  end.
(** output.c:224-289. *)
Definition recognise (s : bytes) : option quantity :=
  if beqb s (qname Qz) then Some Qz
  else if beqb s (qname Qa) then Some Qa
  else if beqb s (qname QH) then Some QH
  else if beqb s (qname QconfH) then Some QconfH
  else if beqb s (qname QconfHprime) then Some QconfHprime
  else if beqb s (qname QD1) then Some QD1
  else if beqb s (qname Qf) then Some Qf
  else if beqb s (qname Qchi) then Some Qchi
  else None.

(** "%zu".  Printed at output.c:291-312. *)
Definition decimal (n : nat) : bytes := str (NilEmpty.string_of_uint (Nat.to_uint n)).

Section Table.
Context {V : Type}.
Variable show : nat -> V -> shown.
(** The arrays of the splines: [Qz] is [a.spline->x], the others are the [y] of
    their spline. *)
Variable column : quantity -> list V.

(** The pieces appended to the header, [i] the position (from 0).  Printed at output.c:291-312. *)
Fixpoint header_from (i : nat) (names : list bytes) (sep : bytes) : bytes :=
  match names with
  | [] => []
  | s :: r => match recognise s with
              | Some q => decimal (i + 1) ++ [")"%char] ++ s ++ qunit q ++ sep
              | None => [] end ++ header_from (S i) r sep
  end.
Definition header_text (names : list bytes) (sep : bytes) : bytes :=
  str "# " ++ header_from 0 names sep ++ [newline].

(** [outputs]: 20 pointers, the [i]-th set if the [i]-th name is known. *)
Definition outputs (names : list bytes) : list (option (list V)) :=
  map (fun i => match nth_error names i with
                | Some s => match recognise s with Some q => Some (column q) | None => None end
                | None => None end) (seq 0 20).

(** A known name at position 20 or later is stored outside [outputs]; a header of
    256 bytes or more is written outside [header] (the third argument of strncat
    bounds what is appended, not the total). *)
Definition output_background (sep : bytes) (bins : nat) (names : list bytes) : written :=
  if existsb (fun s => match recognise s with Some _ => true | None => false end) (skipn 20 names)
  then Bad
  else if Nat.leb BUF (List.length (header_text names sep)) then Bad
  else write_ncol_null show (Some (header_text names sep)) sep bins (outputs names).
End Table.

Lemma beqb_eq : forall a b, beqb a b = true <-> a = b.
Proof.
  induction a as [|x a IH]; destruct b as [|y b]; cbn; split; intros H; try discriminate; try reflexivity.
  - apply andb_prop in H. destruct H as [H1 H2]. apply Ascii.eqb_eq in H1. apply IH in H2. congruence.
  - inversion H; subst. rewrite Ascii.eqb_refl. apply IH. reflexivity.
Qed.
Lemma recognise_name : forall q, recognise (qname q) = Some q.
Proof. destruct q; reflexivity. Qed.
Lemma recognise_inv : forall s q, recognise s = Some q -> s = qname q.
Proof.
  intros s q H. unfold recognise in H.
  repeat match type of H with
  | (if ?b then _ else _) = _ => destruct b eqn:?E; [inversion H; subst; apply beqb_eq; assumption|]
  end. discriminate.
Qed.
