(** * The table of Fourier-Bessel integrals.

    Models which integrals [coffe_integrals_init] (src/integrals.c:580-1423)
    stores and how [coffe_find_integral] (140-169) looks them up.  The numerical
    content of each table is not modelled here. *)
From Coq Require Import ZArith Bool List Lia.
Import ListNotations.
Open Scope Z_scope.

(** An integral is identified by n, l and whether n and l are integers or
    half-integers (integrals.c:151-156; both states always agree in the code,
    so one flag suffices). *)
Record key := K { key_n : Z; key_l : Z; key_half : bool }.

Definition key_eqb (a b : key) : bool :=
  (key_n a =? key_n b) && (key_l a =? key_l b) && Bool.eqb (key_half a) (key_half b).

Lemma key_eqb_eq : forall a b, key_eqb a b = true <-> a = b.
Proof.
  intros [n l h] [n' l' h']; unfold key_eqb; simpl.
  rewrite !andb_true_iff, !Z.eqb_eq, eqb_true_iff.
  split; [intros [[-> ->] ->]; reflexivity | intros [= -> -> ->]; auto].
Qed.

(** [coffe_find_integral], integrals.c:140-169: the first entry with the
    requested key, or NULL. *)
Fixpoint find_integral {A} (tbl : list (key * A)) (k : key) : option A :=
  match tbl with
  | [] => None
  | (k', a) :: r => if key_eqb k' k then Some a else find_integral r k
  end.

(** The eight integrals that are always computed, integrals.c:599-608. *)
Definition default_keys : list key :=
  [K 0 0 false; K 0 2 false; K 0 4 false; K 1 1 false;
   K 1 3 false; K 2 0 false; K 2 2 false; K 3 1 false].

(** The loop of integrals.c:1253-1269 for one multipole: k = 0 .. l/2. *)
Definition flat_den_len_keys (l : Z) : list key :=
  map (fun k => K (l - 2 * Z.of_nat k + 3) (l - 2 * Z.of_nat k + 1) true)
      (seq 0 (S (Z.to_nat (l / 2)))).

(** The keys stored by [coffe_integrals_init], in order:
    599-770 defaults, 773-914 the divergent one, 916-1083 the half-integer
    (1,-1), 1085-1247 lensing-lensing per multipole, 1249-1413 density-lensing
    per multipole.  [is_multipoles] is [par->output_type == MULTIPOLES]. *)
Definition integral_keys
    (divergent flatsky_local_nonlocal flatsky_nonlocal is_multipoles : bool)
    (ells : list Z) : list key :=
  default_keys
  ++ (if divergent then [K 4 0 false] else [])
  ++ (if flatsky_local_nonlocal || flatsky_nonlocal then [K 1 (-1) true] else [])
  ++ (if flatsky_nonlocal && is_multipoles then map (fun l => K 1 l false) ells else [])
  ++ (if flatsky_local_nonlocal && is_multipoles then flat_map flat_den_len_keys ells else []).

Definition has_key (ks : list key) (k : key) : bool := existsb (key_eqb k) ks.

Lemma has_key_In : forall ks k, has_key ks k = true <-> In k ks.
Proof.
  intros ks k. unfold has_key. rewrite existsb_exists. split.
  - intros [x [Hx He]]. apply key_eqb_eq in He. subst. exact Hx.
  - intros H. exists k. split; [exact H | apply key_eqb_eq; reflexivity].
Qed.

Lemma find_integral_None :
  forall A (tbl : list (key * A)) k,
  find_integral tbl k = None <-> ~ In k (map fst tbl).
Proof.
  induction tbl as [|[k' a] r IH]; simpl; intros k.
  - split; auto.
  - destruct (key_eqb k' k) eqn:E.
    + apply key_eqb_eq in E. subst. split; [discriminate | intros H; exfalso; auto].
    + rewrite IH. split.
      * intros H [Hk | Hk]; [|auto]. subst.
        assert (key_eqb k k = true) by (apply key_eqb_eq; reflexivity). congruence.
      * intros H Hk. apply H. right. exact Hk.
Qed.

Lemma find_integral_In :
  forall A (tbl : list (key * A)) k a,
  find_integral tbl k = Some a -> In (k, a) tbl.
Proof.
  induction tbl as [|[k' a'] r IH]; simpl; intros k a H; [discriminate|].
  destruct (key_eqb k' k) eqn:E.
  - apply key_eqb_eq in E. injection H as ->. subst. left. reflexivity.
  - right. apply IH. exact H.
Qed.
