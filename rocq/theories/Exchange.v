(** * Exchanging the two populations *)
From Coq Require Import Reals ZArith Bool List Lia Lra FunctionalExtensionality.
Import ListNotations.
From Verif Require Import Integrals CExpr Terms Signal TermsMeta TermsSum Additive SignalSum.
Open Scope R_scope.
#[local] Arguments upd : simpl never.

(** ** Specification *)

(** The configuration with the two populations exchanged.  Specification or proof only; nothing in the code. *)
Definition exchange (E : env) : env :=
  mkEnv (con E) (sw E)
    (fun f => spl E match f with
                    | par_galaxy_bias1 => par_galaxy_bias2
                    | par_galaxy_bias2 => par_galaxy_bias1
                    | par_magnification_bias1 => par_magnification_bias2
                    | par_magnification_bias2 => par_magnification_bias1
                    | par_evolution_bias1 => par_evolution_bias2
                    | par_evolution_bias2 => par_evolution_bias1
                    | bg_G1 => bg_G2
                    | bg_G2 => bg_G1
                    | f => f
                    end)
    (tab1 E) (tab2 E) (present E) (par_h E) (omega_cdm E) (omega_baryon E).

(** The subtraction term of the divergent integral is a function of two distances
    in which they play the same role (integrals.c:390-446). *)
Definition symmetric_renormalization (E : env) : Prop :=
  forall k a b, tab2 E k renormalization a b = tab2 E k renormalization b a.

(** The switches for derivatives with respect to parameters are off.
    Specification or proof only; nothing in the code. *)
Definition no_derivatives (E : env) : Prop :=
  sw E b_derivative = false /\ sw E f_derivative = false /\
  sw E b_tilde_derivative = false /\ sw E f_tilde_derivative = false.

(** ** Proof *)
(** Specification or proof only; nothing in the code. *)
Definition mirror (s : store) : store := fun v =>
  match v with
  | mu => - s mu
  | chi1 => s chi2 | chi2 => s chi1
  | lambda1 => s lambda2 | lambda2 => s lambda1
  | z1 => s z2 | z2 => s z1
  | z1_const => s z2_const | z2_const => s z1_const
  | f1 => s f2 | f2 => s f1
  | curlyH1 => s curlyH2 | curlyH2 => s curlyH1
  | b1 => s b2 | b2 => s b1
  | bz_mean1 => s bz_mean2 | bz_mean2 => s bz_mean1
  | G1 => s G2 | G2 => s G1
  | Gz_mean1 => s Gz_mean2 | Gz_mean2 => s Gz_mean1
  | s1 => s s2 | s2 => s s1
  | sz_mean1 => s sz_mean2 | sz_mean2 => s sz_mean1
  | fevo1 => s fevo2 | fevo2 => s fevo1
  | a1 => s a2 | a2 => s a1
  | r21 => s r22 | r22 => s r21
  | ren1 => s ren2 | ren2 => s ren1
  | x_1 => s x_2 | x_2 => s x_1
  | v => s v
  end.

Ltac chunk :=
  apply functional_extensionality; intros []; unfold mirror, upd;
  cbn [dens den1 eval spl exchange var_beq tab1 tab2];
  unfold upd; cbn [var_beq]; try reflexivity.

Definition respects (l : list stmt) : Prop :=
  forall E s, dens (exchange E) (mirror s) l = mirror (dens E s l).

Lemma respects_app : forall l1 l2, respects l1 -> respects l2 -> respects (l1 ++ l2).
Proof. intros l1 l2 H1 H2 E s. rewrite !dens_app, H1, H2. reflexivity. Qed.

Lemma ni_prelude_respects : respects ni_prelude.
Proof.
  change ni_prelude with
    (firstn 3 ni_prelude ++ firstn 2 (skipn 3 ni_prelude) ++ firstn 2 (skipn 5 ni_prelude)
     ++ firstn 3 (skipn 7 ni_prelude) ++ firstn 3 (skipn 10 ni_prelude)
     ++ firstn 4 (skipn 13 ni_prelude) ++ firstn 4 (skipn 17 ni_prelude)
     ++ firstn 2 (skipn 21 ni_prelude) ++ firstn 2 (skipn 23 ni_prelude)
     ++ skipn 25 ni_prelude).
  cbn [firstn skipn ni_prelude].
  repeat apply respects_app; intros E s; chunk; unfold Rdiv; try ring.
  replace (- s mu * - s mu) with (s mu * s mu) by ring. reflexivity.
Qed.

Lemma den1_either : forall E s c v e1 e2,
  den1 E s (If c [Set_ v e1] [Set_ v e2]) =
  upd s v (if holds E s c then eval E s e1 else eval E s e2).
Proof. intros. rewrite den1_If. destruct (holds E s c); reflexivity. Qed.
Lemma den1_when : forall E s c v e,
  den1 E s (If c [Set_ v e] []) =
  upd s v (if holds E s c then eval E s e else s v).
Proof.
  intros. rewrite den1_If. destruct (holds E s c); [reflexivity|].
  symmetry. apply upd_id.
Qed.
Lemma den1_flag : forall E s f l,
  den1 E s (If (Flag f) l []) = if sw E f then dens E s l else s.
Proof. intros. rewrite den1_If. cbn [holds]. destruct (sw E f); reflexivity. Qed.

Lemma costheta_even : forall a b m,
  (2 * a * a - b * b + - m * - m * b * b / 2) / (2 * a * a - - m * - m * b * b / 2) =
  (2 * a * a - b * b + m * m * b * b / 2) / (2 * a * a - m * m * b * b / 2).
Proof. intros. replace (- m * - m) with (m * m) by ring. reflexivity. Qed.

Lemma si_prelude_respects : respects si_prelude.
Proof.
  change si_prelude with
    (firstn 4 si_prelude ++ firstn 1 (skipn 4 si_prelude) ++ firstn 2 (skipn 5 si_prelude)
     ++ firstn 2 (skipn 7 si_prelude) ++ firstn 2 (skipn 9 si_prelude)
     ++ firstn 4 (skipn 11 si_prelude) ++ firstn 4 (skipn 15 si_prelude)
     ++ firstn 4 (skipn 19 si_prelude) ++ firstn 2 (skipn 23 si_prelude)
     ++ skipn 25 si_prelude).
  cbn [firstn skipn si_prelude].
  repeat apply respects_app; intros E s.
  - chunk; unfold Rdiv; try ring.
  - chunk. apply costheta_even.
  - chunk.
  - chunk.
  - cbn [dens]. rewrite !den1_when. cbn [holds eval].
    rewrite !upd_other by discriminate. chunk.
  - chunk.
  - chunk.
  - chunk.
  - chunk.
  - cbn [dens]. rewrite !den1_flag. change (sw (exchange E) divergent) with (sw E divergent).
    destruct (sw E divergent); [|reflexivity].
    cbn [dens]. rewrite !den1_either. cbn [holds eval].
    rewrite !upd_other by discriminate. chunk.
Qed.

(** The subtracted divergent integral is symmetric away from coincidence; at coincidence
    the code takes the separation of the first point only.  Specification or proof only; nothing in the code. *)
Definition apart (E : env) (s : store) : Prop :=
  sw E divergent = false \/ Rltb ((1 / 1000000) * ((1 / 1000000) * 1)) (s r2) = true.

Lemma dens_app_17 : forall E s, dens E s di_prelude =
  dens E (dens E s (firstn 17 di_prelude)) (skipn 17 di_prelude).
Proof. intros. rewrite <- dens_app. reflexivity. Qed.
Lemma true_or_false : forall b : bool, b = true \/ b = false.
Proof. intros []; auto. Qed.

Lemma di_first_respects : respects (firstn 17 di_prelude).
Proof.
  change (firstn 17 di_prelude) with
    (firstn 4 di_prelude ++ firstn 1 (skipn 4 di_prelude) ++ firstn 2 (skipn 5 di_prelude)
     ++ firstn 1 (skipn 7 di_prelude) ++ firstn 1 (skipn 8 di_prelude)
     ++ firstn 4 (skipn 9 di_prelude) ++ firstn 4 (skipn 13 di_prelude)).
  cbn [firstn skipn di_prelude].
  repeat apply respects_app; intros E s.
  - chunk; unfold Rdiv; try ring.
  - chunk. apply costheta_even.
  - chunk.
  - chunk. ring.
  - cbn [dens]. rewrite !den1_when. cbn [holds eval]. chunk.
  - chunk.
  - chunk.
Qed.

Lemma di_prelude_respects : forall E s,
  symmetric_renormalization E -> apart E (dens E s di_prelude) ->
  dens (exchange E) (mirror s) di_prelude = mirror (dens E s di_prelude).
Proof.
  intros E s Hs. rewrite !dens_app_17, di_first_respects. intros Ha.
  remember (dens E s (firstn 17 di_prelude)) as t eqn:Et. clear Et.
  cbn [skipn di_prelude dens] in *. rewrite !den1_flag in *.
  change (sw (exchange E) divergent) with (sw E divergent) in *.
  unfold apart in Ha. destruct (true_or_false (sw E divergent)) as [F|F]; rewrite F in *.
  2:{ chunk. }
  destruct Ha as [Ha|Ha]; [discriminate|].
  rewrite dens_keeps in Ha by reflexivity. cbn [den1] in Ha.
  rewrite upd_other in Ha by discriminate.
  cbn [dens]. rewrite !den1_either.
  cbn [holds eval pow den1]. rewrite !upd_other by discriminate.
  change (mirror t r2) with (t r2). rewrite Ha. cbn [negb].
  chunk. rewrite Hs. reflexivity.
Qed.

(** ** Blocks *)
(** Specification or proof only; nothing in the code. *)
Definition sym (E : env) (s : store) (l : list stmt) : Prop :=
  incr (exchange E) (mirror s) l = incr E s l.

Lemma sym_if : forall E s c p q,
  holds (exchange E) (mirror s) c = holds E s c ->
  (holds E s c = true -> sym E s p) -> (holds E s c = false -> sym E s q) ->
  sym E s [If c p q].
Proof.
  unfold sym. intros E s c p q H Hp Hq. cbn [incr]. rewrite !incr1_If, H.
  destruct (holds E s c); [rewrite Hp|rewrite Hq]; reflexivity.
Qed.
Lemma sym_add : forall E s e, eval (exchange E) (mirror s) e = eval E s e -> sym E s [AddTo e].
Proof. unfold sym. intros. cbn [incr incr1]. rewrite H. reflexivity. Qed.
Lemma sym_nil : forall E s, sym E s [].
Proof. reflexivity. Qed.

Lemma legendre_neg1 : forall u, legendre 1 (- u) = - legendre 1 u.
Proof. reflexivity. Qed.
Lemma legendre_neg2 : forall u, legendre 2 (- u) = legendre 2 u.
Proof. intros. cbn [legendre]. f_equal. ring. Qed.
Lemma legendre_neg3 : forall u, legendre 3 (- u) = - legendre 3 u.
Proof. intros. cbn [legendre]. unfold Rdiv. ring. Qed.
Lemma legendre_neg4 : forall u, legendre 4 (- u) = legendre 4 u.
Proof. intros. cbn [legendre]. unfold Rdiv. ring. Qed.

Ltac leaf := 
  cbn [eval exchange spl tab1 tab2 par_h omega_cdm omega_baryon mirror];
  rewrite ?Ropp_involutive, ?legendre_neg1, ?legendre_neg2, ?legendre_neg3, ?legendre_neg4;
  try ring.
Ltac conds :=
  match goal with
  | |- sym _ _ [If _ _ _] =>
      apply sym_if; [reflexivity|intros ?F|intros ?F]; conds
  | |- sym _ _ [AddTo _] => apply sym_add
  | |- sym _ _ [] => apply sym_nil
  end.

Lemma ni_sym : forall E s, no_derivatives E -> symmetric_renormalization E ->
  Forall (fun b => sym E s (snd b)) ni_blocks.
Proof.
  intros E s (D1 & D2 & D3 & D4) Hs.
  unfold ni_blocks.
  repeat (apply Forall_cons;
    [cbn [snd]; match goal with |- sym _ _ ?x => unfold x end; conds;
     try (match goal with H : holds _ _ (Or _ _) = true |- _ =>
            cbn [holds] in H; rewrite ?D1, ?D2, ?D3, ?D4 in H; discriminate end)|]);
  [..|apply Forall_nil]; clear D1 D2 D3 D4;
  leaf; rewrite ?(Hs _ (s chi1) (s chi2)); unfold Rdiv; ring.
Qed.

Lemma sym_cons : forall E s c l, sym E s [c] -> sym E s l -> sym E s (c :: l).
Proof.
  unfold sym. intros E s c l H1 H2. cbn [incr] in *. rewrite H2. f_equal. lra.
Qed.

Definition sep_nonzero (s : store) : Prop :=
  Reqb (s r21) 0 = false /\ Reqb (s r22) 0 = false.

Ltac cond_same :=
  first [reflexivity
        | cbn [holds eval mirror]; apply andb_comm
        | cbn [holds eval mirror]; rewrite Rabs_Ropp; reflexivity].
Ltac leaf2 :=
  apply sym_add; leaf; rewrite ?Rabs_Ropp, ?Rmult_opp_opp;
  rewrite ?(Rplus_comm (_ z2) (_ z1)); unfold Rdiv; try ring.
Ltac dead A B :=
  match goal with
  | F : holds _ _ (And (Not (Eq (V r21) (Num 0))) (Not (Eq (V r22) (Num 0)))) = false |- _ =>
      exfalso; cbn [holds eval] in F; rewrite A, B in F; discriminate
  end.
Ltac descend A B :=
  match goal with
  | |- sym _ _ [] => apply sym_nil
  | |- sym _ _ [AddTo _] => leaf2
  | |- sym _ _ [If _ _ _] =>
      apply sym_if;
      [cond_same|let F := fresh "F" in intros F; descend A B
                |let F := fresh "F" in intros F; first [dead A B|clear F; descend A B]]
  | |- sym _ _ (_ :: _) => apply sym_cons; descend A B
  end.

Lemma si_sym_apart : forall E s, sep_nonzero s ->
  Forall (fun b => fst b = (d1, len) \/ sym E s (snd b)) si_blocks.
Proof.
  intros E s [A B].
  unfold si_blocks.
  repeat (apply Forall_cons;
    [first [left; reflexivity|right; cbn [snd]; match goal with |- sym _ _ ?x => unfold x end;
      descend A B]|]).
  all: try apply Forall_nil.
Qed.

Ltac walk :=
  repeat (progress (cbn [incr];
    rewrite ?incr1_If; cbn [holds exchange sw con mirror eval];
    repeat match goal with F : sw _ _ = _ |- _ => rewrite F
            | F : Reqb _ _ = _ |- _ => rewrite F end;
    cbn [negb andb orb])); cbn [incr1].
Ltac chain :=
  unfold sym; walk;
  match goal with
  | |- context [Rabs (- _)] => rewrite Rabs_Ropp; destruct (Rltb (Rabs _) _); walk
  | _ => idtac
  end;
  leaf; unfold Rdiv; ring.
Ltac descend2 :=
  match goal with
  | |- sym _ _ [] => apply sym_nil
  | |- sym _ _ [AddTo _] => leaf2
  | |- sym _ _ [If (And (Not (Eq _ _)) _) _ _] => chain
  | |- sym _ _ [If _ _ _] =>
      apply sym_if; [cond_same|intros _; descend2|intros _; descend2]
  | |- sym _ _ (_ :: _) => apply sym_cons; descend2
  end.
Lemma si_sym_linear : forall E s, sw E pk_nonlinear = false ->
  Forall (fun b => fst b = (d1, len) \/ sym E s (snd b)) si_blocks.
Proof.
  intros E s L.
  destruct (true_or_false (Reqb (s r21) 0)) as [A|A];
  destruct (true_or_false (Reqb (s r22) 0)) as [B|B].
  4:{ apply si_sym_apart. split; assumption. }
  all: unfold si_blocks;
  repeat (apply Forall_cons;
    [first [left; reflexivity|right; cbn [snd]; match goal with |- sym _ _ ?x => unfold x end;
      descend2 ]|]).
  all: try apply Forall_nil.
Qed.

(** The flat-sky lensing integrand of the correlation function is a function of the
    first integration variable only.  Specification or proof only; nothing in the code. *)
Definition not_flat (E : env) : Prop :=
  sw E flatsky_nonlocal = false \/ sw E output_multipoles = true.
Lemma di_sym : forall E s, not_flat E ->
  Forall (fun b => sym E s (snd b)) di_blocks.
Proof.
  intros E s NF. unfold di_blocks.
  assert (holds E s (And (Flag flatsky_nonlocal) (Not (Flag output_multipoles))) = true -> False) as X.
  { cbn [holds]. destruct NF as [->| ->]; [|rewrite andb_false_r]; discriminate. }
  repeat (apply Forall_cons; [cbn [snd]; match goal with |- sym _ _ ?x => unfold x end|]);
    [..|apply Forall_nil].
  - apply sym_if; [reflexivity|intros _|intros _; apply sym_nil].
    apply sym_if; [reflexivity|intros H; exfalso; apply X; exact H|intros _].
    clear X. descend2.
  - descend2.
  - descend2.
  - apply sym_if; [reflexivity|intros _|intros _; apply sym_nil]. 
    apply sym_if; [reflexivity|intros _; leaf2|intros _; leaf2].
  - apply sym_if; [reflexivity|intros _|intros _; apply sym_nil]. 
    apply sym_if; [reflexivity|intros _; leaf2|intros _; leaf2].
  - descend2.
Qed.
