(** * The nonlinear branches of src/functions.c against the linear ones

    Every block guarded by [pk_type != LINEAR && midpoint_approximation] repeats the linear
    one with tables in two variables and without growth factors.  Here: what the two have in
    common when the spectrum has the same growth at every redshift. *)
From Coq Require Import Reals ZArith Bool List Lia Lra.
Import ListNotations.
From Verif Require Import Integrals CExpr Terms Signal TermsMeta TermsSum Additive SignalSum
  Exchange ExchangeSignal.
Open Scope R_scope.

(** The same configuration with the linear spectrum.  Specification or proof only; nothing in the code. *)
Definition with_linear (E : env) : env :=
  mkEnv (con E) (fun f => match f with pk_nonlinear => false | f => sw E f end)
        (spl E) (tab1 E) (tab2 E) (present E) (par_h E) (omega_cdm E) (omega_baryon E).

(** The growth is [g] at every redshift, and the evolved tables are the linear ones times its
    square.  Specification or proof only; nothing in the code. *)
Record unevolving (E : env) (g : R) : Prop := {
  ue_growth : forall z, spl E bg_D1 z = g;
  ue_tables : forall k z x, tab2 E k result2d z x = g ^ 2 * tab1 E k result x }.

Section Blocks.
Variable E : env.
Variable g : R.
Hypothesis G : unevolving E g.
Hypothesis N : sw E pk_nonlinear = true.
Hypothesis M : sw E midpoint = true.
#[local] Notation E' := (with_linear E).

(** A block with the nonlinear spectrum is [c] times the block with the linear one.
    Specification or proof only; nothing in the code. *)
Definition times (c : R) (s : store) (l : list stmt) : Prop := incr E s l = c * incr E' s l.

Lemma times_if : forall c s b p q,
  holds E' s b = holds E s b ->
  (holds E s b = true -> times c s p) -> (holds E s b = false -> times c s q) ->
  times c s [If b p q].
Proof.
  unfold times. intros c s b p q H Hp Hq. cbn [incr]. rewrite !incr1_If, H.
  destruct (holds E s b); [rewrite Hp|rewrite Hq]; try reflexivity; ring.
Qed.
Lemma times_branch : forall c s p q, incr E s p = c * incr E' s q ->
  times c s [If (And (Flag pk_nonlinear) (Flag midpoint)) p q].
Proof.
  unfold times. intros c s p q H. cbn [incr]. rewrite !incr1_If. cbn [holds with_linear sw].
  rewrite N, M. cbn [andb]. rewrite H. ring.
Qed.
Lemma times_cons : forall c s a l, times c s [a] -> times c s l -> times c s (a :: l).
Proof. unfold times. intros c s a l H1 H2. cbn [incr] in *. rewrite H2. lra. Qed.
Lemma times_nil : forall c s, times c s [].
Proof. unfold times. intros. cbn [incr]. ring. Qed.
Lemma times_add : forall c s e, eval E s e = c * eval E' s e -> times c s [AddTo e].
Proof. unfold times. intros c s e H. cbn [incr incr1]. rewrite H. ring. Qed.

Ltac value_of :=
  cbn [incr incr1 eval with_linear spl tab1 tab2 par_h omega_cdm omega_baryon];
  rewrite ?(ue_tables E g G), ?(ue_growth E g G); unfold Rdiv; ring.

Ltac down :=
  match goal with
  | |- times _ _ [] => apply times_nil
  | |- times _ _ [AddTo _] => apply times_add; value_of
  | |- times _ _ [If (And (Flag pk_nonlinear) (Flag midpoint)) _ _] => apply times_branch
  | |- times _ _ [If _ _ _] =>
      apply times_if; [reflexivity|let F := fresh "F" in intros F; down
                                  |let F := fresh "F" in intros F; down]
  | |- times _ _ (_ :: _) => apply times_cons; down
  end.

Definition local3 (X : contrib) : bool := match X with den | rsd | d1 => true | _ => false end.

Lemma ni_times : no_derivatives E -> forall s,
  Forall (fun b => local3 (fst (fst b)) && local3 (snd (fst b)) = true -> times (g ^ 2) s (snd b)) ni_blocks.
Proof.
  intros (D1 & D2 & D3 & D4) s. unfold ni_blocks.
  repeat (apply Forall_cons;
    [cbn [fst snd local3 andb]; first [intros X; discriminate X
      | intros _; match goal with |- times _ _ ?x => unfold x end; down;
        do 3 (cbn [incr]; rewrite ?incr1_If; cbn [holds with_linear sw];
              rewrite ?D1, ?D2, ?D3, ?D4; cbn [orb]); value_of]|]);
  apply Forall_nil.
Qed.

(** The pairs with a potential have one formula for both, without growth factor.
    Specification or proof only; nothing in the code. *)
Definition potential4 (X : contrib) : bool := match X with d2 | g1 | g2 | g3 => true | _ => false end.

Lemma ni_potential : (forall X, con E X = true -> potential4 X = true -> g = 1) -> forall s,
  Forall (fun b => local3 (fst (fst b)) && local3 (snd (fst b)) = false -> times (g ^ 2) s (snd b)) ni_blocks.
Proof.
  intros P s. unfold ni_blocks.
  repeat (apply Forall_cons;
    [cbn [fst snd local3 andb]; first [intros X; discriminate X
      | intros _; match goal with |- times _ _ ?x => unfold x end;
        apply times_if; [reflexivity|intros F|intros _; apply times_nil];
        cbn [holds] in F; apply andb_true_iff in F; destruct F as [F1 F2];
        assert (W : g = 1) by
          (first [exact (P _ F1 eq_refl)|exact (P _ F2 eq_refl)]);
        apply times_add; rewrite W; value_of]|]);
  apply Forall_nil.
Qed.

Ltac apart A B :=
  match goal with
  | F : holds _ _ (And (Not (Eq (V r21) (Num 0))) (Not (Eq (V r22) (Num 0)))) = false |- _ =>
      exfalso; cbn [holds eval] in F; rewrite A, B in F; discriminate
  end.
Ltac down2 A B :=
  match goal with
  | |- times _ _ [] => apply times_nil
  | |- times _ _ [AddTo _] => apply times_add; value_of
  | |- times _ _ [If (And (Flag pk_nonlinear) (Flag midpoint)) _ _] => apply times_branch; value_of
  | |- times _ _ [If _ _ _] =>
      apply times_if; [reflexivity|let F := fresh "F" in intros F; down2 A B
                                  |let F := fresh "F" in intros F; first [apart A B|down2 A B]]
  | |- times _ _ (_ :: _) => apply times_cons; down2 A B
  end.

Lemma si_times : forall s, sep_nonzero s -> Forall (fun b => times 1 s (snd b)) si_blocks.
Proof.
  intros s [A B]. unfold si_blocks.
  repeat (apply Forall_cons;
    [cbn [snd]; match goal with |- times _ _ ?x => unfold x end; down2 A B|]).
  apply Forall_nil.
Qed.

Lemma di_times : forall s,
  con E len && negb (sw E only_cross) && negb (sw E flatsky_nonlocal) = false
  \/ Rltb (1 / 100000000000000000000) (s r2) = true ->
  Forall (fun b => times 1 s (snd b)) di_blocks.
Proof.
  intros s A. unfold di_blocks.
  repeat (apply Forall_cons; [cbn [snd]; match goal with |- times _ _ ?x => unfold x end|]); [..|apply Forall_nil].
  - apply times_if; [reflexivity|intros F1|intros _; apply times_nil].
    apply times_if; [reflexivity|intros _; apply times_add; value_of|intros _].
    apply times_if; [reflexivity|intros F2|intros _; apply times_nil].
    apply times_if; [reflexivity|intros _; apply times_branch; value_of|].
    intros F. cbn [holds eval] in F, F1, F2. rewrite F1, F2 in A.
    destruct A as [A|A]; [discriminate A|]. rewrite A in F. discriminate F.
  - down.
  - down.
  - down.
  - down.
  - down.
Qed.
End Blocks.

Lemma total_times : forall E c s bs, Forall (fun b => times E c s (snd b)) bs ->
  total E s bs = c * total (with_linear E) s bs.
Proof.
  unfold total. intros E c s bs H. induction H as [|b bs Hb _ IH]; [cbn; ring|].
  cbn [map fold_right]. rewrite IH, Hb. ring.
Qed.

(** The preludes do not look at the type of the spectrum.  Specification or proof only; nothing in the code. *)
Fixpoint blind_c (c : cond) : bool :=
  match c with
  | Flag pk_nonlinear => false
  | Not c => blind_c c
  | And c d | Or c d => blind_c c && blind_c d
  | _ => true
  end.
Fixpoint blind1 (c : stmt) : bool :=
  match c with If c p q => blind_c c && forallb blind1 p && forallb blind1 q | _ => true end.
Definition blind (l : list stmt) : bool := forallb blind1 l.

Lemma eval_linear : forall E s e, eval (with_linear E) s e = eval E s e.
Proof.
  intros E s. induction e; cbn [eval]; try reflexivity;
    rewrite ?IHe1, ?IHe2, ?IHe; reflexivity.
Qed.
Lemma holds_linear : forall E s c, blind_c c = true -> holds (with_linear E) s c = holds E s c.
Proof.
  intros E s. induction c; intros H; cbn [holds blind_c] in *; rewrite ?eval_linear; try reflexivity.
  - destruct f; reflexivity || discriminate.
  - rewrite IHc by exact H. reflexivity.
  - apply andb_true_iff in H. rewrite IHc1, IHc2 by apply H. reflexivity.
  - apply andb_true_iff in H. rewrite IHc1, IHc2 by apply H. reflexivity.
Qed.
Lemma dens_linear : forall E l s, blind l = true -> dens (with_linear E) s l = dens E s l.
Proof.
  intros E.
  apply (stmts_ind2
    (fun c => forall s, blind1 c = true -> den1 (with_linear E) s c = den1 E s c)
    (fun l => forall s, blind l = true -> dens (with_linear E) s l = dens E s l)).
  - intros v e s _. cbn [den1]. rewrite eval_linear. reflexivity.
  - intros e s _. cbn [den1]. rewrite eval_linear. reflexivity.
  - intros c p q IHp IHq s H. rewrite !den1_If.
    change (blind1 (If c p q)) with (blind_c c && blind p && blind q) in H.
    apply andb_true_iff in H. destruct H as [H H2]. apply andb_true_iff in H. destruct H as [H H1].
    rewrite holds_linear by exact H. destruct (holds E s c); [apply IHp|apply IHq]; assumption.
  - reflexivity.
  - reflexivity.
  - reflexivity.
  - intros c l IHc IHl s H. cbn [blind forallb] in H. apply andb_true_iff in H. destruct H.
    cbn [dens]. rewrite IHc by assumption. apply IHl. assumption.
Qed.

(** ** Geometry of the double integral *)
(** Specification or proof only; nothing in the code. *)
Definition cosine (E : env) (z m s : R) : R :=
  let chi := spl E bg_comoving_distance z in
  (2 * chi * chi - s * s + m * m * s * s / 2) / (2 * chi * chi - m * m * s * s / 2).
(** The squared distance between the two points at the fractions [x] and [y] of the two
    distances.  Specification or proof only; nothing in the code. *)
Definition distance2 (E : env) (z m s x y : R) : R :=
  let chi := spl E bg_comoving_distance z in
  let c1 := chi - s * m / 2 in
  let c2 := chi + s * m / 2 in
  c1 * x * (c1 * x) + c2 * y * (c2 * y) - 2 * (c1 * x) * (c2 * y) * cosine E z m s.

Lemma di_r2 : forall E z m s x y,
  dens E (upd (upd (args z m s) x_1 x) x_2 y) di_prelude r2 = kept (distance2 E z m s x y).
Proof.
  intros. unfold distance2, cosine.
  set (chi := spl E bg_comoving_distance z). cbv zeta.
  set (c1 := chi - s * m / 2). set (c2 := chi + s * m / 2). set (c := (_ - s * s + _) / _).
  change di_prelude with (firstn 2 di_prelude ++ firstn 2 (skipn 2 di_prelude)
    ++ firstn 1 (skipn 4 di_prelude) ++ firstn 2 (skipn 5 di_prelude)
    ++ firstn 1 (skipn 7 di_prelude)
    ++ firstn 1 (skipn 8 di_prelude) ++ skipn 9 di_prelude).
  rewrite !dens_app.
  rewrite !(dens_keeps r2 E (skipn 9 di_prelude)) by reflexivity.
  cbn [firstn skipn di_prelude dens]. rewrite den1_when. cbn [den1 holds].
  set (t1 := upd (upd (upd (upd (args z m s) x_1 x) x_2 y) res _) chi_mean _).
  assert (t1 chi_mean = chi /\ t1 mu = m /\ t1 sep = s /\ t1 x_1 = x /\ t1 x_2 = y)
    as (K1 & K2 & K3 & K4 & K5) by (repeat split).
  clearbody t1.
  set (t2 := upd (upd t1 chi1 _) chi2 _).
  assert (t2 chi1 = c1 /\ t2 chi2 = c2 /\ t2 chi_mean = chi /\ t2 mu = m /\ t2 sep = s /\ t2 x_1 = x /\ t2 x_2 = y)
    as (L1 & L2 & L3 & L4 & L5 & L6 & L7).
  { subst t2. unfold upd. cbn [var_beq eval]. rewrite K1, K2, K3. repeat split; assumption || reflexivity. }
  clearbody t2. clear t1 K1 K2 K3 K4 K5.
  set (t3 := upd t2 costheta _).
  assert (t3 chi1 = c1 /\ t3 chi2 = c2 /\ t3 costheta = c /\ t3 x_1 = x /\ t3 x_2 = y) as (K1 & K2 & K3 & K4 & K5).
  { subst t3. unfold upd. cbn [var_beq eval]. rewrite L3, L4, L5. repeat split; assumption || reflexivity. }
  clearbody t3. clear t2 L1 L2 L3 L4 L5 L6 L7.
  set (t4 := upd (upd t3 lambda1 _) lambda2 _).
  assert (t4 costheta = c /\ t4 lambda1 = c1 * x /\ t4 lambda2 = c2 * y) as (L3 & L4 & L5).
  { subst t4. unfold upd. cbn [var_beq eval]. rewrite K1, K2, K3, K4, K5. repeat split; assumption || reflexivity. }
  clearbody t4. clear t3 K1 K2 K3 K4 K5.
  cbn [eval]. rewrite !upd_same, L3, L4, L5. reflexivity.
Qed.

(** ** The three functions *)
Section Point.
Variable E : env.
Variable g : R.
Hypothesis pE : forall k, present E k = true.
Hypothesis G : unevolving E g.
Hypothesis N : sw E pk_nonlinear = true.
Hypothesis M : sw E midpoint = true.

Lemma ni_evolved : forall z m s, no_derivatives E ->
  (forall X, con E X = true -> potential4 X = true -> g = 1) ->
  value (nonintegrated E z m s) = value (nonintegrated (with_linear E) z m s).
Proof.
  intros z m s D P. rewrite !nonintegrated_spec, !all_there by exact pE. cbn [value].
  rewrite dens_linear by reflexivity. generalize (dens E (args z m s) ni_prelude). intros t.
  rewrite (total_times E (g ^ 2) t ni_blocks).
  - destruct D as (D1 & D2 & D3 & D4).
    unfold ni_factor. cbn [with_linear sw spl]. rewrite N, M, D1, D2, D3, D4. cbn [andb orb].
    rewrite !(ue_growth E g G). destruct (sw E flatsky_local); ring.
  - pose proof (ni_times E g G N M D t) as A. pose proof (ni_potential E g P t) as B.
    rewrite Forall_forall in *. intros b I.
    destruct (local3 (fst (fst b)) && local3 (snd (fst b))) eqn:L; [apply A|apply B]; assumption.
Qed.

Lemma si_evolved : forall z m s x,
  0 < s < 2 * spl E bg_comoving_distance z -> -1 < m < 1 -> interior x ->
  value (single_integrated E z m s x) = value (single_integrated (with_linear E) z m s x).
Proof.
  intros z m s x Hs Hm Hx. rewrite !single_integrated_spec, !all_there by exact pE. cbn [value].
  rewrite dens_linear by reflexivity. rewrite (total_times E 1); [ring|].
  apply (si_times E g G N M). apply si_nonzero; assumption.
Qed.

Lemma di_evolved : forall z m s x y,
  con E len && negb (sw E only_cross) && negb (sw E flatsky_nonlocal) = false
  \/ 1 / 100000000000000000000 < distance2 E z m s x y ->
  value (double_integrated E z m s x y) = value (double_integrated (with_linear E) z m s x y).
Proof.
  intros z m s x y H. rewrite !double_integrated_spec, !all_there by exact pE. cbn [value].
  rewrite dens_linear by reflexivity. rewrite (total_times E 1); [cbn [with_linear par_h]; ring|].
  apply (di_times E g G N M). destruct H as [H|H]; [left; exact H|right].
  rewrite di_r2. unfold kept, Rltb at 2. destruct (Rlt_dec (distance2 E z m s x y) 0); [lra|].
  unfold Rltb. destruct (Rlt_dec _ _); [reflexivity|contradiction].
Qed.

Lemma flat_len_len_evolved : forall z s l x,
  value (flat_len_len E z s l x) = value (flat_len_len (with_linear E) z s l x).
Proof.
  intros. unfold flat_len_len. cbn [with_linear sw spl tab1 tab2 present par_h omega_cdm omega_baryon].
  rewrite N, M, !(ue_growth E g G), (ue_tables E g G). cbn [andb]. rewrite pE.
  destruct (Nat.ltb 0 l); cbn [value]; ring.
Qed.

Lemma flat_den_len_evolved : forall z s l,
  value (flat_den_len E z s l) = value (flat_den_len (with_linear E) z s l).
Proof.
  intros. unfold flat_den_len. cbn [with_linear sw spl tab1 tab2 present par_h omega_cdm omega_baryon].
  rewrite N, M, !(ue_growth E g G). cbn [andb]. destruct (Nat.even l); [|reflexivity].
  destruct (forallb _ _); [|reflexivity]. cbn [value].
  replace (fold_left Rplus (map (fun k => flat_den_len_coef l k * tab2 E (flat_den_len_key l k) result2d z s)
      (seq 0 (S (l / 2)))) 0)
    with (g ^ 2 * fold_left Rplus (map (fun k => flat_den_len_coef l k * tab1 E (flat_den_len_key l k) result s)
      (seq 0 (S (l / 2)))) 0).
  2:{ generalize (seq 0 (S (l / 2))). intros ks. replace 0 with (g ^ 2 * 0) at 2 by ring.
      generalize 0. induction ks as [|k ks IH]; intros a; cbn [map fold_left]; [reflexivity|].
      rewrite IH, (ue_tables E g G). f_equal. ring. }
  unfold Rdiv. ring.
Qed.
End Point.
