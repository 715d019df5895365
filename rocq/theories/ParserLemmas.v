(** * Reasoning about the assignments of the settings parser *)
From Coq Require Import ZArith Bool List String Ascii Arith Lia.
From Verif Require Import F64 Arrays Numeric Parser.
Import ListNotations.
Open Scope string_scope.
Open Scope list_scope.
Open Scope Z_scope.

Lemma bind_done : forall A B (r : res A) (f : A -> res B) y,
  bind r f = Done y -> exists x, r = Done x /\ f x = Done y.
Proof. intros A B [x| |] f y H; try discriminate. exists x. split; [reflexivity|exact H]. Qed.

Ltac bd H x E := let T := fresh in apply bind_done in H; destruct H as (x & E & T); rename T into H.

(** Induction on the nested steps. *)
Section StepInd.
  Variable P : step -> Prop.
  Hypothesis HS : forall f e, P (Set_ f e).
  Hypothesis HT : forall b, P (Stop b).
  Hypothesis HW : forall c body, Forall P body -> P (When c body).
  (** Specification or proof only; nothing in the code. *)
  Fixpoint step_induction (t : step) : P t :=
    match t with
    | Set_ f e => HS f e
    | Stop b => HT b
    | When c body => HW c body ((fix go l : Forall P l :=
        match l with [] => Forall_nil P | x :: r => Forall_cons x (step_induction x) (go r) end) body)
    end.
End StepInd.

(** The members a step may assign.  Specification or proof only; nothing in the code. *)
Fixpoint touches (t : step) : list string :=
  match t with
  | Set_ f _ => [f]
  | Stop _ => []
  | When _ body => (fix go l := match l with [] => [] | x :: r => touches x ++ go r end) body
  end.
Definition touched (l : list step) (f : string) : bool := existsb (String.eqb f) (flat_map touches l).

Lemma touches_when : forall c body, touches (When c body) = flat_map touches body.
Proof. reflexivity. Qed.
Lemma run_when : forall c body s, run_step (When c body) s = (do b <- c s;; if b then run body s else Done s).
Proof.
  intros c body s. cbn. destruct (c s) as [[]| |]; reflexivity.
Qed.

Lemma touched_app : forall a b f, touched (a ++ b) f = touched a f || touched b f.
Proof. intros a b f. unfold touched. rewrite flat_map_app, existsb_app. reflexivity. Qed.
Lemma touched_cons : forall x b f, touched (x :: b) f = existsb (String.eqb f) (touches x) || touched b f.
Proof. intros x b f. unfold touched. cbn [flat_map]. rewrite existsb_app. reflexivity. Qed.

Lemma run_app : forall a b s, run (a ++ b) s = (do s' <- run a s;; run b s').
Proof.
  induction a as [|x r IH]; intros b s; [reflexivity|]. cbn. destruct (run_step x s); cbn; auto.
Qed.

Lemma frame_list : forall l f, Forall (fun t => forall s s', run_step t s = Done s' ->
    existsb (String.eqb f) (touches t) = false -> s' f = s f) l ->
  forall s s', run l s = Done s' -> touched l f = false -> s' f = s f.
Proof.
  induction l as [|x r IH]; intros f A s s' R T.
  - cbn in R. injection R as <-. reflexivity.
  - cbn in R. bd R s1 E. rewrite touched_cons in T. apply orb_false_iff in T. destruct T as [T1 T2].
    inversion A as [|? ? A1 A2]; subst. rewrite (IH f A2 s1 s' R T2). exact (A1 s s1 E T1).
Qed.
Lemma frame_step : forall t f s s', run_step t s = Done s' -> existsb (String.eqb f) (touches t) = false -> s' f = s f.
Proof.
  intros t f. induction t as [g e|b|c body IH] using step_induction; intros s s' R T.
  - cbn in R. bd R v E. injection R as <-. cbn in T. unfold put.
    destruct (String.eqb g f) eqn:E2; [|reflexivity]. apply String.eqb_eq in E2. subst g.
    rewrite String.eqb_refl in T. discriminate.
  - cbn in R. bd R v E. destruct v; [discriminate|]. injection R as <-. reflexivity.
  - rewrite run_when in R. bd R v E. destruct v; [|injection R as <-; reflexivity].
    rewrite touches_when in T. exact (frame_list body f IH s s' R T).
Qed.
Lemma frame : forall l f s s', run l s = Done s' -> touched l f = false -> s' f = s f.
Proof. intros l f. apply frame_list. apply Forall_forall. intros t _. exact (frame_step t f). Qed.

(** The run passes through every step. *)
Lemma at_step : forall l n t s s', run l s = Done s' -> nth_error l n = Some t ->
  exists s1 s2, run (firstn n l) s = Done s1 /\ run_step t s1 = Done s2 /\ run (skipn (S n) l) s2 = Done s'.
Proof.
  induction l as [|x r IH]; intros n t s s' R N; [destruct n; discriminate|].
  cbn in R. bd R s1 E. destruct n as [|n].
  - cbn in N. injection N as ->. exists s, s1. repeat split; assumption.
  - cbn in N. destruct (IH n t s1 s' R N) as (a & b & Ra & Rb & Rc). exists a, b. cbn [firstn run].
    rewrite E. cbn [bind]. repeat split; assumption.
Qed.

(** What the final store says about an assignment that is not repeated later. *)
Lemma final_set : forall l n f e s0 s, run l s0 = Done s -> nth_error l n = Some (Set_ f e) ->
  touched (skipn (S n) l) f = false ->
  exists s1, run (firstn n l) s0 = Done s1 /\ e s1 = Done (s f)
    /\ forall g, touched (skipn n l) g = false -> s1 g = s g.
Proof.
  intros l n f e s0 s R N T. destruct (at_step l n _ s0 s R N) as (s1 & s2 & Ra & Rb & Rc).
  exists s1. split; [exact Ra|]. split.
  - cbn in Rb. bd Rb v E. injection Rb as <-. rewrite (frame _ _ _ _ Rc T). unfold put. rewrite String.eqb_refl. exact E.
  - intros g G. assert (K : run (skipn n l) s1 = Done s).
    { rewrite <- (firstn_skipn n l), run_app, Ra in R. exact R. }
    symmetry. exact (frame _ _ _ _ K G).
Qed.
Lemma final_stop : forall l n bad s0 s, run l s0 = Done s -> nth_error l n = Some (Stop bad) ->
  exists s1, run (firstn n l) s0 = Done s1 /\ bad s1 = Done false
    /\ forall g, touched (skipn n l) g = false -> s1 g = s g.
Proof.
  intros l n bad s0 s R N. destruct (at_step l n _ s0 s R N) as (s1 & s2 & Ra & Rb & Rc).
  exists s1. split; [exact Ra|]. split.
  - cbn in Rb. bd Rb v E. destruct v; [discriminate|exact E].
  - intros g G. assert (K : run (skipn n l) s1 = Done s).
    { rewrite <- (firstn_skipn n l), run_app, Ra in R. exact R. }
    symmetry. exact (frame _ _ _ _ K G).
Qed.
Lemma final_when : forall l n c body s0 s, run l s0 = Done s -> nth_error l n = Some (When c body) ->
  exists s1 b s2, run (firstn n l) s0 = Done s1 /\ c s1 = Done b
    /\ (if b then run body s1 = Done s2 else s2 = s1)
    /\ (forall g, touched (skipn n l) g = false -> s1 g = s g)
    /\ (forall g, touched (skipn (S n) l) g = false -> s2 g = s g).
Proof.
  intros l n c body s0 s R N. destruct (at_step l n _ s0 s R N) as (s1 & s2 & Ra & Rb & Rc).
  rewrite run_when in Rb. bd Rb b E. exists s1, b, s2. split; [exact Ra|]. split; [exact E|]. split; [|split].
  - destruct b; [exact Rb|]. injection Rb as <-. reflexivity.
  - intros g G. assert (K : run (skipn n l) s1 = Done s).
    { rewrite <- (firstn_skipn n l), run_app, Ra in R. exact R. }
    symmetry. exact (frame _ _ _ _ K G).
  - intros g G. symmetry. exact (frame _ _ _ _ Rc G).
Qed.

Lemma done_inj : forall A (x y : A), Done x = Done y -> x = y.
Proof. intros A x y H. injection H as ->. reflexivity. Qed.
Lemma getI_inv : forall s f z, getI s f = Done z -> s f = VI z.
Proof. unfold getI. intros s f z H. destruct (s f); try discriminate. apply done_inj in H. subst. reflexivity. Qed.
Lemma getF_inv : forall s f z, getF s f = Done z -> s f = VF z.
Proof. unfold getF. intros s f z H. destruct (s f); try discriminate. apply done_inj in H. subst. reflexivity. Qed.
Lemma getS_inv : forall s f z, getS s f = Done z -> s f = VS z.
Proof. unfold getS. intros s f z H. destruct (s f); try discriminate. apply done_inj in H. subst. reflexivity. Qed.
Lemma getFs_inv : forall s f z, getFs s f = Done z -> s f = VFs z.
Proof. unfold getFs. intros s f z H. destruct (s f); try discriminate. apply done_inj in H. subst. reflexivity. Qed.
Lemma getSp_inv : forall s f z, getSp s f = Done z -> s f = VSp z.
Proof. unfold getSp. intros s f z H. destruct (s f); try discriminate. apply done_inj in H. subst. reflexivity. Qed.
