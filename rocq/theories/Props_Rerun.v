(** * C82: computing again *)
From Coq Require Import ZArith List Bool FunctionalExtensionality.
Import ListNotations.
From Verif Require Import F64 PyParams PySet Integrals PyState Props_Cache.
Open Scope Z_scope.

(** ** Specification *)

(** compute_*_bulk(recompute=True), [n] times in a row, each returning normally. *)
Fixpoint recomputed (cl : class_lib) (k : sigkind) (n : nat) (s : state) : option state :=
  match n with
  | O => Some s
  | S n => match compute_bulk cl k true s with (s1, Ok _) => recomputed cl k n s1 | _ => None end
  end.
(** Asking again gives the same answer. *)
Definition repeatable : Prop :=
  forall cl l k s s1 r1, run cl l coffe0 = Some s -> compute_bulk cl k true s = (s1, Ok r1) ->
    snd (compute_bulk cl k true s1) = Ok r1.
(** The spectrum of CLASS covers the range of wavenumbers asked for. *)
Definition covers (cl : class_lib) (p : params) : Prop :=
  fltb (pf p F_k_min) (klo cl (view p class_fields)) = false /\
  fltb (khi cl (view p class_fields)) (pf p F_k_max) = false.
(** CLASS is asked for wavenumbers up to k_max in units of h/Mpc ("P_k_max_h/Mpc", parser.c:449-450)
    and its table, in 1/Mpc, ends there: at h k_max. *)
Definition ends_where_asked (cl : class_lib) : Prop :=
  forall p, khi cl (view p class_fields) = fmul (pf p F_h) (pf p F_k_max).
Definition narrow (h k : f64) : f64 := if fltb (fmul h k) k then fmul h k else k.

(** ** Proofs *)
Lemma mark_idem : forall p, mark_divergent (mark_divergent p) = mark_divergent p.
Proof.
  intros p. unfold mark_divergent. destruct (needs_div p) eqn:D; [|rewrite D; reflexivity].
  change (needs_div (setB p B_divergent true)) with (needs_div p). rewrite D.
  unfold setB. cbn. f_equal. apply functional_extensionality. intros []; reflexivity.
Qed.
Lemma mark_view : forall p, view (mark_divergent p) class_fields = view p class_fields.
Proof. intros p. unfold mark_divergent. destruct (needs_div p); reflexivity. Qed.
Lemma mark_pf : forall p f, pf (mark_divergent p) f = pf p f.
Proof. intros p f. unfold mark_divergent. destruct (needs_div p); reflexivity. Qed.
Lemma covers_clamp : forall cl p, covers cl p -> clamp_k cl (mark_divergent p) = mark_divergent p.
Proof.
  intros cl p [L H]. unfold clamp_k. cbv zeta. rewrite mark_view, !mark_pf, L. rewrite mark_pf, H. reflexivity.
Qed.

Lemma base_again : forall cl s,
  ensure_base cl true s = bindo (bg_init s) (fun s1 => bindo (ps_init cl s1) (fun s2 => int_init s2)).
Proof.
  intros cl s. unfold ensure_base, ensure_bg. cbn [negb]. rewrite andb_false_r. destruct (bg_init s) as [s1|]; [|reflexivity].
  cbn [bindo]. unfold ensure_pk. cbn [negb]. rewrite andb_false_r. destruct (ps_init cl s1) as [s2|]; [|reflexivity].
  cbn [bindo]. unfold ensure_int. cbn [negb]. rewrite andb_false_r. reflexivity.
Qed.
Lemma sig_again : forall k s, ensure_sig k true s = sig_init k s.
Proof. intros k s. unfold ensure_sig. cbn [negb]. rewrite andb_false_r. reflexivity. Qed.
(** With recompute=True only the parameters matter. *)
Lemma from_parameters : forall cl k s t, sp s = sp t ->
  snd (compute_bulk cl k true s) = snd (compute_bulk cl k true t).
Proof.
  intros cl k s t E. unfold compute_bulk. rewrite <- E.
  destruct (negb (coords_ok k (sp s))); [reflexivity|]. destruct (negb (any_contribution (sp s))); [reflexivity|].
  rewrite !base_again. unfold bg_init. cbn [setP sp bindo]. destruct (pi (mark_divergent (sp s)) I_background_bins <? 5); [reflexivity|].
  cbn [bindo]. unfold ps_init. cbn [sp c_bg c_pk c_cls bindo]. unfold int_init. cbn [sp c_bg c_pk c_cls bindo].
  destruct (nonlinear _ && _); [reflexivity|]. destruct (_ && _); [reflexivity|]. cbn [bindo]. rewrite !sig_again.
  unfold sig_init, sig_value. cbn [sp c_bg c_int].
  destruct k; try destruct (Nat.ltb _ _); try destruct (forallb _ _); cbn [c_sig set_sig]; reflexivity.
Qed.
(** What a successful recomputation leaves as parameters. *)
Lemma after_recomputing : forall cl k s s1 r1, compute_bulk cl k true s = (s1, Ok r1) ->
  sp s1 = clamp_k cl (mark_divergent (sp s)).
Proof.
  intros cl k s s1 r1. unfold compute_bulk.
  destruct (negb (coords_ok k (sp s))); [discriminate|]. destruct (negb (any_contribution (sp s))); [discriminate|].
  rewrite !base_again. unfold bg_init. cbn [setP sp bindo]. destruct (pi (mark_divergent (sp s)) I_background_bins <? 5); [discriminate|].
  cbn [bindo]. unfold ps_init. cbn [sp c_bg c_pk c_cls bindo]. unfold int_init. cbn [sp c_bg c_pk c_cls bindo].
  destruct (nonlinear _ && _); [discriminate|]. destruct (_ && _); [discriminate|]. cbn [bindo]. rewrite !sig_again.
  unfold sig_init, sig_value. cbn [sp c_bg c_int].
  destruct k; try destruct (Nat.ltb _ _); try destruct (forallb _ _); cbn [c_sig set_sig sigkind_beq]; try discriminate;
    intros H; injection H as <- _; reflexivity.
Qed.

(** Asking again gives the same answer as long as CLASS covers the range. *)
Theorem C82_repeat_partial : forall cl k s s1 r1,
  covers cl (sp s) -> compute_bulk cl k true s = (s1, Ok r1) ->
  snd (compute_bulk cl k true s1) = Ok r1.
Proof.
  intros cl k s s1 r1 C H. pose proof (after_recomputing cl k s s1 r1 H) as S1. rewrite (covers_clamp cl _ C) in S1.
  assert (Hm : snd (compute_bulk cl k true (setP s (mark_divergent (sp s)))) = Ok r1).
  { change (Ok r1) with (snd (s1, Ok r1)). rewrite <- H. unfold compute_bulk. cbn [setP sp]. rewrite mark_idem.
    replace (coords_ok k (mark_divergent (sp s))) with (coords_ok k (sp s))
      by (unfold mark_divergent; destruct (needs_div (sp s)); reflexivity).
    replace (any_contribution (mark_divergent (sp s))) with (any_contribution (sp s))
      by (unfold mark_divergent; destruct (needs_div (sp s)); reflexivity).
    destruct (negb (coords_ok k (sp s))); [reflexivity|]. destruct (negb (any_contribution (sp s))); reflexivity. }
  rewrite <- Hm. apply from_parameters. exact S1.
Qed.
Print Assumptions C82_repeat_partial.

Lemma iter_first : forall (f : f64 -> f64) n x, Nat.iter (S n) f x = Nat.iter n f (f x).
Proof. intros f n x. induction n as [|n IH]; [reflexivity|]. change (f (Nat.iter (S n) f x) = f (Nat.iter n f (f x))). rewrite IH. reflexivity. Qed.
(** Each recomputation multiplies k_max by h once more. *)
Theorem C82_narrows : forall cl k n s s', ends_where_asked cl ->
  recomputed cl k n s = Some s' ->
  pf (sp s') F_h = pf (sp s) F_h /\
  pf (sp s') F_k_max = Nat.iter n (narrow (pf (sp s) F_h)) (pf (sp s) F_k_max).
Proof.
  intros cl k n s s' A. revert s. induction n as [|n IH]; intros s H.
  - injection H as <-. split; reflexivity.
  - cbn [recomputed] in H. destruct (compute_bulk cl k true s) as [s1 [r1|e|]] eqn:C; try discriminate.
    pose proof (after_recomputing cl k s s1 r1 C) as S1.
    assert (K1 : pf (sp s1) F_h = pf (sp s) F_h /\ pf (sp s1) F_k_max = narrow (pf (sp s) F_h) (pf (sp s) F_k_max)).
    { rewrite S1. unfold clamp_k. cbv zeta. rewrite A. rewrite !mark_pf. unfold narrow.
      destruct (fltb (pf (sp s) F_k_min) _); cbn [setF pf ffield_beq]; rewrite ?mark_pf;
        destruct (fltb (fmul (pf (sp s) F_h) (pf (sp s) F_k_max)) (pf (sp s) F_k_max)); cbn [setF pf ffield_beq]; rewrite ?mark_pf; split; reflexivity. }
    destruct K1 as [Kh Kk]. destruct (IH s1 H) as [Jh Jk]. rewrite Jh, Jk, Kh, Kk. split; [reflexivity|].
    symmetry. apply iter_first.
Qed.
Print Assumptions C82_narrows.

(** A CLASS whose tables end where asked. *)
Definition cl_h : class_lib :=
  mkClass (fun _ => lit 1 100000)
    (fun c => match nth 0 c (VI 0), nth 13 c (VI 0) with VF h, VF k => fmul h k | _, _ => f0 end).
Lemma cl_h_ends : ends_where_asked cl_h.
Proof. intros p. reflexivity. Qed.
(** The second of two identical calls on an object asked for the densities returns something
    else: the correlations without the wavenumbers between h k_max and k_max. *)
Definition history : list op := [OpSet A_has_density (VBool true)].
Definition differs (o1 o2 : res) : bool :=
  match o1, o2 with Ok (OSig _ v), Ok (OSig _ w) => negb (same_vals (sg_iview v) (sg_iview w)) | _, _ => false end.
Theorem C82_repeat_refuted : ~ repeatable.
Proof.
  intros H. 
  assert (X : match run cl_h history coffe0 with
    | Some s => match compute_bulk cl_h SMult true s with
                | (s1, Ok r1) => differs (Ok r1) (snd (compute_bulk cl_h SMult true s1))
                | _ => false end
    | None => false end = true) by (vm_compute; reflexivity).
  destruct (run cl_h history coffe0) as [s|] eqn:E; [|discriminate].
  destruct (compute_bulk cl_h SMult true s) as [s1 [r1|e|]] eqn:C1; try discriminate.
  rewrite (H cl_h history SMult s s1 r1 E C1) in X. destruct r1; try discriminate.
  unfold differs in X. rewrite same_vals_eq in X. discriminate.
Qed.
Print Assumptions C82_repeat_refuted.

(** Ten identical calls take k_max from 300 to below 6; nobody assigned it. *)
Example C82_narrows_met :
  match run cl_h history coffe0 with
  | Some s => feqb (pf (sp s) F_k_max) (of_Z 300) &&
      match recomputed cl_h SMult 10 s with
      | Some s' => fltb (pf (sp s') F_k_max) (of_Z 6)
      | None => false end
  | None => false end = true.
Proof. vm_compute. reflexivity. Qed.
(** A CLASS that covers the range, and an object that computes with it. *)
Example C82_repeat_met :
  match run cl0 history coffe0 with
  | Some s => negb (fltb (pf (sp s) F_k_min) (klo cl0 (view (sp s) class_fields))) &&
      negb (fltb (khi cl0 (view (sp s) class_fields)) (pf (sp s) F_k_max)) &&
      computed (compute_bulk cl0 SMult true s)
  | None => false end = true.
Proof. vm_compute. reflexivity. Qed.
