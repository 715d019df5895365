(** * Configuration files: which fields an option touches, and orders of options. *)
From Coq Require Import ZArith Bool List String Lia Permutation.
From Coq Require Import Floats.SpecFloat.
From Verif Require Import F64 PyParams PySet PyState PyWrites PyValid Config.
Import ListNotations.
Open Scope Z_scope.
Open Scope string_scope.

(** ** What one assignment does to the fields it owns *)

(** The five attributes whose setters read or write fields of one another, and
    omega_cdm, which from_file does not read.  Specification or proof only; nothing in the code. *)
Definition coupled (a : attr) : bool :=
  match a with
  | A_omega_m | A_omega_baryon | A_omega_gamma | A_h | A_m_ncdm | A_omega_cdm => true
  | _ => false
  end.

(** The parameters after an accepted assignment.  Specification or proof only; nothing in the code. *)
Definition after (a : attr) (v : pyval) (p : params) : option params :=
  match attr_update a v p with
  | Keep => Some p
  | Put q => Some q
  | _ => None
  end.

Lemma after_local : forall a v p q p', coupled a = false ->
  (forall x, In x (attr_writes a) -> getf p x = getf q x) ->
  after a v p = Some p' ->
  exists q', after a v q = Some q' /\ forall x, In x (attr_writes a) -> getf p' x = getf q' x.
Proof.
  intros a v p q p' C E H.
  assert (EF : forall k, In (FF k) (attr_writes a) -> pf p k = pf q k).
  { intros k I. specialize (E _ I). injection E. auto. }
  assert (EI : forall k, In (FI k) (attr_writes a) -> pi p k = pi q k).
  { intros k I. specialize (E _ I). injection E. auto. }
  unfold after in *.
  destruct a; try discriminate C; cbv beta iota zeta delta [attr_update attr_writes
    upd_close upd_double upd_cint upd_int upd_bool upd_enum upd_list upd_N_ncdm upd_k
    upd_populations upd_integrals_fftlog_sampling] in *;
  try (rewrite <- (EF _ (or_introl eq_refl)));
  try (rewrite <- (EI _ (or_introl eq_refl)));
  repeat match type of H with
         | context [match ?x with _ => _ end] =>
             lazymatch x with context [match _ with _ => _ end] => fail | _ => destruct x; try discriminate H end
         end; try discriminate H; injection H as <-;
  eexists; (split; [reflexivity|]); intros x I; try exact (E x I);
  repeat (destruct I as [<-|I]; [reflexivity|]); destruct I.
Qed.

(** The field a coupled option names.  Specification or proof only; nothing in the code. *)
Definition own_field (a : attr) : option ffield :=
  match a with
  | A_omega_m => Some Omega0_m | A_omega_baryon => Some Omega0_baryon
  | A_omega_gamma => Some Omega0_gamma | A_h => Some F_h | A_m_ncdm => Some F_m_ncdm
  | _ => None
  end.
Definition own_fields := [Omega0_m; Omega0_baryon; Omega0_gamma; F_h; F_m_ncdm].
Definition cdm_ok (p : params) : Prop :=
  pf p Omega0_cdm = fsub (fsub (pf p Omega0_m) (pf p Omega0_baryon)) (pf p Omega0_nu).
Definition nu_of (m h : f64) : f64 := fdiv (fdiv (fdiv m (lit 9314 100)) h) h.

Lemma coupled_step : forall a k x p p', own_field a = Some k -> after a (VFloat x) p = Some p' ->
  if allclose x (pf p k) then p' = p else
    pf p' k = x /\ (forall j, In j own_fields -> j <> k -> pf p' j = pf p j) /\
    pf p' Omega0_de = fsub (fsub f1 (pf p' Omega0_m)) (pf p' Omega0_gamma) /\
    (cdm_ok p -> cdm_ok p') /\
    pf p' Omega0_nu = (if attr_beq a A_m_ncdm then nu_of x (pf p F_h) else pf p Omega0_nu).
Proof.
  intros a k x p p' O H. unfold after in H.
  assert (CN : forall lo hi y, check_num (VFloat x) lo hi = inl y -> y = x).
  { intros lo hi y C. unfold check_num in C. cbn [as_num] in C.
    destruct (fltb x lo); [discriminate|]. destruct (fltb hi x); [discriminate|]. congruence. }
  destruct a; try discriminate O; injection O as <-; cbv beta iota zeta delta [attr_update
    upd_omega_m upd_omega_baryon upd_omega_gamma upd_h upd_m_ncdm] in H;
  (match type of H with context [check_num ?v ?lo ?hi] =>
     destruct (check_num v lo hi) as [y|] eqn:C; [|discriminate H] end);
  apply CN in C; subst y;
  (match goal with |- context [allclose ?u ?v] => destruct (allclose u v) eqn:A end);
  try (injection H as <-; reflexivity);
  repeat match type of H with context [if ?b then _ else _] => destruct b; try discriminate H end;
  injection H as <-; unfold cdm_ok, balance, rebalance_cdm, nu_of;
  (split; [reflexivity|]);
  (split; [intros j I N; repeat (destruct I as [<-|I]; [first [congruence | reflexivity]|]); destruct I|]);
  (split; [reflexivity|]); (split; [|reflexivity]); intros K; cbn; first [reflexivity | exact K].
Qed.

(** ** Options *)

(** Specification or proof only; nothing in the code. *)
Definition opt_after (f : file) (o : opt) (p : params) : option params :=
  match entry (o_key o) f with
  | None => Some p
  | Some v => match convert (o_kind o) v, o_attr o with
              | inl w, Some a => after a w p
              | _, _ => None
              end
  end.
Fixpoint opts_after (f : file) (l : list opt) (p : params) : option params :=
  match l with
  | [] => Some p
  | o :: r => match opt_after f o p with Some q => opts_after f r q | None => None end
  end.

Lemma set_attr_after : forall a v s s' r, set_attr a v s = (s', Ok r) -> after a v (sp s) = Some (sp s').
Proof.
  intros a v s s' r H. unfold set_attr in H. unfold after.
  destruct (attr_update a v (sp s)) as [|p|e|p e]; injection H as <- ?; try discriminate; reflexivity.
Qed.

Lemma read_option_after : forall f o s s' r, read_option f o s = (s', Ok r) ->
  opt_after f o (sp s) = Some (sp s').
Proof.
  intros f o s s' r H. unfold read_option in H. unfold opt_after.
  destruct (entry (o_key o) f) as [v|]; [|injection H as <- _; reflexivity].
  destruct (convert (o_kind o) v) as [w|e]; [|discriminate].
  destruct (o_attr o) as [a|]; [|discriminate]. exact (set_attr_after _ _ _ _ _ H).
Qed.

Lemma seqr_after : forall f l s s' r, seqr (read_option f) l s = (s', Ok r) ->
  opts_after f l (sp s) = Some (sp s').
Proof.
  induction l as [|o l IH]; intros s s' r H; simpl in H.
  - injection H as <- _. reflexivity.
  - unfold bindr in H. destruct (read_option f o s) as [s1 [x|e|]] eqn:E; try discriminate.
    simpl. rewrite (read_option_after _ _ _ _ _ E). exact (IH _ _ _ H).
Qed.

Definition owns (o : opt) : list field :=
  match o_attr o with Some a => attr_writes a | None => [] end.
Definition local (o : opt) : bool :=
  match o_attr o with Some a => negb (coupled a) | None => true end.

Lemma after_else : forall a v p p' x, after a v p = Some p' -> ~ In x (attr_writes a) -> getf p' x = getf p x.
Proof.
  intros a v p p' x H N. unfold after in H. destruct (attr_update a v p) as [|q|e|q e] eqn:E; try discriminate;
    injection H as <-; [reflexivity|]. exact (attr_update_Put _ _ _ _ E x N).
Qed.

Lemma opt_else : forall f o p p' x, opt_after f o p = Some p' -> ~ In x (owns o) -> getf p' x = getf p x.
Proof.
  intros f o p p' x H N. unfold opt_after in H. unfold owns in N.
  destruct (entry (o_key o) f); [|congruence].
  destruct (convert (o_kind o) p0) as [w|]; [|discriminate]. destruct (o_attr o) as [a|]; [|discriminate].
  exact (after_else _ _ _ _ _ H N).
Qed.

Lemma opt_local : forall f o p q p', local o = true ->
  (forall x, In x (owns o) -> getf p x = getf q x) -> opt_after f o p = Some p' ->
  exists q', opt_after f o q = Some q' /\ forall x, In x (owns o) -> getf p' x = getf q' x.
Proof.
  intros f o p q p' L E H. unfold opt_after, owns, local in *.
  destruct (entry (o_key o) f); [|injection H as <-; exists q; auto].
  destruct (convert (o_kind o) p0) as [w|]; [|discriminate]. destruct (o_attr o) as [a|]; [|discriminate].
  apply negb_true_iff in L. exact (after_local _ _ _ _ _ L E H).
Qed.

Lemma opts_else : forall f l p p' x, opts_after f l p = Some p' ->
  (forall o, In o l -> ~ In x (owns o)) -> getf p' x = getf p x.
Proof.
  induction l as [|o l IH]; intros p p' x H N; simpl in H; [congruence|].
  destruct (opt_after f o p) as [q|] eqn:E; [|discriminate].
  rewrite (IH _ _ _ H) by (intros o' I; apply N; right; exact I).
  apply (opt_else _ _ _ _ _ E). apply N. left; reflexivity.
Qed.

(** A local option leaves in its own fields what it would have left alone. *)
Lemma opts_own : forall f l p p' o, NoDup (map o_key l) -> opts_after f l p = Some p' ->
  In o l -> local o = true ->
  (forall o' x, In o' l -> o_key o' <> o_key o -> In x (owns o) -> ~ In x (owns o')) ->
  exists q, opt_after f o p = Some q /\ forall x, In x (owns o) -> getf p' x = getf q x.
Proof.
  induction l as [|o1 l IH]; intros p p' o ND H I L D; [destruct I|].
  simpl in H. destruct (opt_after f o1 p) as [p1|] eqn:E; [|discriminate].
  simpl in ND. inversion ND as [|? ? N1 N2]; subst. destruct I as [->|I].
  - exists p1. split; [exact E|]. intros x Hx. apply (opts_else _ _ _ _ _ H).
    intros o' I'. apply D; [right; exact I'| |exact Hx]. intros K. apply N1. rewrite <- K. apply in_map. exact I'.
  - destruct (IH _ _ _ N2 H I L) as (q & Q1 & Q2).
    { intros o' x I'. apply D. right; exact I'. }
    assert (K : o_key o1 <> o_key o). { intros K. apply N1. rewrite K. apply in_map. exact I. }
    destruct (opt_local f o p1 p q L) as (q' & R1 & R2); [|exact Q1|].
    { intros x Hx. apply (opt_else _ _ _ _ _ E). apply D; [left; reflexivity|exact K|exact Hx]. }
    exists q'. split; [exact R1|]. intros x Hx. rewrite (Q2 x Hx). exact (R2 x Hx).
Qed.

(** Two orders of the same options agree on every field owned by a local one and
    on every field no option owns. *)
Lemma orders_agree : forall f l1 l2 p q p' q', Permutation l1 l2 -> NoDup (map o_key l1) ->
  params_eq p q -> opts_after f l1 p = Some p' -> opts_after f l2 q = Some q' ->
  forall x,
  ((exists o, In o l1 /\ In x (owns o) /\ local o = true /\
     (forall o' x, In o' l1 -> o_key o' <> o_key o -> In x (owns o) -> ~ In x (owns o'))) \/
   (forall o, In o l1 -> ~ In x (owns o))) ->
  getf p' x = getf q' x.
Proof.
  intros f l1 l2 p q p' q' P ND E H1 H2 x [(o & I & X & L & D)|N].
  - assert (ND2 : NoDup (map o_key l2)) by (eapply Permutation_NoDup; [apply Permutation_map; exact P|exact ND]).
    destruct (opts_own _ _ _ _ _ ND H1 I L D) as (r1 & A1 & A2).
    destruct (opts_own f l2 q q' o ND2 H2) as (r2 & B1 & B2); auto.
    { eapply Permutation_in; eassumption. }
    { intros o' y I'. apply D. apply (Permutation_in o' (Permutation_sym P)). exact I'. }
    destruct (opt_local f o p q r1 L (fun x _ => E x) A1) as (r & C1 & C2).
    rewrite (A2 x X), (C2 x X). rewrite B1 in C1. injection C1 as ->. symmetry. exact (B2 x X).
  - rewrite (opts_else _ _ _ _ _ H1 N). rewrite (opts_else _ _ _ _ x H2); [exact (E x)|].
    intros o I. apply N. apply (Permutation_in o (Permutation_sym P)). exact I.
Qed.

(** Specification or proof only; nothing in the code. *)
Definition separateb (o : opt) (l : list opt) : bool :=
  forallb (fun o' => String.eqb (o_key o') (o_key o) || disjointb (owns o') (owns o)) l.
Lemma separateb_spec : forall o l, separateb o l = true ->
  forall o' x, In o' l -> o_key o' <> o_key o -> In x (owns o) -> ~ In x (owns o').
Proof.
  intros o l S o' x I K X Y. unfold separateb in S. rewrite forallb_forall in S. specialize (S o' I).
  apply orb_prop in S as [S|S]; [apply String.eqb_eq in S; contradiction|].
  unfold disjointb in S. rewrite forallb_forall in S. specialize (S x X).
  apply negb_true_iff in S. apply memb_In in Y. congruence.
Qed.
Lemma separateb_perm : forall o l l', Permutation l l' -> separateb o l = true -> separateb o l' = true.
Proof.
  intros o l l' P S. unfold separateb in *. rewrite forallb_forall in *. intros o' I.
  apply S. apply (Permutation_in o' (Permutation_sym P)). exact I.
Qed.

Lemma nodupb : forall l : list string,
  (fix go l := match l with [] => true | x :: r => negb (existsb (String.eqb x) r) && go r end) l = true -> NoDup l.
Proof.
  induction l as [|x r IH]; intros H; constructor; apply andb_prop in H as [H1 H2]; [|auto].
  intros I. apply negb_true_iff in H1. assert (existsb (String.eqb x) r = true); [|congruence].
  apply existsb_exists. exists x. split; [exact I|apply String.eqb_refl].
Qed.

(** One phase of local options: any two orders that both go through agree. *)
Lemma phase_agree : forall f l0 l1 l2 p q p' q',
  forallb (fun o => local o && separateb o l0) l0 = true -> NoDup (map o_key l0) ->
  Permutation l0 l1 -> Permutation l0 l2 -> params_eq p q ->
  opts_after f l1 p = Some p' -> opts_after f l2 q = Some q' -> params_eq p' q'.
Proof.
  intros f l0 l1 l2 p q p' q' S ND P1 P2 E H1 H2 x. rewrite forallb_forall in S.
  assert (ND1 : NoDup (map o_key l1)) by (eapply Permutation_NoDup; [apply Permutation_map; exact P1|exact ND]).
  apply (orders_agree f l1 l2 p q p' q' (Permutation_trans (Permutation_sym P1) P2) ND1 E H1 H2).
  destruct (existsb (fun o => memb x (owns o)) l0) eqn:X.
  - left. apply existsb_exists in X as (o & I & X). exists o.
    specialize (S o I). apply andb_prop in S as [L S].
    split; [exact (Permutation_in o P1 I)|]. split; [apply memb_In; exact X|]. split; [exact L|].
    apply separateb_spec. exact (separateb_perm _ _ _ P1 S).
  - right. intros o I M. assert (existsb (fun o => memb x (owns o)) l0 = true); [|congruence].
    apply existsb_exists. exists o. split; [exact (Permutation_in o (Permutation_sym P1) I)|apply memb_In; exact M].
Qed.

(** *** The coupled options *)

(** The number the file gives for an option, and whether assigning it changes [p].
    Specification or proof only; nothing in the code. *)
Definition number (f : file) (k : string) : option f64 :=
  match entry k f with
  | Some v => match text_float v with inl x => Some x | inr _ => None end
  | None => None
  end.
Definition changes (f : file) (p : params) (o : opt) : bool :=
  match o_attr o with
  | Some a => match own_field a, number f (o_key o) with
              | Some k, Some x => negb (allclose x (pf p k))
              | _, _ => false
              end
  | None => false
  end.
Definition coupled_fields : list ffield := own_fields ++ [Omega0_nu; Omega0_cdm; Omega0_de].

Lemma opt_coupled : forall f o a k p p', o_attr o = Some a -> o_kind o = KFloat -> own_field a = Some k ->
  opt_after f o p = Some p' ->
  if changes f p o then
    exists x, number f (o_key o) = Some x /\
    pf p' k = x /\ (forall j, In j own_fields -> j <> k -> pf p' j = pf p j) /\
    pf p' Omega0_de = fsub (fsub f1 (pf p' Omega0_m)) (pf p' Omega0_gamma) /\
    (cdm_ok p -> cdm_ok p') /\
    pf p' Omega0_nu = (if attr_beq a A_m_ncdm then nu_of x (pf p F_h) else pf p Omega0_nu)
  else p' = p.
Proof.
  intros f o a k p p' A K O H. unfold opt_after in H. unfold changes, number. rewrite A, O, K in *.
  destruct (entry (o_key o) f) as [v|]; [|injection H as <-; reflexivity].
  cbn [convert] in H. destruct (text_float v) as [x|]; [|discriminate].
  pose proof (coupled_step a k x p p' O H) as S.
  destruct (allclose x (pf p k)); cbn [negb]; [exact S|]. exists x. split; [reflexivity|exact S].
Qed.

Lemma getf_pf : forall p q k, getf p (FF k) = getf q (FF k) -> pf p k = pf q k.
Proof. intros p q k H. injection H. auto. Qed.

(** Membership in the float options, and what each one is.  Specification or proof only; nothing in the code. *)
Definition float_like (o : opt) : Prop :=
  o_kind o = KFloat /\
  match o_attr o with
  | None => True
  | Some a => o_key o = attr_key a /\
     match own_field a with
     | Some _ => True
     | None => forall k, In k coupled_fields -> ~ In (FF k) (attr_writes a)
     end
  end.
Definition float_likeb (o : opt) : bool :=
  match o_kind o with KFloat => true | _ => false end &&
  match o_attr o with
  | None => true
  | Some a => String.eqb (o_key o) (attr_key a) &&
     match own_field a with
     | Some _ => true
     | None => disjointb (attr_writes a) (map FF coupled_fields)
     end
  end.
Lemma float_likeb_spec : forall o, float_likeb o = true -> float_like o.
Proof.
  intros o H. unfold float_likeb in H. apply andb_prop in H as [H1 H2]. split.
  - destruct (o_kind o); try discriminate; reflexivity.
  - destruct (o_attr o) as [a|]; [|exact I]. apply andb_prop in H2 as [H2 H3].
    split; [apply String.eqb_eq; exact H2|]. destruct (own_field a); [exact I|].
    intros k K X. unfold disjointb in H3. rewrite forallb_forall in H3.
    specialize (H3 _ (in_map FF _ _ K)). apply negb_true_iff in H3. apply memb_In in X. congruence.
Qed.
Lemma float_options_like : forall o, In o float_options -> float_like o.
Proof.
  assert (H : forallb float_likeb float_options = true) by (vm_compute; reflexivity).
  intros o I. rewrite forallb_forall in H. apply float_likeb_spec. exact (H o I).
Qed.

Lemma uncoupled_same : forall f o p p', float_like o ->
  match o_attr o with Some a => own_field a = None | None => True end ->
  opt_after f o p = Some p' -> forall k, In k coupled_fields -> pf p' k = pf p k.
Proof.
  intros f o p p' [_ L] N H k K. apply getf_pf. apply (opt_else _ _ _ _ _ H). unfold owns.
  destruct (o_attr o) as [a|]; [|auto]. destruct L as [_ L]. rewrite N in L. exact (L k K).
Qed.

Lemma own_field_inj : forall a b k, own_field a = Some k -> own_field b = Some k -> a = b.
Proof. intros a b k A B. destruct a; try discriminate A; injection A as <-; destruct b; try discriminate B; reflexivity. Qed.
Lemma own_in : forall a k, own_field a = Some k -> In k own_fields.
Proof. intros a k A. destruct a; try discriminate A; injection A as <-; simpl; tauto. Qed.
Lemma own_coupled : forall k, In k own_fields -> In k coupled_fields.
Proof. intros k I. apply in_or_app. left; exact I. Qed.

(** An option does not touch what another one names. *)
Lemma own_kept : forall f o p p' a k, float_like o -> opt_after f o p = Some p' ->
  own_field a = Some k -> o_attr o <> Some a -> pf p' k = pf p k.
Proof.
  intros f o p p' a k L H A N. pose proof L as [K L'].
  destruct (o_attr o) as [b|] eqn:B; [destruct (own_field b) as [j|] eqn:J|].
  - pose proof (opt_coupled f o b j p p' B K J H) as S. destruct (changes f p o); [|subst; reflexivity].
    destruct S as (x & _ & _ & S & _). apply S; [exact (own_in _ _ A)|].
    intros ->. apply N. f_equal. exact (own_field_inj _ _ _ J A).
  - apply (uncoupled_same f o p p' L); [rewrite B; exact J|exact H|]. exact (own_coupled _ (own_in _ _ A)).
  - apply (uncoupled_same f o p p' L); [rewrite B; exact I|exact H|]. exact (own_coupled _ (own_in _ _ A)).
Qed.

Lemma changes_kept : forall f o o' p p', float_like o -> float_like o' -> o_key o <> o_key o' ->
  opt_after f o p = Some p' -> changes f p' o' = changes f p o'.
Proof.
  intros f o o' p p' L L' N H. unfold changes. pose proof L' as [_ K']. pose proof L as [_ K].
  destruct (o_attr o') as [a|] eqn:A; [|reflexivity].
  destruct (own_field a) as [k|] eqn:O; [|reflexivity].
  rewrite (own_kept f o p p' a k L H O); [reflexivity|].
  intros B. rewrite B in K. destruct K as [K _]. destruct K' as [K' _]. congruence.
Qed.

Lemma head_cases : forall f o p p1, float_like o -> opt_after f o p = Some p1 ->
  (changes f p o = false /\ (forall k, In k coupled_fields -> pf p1 k = pf p k)) \/
  (changes f p o = true /\ exists a k x, o_attr o = Some a /\ own_field a = Some k /\
    number f (o_key o) = Some x /\
    pf p1 k = x /\ (forall j, In j own_fields -> j <> k -> pf p1 j = pf p j) /\
    pf p1 Omega0_de = fsub (fsub f1 (pf p1 Omega0_m)) (pf p1 Omega0_gamma) /\
    (cdm_ok p -> cdm_ok p1) /\
    pf p1 Omega0_nu = (if attr_beq a A_m_ncdm then nu_of x (pf p F_h) else pf p Omega0_nu)).
Proof.
  intros f o p p1 L H. pose proof L as [K L'].
  destruct (o_attr o) as [a|] eqn:A; [destruct (own_field a) as [k|] eqn:O|].
  - pose proof (opt_coupled f o a k p p1 A K O H) as S. destruct (changes f p o).
    + right. split; [reflexivity|]. destruct S as (x & S). exists a, k, x. intuition.
    + left. subst. auto.
  - left. split; [unfold changes; rewrite A, O; reflexivity|].
    apply (uncoupled_same f o p p1 L); [rewrite A; exact O|exact H].
  - left. split; [unfold changes; rewrite A; reflexivity|].
    apply (uncoupled_same f o p p1 L); [rewrite A; exact I|exact H].
Qed.

Lemma tail_changes : forall f o l p p1, float_like o -> (forall o, In o l -> float_like o) ->
  ~ In (o_key o) (map o_key l) -> opt_after f o p = Some p1 ->
  forall o', In o' l -> changes f p1 o' = changes f p o'.
Proof.
  intros f o l p p1 L LL N H o' I. apply (changes_kept f o o' p p1 L (LL _ I)); [|exact H].
  intros E. apply N. rewrite E. apply in_map. exact I.
Qed.

Lemma run_cdm : forall f l p p', (forall o, In o l -> float_like o) -> opts_after f l p = Some p' ->
  cdm_ok p -> cdm_ok p'.
Proof.
  induction l as [|o l IH]; intros p p' LL H C; simpl in H; [congruence|].
  destruct (opt_after f o p) as [p1|] eqn:E; [|discriminate].
  apply (IH p1 p'); [intros o' I; apply LL; right; exact I|exact H|].
  destruct (head_cases f o p p1 (LL o (or_introl eq_refl)) E) as [[_ S]|(_ & a & k & x & S)].
  - unfold cdm_ok in *. rewrite !S by (simpl; tauto). exact C.
  - destruct S as (_ & _ & _ & _ & _ & _ & S & _). exact (S C).
Qed.

Lemma run_own_field : forall f a k l p p', own_field a = Some k -> NoDup (map o_key l) ->
  (forall o, In o l -> float_like o) -> opts_after f l p = Some p' ->
  (forall o x, In o l -> o_attr o = Some a -> changes f p o = true -> number f (o_key o) = Some x -> pf p' k = x) /\
  ((forall o, In o l -> o_attr o = Some a -> changes f p o = false) -> pf p' k = pf p k).
Proof.
  intros f a k. induction l as [|o l IH]; intros p p' O ND LL H; simpl in H.
  - injection H as <-. split; [intros ? ? []|reflexivity].
  - destruct (opt_after f o p) as [p1|] eqn:E; [|discriminate].
    simpl in ND. inversion ND as [|? ? N1 N2]; subst.
    pose proof (LL o (or_introl eq_refl)) as Lo.
    assert (LT : forall o, In o l -> float_like o) by (intros o' I; apply LL; right; exact I).
    pose proof (tail_changes f o l p p1 Lo LT N1 E) as T.
    destruct (IH p1 p' O N2 LT H) as [J1 J2].
    assert (SAME : forall o', In o' l -> o_attr o = Some a -> o_attr o' = Some a -> False).
    { intros o' I A A'. apply N1. destruct Lo as [_ Lo]. rewrite A in Lo. destruct Lo as [Lo _].
      destruct (LT o' I) as [_ L']. rewrite A' in L'. destruct L' as [L' _]. rewrite Lo, <- L'. apply in_map. exact I. }
    destruct (head_cases f o p p1 Lo E) as [[C S]|(C & b & j & y & B & Oj & Ny & P1 & P2 & _)].
    + assert (K : pf p1 k = pf p k) by (apply S; exact (own_coupled _ (own_in _ _ O))).
      split.
      * intros o' x [<-|I] A Ch Nx; [congruence|]. apply (J1 o' x I A); [rewrite T; assumption|exact Nx].
      * intros Hn. rewrite J2; [exact K|]. intros o' I A. rewrite T by exact I. apply Hn; [right; exact I|exact A].
    + split.
      * intros o' x [<-|I] A Ch Nx.
        -- assert (b = a) by congruence. subst b. assert (j = k) by congruence. subst j.
           rewrite J2; [congruence|]. intros o' I A'. exfalso. exact (SAME o' I A A').
        -- apply (J1 o' x I A); [rewrite T; assumption|exact Nx].
      * intros Hn. rewrite J2.
        -- apply P2; [exact (own_in _ _ O)|]. intros ->.
           assert (b = a) by exact (own_field_inj _ _ _ Oj O). subst b.
           rewrite (Hn o (or_introl eq_refl) B) in C. discriminate.
        -- intros o' I A. rewrite T by exact I. apply Hn; [right; exact I|exact A].
Qed.

Lemma run_unchanged : forall f l p p', NoDup (map o_key l) -> (forall o, In o l -> float_like o) ->
  opts_after f l p = Some p' -> existsb (changes f p) l = false ->
  forall k, In k coupled_fields -> pf p' k = pf p k.
Proof.
  intros f. induction l as [|o l IH]; intros p p' ND LL H X k K; simpl in H; [congruence|].
  destruct (opt_after f o p) as [p1|] eqn:E; [|discriminate].
  simpl in ND. inversion ND as [|? ? N1 N2]; subst. simpl in X. apply orb_false_iff in X as [X1 X2].
  pose proof (LL o (or_introl eq_refl)) as Lo.
  assert (LT : forall o, In o l -> float_like o) by (intros o' I; apply LL; right; exact I).
  pose proof (tail_changes f o l p p1 Lo LT N1 E) as T.
  rewrite (IH p1 p' N2 LT H); [|clear -X2 T|exact K].
  - destruct (head_cases f o p p1 Lo E) as [[_ S]|(C & _)]; [exact (S k K)|congruence].
  - induction l as [|o' l IHl]; [reflexivity|]. simpl in *. apply orb_false_iff in X2 as [Y1 Y2].
    rewrite T by (left; reflexivity). rewrite Y1. apply IHl; [exact Y2|]. intros o2 I. apply T. right; exact I.
Qed.

Lemma existsb_ext_in : forall (A : Type) (g h : A -> bool) l, (forall x, In x l -> g x = h x) -> existsb g l = existsb h l.
Proof.
  intros A g h l H. induction l as [|a l IH]; [reflexivity|]. simpl. rewrite H by (left; reflexivity).
  f_equal. apply IH. intros x I. apply H. right; exact I.
Qed.

Lemma run_de : forall f l p p', NoDup (map o_key l) -> (forall o, In o l -> float_like o) ->
  opts_after f l p = Some p' -> existsb (changes f p) l = true ->
  pf p' Omega0_de = fsub (fsub f1 (pf p' Omega0_m)) (pf p' Omega0_gamma).
Proof.
  intros f. induction l as [|o l IH]; intros p p' ND LL H X; simpl in H; [discriminate|].
  destruct (opt_after f o p) as [p1|] eqn:E; [|discriminate].
  simpl in ND. inversion ND as [|? ? N1 N2]; subst. simpl in X.
  pose proof (LL o (or_introl eq_refl)) as Lo.
  assert (LT : forall o, In o l -> float_like o) by (intros o' I; apply LL; right; exact I).
  pose proof (tail_changes f o l p p1 Lo LT N1 E) as T.
  destruct (existsb (changes f p1) l) eqn:Y.
  - exact (IH p1 p' N2 LT H Y).
  - rewrite !(run_unchanged f l p1 p' N2 LT H Y) by (simpl; tauto).
    rewrite (existsb_ext_in _ _ _ _ T) in Y. rewrite Y, orb_false_r in X.
    destruct (head_cases f o p p1 Lo E) as [[C _]|(_ & a & k & x & _ & _ & _ & _ & _ & D & _)]; [congruence|exact D].
Qed.

Lemma run_nu : forall f l p p', NoDup (map o_key l) -> (forall o, In o l -> float_like o) ->
  opts_after f l p = Some p' ->
  (forall o x, In o l -> o_attr o = Some A_m_ncdm -> changes f p o = true -> number f (o_key o) = Some x ->
     (forall o', In o' l -> o_attr o' = Some A_h -> changes f p o' = false) ->
     pf p' Omega0_nu = nu_of x (pf p F_h)) /\
  ((forall o, In o l -> o_attr o = Some A_m_ncdm -> changes f p o = false) -> pf p' Omega0_nu = pf p Omega0_nu).
Proof.
  intros f. induction l as [|o l IH]; intros p p' ND LL H; simpl in H.
  - injection H as <-. split; [intros ? ? []|reflexivity].
  - destruct (opt_after f o p) as [p1|] eqn:E; [|discriminate].
    simpl in ND. inversion ND as [|? ? N1 N2]; subst.
    pose proof (LL o (or_introl eq_refl)) as Lo.
    assert (LT : forall o, In o l -> float_like o) by (intros o' I; apply LL; right; exact I).
    pose proof (tail_changes f o l p p1 Lo LT N1 E) as T.
    destruct (IH p1 p' N2 LT H) as [J1 J2].
    assert (SAME : forall o', In o' l -> o_attr o = Some A_m_ncdm -> o_attr o' = Some A_m_ncdm -> False).
    { intros o' I A A'. apply N1. destruct Lo as [_ Lo]. rewrite A in Lo. destruct Lo as [Lo _].
      destruct (LT o' I) as [_ L']. rewrite A' in L'. destruct L' as [L' _]. rewrite Lo, <- L'. apply in_map. exact I. }
    split.
    + intros o' x [<-|I] A C Nx Hh.
      * rewrite J2 by (intros o' I A'; exfalso; exact (SAME o' I A A')).
        destruct (head_cases f o p p1 Lo E) as [[C' _]|(_ & b & j & y & B & _ & Ny & _ & _ & _ & _ & S)]; [congruence|].
        assert (b = A_m_ncdm) by congruence. subst b. cbn in S. congruence.
      * rewrite (J1 o' x I A); [|rewrite T; assumption|exact Nx|].
        -- f_equal. destruct (head_cases f o p p1 Lo E) as [[_ S]|(C' & b & j & y & B & Oj & _ & _ & P2 & _)].
           ++ apply S. simpl; tauto.
           ++ apply P2; [simpl; tauto|]. intros <-. assert (b = A_h) by exact (own_field_inj b A_h _ Oj eq_refl).
              subst b. rewrite (Hh o (or_introl eq_refl) B) in C'. discriminate.
        -- intros o2 I2 A2. rewrite T by exact I2. apply Hh; [right; exact I2|exact A2].
    + intros Hn. rewrite J2.
      * destruct (head_cases f o p p1 Lo E) as [[_ S]|(C' & b & j & y & B & Oj & _ & _ & _ & _ & _ & S)].
        -- apply S. simpl; tauto.
        -- destruct (attr_beq b A_m_ncdm) eqn:Bm; [|exact S]. apply internal_attr_dec_bl in Bm. subst b.
           rewrite (Hn o (or_introl eq_refl) B) in C'. discriminate.
      * intros o' I A. rewrite T by exact I. apply Hn; [right; exact I|exact A].
Qed.

Lemma changes_eq : forall f p q o, params_eq p q -> changes f p o = changes f q o.
Proof.
  intros f p q o E. unfold changes. destruct (o_attr o) as [a|]; [|reflexivity].
  destruct (own_field a) as [k|]; [|reflexivity]. rewrite (getf_pf p q k (E (FF k))). reflexivity.
Qed.

Lemma changes_number : forall f p o, changes f p o = true -> exists x, number f (o_key o) = Some x.
Proof.
  intros f p o H. unfold changes in H. destruct (o_attr o) as [a|]; [|discriminate].
  destruct (own_field a); [|discriminate]. destruct (number f (o_key o)); [eauto|discriminate].
Qed.

Lemma existsb_perm : forall (A : Type) (g : A -> bool) l l', Permutation l l' -> existsb g l = existsb g l'.
Proof.
  intros A g l l' P. induction P; simpl; try congruence.
  rewrite !orb_assoc. f_equal. apply orb_comm.
Qed.

Lemma coupled_dec : forall x, (exists k, x = FF k /\ In k coupled_fields) \/
  memb x (map FF coupled_fields) = false.
Proof.
  intros x. destruct (memb x (map FF coupled_fields)) eqn:M; [left|right; reflexivity].
  apply memb_In in M. apply in_map_iff in M as (k & <- & K). eauto.
Qed.

Lemma float_phase_agree : forall f l1 l2 p q p' q',
  Permutation float_options l1 -> Permutation float_options l2 -> params_eq p q -> cdm_ok p ->
  opts_after f l1 p = Some p' -> opts_after f l2 q = Some q' ->
  (forall o, In o float_options -> o_attr o = Some A_h -> changes f p o = false) \/
  (forall o, In o float_options -> o_attr o = Some A_m_ncdm -> changes f p o = false) ->
  params_eq p' q'.
Proof.
  intros f l1 l2 p q p' q' P1 P2 E C H1 H2 HM.
  assert (ND : NoDup (map o_key float_options)) by (apply nodupb; vm_compute; reflexivity).
  assert (ND1 : NoDup (map o_key l1)) by (eapply Permutation_NoDup; [apply Permutation_map; exact P1|exact ND]).
  assert (ND2 : NoDup (map o_key l2)) by (eapply Permutation_NoDup; [apply Permutation_map; exact P2|exact ND]).
  assert (I1 : forall o, In o l1 <-> In o float_options).
  { intros o. split; apply Permutation_in; [apply Permutation_sym|]; exact P1. }
  assert (I2 : forall o, In o l2 <-> In o float_options).
  { intros o. split; apply Permutation_in; [apply Permutation_sym|]; exact P2. }
  assert (L1 : forall o, In o l1 -> float_like o) by (intros o I; apply float_options_like, I1, I).
  assert (L2 : forall o, In o l2 -> float_like o) by (intros o I; apply float_options_like, I2, I).
  assert (CE : forall o, changes f q o = changes f p o) by (intros o; symmetry; apply changes_eq; exact E).
  assert (EF : forall k, pf p k = pf q k) by (intros k; apply getf_pf, E).
  assert (DEC : forall a, (exists o x, In o float_options /\ o_attr o = Some a /\ changes f p o = true /\ number f (o_key o) = Some x) \/
                     (forall o, In o float_options -> o_attr o = Some a -> changes f p o = false)).
  { intros a. destruct (existsb (fun o => match o_attr o with Some b => attr_beq b a | None => false end && changes f p o) float_options) eqn:X.
    - left. apply existsb_exists in X as (o & I & X). apply andb_prop in X as [X1 X2].
      destruct (o_attr o) as [b|] eqn:B; [|discriminate]. apply internal_attr_dec_bl in X1. subst b.
      destruct (changes_number _ _ _ X2) as (y & Y). exists o, y. auto.
    - right. intros o I A. destruct (changes f p o) eqn:Ch; [|reflexivity]. exfalso.
      assert (Z : existsb (fun o => match o_attr o with Some b => attr_beq b a | None => false end && changes f p o) float_options = true); [|congruence].
      apply existsb_exists. exists o. split; [exact I|]. rewrite A, Ch. rewrite internal_attr_dec_lb by reflexivity. reflexivity. }
  assert (OWN : forall a k, own_field a = Some k -> pf p' k = pf q' k).
  { intros a k O.
    destruct (run_own_field f a k l1 p p' O ND1 L1 H1) as [A1 A2].
    destruct (run_own_field f a k l2 q q' O ND2 L2 H2) as [B1 B2].
    destruct (DEC a) as [(o & x & I & A & Ch & N)|Hn].
    - rewrite (A1 o x); [|apply I1; exact I|exact A|exact Ch|exact N].
      symmetry. apply (B1 o x); [apply I2; exact I|exact A|rewrite CE; exact Ch|exact N].
    - rewrite A2 by (intros o I; apply Hn, I1, I). rewrite B2; [apply EF|].
      intros o I A. rewrite CE. apply Hn; [apply I2, I|exact A]. }
  assert (NU : pf p' Omega0_nu = pf q' Omega0_nu).
  { destruct (run_nu f l1 p p' ND1 L1 H1) as [A1 A2]. destruct (run_nu f l2 q q' ND2 L2 H2) as [B1 B2].
    destruct (DEC A_m_ncdm) as [(o & x & I & A & Ch & N)|Hn].
    - destruct HM as [HM|HM]; [|rewrite (HM o I A) in Ch; discriminate].
      rewrite (A1 o x); [|apply I1; exact I|exact A|exact Ch|exact N|intros o' I'; apply HM, I1, I'].
      rewrite (B1 o x); [rewrite (EF F_h); reflexivity|apply I2; exact I|exact A|rewrite CE; exact Ch|exact N|].
      intros o' I' A'. rewrite CE. apply HM; [apply I2, I'|exact A'].
    - rewrite A2 by (intros o I; apply Hn, I1, I). rewrite B2; [apply EF|].
      intros o I A. rewrite CE. apply Hn; [apply I2, I|exact A]. }
  assert (M : pf p' Omega0_m = pf q' Omega0_m) by exact (OWN A_omega_m _ eq_refl).
  assert (G : pf p' Omega0_gamma = pf q' Omega0_gamma) by exact (OWN A_omega_gamma _ eq_refl).
  assert (B : pf p' Omega0_baryon = pf q' Omega0_baryon) by exact (OWN A_omega_baryon _ eq_refl).
  assert (CD : pf p' Omega0_cdm = pf q' Omega0_cdm).
  { assert (Cq : cdm_ok q) by (unfold cdm_ok in *; rewrite <- !EF; exact C).
    pose proof (run_cdm f l1 p p' L1 H1 C) as X1. pose proof (run_cdm f l2 q q' L2 H2 Cq) as X2.
    unfold cdm_ok in *. rewrite X1, X2, M, B, NU. reflexivity. }
  assert (DE : pf p' Omega0_de = pf q' Omega0_de).
  { assert (X : existsb (changes f p) l1 = existsb (changes f q) l2).
    { rewrite (existsb_perm _ _ l1 l2 (Permutation_trans (Permutation_sym P1) P2)).
      apply existsb_ext_in. intros o _. symmetry. apply CE. }
    destruct (existsb (changes f p) l1) eqn:Y.
    - rewrite (run_de f l1 p p' ND1 L1 H1 Y), (run_de f l2 q q' ND2 L2 H2 (eq_sym X)), M, G. reflexivity.
    - rewrite (run_unchanged f l1 p p' ND1 L1 H1 Y) by (simpl; tauto).
      rewrite (run_unchanged f l2 q q' ND2 L2 H2 (eq_sym X)) by (simpl; tauto). apply EF. }
  intros x. destruct (coupled_dec x) as [(k & -> & K)|M'].
  - cbn [getf]. f_equal. simpl in K.
    destruct K as [<-|[<-|[<-|[<-|[<-|[<-|[<-|[<-|[]]]]]]]]]; try assumption;
      [exact (OWN A_h _ eq_refl)|exact (OWN A_m_ncdm _ eq_refl)].
  - apply (orders_agree f l1 l2 p q p' q' (Permutation_trans (Permutation_sym P1) P2) ND1 E H1 H2).
    destruct (existsb (fun o => memb x (owns o)) float_options) eqn:X.
    + left. apply existsb_exists in X as (o & I & X). exists o.
      assert (S : forallb (fun o => negb (local o) || separateb o float_options) float_options = true) by (vm_compute; reflexivity).
      assert (T : forallb (fun o => local o || forallb (fun x => memb x (map FF coupled_fields)) (owns o)) float_options = true) by (vm_compute; reflexivity).
      rewrite forallb_forall in S, T. specialize (S o I). specialize (T o I).
      assert (L : local o = true).
      { destruct (local o); [reflexivity|]. cbn [orb] in T. rewrite forallb_forall in T. apply memb_In in X.
        rewrite (T x X) in M'. discriminate. }
      rewrite L in S. cbn [negb orb] in S.
      split; [apply I1; exact I|]. split; [apply memb_In; exact X|]. split; [exact L|].
      apply separateb_spec. exact (separateb_perm _ _ _ P1 S).
    + right. intros o I Mo. assert (Z : existsb (fun o => memb x (owns o)) float_options = true); [|congruence].
      apply existsb_exists. exists o. split; [apply I1; exact I|apply memb_In; exact Mo].
Qed.

(** ** Whether the options go through at all *)

(** The fields an option that occurs in the file reads and writes.
    Specification or proof only; nothing in the code. *)
Definition touched (f : file) (o : opt) : list field :=
  match entry (o_key o) f with
  | None => []
  | Some _ => match o_attr o with
              | Some a => if coupled a then map FF coupled_fields else attr_writes a
              | None => []
              end
  end.

Lemma opt_transfer : forall f o p q p', o_attr o <> Some A_omega_cdm ->
  (forall x, In x (touched f o) -> getf p x = getf q x) ->
  opt_after f o p = Some p' -> exists q', opt_after f o q = Some q'.
Proof.
  intros f o p q p' NC E H. unfold opt_after, touched in *.
  destruct (entry (o_key o) f) as [v|]; [|eauto].
  destruct (convert (o_kind o) v) as [w|]; [|discriminate]. destruct (o_attr o) as [a|]; [|discriminate].
  destruct (coupled a) eqn:C.
  - assert (EF : forall k, In k coupled_fields -> pf p k = pf q k).
    { intros k K. apply getf_pf. apply E. apply in_map. exact K. }
    unfold after in *. destruct a; try discriminate C; try congruence;
    cbv beta iota zeta delta [attr_update
      upd_omega_m upd_omega_baryon upd_omega_gamma upd_h upd_m_ncdm] in *;
    rewrite <- ?(EF Omega0_m), <- ?(EF Omega0_baryon), <- ?(EF Omega0_gamma), <- ?(EF F_h),
      <- ?(EF F_m_ncdm), <- ?(EF Omega0_cdm), <- ?(EF Omega0_nu) by (simpl; tauto);
    repeat match type of H with
         | context [match ?x with _ => _ end] =>
             lazymatch x with context [match _ with _ => _ end] => fail | _ => destruct x; try discriminate H end
         end; try discriminate H; eauto.
  - destruct (after_local a w p q p' C E H) as (q' & Q & _). eauto.
Qed.

Lemma opt_keeps : forall f o p p' x, opt_after f o p = Some p' -> o_attr o <> Some A_omega_cdm ->
  ~ In x (touched f o) -> getf p' x = getf p x.
Proof.
  intros f o p p' x H NC N. unfold opt_after, touched in *.
  destruct (entry (o_key o) f) as [v|]; [|congruence].
  destruct (convert (o_kind o) v) as [w|]; [|discriminate]. destruct (o_attr o) as [a|]; [|discriminate].
  apply (after_else _ _ _ _ _ H). intros I. apply N.
  destruct (coupled a) eqn:C; [|exact I].
  destruct a; try discriminate C; try congruence; simpl in *; tauto.
Qed.

Definition apart (f : file) (l : list opt) : Prop :=
  forall o o' x, In o l -> In o' l -> o_key o <> o_key o' -> In x (touched f o) -> ~ In x (touched f o').

Lemma opts_each : forall f l p p', NoDup (map o_key l) -> apart f l ->
  (forall o, In o l -> o_attr o <> Some A_omega_cdm) ->
  opts_after f l p = Some p' -> forall o, In o l -> exists q, opt_after f o p = Some q.
Proof.
  intros f. induction l as [|o1 l IH]; intros p p' ND A NC H o I; [destruct I|].
  simpl in H. destruct (opt_after f o1 p) as [p1|] eqn:E; [|discriminate].
  simpl in ND. inversion ND as [|? ? N1 N2]; subst. destruct I as [<-|I]; [eauto|].
  destruct (IH p1 p' N2) with (o := o) as (q & Q); auto.
  { intros o2 o3 x J2 J3. apply A; right; assumption. }
  { intros o2 J. apply NC. right; exact J. }
  apply (opt_transfer f o p1 p q); [apply NC; right; exact I| |exact Q].
  intros x Hx. apply (opt_keeps f o1 p p1 x E); [apply NC; left; reflexivity|].
  apply (A o o1 x); [right; exact I|left; reflexivity| |exact Hx].
  intros K. apply N1. rewrite <- K. apply in_map. exact I.
Qed.

Lemma opts_all : forall f l p, NoDup (map o_key l) -> apart f l ->
  (forall o, In o l -> o_attr o <> Some A_omega_cdm) ->
  (forall o, In o l -> exists q, opt_after f o p = Some q) -> exists p', opts_after f l p = Some p'.
Proof.
  intros f. induction l as [|o1 l IH]; intros p ND A NC H; [eexists; reflexivity|].
  simpl. destruct (H o1 (or_introl eq_refl)) as (p1 & E). rewrite E.
  simpl in ND. inversion ND as [|? ? N1 N2]; subst. apply IH; auto.
  { intros o2 o3 x J2 J3. apply A; right; assumption. }
  { intros o2 J. apply NC. right; exact J. }
  intros o I. destruct (H o (or_intror I)) as (q & Q).
  apply (opt_transfer f o p p1 q); [apply NC; right; exact I| |exact Q].
  intros x Hx. symmetry. apply (opt_keeps f o1 p p1 x E); [apply NC; left; reflexivity|].
  apply (A o o1 x); [right; exact I|left; reflexivity| |exact Hx].
  intros K. apply N1. rewrite <- K. apply in_map. exact I.
Qed.

Lemma opts_order_success : forall f l1 l2 p q p', Permutation l1 l2 -> NoDup (map o_key l1) -> apart f l1 ->
  (forall o, In o l1 -> o_attr o <> Some A_omega_cdm) -> params_eq p q ->
  opts_after f l1 p = Some p' -> exists q', opts_after f l2 q = Some q'.
Proof.
  intros f l1 l2 p q p' P ND A NC E H.
  assert (I : forall o, In o l2 -> In o l1) by (intros o; apply (Permutation_in o (Permutation_sym P))).
  apply opts_all.
  - eapply Permutation_NoDup; [apply Permutation_map; exact P|exact ND].
  - intros o o' x J J'. apply A; auto.
  - intros o J. apply NC; auto.
  - intros o J. destruct (opts_each f l1 p p' ND A NC H o (I o J)) as (r & R).
    apply (opt_transfer f o p q r); [apply NC; auto|intros x _; apply E|exact R].
Qed.

(** From parameters back to the object. *)
Lemma after_set_attr : forall a v s p', after a v (sp s) = Some p' ->
  exists s' r, set_attr a v s = (s', Ok r) /\ sp s' = p'.
Proof.
  intros a v s p' H. unfold after in H. unfold set_attr.
  destruct (attr_update a v (sp s)) as [|q|e|q e]; try discriminate; injection H as <-; eauto.
Qed.
Lemma after_read_option : forall f o s p', opt_after f o (sp s) = Some p' ->
  exists s' r, read_option f o s = (s', Ok r) /\ sp s' = p'.
Proof.
  intros f o s p' H. unfold opt_after in H. unfold read_option.
  destruct (entry (o_key o) f) as [v|]; [|injection H as <-; eauto].
  destruct (convert (o_kind o) v) as [w|]; [|discriminate].
  destruct (o_attr o) as [a|]; [|discriminate]. exact (after_set_attr _ _ _ _ H).
Qed.
Lemma after_seqr : forall f l s p', opts_after f l (sp s) = Some p' ->
  exists s' r, seqr (read_option f) l s = (s', Ok r) /\ sp s' = p'.
Proof.
  induction l as [|o l IH]; intros s p' H; simpl in H.
  - injection H as <-. simpl. eauto.
  - destruct (opt_after f o (sp s)) as [q|] eqn:E; [|discriminate].
    destruct (after_read_option _ _ _ _ E) as (s1 & r & R & <-).
    simpl. unfold bindr. rewrite R. exact (IH s1 p' H).
Qed.

(** ** Biases *)
Lemma set_bias_spec : forall k x y s s' r, set_bias k x y s = (s', Ok r) ->
  sp s' = setS (sp s) k (combine x y) /\
  forall t, exists t' r', set_bias k x y t = (t', Ok r') /\ sp t' = setS (sp t) k (combine x y).
Proof.
  intros k x y s s' r H. unfold set_bias in *.
  destruct (negb (is_sorted x)); [discriminate|]. destruct (negb (Nat.eqb _ _)); [discriminate|].
  destruct x as [|x0 xs]; [discriminate|].
  destruct (fltb x0 f0); [discriminate|]. destruct (fltb _ _); [discriminate|].
  destruct (negb (spline_ok _)); [discriminate|].
  injection H as <- _. split; [reflexivity|]. intros t. eexists _, _. split; reflexivity.
Qed.

(** Reading one bias either leaves it alone or stores a table the file
    determines, whatever the object. *)
Lemma read_bias_spec : forall X f k s s' r, read_bias X f k s = (s', Ok r) ->
  (sp s' = sp s /\ forall t, exists t' r', read_bias X f k t = (t', Ok r') /\ sp t' = sp t) \/
  (exists tab, sp s' = setS (sp s) k tab /\
     forall t, exists t' r', read_bias X f k t = (t', Ok r') /\ sp t' = setS (sp t) k tab).
Proof.
  intros X f k s s' r H. unfold read_bias in *.
  destruct (bias_source X f k) as [[[xs ys]|]|e]; [right|left|discriminate].
  - destruct (set_bias_spec _ _ _ _ _ _ H) as [A1 A2]. eauto.
  - injection H as <- _. split; [reflexivity|]. intros t. exists t, ONone. auto.
Qed.

Lemma setS_eq : forall p q k t, params_eq p q -> params_eq (setS p k t) (setS q k t).
Proof.
  intros p q k t E [f|i|b|l| |s]; try exact (E (FF f)); try exact (E (FI i)); try exact (E (FB b));
    try exact (E (FL l)); try exact (E FM).
  simpl. destruct (sfield_beq k s); [reflexivity|]. exact (E (FS s)).
Qed.

Lemma biases_agree : forall X f l s s' r t, seqr (read_bias X f) l s = (s', Ok r) ->
  params_eq (sp s) (sp t) ->
  exists t' r', seqr (read_bias X f) l t = (t', Ok r') /\ params_eq (sp s') (sp t').
Proof.
  intros X f. induction l as [|k l IH]; intros s s' r t H E; simpl in *.
  - injection H as <- _. eauto.
  - unfold bindr in *. destruct (read_bias X f k s) as [s1 [x|e|]] eqn:R; try discriminate.
    destruct (read_bias_spec _ _ _ _ _ _ R) as [[A B]|(tab & A & B)];
    destruct (B t) as (t1 & r1 & T & Q); rewrite T; apply (IH s1 s' r t1 H); rewrite A, Q; auto using setS_eq.
Qed.

(** Specification or proof only; nothing in the code. *)
Definition is_visit (v : visit) : Prop :=
  Permutation float_array_options (v_float_array v) /\ Permutation float_options (v_float v) /\
  Permutation int_options (v_int v) /\ Permutation int_or_string_options (v_enum v).

(** The part of from_file before the first set is visited.  Specification or proof only; nothing in the code. *)
Definition preamble (f : file) : state * res :=
  bindr (seqr (read_option f) legacy_options coffe0) (read_contributions f).
Lemma from_file_phases : forall X v f s r, from_file X v f = (s, Ok r) ->
  exists s0 s1 s2 s3 s4 s5 r0 r1 r2 r3 r4 r5, preamble f = (s0, Ok r0) /\
    seqr (read_option f) (v_float_array v) s0 = (s1, Ok r1) /\
    read_option f (own_opt KIntArray A_l) s1 = (s2, Ok r2) /\
    seqr (read_option f) (v_float v) s2 = (s3, Ok r3) /\
    seqr (read_option f) (v_int v) s3 = (s4, Ok r4) /\
    seqr (read_option f) (v_enum v) s4 = (s5, Ok r5) /\
    seqr (read_bias X f) bias_order s5 = (s, Ok r).
Proof.
  intros X v f s r H. unfold from_file in H. unfold preamble. unfold bindr at 1 in H. unfold bindr at 1.
  destruct (seqr (read_option f) legacy_options coffe0) as [sa [xa|e|]]; try discriminate.
  unfold bindr at 1 in H. destruct (read_contributions f sa) as [s0 [r0|e|]]; try discriminate.
  unfold bindr at 1 in H. destruct (seqr (read_option f) (v_float_array v) s0) as [s1 [r1|e|]] eqn:E1; try discriminate.
  unfold bindr at 1 in H. destruct (read_option f (own_opt KIntArray A_l) s1) as [s2 [r2|e|]] eqn:E2; try discriminate.
  unfold bindr at 1 in H. destruct (seqr (read_option f) (v_float v) s2) as [s3 [r3|e|]] eqn:E3; try discriminate.
  unfold bindr at 1 in H. destruct (seqr (read_option f) (v_int v) s3) as [s4 [r4|e|]] eqn:E4; try discriminate.
  unfold bindr at 1 in H. destruct (seqr (read_option f) (v_enum v) s4) as [s5 [r5|e|]] eqn:E5; try discriminate.
  exists s0, s1, s2, s3, s4, s5, r0, r1, r2, r3, r4, r5. intuition.
Qed.
Lemma phases_from_file : forall X v f s r s0 s1 s2 s3 s4 s5 r0 r1 r2 r3 r4 r5,
    preamble f = (s0, Ok r0) ->
    seqr (read_option f) (v_float_array v) s0 = (s1, Ok r1) ->
    read_option f (own_opt KIntArray A_l) s1 = (s2, Ok r2) ->
    seqr (read_option f) (v_float v) s2 = (s3, Ok r3) ->
    seqr (read_option f) (v_int v) s3 = (s4, Ok r4) ->
    seqr (read_option f) (v_enum v) s4 = (s5, Ok r5) ->
    seqr (read_bias X f) bias_order s5 = (s, Ok r) -> from_file X v f = (s, Ok r).
Proof.
  intros X v f s r s0 s1 s2 s3 s4 s5 r0 r1 r2 r3 r4 r5 P0 P1 P2 P3 P4 P5 P6.
  unfold from_file. unfold preamble in P0. unfold bindr at 1 in P0. unfold bindr at 1.
  destruct (seqr (read_option f) legacy_options coffe0) as [sa [xa|e|]]; try discriminate.
  unfold bindr at 1. rewrite P0. unfold bindr at 1. rewrite P1. unfold bindr at 1. rewrite P2.
  unfold bindr at 1. rewrite P3. unfold bindr at 1. rewrite P4. unfold bindr at 1. rewrite P5. exact P6.
Qed.

(** The coupled fields still have their default values when the floats are read. *)
Lemma contributions_else : forall f s s' r x, read_contributions f s = (s', Ok r) ->
  (forall b, x <> FB b) -> getf (sp s') x = getf (sp s) x.
Proof.
  intros f s s' r x H N. unfold read_contributions in H.
  destruct (entry "correlation_contributions" f) as [v|]; [|injection H as <- _; reflexivity].
  assert (G : forall l s s' r, (forall na, In na l -> exists b, attr_writes (snd na) = [FB b]) ->
     seqr (fun na s => if listed (fst na) v then set_attr (snd na) (VBool true) s else (s, Ok ONone)) l s = (s', Ok r) ->
     getf (sp s') x = getf (sp s) x).
  { clear H. induction l as [|na l IH]; intros t t' q W H; simpl in H.
    - injection H as <- _. reflexivity.
    - unfold bindr in H.
      destruct (if listed (fst na) v then set_attr (snd na) (VBool true) t else (t, Ok ONone)) as [t1 [z|e|]] eqn:E; try discriminate.
      rewrite (IH t1 t' q); [|intros nb I; apply W; right; exact I|exact H].
      destruct (listed (fst na) v); [|injection E as <- _; reflexivity].
      apply set_attr_after in E. apply (after_else _ _ _ _ _ E).
      destruct (W na (or_introl eq_refl)) as (b & ->). intros [I|[]]. exact (N b (eq_sym I)). }
  apply (G contribution_map s s' r); [|exact H].
  intros na I. simpl in I. repeat (destruct I as [<-|I]; [eexists; reflexivity|]). destruct I.
Qed.

Lemma else_check : forall l (k : ffield), forallb (fun o => negb (memb (FF k) (owns o))) l = true ->
  forall o, In o l -> ~ In (FF k) (owns o).
Proof.
  intros l k H o I M. rewrite forallb_forall in H. specialize (H o I). apply negb_true_iff in H.
  apply memb_In in M. congruence.
Qed.

Lemma before_floats : forall f l s0 s1 s2 r0 r1 r2, Permutation float_array_options l ->
  preamble f = (s0, Ok r0) -> seqr (read_option f) l s0 = (s1, Ok r1) ->
  read_option f (own_opt KIntArray A_l) s1 = (s2, Ok r2) ->
  forall k, In k coupled_fields -> pf (sp s2) k = pf default_params k.
Proof.
  intros f l s0 s1 s2 r0 r1 r2 P H0 H1 H2 k K. apply getf_pf.
  apply read_option_after in H2. apply seqr_after in H1.
  rewrite (opt_else _ _ _ _ _ H2) by (simpl; intros [X|[]]; discriminate X).
  rewrite (opts_else _ _ _ _ _ H1).
  2:{ intros o I. apply (else_check float_array_options); [|exact (Permutation_in o (Permutation_sym P) I)].
      clear -K. simpl in K. repeat (destruct K as [<-|K]; [vm_compute; reflexivity|]). destruct K. }
  unfold preamble, bindr in H0.
  destruct (seqr (read_option f) legacy_options coffe0) as [sa [xa|e|]] eqn:E; try discriminate.
  rewrite (contributions_else _ _ _ _ _ H0) by discriminate.
  apply seqr_after in E. rewrite (opts_else _ _ _ _ _ E); [reflexivity|].
  apply (else_check legacy_options).
  clear -K. simpl in K. repeat (destruct K as [<-|K]; [vm_compute; reflexivity|]). destruct K.
Qed.

(** What a loaded object has besides its parameters: nothing.  Specification or proof only; nothing in the code. *)
Definition untouched (s : state) : Prop := no_cache s /\ c_cls s = None.
Lemma set_attr_untouched : forall a v s s' r, untouched s -> set_attr a v s = (s', r) -> untouched s'.
Proof.
  intros a v s s' r [N C] H. split.
  - pose proof (set_attr_no_cache a v s N) as A. rewrite H in A. exact A.
  - unfold set_attr in H. destruct (attr_update a v (sp s)); injection H as <- _; exact C.
Qed.
Lemma seqr_untouched : forall (A : Type) (step : A -> state -> state * res) l s s' r,
  (forall a s s' r, untouched s -> step a s = (s', r) -> untouched s') ->
  untouched s -> seqr step l s = (s', r) -> untouched s'.
Proof.
  intros A step. induction l as [|a l IH]; intros s s' r St U H; simpl in H; [injection H as <- _; exact U|].
  unfold bindr in H. destruct (step a s) as [s1 [x|e|]] eqn:E;
    try (injection H as <- _; exact (St _ _ _ _ U E)).
  exact (IH s1 s' r St (St _ _ _ _ U E) H).
Qed.
Lemma read_option_untouched : forall f o s s' r, untouched s -> read_option f o s = (s', r) -> untouched s'.
Proof.
  intros f o s s' r U H. unfold read_option in H. destruct (entry (o_key o) f); [|injection H as <- _; exact U].
  destruct (convert (o_kind o) p); [|injection H as <- _; exact U].
  destruct (o_attr o); [|injection H as <- _; exact U]. exact (set_attr_untouched _ _ _ _ _ U H).
Qed.
Lemma read_bias_untouched : forall X f k s s' r, untouched s -> read_bias X f k s = (s', r) -> untouched s'.
Proof.
  intros X f k s s' r U H. unfold read_bias in H.
  destruct (bias_source X f k) as [[[xs ys]|]|e]; try (injection H as <- _; exact U).
  unfold set_bias in H.
  destruct (negb (is_sorted xs)); [injection H as <- _; exact U|].
  destruct (negb (Nat.eqb _ _)); [injection H as <- _; exact U|].
  destruct xs as [|x0 xs]; [injection H as <- _; exact U|].
  destruct (fltb x0 f0); [injection H as <- _; exact U|].
  destruct (fltb _ _); [injection H as <- _; exact U|].
  destruct (negb (spline_ok _)); injection H as <- _; [exact U|].
  destruct U as [(N1 & N2 & N3 & N4 & N5) C]. repeat split; cbn; auto; intros j;
    rewrite ?N4, ?N5; destruct j; reflexivity.
Qed.
Lemma from_file_untouched : forall X v f s r, from_file X v f = (s, Ok r) -> untouched s.
Proof.
  intros X v f s r H.
  destruct (from_file_phases X v f s r H) as (s0 & s1 & s2 & s3 & s4 & s5 & r0 & r1 & r2 & r3 & r4 & r5 & P0 & P1 & P2 & P3 & P4 & P5 & P6).
  assert (U0 : untouched s0).
  { unfold preamble, bindr in P0.
    destruct (seqr (read_option f) legacy_options coffe0) as [sa [xa|e|]] eqn:E; try discriminate.
    assert (Ua : untouched sa).
    { eapply seqr_untouched; [exact (read_option_untouched f)| |exact E]. repeat split. }
    unfold read_contributions in P0. destruct (entry _ f); [|injection P0 as <- _; exact Ua].
    eapply seqr_untouched; [|exact Ua|exact P0]. intros na t t' q U E'. cbv beta in E'.
    destruct (listed (fst na) p); [exact (set_attr_untouched _ _ _ _ _ U E')|injection E' as <- _; exact U]. }
  assert (ST : forall l s s' r, untouched s -> seqr (read_option f) l s = (s', r) -> untouched s').
  { intros l t t' q. apply seqr_untouched. exact (read_option_untouched f). }
  eapply seqr_untouched; [exact (read_bias_untouched X f)| |exact P6].
  eapply ST; [|exact P5]. eapply ST; [|exact P4]. eapply ST; [|exact P3].
  eapply read_option_untouched; [|exact P2]. eapply ST; [exact U0|exact P1].
Qed.
