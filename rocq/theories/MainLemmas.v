(** * Lemmas about paths, directories and the command line *)
From Coq Require Import ZArith Bool List String Ascii Arith Lia.
From Verif Require Import F64 Numeric FileIO Output Parser ParserLemmas Main.
Import ListNotations.
Open Scope list_scope.
Open Scope nat_scope.

(** Specification or proof only; nothing in the code. *)
Definition no_slash (p : bytes) : Prop := ~ In slash p.

Lemma pieces_name : forall p cur x, no_slash x -> x <> [] ->
  exists l q, forall y, no_slash y -> y <> [] -> pieces cur (p ++ y) = l ++ [q ++ y].
Proof.
  assert (N : forall y cur, no_slash y -> (cur <> [] \/ y <> []) -> pieces cur y = [rev cur ++ y]).
  { induction y as [|c y IH]; intros cur S NE.
    - cbn. destruct cur as [|a cur]; [destruct NE; congruence|]. rewrite app_nil_r. reflexivity.
    - cbn [pieces]. destruct (Ascii.eqb c slash) eqn:E.
      + apply Ascii.eqb_eq in E. subst c. destruct S. left. reflexivity.
      + rewrite IH; [|intros I; apply S; right; exact I|left; discriminate]. cbn [rev]. rewrite <- app_assoc. reflexivity. }
  induction p as [|c p IH]; intros cur x S NE.
  - exists [], (rev cur). intros y Sy Ny. cbn [app]. apply N; [exact Sy|right; exact Ny].
  - cbn [app pieces]. destruct (Ascii.eqb c slash).
    + destruct cur as [|a cur].
      * apply (IH [] x S NE).
      * destruct (IH [] x S NE) as (l & q & H). exists (rev (a :: cur) :: l), q. intros y Sy Ny. rewrite (H y Sy Ny). reflexivity.
    + apply (IH (c :: cur) x S NE).
Qed.

Lemma absolute_app : forall p x, p <> [] -> absolute (p ++ x) = absolute p.
Proof. intros [|c p] x H; [congruence|reflexivity]. Qed.

(** A name after a slash is a new component. *)
Lemma pieces_dir : forall p cur x, no_slash x -> x <> [] -> pieces cur (p ++ slash :: x) = pieces cur p ++ [x].
Proof.
  induction p as [|c p IH]; intros cur x S NE.
  - cbn [app pieces]. replace (Ascii.eqb slash slash) with true by reflexivity.
    assert (N : pieces [] x = [x]).
    { destruct (pieces_name [] [] x S NE) as (l & q & H).
      assert (G : forall y k, no_slash y -> (k <> [] \/ y <> []) -> pieces k y = [rev k ++ y]).
      { induction y as [|c y IHy]; intros k Sy Ny.
        - cbn. destruct k; [destruct Ny; congruence|]. rewrite app_nil_r. reflexivity.
        - cbn [pieces]. destruct (Ascii.eqb c slash) eqn:E.
          + apply Ascii.eqb_eq in E. subst c. destruct Sy. left. reflexivity.
          + rewrite IHy; [|intros I; apply Sy; right; exact I|left; discriminate]. cbn [rev]. rewrite <- app_assoc. reflexivity. }
      rewrite G; [reflexivity|exact S|right; exact NE]. }
    destruct cur; rewrite N; reflexivity.
  - cbn [app pieces]. destruct (Ascii.eqb c slash).
    + destruct cur; rewrite IH by assumption; reflexivity.
    + apply IH; assumption.
Qed.
Lemma pieces_snoc_slash : forall p cur, pieces cur (p ++ [slash]) = pieces cur p.
Proof.
  induction p as [|c p IH]; intros cur.
  - cbn. destruct cur; reflexivity.
  - cbn [app pieces]. destruct (Ascii.eqb c slash); [destruct cur; rewrite IH; reflexivity|apply IH].
Qed.
Lemma ends_split : forall p, ends_in_slash p = true -> exists q, p = q ++ [slash].
Proof.
  intros p H. unfold ends_in_slash in H. destruct (rev p) as [|c r] eqn:E; [discriminate|].
  apply Ascii.eqb_eq in H. subst c. exists (rev r). rewrite <- (rev_involutive p), E. reflexivity.
Qed.
Lemma ends_snoc : forall q, ends_in_slash (q ++ [slash]) = true.
Proof. intros q. unfold ends_in_slash. rewrite rev_app_distr. reflexivity. Qed.

Lemma place_in_dir : forall p x, ends_in_slash p = true -> no_slash x -> x <> [] ->
  place_of (p ++ x) = (absolute p, snd (place_of p) ++ [x]).
Proof.
  intros p x H S N. destruct (ends_split p H) as (q & ->). unfold place_of. cbn [snd].
  rewrite absolute_app by (destruct q; discriminate). f_equal.
  rewrite pieces_snoc_slash, <- app_assoc. apply pieces_dir; assumption.
Qed.
Lemma names_apart : forall p x y, no_slash x -> no_slash y -> x <> [] -> y <> [] ->
  place_of (p ++ x) = place_of (p ++ y) -> x = y.
Proof.
  intros p x y Sx Sy Nx Ny H. unfold place_of in H. injection H as _ H.
  destruct (pieces_name p [] x Sx Nx) as (l & q & G). rewrite (G x Sx Nx), (G y Sy Ny) in H.
  apply app_inj_tail in H. destruct H as [_ H]. apply app_inv_head in H. exact H.
Qed.

Lemma place_eqb_eq : forall a b, place_eqb a b = true <-> a = b.
Proof.
  intros [a l] [b m]. unfold place_eqb. cbn [fst snd].
  assert (L : forall l m, place_eqb_list l m = true <-> l = m).
  { induction l0 as [|x l0 IH]; destruct m0 as [|y m0]; cbn; split; intros H; try discriminate; try reflexivity.
    - apply andb_prop in H. destruct H as [H1 H2]. apply beqb_eq in H1. apply IH in H2. congruence.
    - inversion H; subst. apply andb_true_intro. split; [apply beqb_eq; reflexivity|apply IH; reflexivity]. }
  split; intros H.
  - apply andb_prop in H. destruct H as [H1 H2]. apply eqb_prop in H1. apply L in H2. congruence.
  - inversion H; subst. rewrite eqb_reflx. apply L. reflexivity.
Qed.
Lemma write_same : forall d l n, write d l n l = Some n.
Proof. intros d l n. unfold write. replace (place_eqb l l) with true; [reflexivity|]. symmetry. apply place_eqb_eq. reflexivity. Qed.
Lemma write_other : forall d l n k, l <> k -> write d l n k = d k.
Proof.
  intros d l n k H. unfold write. destruct (place_eqb l k) eqn:E; [|reflexivity]. apply place_eqb_eq in E. contradiction.
Qed.

(** Pieces of a path put together again. *)
Lemma pieces_clean : forall s cur, no_slash cur -> Forall (fun q => q <> [] /\ no_slash q) (pieces cur s).
Proof.
  induction s as [|c s IH]; intros cur N; cbn [pieces].
  - destruct cur; constructor; [|constructor]. split.
    + intros E. apply (f_equal (@List.length _)) in E. rewrite rev_length in E. discriminate.
    + intros I. apply N. apply in_rev. exact I.
  - assert (E0 : no_slash []) by (intros []).
    destruct (Ascii.eqb c slash) eqn:E.
    + destruct cur as [|a cur]; [apply IH; exact E0|]. constructor; [|apply IH; exact E0]. split.
      * intros F. apply (f_equal (@List.length _)) in F. rewrite rev_length in F. discriminate.
      * intros I. apply N. apply in_rev. exact I.
    + apply IH. intros [F|I]; [|exact (N I)]. subst c. discriminate.
Qed.
(** Specification or proof only; nothing in the code. *)
Definition total (l : list bytes) : nat := fold_right (fun q n => List.length q + 1 + n) 0 l.
Lemma pieces_length : forall s cur, total (pieces cur s) <= List.length cur + List.length s + 1
  /\ (cur = [] -> s = [] -> pieces cur s = []).
Proof.
  intros s cur. split; [|intros -> ->; reflexivity]. revert cur.
  induction s as [|c s IH]; intros cur; cbn [pieces List.length].
  - destruct cur; cbn; [lia|]. rewrite app_length, rev_length. cbn. lia.
  - destruct (Ascii.eqb c slash).
    + specialize (IH []). cbn [List.length] in IH. destruct cur as [|a cur]; [cbn [List.length]; lia|].
      change (total (rev (a :: cur) :: pieces [] s)) with (List.length (rev (a :: cur)) + 1 + total (pieces [] s)).
      rewrite rev_length. cbn [List.length]. lia.
    + specialize (IH (c :: cur)). cbn in IH. lia.
Qed.

Lemma in_dir : forall p q, (p = [] \/ ends_in_slash p = true) -> no_slash q -> q <> [] ->
  snd (place_of (p ++ q)) = snd (place_of p) ++ [q].
Proof.
  intros p q [->|H] S N.
  - cbn [app]. unfold place_of. cbn [snd pieces app].
    destruct q as [|c q]; [congruence|]. cbn [pieces]. destruct (Ascii.eqb c slash) eqn:E.
    + apply Ascii.eqb_eq in E. subst c. destruct S. left. reflexivity.
    + assert (G : forall y k, no_slash y -> k <> [] -> pieces k y = [rev k ++ y]).
      { induction y as [|a y IHy]; intros k Sy Ny.
        - cbn. destruct k; [congruence|]. rewrite app_nil_r. reflexivity.
        - cbn [pieces]. destruct (Ascii.eqb a slash) eqn:F.
          + apply Ascii.eqb_eq in F. subst a. destruct Sy. left. reflexivity.
          + rewrite IHy; [|intros I; apply Sy; right; exact I|discriminate]. cbn [rev]. rewrite <- app_assoc. reflexivity. }
      rewrite G; [reflexivity|intros I; apply S; right; exact I|discriminate].
  - rewrite (place_in_dir p q H S N). reflexivity.
Qed.
Lemma absolute_name : forall q, no_slash q -> absolute q = false.
Proof.
  intros [|c q] S; [reflexivity|]. cbn. destruct (Ascii.eqb c slash) eqn:E; [|reflexivity].
  apply Ascii.eqb_eq in E. subst c. destruct S. left. reflexivity.
Qed.

(** Every directory on the way is there or may be made.  Specification or proof only; nothing in the code. *)
Definition creatable (may : place -> bool) (d : disk) (l : place) : Prop :=
  forall k, 0 < k <= List.length (snd l) ->
    at_place d (fst l, firstn k (snd l)) = Some Dir
    \/ (at_place d (fst l, firstn k (snd l)) = None /\ may (fst l, firstn k (snd l)) = true).
(** Only directories were added.  Specification or proof only; nothing in the code. *)
Definition adds_dirs (d d' : disk) : Prop := forall l, d' l = d l \/ (d l = None /\ d' l = Some Dir).

Lemma adds_refl : forall d, adds_dirs d d.
Proof. left. reflexivity. Qed.
Lemma adds_trans : forall a b c, adds_dirs a b -> adds_dirs b c -> adds_dirs a c.
Proof.
  intros a b c H1 H2 l. destruct (H1 l) as [E|[E1 E2]], (H2 l) as [F|[F1 F2]].
  - left. congruence. - right. rewrite <- E. auto. - right. rewrite F. auto. - congruence.
Qed.
Lemma adds_at : forall d d' l, adds_dirs d d' -> at_place d l = Some Dir -> at_place d' l = Some Dir.
Proof.
  intros d d' [a [|x m]] H E; [reflexivity|]. unfold at_place in *. cbn [snd] in *.
  destruct (H (a, x :: m)) as [F|[F _]]; [rewrite F; exact E|congruence].
Qed.

Lemma mkdir_adds : forall may d p d', mkdir may d p = Some d' -> adds_dirs d d' /\ at_place d' (place_of p) = Some Dir.
Proof.
  intros may d p d' H. unfold mkdir in H. destruct p as [|c p]; [discriminate|]. set (l := place_of (c :: p)) in *.
  destruct (at_place d l) eqn:E; [discriminate|]. destruct (is_dir d (parent l) && may l); [|discriminate]. injection H as <-.
  assert (D : d l = None). { unfold at_place in E. destruct (snd l); [discriminate|exact E]. }
  split.
  - intros k. destruct (place_eqb l k) eqn:F.
    + apply place_eqb_eq in F. subst k. right. split; [exact D|apply write_same].
    + left. apply write_other. intros G. apply place_eqb_eq in G. congruence.
  - unfold at_place. destruct (snd l) eqn:F; [reflexivity|]. apply write_same.
Qed.

Lemma mkdir_only : forall may d p d' l, mkdir may d p = Some d' -> l <> place_of p -> d' l = d l.
Proof.
  intros may d p d' l H N. unfold mkdir in H. destruct p as [|c p]; [discriminate|].
  destruct (at_place d (place_of (c :: p))); [discriminate|]. destruct (is_dir d (parent (place_of (c :: p))) && may (place_of (c :: p))); [|discriminate].
  injection H as <-. apply write_other. congruence.
Qed.

Lemma make_dirs_adds : forall may parts d out r d', make_dirs may d out parts = Done (r, d') -> adds_dirs d d'.
Proof.
  induction parts as [|q parts IH]; intros d out r d' H; cbn [make_dirs] in H.
  - injection H as <- <-. apply adds_refl.
  - destruct (Nat.leb BUF (List.length (out ++ q))); [discriminate|].
    destruct (exists_at d (out ++ q)).
    + destruct (Nat.leb BUF (List.length (out ++ q) + 1)); [discriminate|]. exact (IH _ _ _ _ H).
    + destruct (mkdir may d (out ++ q)) as [d1|] eqn:M; [|injection H as <- <-; apply adds_refl].
      destruct (Nat.leb BUF (List.length (out ++ q) + 1)); [discriminate|].
      apply (adds_trans _ d1); [exact (proj1 (mkdir_adds _ _ _ _ M))|exact (IH _ _ _ _ H)].
Qed.
Lemma make_path_adds : forall may d p r, make_path may d p = Done r -> adds_dirs d (snd r).
Proof.
  intros may d p [q d'] H. unfold make_path in H. cbn [snd]. destruct (exists_at d p).
  - destruct (ends_in_slash p); [injection H as _ <-; apply adds_refl|].
    destruct (Nat.leb BUF (List.length p + 1)); [discriminate|]. injection H as _ <-. apply adds_refl.
  - bd H r E. destruct r as [[out|] d1].
    + destruct out as [|c out]; [discriminate|]. destruct (ends_in_slash (c :: out)).
      * injection H as _ <-. exact (make_dirs_adds _ _ _ _ _ _ E).
      * destruct (Nat.leb BUF (List.length (c :: out) + 1)); [discriminate|]. injection H as _ <-.
        exact (make_dirs_adds _ _ _ _ _ _ E).
    + injection H as _ <-. exact (make_dirs_adds _ _ _ _ _ _ E).
Qed.

Lemma make_dirs_ok : forall may a all parts done d out,
  all = done ++ parts -> Forall (fun q => q <> [] /\ no_slash q) all ->
  (done = [] -> out = if a : bool then [slash] else []) -> (done <> [] -> ends_in_slash out = true) ->
  place_of out = (a, done) \/ (out = [] /\ a = false /\ done = []) ->
  List.length out + total parts < BUF ->
  at_place d (a, done) = Some Dir ->
  (forall k, List.length done < k <= List.length all ->
     at_place d (a, firstn k all) = Some Dir \/ (at_place d (a, firstn k all) = None /\ may (a, firstn k all) = true)) ->
  exists out' d', make_dirs may d out parts = Done (Some out', d')
    /\ (place_of out' = (a, all) \/ (out' = [] /\ a = false /\ all = [])) /\ (all <> [] -> ends_in_slash out' = true)
    /\ (all = [] -> out' = if a then [slash] else [])
    /\ at_place d' (a, all) = Some Dir
    /\ (forall l, d' l = d l \/ List.length (snd l) <= List.length all).
Proof.
  intros may a all parts. induction parts as [|q parts IH]; intros done d out Eall Cl H0 H1 Pl Len Dd Cr.
  - rewrite app_nil_r in Eall. subst done. exists out, d. cbn [make_dirs]. repeat split; auto.
  - assert (Cq : q <> [] /\ no_slash q).
    { rewrite Forall_forall in Cl. apply Cl. rewrite Eall. apply in_or_app. right. left. reflexivity. }
    destruct Cq as [Nq Sq].
    assert (Pq : place_of (out ++ q) = (a, done ++ [q])).
    { destruct Pl as [Pl|(Eo & Ea & Ed)].
      - destruct out as [|c out].
        + assert (Ea : a = false /\ done = []).
          { unfold place_of in Pl. cbn in Pl. injection Pl as <- <-. split; reflexivity. }
          destruct Ea as [-> ->]. unfold place_of. cbn [app]. rewrite (absolute_name q Sq). f_equal.
          exact (in_dir [] q (or_introl eq_refl) Sq Nq).
        + assert (En : ends_in_slash (c :: out) = true).
          { destruct done as [|x done]; [|apply H1; discriminate]. specialize (H0 eq_refl).
            destruct a; [|discriminate]. injection H0 as -> ->. reflexivity. }
          rewrite (place_in_dir _ q En Sq Nq), Pl. cbn [snd]. f_equal. unfold place_of in Pl. injection Pl as Pl _. exact Pl.
      - subst. cbn [app]. unfold place_of. rewrite (absolute_name q Sq). f_equal. exact (in_dir [] q (or_introl eq_refl) Sq Nq). }
    assert (Fk : firstn (S (List.length done)) all = done ++ [q]).
    { rewrite Eall. replace (S (List.length done)) with (List.length (done ++ [q])) by (rewrite app_length; cbn; lia).
      replace (done ++ q :: parts) with ((done ++ [q]) ++ parts) by (rewrite <- app_assoc; reflexivity).
      rewrite firstn_app, Nat.sub_diag, firstn_all, app_nil_r. reflexivity. }
    assert (Lk : List.length done < S (List.length done) <= List.length all) by (rewrite Eall, app_length; cbn; lia).
    cbn [total fold_right] in Len. fold (total parts) in Len.
    cbn [make_dirs].
    replace (Nat.leb BUF (List.length (out ++ q))) with false by (symmetry; apply Nat.leb_gt; rewrite app_length; lia).
    assert (Rec : forall d', adds_dirs d d' -> at_place d' (a, done ++ [q]) = Some Dir ->
      exists out' d2, (if Nat.leb BUF (List.length (out ++ q) + 1) then Undefined else make_dirs may d' ((out ++ q) ++ [slash]) parts) = Done (Some out', d2)
        /\ (place_of out' = (a, all) \/ (out' = [] /\ a = false /\ all = [])) /\ (all <> [] -> ends_in_slash out' = true)
        /\ (all = [] -> out' = if a then [slash] else [])
        /\ at_place d2 (a, all) = Some Dir
        /\ (forall l, d2 l = d' l \/ List.length (snd l) <= List.length all)).
    { intros d' Ad Dd'.
      replace (Nat.leb BUF (List.length (out ++ q) + 1)) with false by (symmetry; apply Nat.leb_gt; rewrite app_length; lia).
      apply (IH (done ++ [q])); auto.
      - rewrite <- app_assoc. exact Eall.
      - intros E. destruct done; discriminate.
      - intros _. apply ends_snoc.
      - left. unfold place_of. rewrite pieces_snoc_slash, absolute_app by (destruct out; [destruct q; [congruence|discriminate]|discriminate]).
        exact Pq.
      - rewrite !app_length. cbn [List.length]. lia.
      - intros k Hk. rewrite app_length in Hk. cbn [List.length] in Hk. destruct (Cr k) as [G|[G1 G2]]; [lia| |].
        + left. exact (adds_at d d' _ Ad G).
        + destruct (Ad (a, firstn k all)) as [F|[F1 F2]].
          * right. split; [|exact G2]. unfold at_place in *. cbn [snd] in *. destruct (firstn k all); [discriminate|]. rewrite F. exact G1.
          * left. unfold at_place in *. cbn [snd] in *. destruct (firstn k all); [discriminate|]. exact F2. }
    unfold exists_at. destruct (out ++ q) as [|c0 rest] eqn:Eoq; [destruct out; [destruct q; [congruence|discriminate]|discriminate]|].
    rewrite Pq.
    destruct (Cr (S (List.length done)) Lk) as [G|[G1 G2]]; rewrite Fk in *.
    + rewrite G. apply (Rec d (adds_refl d) G).
    + rewrite G1. destruct (mkdir may d (c0 :: rest)) as [d1|] eqn:M.
      * destruct (mkdir_adds _ _ _ _ M) as [Ad At]. rewrite Pq in At. destruct (Rec d1 Ad At) as (o' & d2 & X1 & X2 & X3 & X4 & X5 & X6).
        exists o', d2. repeat split; auto. intros l. destruct (X6 l) as [X|X]; [|right; exact X].
        destruct (place_eqb l (a, done ++ [q])) eqn:G.
        { apply place_eqb_eq in G. subst l. right. cbn [snd]. rewrite Eall, !app_length. cbn [List.length]. lia. }
        left. rewrite X. apply (mkdir_only _ _ _ _ _ M). rewrite Pq. intros F. apply place_eqb_eq in F. congruence.
      * exfalso. unfold mkdir in M. rewrite Pq, G1, G2 in M.
        assert (Pa : parent (a, done ++ [q]) = (a, done)).
        { unfold parent. cbn [fst snd]. f_equal. apply removelast_last. }
        rewrite Pa in M. unfold is_dir in M. rewrite Dd in M. discriminate.
Qed.

Theorem make_path_ok : forall may d p, p <> [] -> List.length p + 2 < BUF -> creatable may d (place_of p) ->
  exists p' d', make_path may d p = Done (p', d') /\ place_of p' = place_of p /\ ends_in_slash p' = true
    /\ at_place d' (place_of p) = Some Dir /\ adds_dirs d d' /\ List.length p' <= List.length p + 1
    /\ (forall l, d' l = d l \/ List.length (snd l) <= List.length (snd (place_of p))).
Proof.
  intros may d p N L Cr.
  assert (B : forall r, make_path may d p = Done r -> adds_dirs d (snd r)) by (intros r; apply make_path_adds).
  unfold make_path in *. destruct (exists_at d p) eqn:Ex.
  - assert (D : at_place d (place_of p) = Some Dir).
    { unfold exists_at in Ex. destruct p as [|c p]; [discriminate|]. set (l := place_of (c :: p)) in *.
      destruct (snd l) as [|x m] eqn:Es.
      { unfold at_place. rewrite Es. reflexivity. }
      destruct (Cr (List.length (snd l))) as [G|[G _]]; rewrite ?firstn_all in *; [rewrite Es; cbn; lia| |].
      - destruct l; exact G. - destruct l as [a l]. cbn [fst snd] in G. rewrite G in Ex. discriminate. }
    destruct (ends_in_slash p) eqn:En.
    + exists p, d. repeat split; auto; [apply adds_refl|lia].
    + replace (Nat.leb BUF (List.length p + 1)) with false by (symmetry; apply Nat.leb_gt; lia).
      exists (p ++ [slash]), d. repeat split; auto; [|apply ends_snoc|apply adds_refl|rewrite app_length; cbn; lia].
      unfold place_of. rewrite pieces_snoc_slash, absolute_app by exact N. reflexivity.
  - pose proof (proj1 (pieces_length p [])) as PL. cbn [List.length] in PL.
    destruct (make_dirs_ok may (absolute p) (pieces [] p) (pieces [] p) [] d (if absolute p then [slash] else []))
      as (out & d' & M & P1 & P2 & P3 & P4 & P5); auto.
    + apply pieces_clean. intros [].
    + destruct (absolute p); [left; reflexivity|right; auto].
    + destruct (absolute p) eqn:A.
      * (* the leading slash of p is not counted twice *)
        destruct p as [|c p]; [discriminate|]. cbn in A. cbn [pieces List.length] in *. rewrite A in *.
        pose proof (proj1 (pieces_length p [])) as PL2. cbn [List.length] in PL2. lia.
      * cbn. lia.
    + assert (Np : pieces [] p <> []).
      { intros E. unfold exists_at in Ex. destruct p; [congruence|]. unfold at_place, place_of in Ex. cbn [snd] in Ex.
        rewrite E in Ex. discriminate. }
      destruct P1 as [P1|(_ & _ & F)]; [|contradiction].
      destruct out as [|c out]. { specialize (P2 Np). discriminate. }
      match goal with |- exists _ _, ?z = _ /\ _ =>
        assert (Z : z = Done (c :: out, d')) end.
      { match goal with |- bind ?z _ = _ => replace z with (Done (Some (c :: out), d') : res (option bytes * disk)) by (symmetry; exact M) end.
        cbn [bind]. rewrite (P2 Np). reflexivity. }
      exists (c :: out), d'. split; [exact Z|]. repeat split; auto; [exact (B _ Z)|].
      clear - M Np. 
      assert (G : forall parts d out r d', make_dirs may d out parts = Done (Some r, d') -> List.length r = List.length out + total parts).
      { clear. induction parts as [|q parts IH]; intros d out r d' H; cbn [make_dirs] in H.
        - injection H as <- _. cbn. lia.
        - destruct (Nat.leb BUF (List.length (out ++ q))); [discriminate|].
          assert (K : forall d1, (if Nat.leb BUF (List.length (out ++ q) + 1) then Undefined else make_dirs may d1 ((out ++ q) ++ [slash]) parts)
                       = Done (Some r, d') -> List.length r = List.length out + total (q :: parts)).
          { intros d1 K. destruct (Nat.leb BUF _); [discriminate|]. apply IH in K. rewrite K, !app_length. change (total (q :: parts)) with (List.length q + 1 + total parts). cbn [List.length]. lia. }
          destruct (exists_at d (out ++ q)); [exact (K _ H)|]. destruct (mkdir may d (out ++ q)); [exact (K _ H)|discriminate]. }
      rewrite (G _ _ _ _ _ M). destruct (absolute p) eqn:A.
      * destruct p as [|c1 p]; [discriminate|]. cbn in A. cbn [pieces]. rewrite A.
        pose proof (proj1 (pieces_length p [])) as PL2. cbn [List.length] in *. lia.
      * pose proof (proj1 (pieces_length p [])). cbn [List.length] in *. lia.
Qed.
