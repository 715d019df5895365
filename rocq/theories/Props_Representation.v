(** * C88: a result shows its coordinates and its value *)
From Coq Require Import ZArith Bool Ascii String List Lia.
From Verif Require Import F64 Drivers Representation Cli.
Import ListNotations.
Open Scope string_scope.

(** ** Specification *)

(** The attributes of each kind of result, in alphabetical order.
    Specification or proof only; nothing in the code. *)
Definition public (k : kind) : list string :=
  match k with
  | Covariance => ["l1"; "l2"; "r1"; "r2"; "value"; "z"]
  | AverageCovariance => ["l1"; "l2"; "r1"; "r2"; "value"; "z_max"; "z_min"]
  | Corrfunc => ["mu"; "r"; "value"; "z"]
  | Multipoles => ["l"; "r"; "value"; "z"]
  | AverageMultipoles => ["l"; "r"; "value"; "z_max"; "z_min"]
  end.
Fixpoint joined (l : list string) : string := match l with [] => "" | x :: r => x ++ joined r end.
Fixpoint has_char (c : ascii) (s : string) : bool :=
  match s with EmptyString => false | String d r => Ascii.eqb c d || has_char c r end.

(** ** Lemmas: sorting and filtering *)

Lemma sle_trans : forall a b c, sle a b = true -> sle b c = true -> sle a c = true.
Proof.
  induction a as [|x a IH]; intros [|y b] [|z c] H1 H2; cbn in *; try reflexivity; try discriminate.
  apply orb_true_iff in H1. apply orb_true_iff in H2. apply orb_true_iff.
  destruct H1 as [H1|H1], H2 as [H2|H2].
  - left. apply N.ltb_lt in H1. apply N.ltb_lt in H2. apply N.ltb_lt. lia.
  - left. apply andb_true_iff in H2 as [H2 _]. apply N.ltb_lt in H1. apply N.eqb_eq in H2. apply N.ltb_lt. lia.
  - left. apply andb_true_iff in H1 as [H1 _]. apply N.ltb_lt in H2. apply N.eqb_eq in H1. apply N.ltb_lt. lia.
  - right. apply andb_true_iff in H1 as [H1 G1]. apply andb_true_iff in H2 as [H2 G2]. apply N.eqb_eq in H1. apply N.eqb_eq in H2.
    apply andb_true_iff. split; [apply N.eqb_eq; lia|exact (IH b c G1 G2)].
Qed.
Lemma sle_total : forall a b, sle a b = false -> sle b a = true.
Proof.
  induction a as [|x a IH]; intros [|y b] H; cbn in *; try reflexivity; try discriminate.
  apply orb_false_iff in H as [H1 H2]. apply N.ltb_ge in H1. apply orb_true_iff.
  destruct (N.eqb_spec (N_of_ascii x) (N_of_ascii y)) as [E|E]; cbn [andb] in H2.
  - right. rewrite E, N.eqb_refl. exact (IH b H2).
  - left. apply N.ltb_lt. lia.
Qed.
(** Specification or proof only; nothing in the code. *)
Fixpoint increasing (l : list string) : Prop :=
  match l with [] => True | x :: r => Forall (fun y => sle x y = true) r /\ increasing r end.
Lemma insert_In : forall x l y, In y (insert x l) -> y = x \/ In y l.
Proof.
  induction l as [|z r IH]; intros y; cbn; [intros [<-|[]]; auto|]. destruct (sle x z); cbn; [intros [<-|H]; auto|].
  intros [<-|H]; auto. destruct (IH y H); auto.
Qed.
Lemma insert_increasing : forall x l, increasing l -> increasing (insert x l).
Proof.
  induction l as [|z r IH]; cbn; intros H; [split; [constructor|exact I]|]. destruct H as [H1 H2]. destruct (sle x z) eqn:E.
  - cbn. split; [|split; assumption]. constructor; [exact E|].
    apply Forall_forall. intros y Hy. rewrite Forall_forall in H1. exact (sle_trans _ _ _ E (H1 y Hy)).
  - cbn. split; [|exact (IH H2)]. apply Forall_forall. intros y Hy. apply insert_In in Hy as [->|Hy]; [exact (sle_total _ _ E)|].
    rewrite Forall_forall in H1. exact (H1 y Hy).
Qed.
Lemma sorted_increasing : forall l, increasing (sorted_names l).
Proof. induction l as [|x r IH]; [exact I|]. exact (insert_increasing x _ IH). Qed.
Lemma insert_first : forall x l, Forall (fun y => sle x y = true) l -> insert x l = x :: l.
Proof. intros x [|y r] H; [reflexivity|]. cbn. inversion H as [|? ? E _]; subst. rewrite E. reflexivity. Qed.
Lemma filter_insert : forall p x l, increasing l ->
  filter p (insert x l) = if p x then insert x (filter p l) else filter p l.
Proof.
  induction l as [|z r IH]; intros H; [cbn; destruct (p x); reflexivity|]. destruct H as [H1 H2]. cbn [insert]. destruct (sle x z) eqn:E.
  - cbn [filter]. destruct (p x); [|reflexivity]. symmetry. apply insert_first.
    assert (A : Forall (fun y => sle x y = true) (z :: r)).
    { constructor; [exact E|]. apply Forall_forall. intros y Hy. rewrite Forall_forall in H1. exact (sle_trans _ _ _ E (H1 y Hy)). }
    apply Forall_forall. intros y Hy. rewrite Forall_forall in A. apply A. change (In y (filter p (z :: r))) in Hy. apply filter_In in Hy. tauto.
  - cbn [filter]. rewrite (IH H2). destruct (p z) eqn:Pz, (p x); try reflexivity. cbn [insert]. rewrite E. reflexivity.
Qed.
Lemma filter_sorted : forall p l, filter p (sorted_names l) = sorted_names (filter p l).
Proof.
  induction l as [|x r IH]; [reflexivity|]. cbn [sorted_names fold_right filter]. change (fold_right insert [] r) with (sorted_names r).
  rewrite (filter_insert p x _ (sorted_increasing r)), IH. destruct (p x); reflexivity.
Qed.

(** ** The dictionary *)

Lemma to_dict_is : forall V specials special_set k (args : string -> V), Forall (fun n => prefix "__" n = true) specials ->
  to_dict specials special_set (construct k args) = Some (map (fun n => (n, args n)) (public k)).
Proof.
  intros V sp ss k args H. unfold to_dict, dir. rewrite filter_sorted, filter_app. cbn [ob_kind construct].
  replace (filter (fun key => has_set ss k key && negb (prefix "__" key)) sp) with (@nil string).
  - destruct k; reflexivity.
  - symmetry. induction sp as [|n r IH]; [reflexivity|]. inversion H as [|? ? H1 H2]; subst. cbn [filter]. rewrite H1, andb_false_r. exact (IH H2).
Qed.
(** For every kind of result and all values: the dictionary has exactly the documented attributes, each
    with the value the result was made with, whatever other names Python adds to the class; reading the
    attribute gives the same; and there is no other attribute. *)
Theorem C88_dictionary : forall V specials special_set k (args : string -> V), Forall (fun n => prefix "__" n = true) specials ->
  to_dict specials special_set (construct k args) = Some (map (fun n => (n, args n)) (public k))
  /\ forall n, getattr (construct k args) n = if existsb (String.eqb n) (public k) then Some (args n) else None.
Proof.
  intros V sp ss k args H. split; [exact (to_dict_is V sp ss k args H)|]. intros n. unfold getattr, find_in. cbn [ob_kind ob_field construct].
  destruct k; cbn [properties public existsb List.find fst];
    rewrite ?(String.eqb_sym n);
    repeat match goal with |- context [String.eqb ?a n] => destruct (String.eqb_spec a n) as [<-|?]; [reflexivity|] end; reflexivity.
Qed.
Print Assumptions C88_dictionary.
(** Two results of a kind with equal dictionaries agree in every attribute. *)
Theorem C88_dictionary_faithful : forall V specials special_set k (a b : string -> V), Forall (fun n => prefix "__" n = true) specials ->
  to_dict specials special_set (construct k a) = to_dict specials special_set (construct k b) ->
  forall n, getattr (construct k a) n = getattr (construct k b) n.
Proof.
  intros V sp ss k a b H E n. rewrite (to_dict_is V sp ss k a H), (to_dict_is V sp ss k b H) in E.
  rewrite (proj2 (C88_dictionary V sp ss k a H) n), (proj2 (C88_dictionary V sp ss k b H) n).
  destruct (existsb (String.eqb n) (public k)) eqn:X; [|reflexivity]. apply existsb_exists in X as (m & I & X). apply String.eqb_eq in X. subst m.
  injection E as E. f_equal. revert E I. generalize (public k). induction l as [|m r IH]; intros E I; [destruct I|].
  cbn in E. injection E as E1 E2. destruct I as [->|I]; [exact E1|exact (IH E2 I)].
Qed.
Print Assumptions C88_dictionary_faithful.

(** ** The HTML table *)

Lemma append_assoc : forall a b c : string, (a ++ b) ++ c = a ++ (b ++ c).
Proof. induction a as [|x a IH]; intros b c; [reflexivity|]. cbn. rewrite IH. reflexivity. Qed.
Lemma format_skip : forall c s l, Ascii.eqb c "{" = false -> format (String c s) l = option_map (String c) (format s l).
Proof.
  intros c s l H. destruct s as [|d q]; [reflexivity|].
  change (format (String c (String d q)) l) with (if (Ascii.eqb c "{" && Ascii.eqb d "}")%char
    then match l with [] => None | x :: t => option_map (append x) (format q t) end
    else option_map (String c) (format (String d q) l)). rewrite H. reflexivity.
Qed.
Lemma format_hole : forall q x t, format (String "{" (String "}" q)) (x :: t) = option_map (append x) (format q t).
Proof. reflexivity. Qed.
Lemma format_cells : forall a b l, has_char "{" a = false -> has_char "{" b = false ->
  format (times (List.length l) (a ++ "{}" ++ b)) l = Some (joined (map (fun x => a ++ x ++ b) l)).
Proof.
  assert (S : forall a s l, has_char "{" a = false -> format (a ++ s) l = option_map (append a) (format s l)).
  { induction a as [|c a IH]; intros s l H; [cbn; destruct (format s l); reflexivity|]. cbn [has_char] in H.
    apply orb_false_iff in H as [H1 H2]. cbn [append]. rewrite format_skip by (rewrite Ascii.eqb_sym; exact H1).
    rewrite (IH s l H2). destruct (format s l); reflexivity. }
  intros a b l Ha Hb. induction l as [|x r IH]; [reflexivity|]. cbn [List.length times joined map].
  rewrite !append_assoc, S by exact Ha.
  change ("{}" ++ b ++ times (List.length r) (a ++ "{}" ++ b)) with (String "{" (String "}" (b ++ times (List.length r) (a ++ "{}" ++ b)))).
  rewrite format_hole, S by exact Hb. rewrite IH. cbn [option_map]. rewrite ?append_assoc. reflexivity.
Qed.
(** The table as text: a header with the names and a body with the values, in the same order. *)
Theorem C88_html : forall V (show : V -> string) specials special_set k args, Forall (fun n => prefix "__" n = true) specials ->
  html show specials special_set (construct k args) = Some
    ("<table><thead><tr>" ++ joined (map (fun n => "<th>" ++ n ++ "</th>") (public k)) ++ "</tr></thead>"
      ++ "<tbody>" ++ joined (map (fun n => "<td>" ++ show (args n) ++ "</td>") (public k)) ++ "</tbody></table>").
Proof.
  intros V show sp ss k args H. unfold html. rewrite (to_dict_is V sp ss k args H). cbv zeta. rewrite !map_map. cbn [fst snd].
  rewrite map_id. change "<th>{}</th>" with ("<th>" ++ "{}" ++ "</th>"). change "<td>{}</td>" with ("<td>" ++ "{}" ++ "</td>").
  rewrite !format_cells by reflexivity. rewrite map_map.
  assert (N : forall A (x : A) (l : list string) (y : option A), l <> [] -> match l with [] => Some x | _ => y end = y) by (intros A x [|? ?] y Z; [destruct Z; reflexivity|reflexivity]).
  rewrite N by (destruct k; discriminate). cbn [option_map]. rewrite !append_assoc. reflexivity.
Qed.
Print Assumptions C88_html.
Lemma cell_inj : forall x y a b, has_char "<" x = false -> has_char "<" y = false ->
  x ++ String "<" a = y ++ String "<" b -> x = y /\ a = b.
Proof.
  induction x as [|c x IH]; intros [|d y] a b Hx Hy E; cbn in *.
  - injection E as E. auto.
  - injection E as E1 E2. subst d. discriminate Hy.
  - injection E as E1 E2. subst c. discriminate Hx.
  - injection E as -> E. apply orb_false_iff in Hx as [_ Hx]. apply orb_false_iff in Hy as [_ Hy]. destruct (IH y a b Hx Hy E) as [-> ->]. auto.
Qed.
Lemma append_inj : forall a x y : string, a ++ x = a ++ y -> x = y.
Proof. induction a as [|c a IH]; intros x y E; [exact E|]. cbn in E. injection E as E. exact (IH x y E). Qed.
(** Two results of a kind with the same table show the same text for every attribute, if the texts of
    values are free of "<". *)
Theorem C88_html_faithful : forall V (show : V -> string) specials special_set k a b, Forall (fun n => prefix "__" n = true) specials ->
  (forall v, has_char "<" (show v) = false) ->
  html show specials special_set (construct k a) = html show specials special_set (construct k b) ->
  forall n, option_map show (getattr (construct k a) n) = option_map show (getattr (construct k b) n).
Proof.
  intros V show sp ss k a b H F E n. rewrite (C88_html V show sp ss k a H), (C88_html V show sp ss k b H) in E.
  rewrite (proj2 (C88_dictionary V sp ss k a H) n), (proj2 (C88_dictionary V sp ss k b H) n).
  destruct (existsb (String.eqb n) (public k)) eqn:X; [|reflexivity]. apply existsb_exists in X as (m & I & X). apply String.eqb_eq in X. subst m.
  cbn [option_map]. f_equal. assert (S1 : forall x y : string, Some x = Some y -> x = y) by congruence. apply S1 in E. clear S1.
  apply append_inj in E. apply append_inj in E. apply append_inj in E. apply append_inj in E.
  revert E I. generalize (public k). intros l. induction l as [|m r IH]; intros E I; [destruct I|].
  cbn [map joined] in E. rewrite !append_assoc in E. apply append_inj in E.
  apply cell_inj in E as [E1 E2]; [|apply F|apply F]. apply (append_inj "/td>") in E2. destruct I as [->|I]; [exact E1|exact (IH E2 I)].
Qed.
Print Assumptions C88_html_faithful.

(** ** The elements of the bulk arrays *)

(** The columns the command line tool writes (C85) are the attributes of the elements. *)
Theorem C88_columns : forall cf mp av,
  map (getattr (construct Corrfunc (corrfunc_args cf))) ["r"; "mu"; "z"; "value"] = map Some (cf_row cf)
  /\ map (getattr (construct Multipoles (multipoles_args mp))) ["r"; "l"; "z"; "value"] = map Some (mp_row mp)
  /\ map (getattr (construct AverageMultipoles (average_args av))) ["r"; "l"; "z_min"; "z_max"; "value"] = map Some (av_row av).
Proof. intros cf mp av. repeat split; reflexivity. Qed.
Print Assumptions C88_columns.

(** A multipole, on a Python with three names of its own, of which two have a [__set__]. *)
Definition py_names : list string := ["__dict__"; "__init__"; "__weakref__"].
Example C88_met : Forall (fun n => prefix "__" n = true) py_names
  /\ to_dict py_names (fun n => negb (String.eqb n "__init__"))
       (construct Multipoles (fun n => if String.eqb n "l" then 2%Z else if String.eqb n "r" then 100%Z else if String.eqb n "z" then 1%Z else 7%Z))
     = Some [("l", 2%Z); ("r", 100%Z); ("value", 7%Z); ("z", 1%Z)].
Proof. split; [repeat constructor|reflexivity]. Qed.
Example C88_html_met :
  (forall v : bool, has_char "<" (if v then "1.0" else "2.5e-05") = false)
  /\ html (fun v : bool => if v then "1.0" else "2.5e-05") py_names (fun _ => true) (construct Corrfunc (fun n => negb (String.eqb n "value")))
     = Some "<table><thead><tr><th>mu</th><th>r</th><th>value</th><th>z</th></tr></thead><tbody><td>1.0</td><td>1.0</td><td>2.5e-05</td><td>1.0</td></tbody></table>".
Proof. split; [intros []; reflexivity|reflexivity]. Qed.
