(** * Lemmas about lines and tables of numbers *)
From Coq Require Import ZArith Arith Bool Ascii String List Lia.
From Verif Require Import FileIO.
Import ListNotations.
Open Scope nat_scope.

(** A newline at the end of a string does not change the number it starts with. *)
Lemma skip_space_nl : forall l, skip_space (l ++ [newline]) =
  match skip_space l with [] => [] | s => s ++ [newline] end.
Proof.
  induction l as [|c r IH]; [reflexivity|]. cbn [app skip_space].
  destruct (is_space c); [exact IH|reflexivity].
Qed.
Lemma take_sign_nl : forall s, s <> [] ->
  take_sign (s ++ [newline]) = (fst (take_sign s), snd (take_sign s) ++ [newline]).
Proof.
  intros [|c r] N; [congruence|]. cbn [app take_sign].
  destruct (Ascii.eqb c "-"); [reflexivity|]. destruct (Ascii.eqb c "+"); reflexivity.
Qed.
Lemma starts_nl : forall w s, forallb (fun c => negb (Ascii.eqb c newline)) w = true ->
  starts w (s ++ [newline]) = starts w s.
Proof.
  unfold starts. induction w as [|x w IH]; intros s H; [reflexivity|].
  cbn [forallb] in H. apply andb_prop in H. destruct H as [H1 H2].
  destruct s as [|c r].
  - cbn. apply negb_true_iff in H1. change (lower newline) with newline. rewrite H1.
    cbn. apply andb_false_r.
  - cbn [app List.length combine forallb Nat.leb fst snd]. specialize (IH r H2).
    destruct (Ascii.eqb x (lower c)); cbn [andb]; [exact IH|rewrite !andb_false_r; reflexivity].
Qed.
Lemma take_digits_nl : forall s,
  take_digits (s ++ [newline]) = (fst (take_digits s), snd (take_digits s) ++ [newline]).
Proof.
  induction s as [|c r IH]; [reflexivity|]. cbn [app take_digits].
  destruct (char_digit c); [|reflexivity]. rewrite IH. destruct (take_digits r); reflexivity.
Qed.
Lemma take_exp_nl : forall s, take_exp (s ++ [newline]) = take_exp s.
Proof.
  intros [|c r]; [reflexivity|]. cbn [app take_exp].
  destruct (Ascii.eqb (lower c) "e"); [|reflexivity].
  destruct r as [|d q]; [reflexivity|].
  rewrite take_sign_nl by discriminate. destruct (take_sign (d :: q)) as [neg s]. cbn [fst snd].
  rewrite take_digits_nl. destruct (take_digits s) as [[|x y] z]; reflexivity.
Qed.
Lemma scan_nl : forall l, scan (l ++ [newline]) = scan l.
Proof.
  intros l. unfold scan. rewrite skip_space_nl. destruct (skip_space l) as [|c r]; [reflexivity|].
  rewrite take_sign_nl by discriminate. destruct (take_sign (c :: r)) as [neg s]. cbn [fst snd].
  rewrite !starts_nl by reflexivity.
  destruct (starts _ s); [reflexivity|]. destruct (starts _ s); [reflexivity|].
  rewrite take_digits_nl. destruct (take_digits s) as [ints q]. cbn [fst snd].
  destruct q as [|d q].
  - cbn [app]. change (Ascii.eqb newline ".") with false. cbv iota. destruct (ints ++ []); reflexivity.
  - cbn [app]. destruct (Ascii.eqb d ".").
    + rewrite take_digits_nl. destruct (take_digits q) as [fr q']. cbn [fst snd].
      rewrite take_exp_nl. reflexivity.
    + change (d :: q ++ [newline]) with ((d :: q) ++ [newline]). rewrite take_exp_nl. reflexivity.
Qed.

(** The tokens of a line with its newline: those of the line, and the newline
    stays with the last or becomes one. *)
Lemma tokens_from_nl : forall s cur j t, nth_error (tokens_from cur s) j = Some t ->
  exists t', nth_error (tokens_from cur (s ++ [newline])) j = Some t' /\ scan t' = scan t.
Proof.
  induction s as [|c r IH]; intros cur j t H; cbn [app tokens_from] in *.
  - destruct cur as [|x y]; [destruct j; discriminate|].
    change (is_delim newline) with false. cbv iota.
    destruct j; [|destruct j; discriminate]. cbn in H. inversion H; subst.
    exists (rev (x :: y) ++ [newline]). split; [|apply scan_nl].
    cbn [nth_error rev]. reflexivity.
  - destruct (is_delim c).
    + destruct cur as [|x y]; [apply IH; exact H|].
      destruct j as [|j]; [exists t; split; [exact H|reflexivity]|]. cbn [nth_error] in *. apply IH. exact H.
    + apply IH. exact H.
Qed.

Lemma c_string_nl : forall l, forallb not_nul l = true -> c_string (l ++ [newline]) = l ++ [newline].
Proof. intros l H. apply c_string_id. rewrite forallb_app, H. reflexivity. Qed.

Lemma cells_nl : forall n l, forallb not_nul l = true -> n <= List.length (tokens l) ->
  map (cell (tokens (c_string (l ++ [newline])))) (seq 0 n)
  = map (fun t => Some (scan t)) (firstn n (tokens l)).
Proof.
  intros n l N L. rewrite c_string_nl by exact N.
  assert (G : forall k a, a + k <= List.length (tokens l) ->
    map (cell (tokens (l ++ [newline]))) (seq a k)
    = map (fun t => Some (scan t)) (firstn k (skipn a (tokens l)))).
  { induction k as [|k IH]; intros a H; [reflexivity|]. cbn [seq map].
    rewrite IH by lia.
    destruct (nth_error (tokens l) a) as [t|] eqn:E; [|apply nth_error_None in E; lia].
    assert (S : skipn a (tokens l) = t :: skipn (S a) (tokens l)).
    { clear - E. revert a E. induction (tokens l) as [|x y IHt]; intros a E; [destruct a; discriminate|].
      destruct a as [|a]; [cbn in E; inversion E; reflexivity|]. cbn in E. exact (IHt a E). }
    rewrite S. cbn [firstn map]. f_equal. unfold cell.
    destruct (tokens_from_nl l [] a t E) as [t' [E' S']]. unfold tokens. rewrite E', S'. reflexivity. }
  exact (G n 0 L).
Qed.

(** read_2col is coffe_read_ncol with two columns when it has them. *)
Lemma read_2col_ncol : forall buf s,
  Forall (fun b => 2 <= List.length (tokens (c_string b))) (data_pieces buf s) ->
  read_2col buf s = read_ncol 2 buf s.
Proof.
  intros buf s F. unfold read_2col, read_ncol.
  induction (data_pieces buf s) as [|b r IH]; [reflexivity|].
  inversion F; subst. cbn [fold_right map seq]. rewrite IH by assumption.
  destruct (tokens (c_string b)) as [|t1 [|t2 q]]; cbn in *; try lia. reflexivity.
Qed.

(** ** Tables *)
Section Tables.
Context {V : Type}.
Variable show : nat -> V -> shown.

Lemma tokens_row : forall (p : nat) sep row, sep <> [] -> forallb is_delim sep = true ->
  tokens (concat (map (fun v => text (show p v) ++ sep) row) ++ [newline])
  = map (fun v => text (show p v)) row ++ [[newline]].
Proof.
  intros p sep row N D. induction row as [|v r IH]; [reflexivity|].
  cbn [map concat]. rewrite <- !app_assoc.
  rewrite tokens_word; [|apply text_nonempty|exact N|apply text_clean|exact D].
  rewrite IH. reflexivity.
Qed.

Lemma delim_plain : forall d, forallb is_delim d = true -> forallb plain d = true.
Proof.
  intros d H. apply forallb_forall. intros c Hc. rewrite forallb_forall in H. specialize (H c Hc).
  unfold is_delim in H. apply existsb_exists in H. destruct H as [x [Hx Ex]].
  apply Ascii.eqb_eq in Ex. subst x. repeat (destruct Hx as [<-|Hx]; [reflexivity|]). contradiction.
Qed.
Lemma delim_not_nul : forall d, forallb is_delim d = true -> forallb not_nul d = true.
Proof.
  intros d H. apply forallb_forall. intros c Hc. rewrite forallb_forall in H. specialize (H c Hc).
  unfold is_delim in H. apply existsb_exists in H. destruct H as [x [Hx Ex]].
  apply Ascii.eqb_eq in Ex. subst x. repeat (destruct Hx as [<-|Hx]; [reflexivity|]). contradiction.
Qed.

Lemma forallb_concat : forall {A} (P : A -> bool) ls, forallb P (concat ls) = forallb (forallb P) ls.
Proof. intros A P ls. induction ls as [|l r IH]; [reflexivity|]. cbn. rewrite forallb_app, IH. reflexivity. Qed.
Lemma forallb_map : forall {A B} (P : B -> bool) (f : A -> B) l, forallb P (map f l) = forallb (fun x => P (f x)) l.
Proof. intros A B P f l. induction l as [|x r IH]; [reflexivity|]. cbn. rewrite IH. reflexivity. Qed.

(** Specification or proof only; nothing in the code. *)
Definition body (p : nat) (sep : bytes) (row : list V) : bytes :=
  concat (map (fun v => text (show p v) ++ sep) row).
Lemma body_plain : forall p sep row, forallb is_delim sep = true -> forallb plain (body p sep row) = true.
Proof.
  intros p sep row D. unfold body. rewrite forallb_concat, forallb_map. apply forallb_forall. intros v _.
  rewrite forallb_app, text_plain, delim_plain by exact D. reflexivity.
Qed.
Lemma body_not_nul : forall p sep row, forallb is_delim sep = true -> forallb not_nul (body p sep row) = true.
Proof.
  intros p sep row D. unfold body. rewrite forallb_concat, forallb_map. apply forallb_forall. intros v _.
  rewrite forallb_app, text_not_nul, delim_not_nul by exact D. reflexivity.
Qed.
Lemma body_not_comment : forall p sep row, is_comment (body p sep row) = false.
Proof.
  intros p sep [|v r]; [reflexivity|]. unfold body. cbn [map concat]. rewrite <- app_assoc.
  apply text_not_comment.
Qed.
(** [show p] prints [p] digits after the point.  Specification or proof only; nothing in the code. *)
Definition digits_after : Prop := forall p v, match show p v with Fin _ _ frac _ _ => List.length frac = p | _ => True end.
Lemma body_length : forall p sep row, digits_after ->
  List.length (body p sep row) <= List.length row * (p + 8 + List.length sep).
Proof.
  intros p sep row D. unfold body. induction row as [|v r IH]; [reflexivity|].
  cbn [map concat List.length]. rewrite !app_length.
  pose proof (text_length (show p v) p (D p v)). lia.
Qed.

Lemma filter_all : forall {A} (P : A -> bool) l, forallb P l = true -> filter P l = l.
Proof.
  intros A P l. induction l as [|x r IH]; intros H; [reflexivity|]. cbn in *.
  apply andb_prop in H. destruct H as [H1 H2]. rewrite H1, IH by exact H2. reflexivity.
Qed.
Lemma filter_none : forall {A} (P : A -> bool) l, forallb (fun x => negb (P x)) l = true -> filter P l = [].
Proof.
  intros A P l. induction l as [|x r IH]; intros H; [reflexivity|]. cbn in *.
  apply andb_prop in H. destruct H as [H1 H2]. apply negb_true_iff in H1. rewrite H1. apply IH. exact H2.
Qed.

(** What the readers see of comment lines followed by other lines. *)
Lemma data_header : forall buf hs bs,
  Forall readable hs -> forallb is_comment hs = true ->
  Forall readable bs -> forallb (fun b => negb (is_comment b)) bs = true ->
  data_pieces buf (unlines hs ++ unlines bs) = map (fun l => l ++ [newline]) bs.
Proof.
  intros buf hs bs Rh Ch Rb Cb.
  replace (unlines hs ++ unlines bs) with (unlines (hs ++ bs) ++ []).
  2: { unfold unlines. rewrite map_app, concat_app, app_nil_r. reflexivity. }
  rewrite data_unlines; [|apply Forall_app; split; assumption|reflexivity].
  rewrite filter_app, filter_none, (filter_all _ bs) by
    (first [exact Cb | rewrite <- Ch; clear; induction hs as [|h r IH]; [reflexivity|]; cbn; rewrite IH, negb_involutive; reflexivity]).
  reflexivity.
Qed.

(** Rows of a table written with separators after every number. *)
Lemma read_rows : forall p sep buf hs rows n,
  sep <> [] -> forallb is_delim sep = true -> digits_after ->
  Forall readable hs -> forallb is_comment hs = true ->
  Forall (fun r => List.length r = n) rows -> n * (p + 8 + List.length sep) < BUF - 1 ->
  read_ncol n buf (unlines hs ++ concat (map (fun r => body p sep r ++ [newline]) rows))
  = Rows (map (map (fun v => Some (literal_of (show p v)))) rows).
Proof.
  intros p sep buf hs rows n N D DA Rh Ch L W. unfold read_ncol. f_equal.
  replace (concat (map (fun r => body p sep r ++ [newline]) rows)) with (unlines (map (body p sep) rows))
    by (unfold unlines; rewrite map_map; reflexivity).
  rewrite data_header; [|exact Rh|exact Ch| |].
  - rewrite !map_map. apply map_ext_in. intros r Hr. rewrite Forall_forall in L. specialize (L r Hr).
    rewrite c_string_nl by (apply body_not_nul; exact D). unfold body. rewrite tokens_row by assumption.
    subst n. clear. assert (G : forall pre, map (cell (map (fun v => text (show p v)) (pre ++ r) ++ [[newline]])) (seq (List.length pre) (List.length r))
      = map (fun v => Some (literal_of (show p v))) r).
    { induction r as [|v q IH]; intros pre; [reflexivity|]. cbn [List.length seq map]. f_equal.
      - unfold cell. rewrite map_app, <- app_assoc, nth_error_app2 by (rewrite map_length; lia).
        rewrite map_length, Nat.sub_diag. cbn [map app nth_error].
        rewrite <- (app_nil_r (text _)), scan_text by exact I. reflexivity.
      - specialize (IH (pre ++ [v])). rewrite <- app_assoc in IH. cbn [app] in IH.
        rewrite app_length in IH. cbn [List.length] in IH. rewrite Nat.add_1_r in IH. exact IH. }
    exact (G []).
  - apply Forall_forall. intros b Hb. apply in_map_iff in Hb. destruct Hb as [r [<- Hr]].
    rewrite Forall_forall in L. specialize (L r Hr). subst n.
    split; [apply body_plain; exact D|]. pose proof (body_length p sep r DA). lia.
  - rewrite forallb_map. apply forallb_forall. intros r _. rewrite body_not_comment. reflexivity.
Qed.
End Tables.
