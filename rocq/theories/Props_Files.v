(** * Properties of the files the program reads and writes: C32, C33, C34, C40

    The specification: a file is a byte string, its lines are the stretches
    between newlines (the last one counts even if no newline ends it), a line that
    starts with '#' is a comment. *)
From Coq Require Import ZArith Arith Bool Ascii String List Lia.
From Verif Require Import FileIO FileLemmas Output.
Import ListNotations.
Open Scope nat_scope.

(** ** Specification: lines *)
Fixpoint lines (s : bytes) : list bytes :=
  match s with
  | [] => []
  | c :: r => if Ascii.eqb c newline then [] :: lines r
              else match lines r with
                   | l :: ls => (c :: l) :: ls
                   | [] => [[c]] end
  end.
(** The second case glues [c] to the line that follows only if that line is the
    one [c] is on; [lines] of an unterminated rest is one line, so this is always
    so. *)
Lemma lines_app : forall l r, forallb (fun c => negb (Ascii.eqb c newline)) l = true ->
  lines (l ++ newline :: r) = l :: lines r.
Proof.
  induction l as [|c q IH]; intros r H; [reflexivity|].
  cbn [forallb] in H. apply andb_prop in H. destruct H as [H1 H2]. apply negb_true_iff in H1.
  cbn [app lines]. rewrite H1, IH by exact H2. reflexivity.
Qed.
Lemma lines_last : forall l, forallb (fun c => negb (Ascii.eqb c newline)) l = true -> l <> [] ->
  lines l = [l].
Proof.
  induction l as [|c q IH]; intros H N; [congruence|].
  cbn [forallb] in H. apply andb_prop in H. destruct H as [H1 H2]. apply negb_true_iff in H1.
  cbn [lines]. rewrite H1. destruct q as [|d q]; [reflexivity|]. rewrite IH by (exact H2 || discriminate).
  reflexivity.
Qed.

Definition data_lines (s : bytes) : list bytes := filter (fun l => negb (is_comment l)) (lines s).

(** A file of text: no byte is 0 or 0xFF. *)
Definition is_text (s : bytes) : bool := forallb (fun c => negb (Ascii.eqb c nul) && negb (Ascii.eqb c xff)) s.
(** It ends with a newline (or is empty). *)
Definition ends_with_newline (s : bytes) : Prop := s = [] \/ exists q, s = q ++ [newline].
(** Its lines, newline included, fit a buffer of 256 bytes with a terminating NUL. *)
Definition short_lines (s : bytes) : Prop := Forall (fun l => List.length l < 255) (lines s).

Lemma split_last : forall s, exists ls rest,
  s = unlines ls ++ rest /\ forallb (fun c => negb (Ascii.eqb c newline)) rest = true
  /\ Forall (fun l => forallb (fun c => negb (Ascii.eqb c newline)) l = true) ls.
Proof.
  induction s as [|c r [ls [rest [E [R F]]]]].
  - exists [], []. repeat split. constructor.
  - destruct (Ascii.eqb c newline) eqn:C.
    + apply Ascii.eqb_eq in C. subst c. exists ([] :: ls), rest. split; [rewrite E; reflexivity|].
      split; [exact R|constructor; [reflexivity|exact F]].
    + destruct ls as [|l ls].
      * exists [], (c :: rest). split; [rewrite E; reflexivity|]. split; [cbn; rewrite C; exact R|constructor].
      * exists ((c :: l) :: ls), rest. inversion F; subst. split; [reflexivity|]. split; [exact R|].
        constructor; [cbn; rewrite C; assumption|assumption].
Qed.
Lemma lines_unlines : forall ls rest, Forall (fun l => forallb (fun c => negb (Ascii.eqb c newline)) l = true) ls ->
  lines (unlines ls ++ rest) = ls ++ lines rest.
Proof.
  induction ls as [|l r IH]; intros rest F; [reflexivity|]. inversion F; subst.
  unfold unlines. cbn [map concat]. rewrite <- !app_assoc. cbn [app]. rewrite lines_app by assumption.
  fold (unlines r). rewrite IH by assumption. reflexivity.
Qed.

(** What the readers use of a text with short lines: the lines that a newline ends. *)
Lemma read_text : forall s buf, is_text s = true -> short_lines s ->
  exists ls rest, s = unlines ls ++ rest /\ lines rest = (match rest with [] => [] | _ => [rest] end)
  /\ lines s = ls ++ lines rest
  /\ Forall (fun l => forallb not_nul l = true) ls
  /\ data_pieces buf s = map (fun l => l ++ [newline]) (filter (fun l => negb (is_comment l)) ls).
Proof.
  intros s buf T S. destruct (split_last s) as [ls [rest [E [R F]]]]. exists ls, rest.
  assert (L : lines s = ls ++ lines rest) by (rewrite E; apply lines_unlines; exact F).
  assert (T' : forall l, In l ls -> forallb (fun c => negb (Ascii.eqb c nul) && negb (Ascii.eqb c xff)) l = true).
  { intros l Hl. apply forallb_forall. intros c Hc. unfold is_text in T. rewrite forallb_forall in T. apply T.
    rewrite E. apply in_or_app. left. unfold unlines. apply in_concat. exists (l ++ [newline]).
    split; [apply in_map_iff; exists l; split; [reflexivity|exact Hl]|apply in_or_app; left; exact Hc]. }
  split; [exact E|]. split; [destruct rest; [reflexivity|apply lines_last; [exact R|discriminate]]|].
  split; [exact L|]. split.
  - apply Forall_forall. intros l Hl. specialize (T' l Hl). rewrite forallb_forall in *. intros c Hc.
    specialize (T' c Hc). apply andb_prop in T'. destruct T' as [T1 _]. exact T1.
  - rewrite E. apply data_unlines.
    + apply Forall_forall. intros l Hl. split.
      * rewrite Forall_forall in F. specialize (F l Hl). specialize (T' l Hl).
        rewrite forallb_forall in *. intros c Hc. unfold plain. rewrite (F c Hc).
        specialize (T' c Hc). apply andb_prop in T'. destruct T' as [_ T2]. rewrite T2. reflexivity.
      * unfold short_lines in S. rewrite Forall_forall in S. apply S. rewrite L. apply in_or_app. left. exact Hl.
    + clear - R. induction rest as [|c r IH]; [reflexivity|]. cbn [forallb] in R. apply andb_prop in R.
      destruct R as [R1 R2]. apply negb_true_iff in R1. cbn [count_newlines]. rewrite R1, IH by exact R2.
      destruct (Ascii.eqb c xff); reflexivity.
Qed.

Lemma read_terminated : forall s buf, is_text s = true -> short_lines s -> ends_with_newline s ->
  Forall (fun l => forallb not_nul l = true) (data_lines s)
  /\ data_pieces buf s = map (fun l => l ++ [newline]) (data_lines s).
Proof.
  intros s buf T S E. destruct (read_text s buf T S) as [ls [rest [E' [R [L [N D]]]]]].
  assert (rest = []) as ->.
  { destruct E as [E|[q E]].
    - rewrite E in E'. symmetry in E'. apply app_eq_nil in E'. tauto.
    - destruct rest as [|c r] using rev_ind; [reflexivity|]. clear IHr.
      rewrite E', app_assoc in E. apply app_inj_tail in E. destruct E as [_ ->].
      exfalso. assert (X : lines (r ++ [newline]) = [r ++ [newline]]).
      { destruct (r ++ [newline]) eqn:Z; [destruct r; discriminate|]. rewrite <- Z in *. exact R. }
      clear - X. assert (Y : forall a b, In b (lines a) -> ~ In newline b).
      { induction a as [|c a IH]; cbn; intros b H; [contradiction|].
        destruct (Ascii.eqb c newline) eqn:C.
        - destruct H as [<-|H]; [intros []|apply IH; exact H].
        - apply Ascii.eqb_neq in C. destruct (lines a) as [|l ls] eqn:La.
          + destruct H as [<-|[]]. intros [Z|[]]. congruence.
          + destruct H as [<-|H]; [|apply IH; right; exact H].
            intros [Z|Z]; [congruence|]. exact (IH l (or_introl eq_refl) Z). }
      apply (Y (r ++ [newline]) (r ++ [newline])); [rewrite X; left; reflexivity|].
      apply in_or_app. right. left. reflexivity. }
  cbn in L. rewrite app_nil_r in L. unfold data_lines. rewrite L. split; [|exact D].
  apply Forall_forall. intros l Hl. apply filter_In in Hl. rewrite Forall_forall in N. apply N. tauto.
Qed.

(** ** C33 Every data line is read *)

(** C33, for text files with a final newline and lines that fit the buffer: the
    single-column reader yields one row per line that is not a comment, the number
    the line starts with.  Missing: other files, see the refutations. *)
Theorem C33_read_1col_partial : forall buf s,
  is_text s = true -> short_lines s -> ends_with_newline s ->
  read_1col buf s = Rows (map (fun l => [Some (scan l)]) (data_lines s)).
Proof.
  intros buf s T S E. destruct (read_terminated s buf T S E) as [N D].
  unfold read_1col. rewrite D. f_equal. rewrite map_map. apply map_ext_in. intros l Hl.
  rewrite Forall_forall in N. rewrite c_string_nl by (apply N; exact Hl). rewrite scan_nl. reflexivity.
Qed.
Print Assumptions C33_read_1col_partial.

(** The same for [n] columns, if every data line has [n] fields. *)
Theorem C33_read_ncol_partial : forall n buf s,
  is_text s = true -> short_lines s -> ends_with_newline s ->
  Forall (fun l => n <= List.length (tokens l)) (data_lines s) ->
  read_ncol n buf s = Rows (map (fun l => map (fun t => Some (scan t)) (firstn n (tokens l))) (data_lines s)).
Proof.
  intros n buf s T S E F. destruct (read_terminated s buf T S E) as [N D].
  unfold read_ncol. rewrite D. f_equal. rewrite map_map. apply map_ext_in. intros l Hl.
  rewrite Forall_forall in N, F. apply cells_nl; [apply N; exact Hl|apply F; exact Hl].
Qed.
Print Assumptions C33_read_ncol_partial.

Theorem C33_read_2col_partial : forall buf s,
  is_text s = true -> short_lines s -> ends_with_newline s ->
  Forall (fun l => 2 <= List.length (tokens l)) (data_lines s) ->
  read_2col buf s = Rows (map (fun l => map (fun t => Some (scan t)) (firstn 2 (tokens l))) (data_lines s)).
Proof.
  intros buf s T S E F. rewrite <- (C33_read_ncol_partial 2 buf s T S E F). apply read_2col_ncol.
  destruct (read_terminated s buf T S E) as [N D]. rewrite D. apply Forall_forall. intros b Hb.
  apply in_map_iff in Hb. destruct Hb as [l [<- Hl]]. rewrite Forall_forall in N, F.
  rewrite c_string_nl by (apply N; exact Hl). specialize (F l Hl).
  destruct (tokens (l ++ [newline])) as [|x [|y z]] eqn:Z; cbn; try lia; exfalso.
  - destruct (nth_error (tokens l) 0) as [t|] eqn:E0; [|apply nth_error_None in E0; lia].
    destruct (tokens_from_nl l [] 0 t E0) as [t' [E1 _]]. unfold tokens in Z. rewrite Z in E1. discriminate.
  - destruct (nth_error (tokens l) 1) as [t|] eqn:E0; [|apply nth_error_None in E0; lia].
    destruct (tokens_from_nl l [] 1 t E0) as [t' [E1 _]]. unfold tokens in Z. rewrite Z in E1. discriminate.
Qed.
Print Assumptions C33_read_2col_partial.

(** What the columns of a line are, said without the reader: the maximal runs of
    characters other than comma, tab, colon and space. *)
Definition separator (c : ascii) : Prop := c = ","%char \/ c = "009"%char \/ c = ":"%char \/ c = " "%char.
Inductive columns_of : bytes -> list bytes -> Prop :=
| cols_nil : columns_of [] []
| cols_skip : forall c r cs, separator c -> columns_of r cs -> columns_of (c :: r) cs
| cols_last : forall w, w <> [] -> Forall (fun c => ~ separator c) w -> columns_of w [w]
| cols_word : forall w c r cs, w <> [] -> Forall (fun c => ~ separator c) w -> separator c ->
    columns_of r cs -> columns_of (w ++ c :: r) (w :: cs).
Lemma delim_separator : forall c, is_delim c = true <-> separator c.
Proof.
  intros c. unfold is_delim, separator. cbn [existsb]. rewrite !orb_true_iff, !Ascii.eqb_eq. intuition congruence.
Qed.
Lemma clean_words : forall w, Forall (fun c => ~ separator c) w <-> forallb clean w = true.
Proof.
  intros w. rewrite forallb_forall, Forall_forall. unfold clean. split; intros H c Hc; specialize (H c Hc).
  - apply negb_true_iff. apply not_true_is_false. rewrite delim_separator. exact H.
  - apply negb_true_iff in H. rewrite <- delim_separator. congruence.
Qed.
Lemma tokens_from_columns : forall s cur, forallb clean cur = true ->
  columns_of (rev cur ++ s) (tokens_from cur s).
Proof.
  assert (R : forall cur, forallb clean cur = true -> forallb clean (rev cur) = true).
  { intros cur H. rewrite forallb_forall in *. intros c Hc. apply H. apply in_rev. exact Hc. }
  assert (NE : forall (a : ascii) l, rev (a :: l) <> []).
  { intros a l E. apply (f_equal (@List.length ascii)) in E. rewrite rev_length in E. discriminate. }
  induction s as [|c r IH]; intros cur H.
  - rewrite app_nil_r. cbn [tokens_from]. destruct cur as [|a l]; [constructor|].
    apply cols_last; [apply NE|apply clean_words, R, H].
  - cbn [tokens_from]. destruct (is_delim c) eqn:D.
    + apply delim_separator in D. destruct cur as [|a l].
      * apply cols_skip; [exact D|]. apply (IH []). reflexivity.
      * apply cols_word; [apply NE|apply clean_words, R, H|exact D|]. apply (IH []). reflexivity.
    + specialize (IH (c :: cur)). cbn [rev] in IH. rewrite <- app_assoc in IH. apply IH.
      cbn [forallb]. unfold clean at 1. rewrite D. exact H.
Qed.
Theorem C33_columns : forall l cs, columns_of l cs <-> cs = tokens l.
Proof.
  intros l cs. split.
  - induction 1 as [|c r cs D H IH|w N C|w c r cs N C D H IH].
    + reflexivity.
    + apply delim_separator in D. unfold tokens. cbn [tokens_from]. rewrite D. exact IH.
    + symmetry. apply tokens_last; [exact N|apply clean_words, C].
    + symmetry. change (w ++ c :: r) with (w ++ [c] ++ r). rewrite IH. apply tokens_word;
        [exact N|discriminate|apply clean_words, C|]. cbn [forallb]. apply delim_separator in D. rewrite D. reflexivity.
  - intros ->. exact (tokens_from_columns l [] eq_refl).
Qed.
Print Assumptions C33_columns.
Example C33_columns_example :
  columns_of (str ("1.5" ++ String "009"%char "2e3 ,:4")) [str "1.5"; str "2e3"; str "4"].
Proof. apply C33_columns. reflexivity. Qed.

Definition nl_str : string := String newline EmptyString.
Example C33_example :
  let s := str ("# k P" ++ nl_str ++ "1.5 2e3" ++ nl_str ++ "-4,5:6" ++ nl_str) in
  is_text s = true /\ short_lines s /\ ends_with_newline s
  /\ Forall (fun l => 2 <= List.length (tokens l)) (data_lines s)
  /\ read_2col [] s = Rows [[Some (Lit false [FileIO.D1] [D5] None); Some (Lit false [D2] [] (Some (false, [D3])))];
                            [Some (Lit true [D4] [] None); Some (Lit false [D5] [] None)]].
Proof.
  repeat split.
  - repeat constructor.
  - right. exists (str ("# k P" ++ nl_str ++ "1.5 2e3" ++ nl_str ++ "-4,5:6")). reflexivity.
  - repeat constructor.
Qed.

(** Without a final newline the last line is not read: of any text with short
    lines the reader uses the lines ended by a newline and no other. *)
Theorem C33_unterminated_line_lost : forall buf s line,
  is_text (s ++ line) = true -> short_lines (s ++ line) -> ends_with_newline s ->
  forallb (fun c => negb (Ascii.eqb c newline)) line = true ->
  read_1col buf (s ++ line) = read_1col buf s.
Proof.
  intros buf s line T S E N.
  assert (L : lines (s ++ line) = lines s ++ lines line).
  { destruct E as [->|[q ->]]; [reflexivity|]. destruct (split_last q) as [ls [rest [-> [R F]]]].
    rewrite <- !app_assoc. rewrite !lines_unlines by exact F. rewrite <- app_assoc. f_equal.
    cbn [app]. rewrite !lines_app by exact R. reflexivity. }
  assert (T1 : is_text s = true) by (unfold is_text in *; rewrite forallb_app in T; apply andb_prop in T; tauto).
  assert (S1 : short_lines s) by (unfold short_lines in *; rewrite L in S; apply Forall_app in S; tauto).
  rewrite (C33_read_1col_partial buf s T1 S1 E).
  unfold read_1col. f_equal.
  destruct (read_terminated s buf T1 S1 E) as [Nn D].
  destruct (split_last s) as [ls [rest [Es [R F]]]].
  assert (rest = []) as ->.
  { destruct E as [E|[q E]].
    - rewrite E in Es. symmetry in Es. apply app_eq_nil in Es. tauto.
    - destruct rest as [|c r] using rev_ind; [reflexivity|]. clear IHr.
      rewrite Es, app_assoc in E. apply app_inj_tail in E. destruct E as [_ ->].
      rewrite forallb_app in R. apply andb_prop in R. destruct R as [_ R]. discriminate. }
  rewrite app_nil_r in Es. subst s.
  assert (Rd : Forall readable ls).
  { apply Forall_forall. intros l Hl. split.
    - apply forallb_forall. intros c Hc. rewrite Forall_forall in F. specialize (F l Hl).
      rewrite forallb_forall in F. unfold plain. rewrite (F c Hc). unfold is_text in T1. rewrite forallb_forall in T1.
      assert (I : In c (unlines ls)).
      { unfold unlines. apply in_concat. exists (l ++ [newline]). split; [|apply in_or_app; left; exact Hc].
        apply in_map_iff. exists l. split; [reflexivity|exact Hl]. }
      specialize (T1 c I). apply andb_prop in T1. destruct T1 as [_ T1]. rewrite T1. reflexivity.
    - unfold short_lines in S1. rewrite Forall_forall in S1. apply S1.
      rewrite <- (app_nil_r (unlines ls)), lines_unlines, app_nil_r by exact F. exact Hl. }
  rewrite data_unlines; [|exact Rd|].
  - rewrite <- (app_nil_r (unlines ls)) in D. rewrite data_unlines in D by (exact Rd || reflexivity).
    rewrite D, app_nil_r. rewrite map_map. apply map_ext_in. intros l Hl. rewrite Forall_forall in Nn.
    rewrite c_string_nl by (apply Nn; exact Hl). rewrite scan_nl. reflexivity.
  - clear - N. induction line as [|c r IH]; [reflexivity|]. cbn [forallb] in N. apply andb_prop in N.
    destruct N as [R1 R2]. apply negb_true_iff in R1. cbn [count_newlines]. rewrite R1, IH by exact R2.
    destruct (Ascii.eqb c xff); reflexivity.
Qed.
Print Assumptions C33_unterminated_line_lost.

(** C33 is false of the code.  A file without final newline: its last number is
    not read. *)
Theorem C33_no_final_newline_refuted : exists s buf,
  is_text s = true /\ short_lines s /\ List.length (data_lines s) = 2
  /\ read_1col buf s = Rows [[Some (Lit false [FileIO.D1] [] None)]].
Proof.
  exists (str ("1" ++ nl_str ++ "2")), []. repeat split. repeat constructor.
Qed.
Print Assumptions C33_no_final_newline_refuted.

(** A line longer than the buffer: the reader takes its pieces for lines, and does
    not reach the last line. *)
Theorem C33_long_line_refuted : exists s buf,
  is_text s = true /\ ends_with_newline s
  /\ read_1col buf s <> Rows (map (fun l => [Some (scan l)]) (data_lines s)).
Proof.
  exists (repeat "1"%char 300 ++ [newline] ++ str "2" ++ [newline]), []. split; [reflexivity|]. split.
  - right. exists (repeat "1"%char 300 ++ [newline] ++ str "2"). reflexivity.
  - vm_compute. discriminate.
Qed.
Print Assumptions C33_long_line_refuted.

(** Even a long comment: the rest of the line is taken for a number. *)
Theorem C33_long_comment_refuted : exists s buf,
  is_text s = true /\ ends_with_newline s
  /\ data_lines s = [str "2"]
  /\ read_1col buf s = Rows [[Some NoNumber]].
Proof.
  exists ("#"%char :: repeat "x"%char 300 ++ [newline] ++ str "2" ++ [newline]), []. split; [reflexivity|]. split.
  - right. exists ("#"%char :: repeat "x"%char 300 ++ [newline] ++ str "2"). reflexivity.
  - split; vm_compute; reflexivity.
Qed.
Print Assumptions C33_long_comment_refuted.

(** A byte 0xFF, in a comment say, is taken for the end of the file (characters
    are compared with EOF as [char]). *)
Theorem C33_byte_255_refuted : exists s buf,
  ends_with_newline s /\ short_lines s /\ data_lines s = [str "2"] /\ read_1col buf s = Rows [].
Proof.
  exists ("#"%char :: xff :: newline :: str "2" ++ [newline]), []. repeat split.
  - right. exists ("#"%char :: xff :: newline :: str "2"). reflexivity.
  - repeat constructor.
Qed.
Print Assumptions C33_byte_255_refuted.

(** A blank line in a two-column file is undefined behaviour. *)
Theorem C33_blank_line_refuted : exists s buf,
  is_text s = true /\ ends_with_newline s /\ short_lines s /\ read_2col buf s = Undef.
Proof.
  exists (str ("1 2" ++ nl_str ++ nl_str ++ "3 4" ++ nl_str)), []. repeat split.
  - right. exists (str ("1 2" ++ nl_str ++ nl_str ++ "3 4")). reflexivity.
  - repeat constructor.
Qed.
Print Assumptions C33_blank_line_refuted.

(** ** C32 Writing and reading back *)

(** A header the readers skip: comment lines, each ended by a newline and short
    enough. *)
Definition comment_header (h : option bytes) : Prop :=
  match h with
  | None => True
  | Some s => is_text s = true /\ ends_with_newline s /\ short_lines s /\ forallb is_comment (lines s) = true
  end.
Lemma comment_header_lines : forall h, comment_header h ->
  exists hs, head h = unlines hs /\ Forall readable hs /\ forallb is_comment hs = true.
Proof.
  intros [s|] H; [|exists []; repeat split; constructor].
  destruct H as [T [E [S C]]]. destruct (split_last s) as [ls [rest [Es [R F]]]].
  assert (rest = []) as ->.
  { destruct E as [E|[q E]].
    - rewrite E in Es. symmetry in Es. apply app_eq_nil in Es. tauto.
    - destruct rest as [|c r] using rev_ind; [reflexivity|]. clear IHr.
      rewrite Es, app_assoc in E. apply app_inj_tail in E. destruct E as [_ ->].
      rewrite forallb_app in R. apply andb_prop in R. destruct R as [_ R]. discriminate. }
  assert (L : lines s = ls) by (rewrite Es, lines_unlines by exact F; apply app_nil_r).
  exists ls. rewrite app_nil_r in Es. split; [exact Es|]. split; [|rewrite <- L; exact C].
  apply Forall_forall. intros l Hl. unfold short_lines in S. rewrite L, Forall_forall in S. split; [|apply S; exact Hl].
  apply forallb_forall. intros c Hc. rewrite Forall_forall in F. specialize (F l Hl).
  rewrite forallb_forall in F. unfold plain. rewrite (F c Hc). unfold is_text in T. rewrite forallb_forall in T.
  assert (I : In c s).
  { rewrite Es. unfold unlines. apply in_concat. exists (l ++ [newline]). split; [|apply in_or_app; left; exact Hc].
    apply in_map_iff. exists l. split; [reflexivity|exact Hl]. }
  specialize (T c I). apply andb_prop in T. destruct T as [_ T]. rewrite T. reflexivity.
Qed.

Section C32.
Context {V : Type}.
(** [show p v]: what "%.<p>e" prints of the number [v]; [p] digits follow the point. *)
Variable show : nat -> V -> shown.
Hypothesis show_digits : forall p v,
  match show p v with Fin _ _ frac _ _ => List.length frac = p | _ => True end.

(** One column: reading back gives the printed numbers, in order, whatever the
    header. *)
Theorem C32_one_column_partial : forall buf header vs, comment_header header ->
  read_1col buf (write_1col show header vs) = Rows (map (fun v => [Some (literal_of (show 15 v))]) vs).
Proof.
  intros buf header vs H. destruct (comment_header_lines header H) as [hs [E [R C]]].
  unfold write_1col. rewrite E.
  replace (concat (map (fun v => text (show 15 v) ++ [newline]) vs)) with (unlines (map (fun v => text (show 15 v)) vs))
    by (unfold unlines; rewrite map_map; reflexivity).
  unfold read_1col. rewrite data_header; [|exact R|exact C| |].
  - rewrite !map_map. f_equal. apply map_ext. intros v.
    rewrite c_string_nl by apply text_not_nul. rewrite scan_text by reflexivity. reflexivity.
  - apply Forall_forall. intros b Hb. apply in_map_iff in Hb. destruct Hb as [v [<- _]].
    split; [apply text_plain|]. pose proof (text_length _ 15 (show_digits 15 v)). unfold BUF. lia.
  - rewrite forallb_map. apply forallb_forall. intros v _. rewrite <- (app_nil_r (text _)), text_not_comment. reflexivity.
Qed.

(** Two columns, with a separator of commas, colons, blanks and tabs. *)
Theorem C32_two_columns_partial : forall buf header sep vs, comment_header header ->
  sep <> [] -> forallb is_delim sep = true -> List.length sep < 200 ->
  read_2col buf (write_2col show header sep vs)
  = Rows (map (fun p => [Some (literal_of (show 15 (fst p))); Some (literal_of (show 15 (snd p)))]) vs).
Proof.
  intros buf header sep vs H N D W. destruct (comment_header_lines header H) as [hs [E [R C]]].
  unfold write_2col. rewrite E.
  replace (concat (map (fun p => text (show 15 (fst p)) ++ sep ++ text (show 15 (snd p)) ++ [newline]) vs))
    with (unlines (map (fun p => text (show 15 (fst p)) ++ sep ++ text (show 15 (snd p))) vs))
    by (unfold unlines; rewrite map_map; f_equal; apply map_ext; intros p; rewrite <- !app_assoc; reflexivity).
  unfold read_2col. rewrite data_header; [|exact R|exact C| |].
  - induction vs as [|[a b] r IH]; [reflexivity|]. cbn [map fold_right fst snd] in *.
    rewrite IH. rewrite c_string_nl by (rewrite !forallb_app, !text_not_nul, delim_not_nul by exact D; reflexivity).
    rewrite <- !app_assoc.
    rewrite tokens_word; [|apply text_nonempty|exact N|apply text_clean|exact D].
    rewrite tokens_last.
    + rewrite <- (app_nil_r (text (show 15 a))), !scan_text by (exact I || reflexivity). reflexivity.
    + intros Z. apply app_eq_nil in Z. destruct Z as [_ Z]. discriminate.
    + rewrite forallb_app, text_clean. reflexivity.
  - apply Forall_forall. intros b Hb. apply in_map_iff in Hb. destruct Hb as [p [<- _]].
    split; [rewrite !forallb_app, !text_plain, delim_plain by exact D; reflexivity|].
    rewrite !app_length. pose proof (text_length _ 15 (show_digits 15 (fst p))).
    pose proof (text_length _ 15 (show_digits 15 (snd p))). unfold BUF. lia.
  - rewrite forallb_map. apply forallb_forall. intros p _. rewrite text_not_comment. reflexivity.
Qed.

(** Specification of a table: [n] columns of [len] numbers, as rows. *)
Definition is_row (cols : list (list V)) (i : nat) (row : list V) : Prop :=
  List.length row = List.length cols
  /\ forall j c, nth_error cols j = Some c -> exists v, nth_error c i = Some v /\ nth_error row j = Some v.

Lemma row_of_spec : forall cols i, Forall (fun c => i < List.length c) cols ->
  exists r, row_of cols i = Some r /\ is_row cols i r.
Proof.
  induction cols as [|c cs IH]; intros i F.
  - exists []. split; [reflexivity|]. split; [reflexivity|]. intros [|j] ? H; discriminate.
  - inversion F as [|? ? F1 F2]; subst. destruct (IH i F2) as [r [E [L S]]].
    destruct (nth_error c i) as [v|] eqn:Ev; [|apply nth_error_None in Ev; lia].
    exists (v :: r). cbn. rewrite Ev, E. split; [reflexivity|]. split; [cbn; congruence|].
    intros [|j] c' H; cbn in *; [inversion H; subst; exists v; auto|exact (S j c' H)].
Qed.
Lemma rows_from_spec : forall cols n i, Forall (fun c => i + n <= List.length c) cols ->
  exists rs, rows_from cols i n = Some rs /\ List.length rs = n
    /\ forall k r, nth_error rs k = Some r -> is_row cols (i + k) r.
Proof.
  intros cols. induction n as [|n IH]; intros i F.
  - exists []. repeat split. all: destruct k; discriminate.
  - destruct (row_of_spec cols i) as [r [E Sr]].
    { eapply Forall_impl; [|exact F]. intros c H. cbn in H. lia. }
    destruct (IH (S i)) as [rs [Es [L Sp]]].
    { eapply Forall_impl; [|exact F]. intros c H. cbn in H. lia. }
    exists (r :: rs). cbn [rows_from]. rewrite E, Es. split; [reflexivity|]. split; [cbn; congruence|].
    intros [|k] r' H; cbn in H.
    + inversion H; subst. rewrite Nat.add_0_r. exact Sr.
    + rewrite Nat.add_succ_r. exact (Sp k r' H).
Qed.

(** Any number of columns: the file the null-terminated writer produces reads back
    as the table, if a row fits the line buffer (each number takes up to 18
    characters, followed by a separator). *)
Theorem C32_columns_partial : forall buf header sep len cols,
  comment_header header -> sep <> [] -> forallb is_delim sep = true ->
  cols <> [] -> Forall (fun c => len <= List.length c) cols ->
  List.length cols * (18 + List.length sep) < 255 ->
  exists b rows,
    write_ncol_null show header sep len (map Some cols ++ [None]) = File b
    /\ List.length rows = len /\ (forall i r, nth_error rows i = Some r -> is_row cols i r)
    /\ read_ncol (List.length cols) buf b = Rows (map (map (fun v => Some (literal_of (show 10 v)))) rows).
Proof.
  intros buf header sep len cols H N D Nc F W.
  destruct (comment_header_lines header H) as [hs [E [R C]]].
  destruct (rows_from_spec cols len 0 F) as [rows [Er [Lr Sr]]].
  exists (head header ++ concat (map (row_text show sep) rows)), rows.
  assert (U : until_null (map Some cols ++ [None]) = Some cols).
  { clear. induction cols as [|c r IH]; [reflexivity|]. cbn. rewrite IH. reflexivity. }
  split.
  - unfold write_ncol_null. rewrite U. destruct cols as [|c0 cs]; [congruence|].
    destruct (Nat.leb_spec 1024 (List.length (c0 :: cs))) as [Z|_]; [lia|]. rewrite Er. reflexivity.
  - split; [exact Lr|]. split; [exact Sr|]. rewrite E.
    apply (read_rows show 10 sep buf hs rows (List.length cols) N D show_digits R C).
    + apply Forall_forall. intros r Hr. apply In_nth_error in Hr. destruct Hr as [k Hk].
      destruct (Sr k r Hk) as [L _]. exact L.
    + exact W.
Qed.
End C32.
Print Assumptions C32_one_column_partial.
Print Assumptions C32_two_columns_partial.
Print Assumptions C32_columns_partial.

(** A printing of integers that shows [v] units: enough to see that the theorems
    apply. *)
Definition show0 (p : nat) (v : digit) : shown := Fin false v (repeat D0 p) false (E2 D0 D0).
Example C32_example :
  let h := Some (str ("# r" ++ nl_str)) in
  comment_header h
  /\ (forall p v, match show0 p v with Fin _ _ frac _ _ => List.length frac = p | _ => True end)
  /\ read_1col [] (write_1col show0 h [FileIO.D1; D7]) = Rows [[Some (literal_of (show0 15 FileIO.D1))]; [Some (literal_of (show0 15 D7))]].
Proof.
  repeat split.
  - right. exists (str "# r"). reflexivity.
  - repeat constructor.
  - intros p v. cbn. apply repeat_length.
Qed.

(** C32 is false of the code when a row does not fit the buffer of the reader: 16
    columns are written, and do not read back. *)
Theorem C32_wide_table_refuted : exists b,
  write_ncol_null show0 None (str " ") 1 (map Some (repeat [FileIO.D1] 16) ++ [None]) = File b
  /\ read_ncol 16 [] b <> Rows [repeat (Some (literal_of (show0 10 FileIO.D1))) 16].
Proof. eexists. split; [vm_compute; reflexivity|vm_compute; discriminate]. Qed.
Print Assumptions C32_wide_table_refuted.

(** A header without its own final newline swallows the first row. *)
Theorem C32_header_without_newline_refuted : forall v, exists buf,
  read_1col buf (write_1col show0 (Some (str "# r")) [v]) = Rows [].
Proof. intros v. exists []. destruct v; reflexivity. Qed.
Print Assumptions C32_header_without_newline_refuted.

(** [write_ncol] (a count of columns instead of a null pointer) reads outside its
    array of columns as soon as there are more rows than columns. *)
Theorem C32_write_ncol_refuted : forall V (show : nat -> V -> shown) header sep len cols,
  List.length cols < len -> write_ncol show header sep len cols = Bad.
Proof.
  intros V show header sep len cols H. unfold write_ncol. destruct (rows_from cols 0 len); [|reflexivity].
  destruct (Nat.leb_spec len (List.length cols)); [lia|reflexivity].
Qed.
Print Assumptions C32_write_ncol_refuted.

(** ** C34 The matrix writer *)

(** What [write_matrix] writes of a row: all its elements but the last, at least ten characters wide. *)
Theorem C34_write_matrix_partial : forall V (show : nat -> V -> shown) header sep rows,
  Forall (fun r => r <> []) rows ->
  write_matrix show header sep rows =
  match header with Some h => h ++ [newline] | None => [] end
  ++ concat (map (fun row => concat (map (fun v =>
       (repeat " "%char (10 - List.length (text (show 6 v))) ++ text (show 6 v)) ++ sep) (removelast row)) ++ [newline]) rows).
Proof.
  intros V show header sep rows F. unfold write_matrix. f_equal. f_equal. apply map_ext_in. intros row Hr.
  rewrite Forall_forall in F. specialize (F row Hr). destruct row as [|v0 row0] using rev_ind; [congruence|]. clear IHrow0 F Hr.
  rewrite removelast_last. unfold matrix_row. rewrite app_length. cbn [List.length].
  rewrite Nat.add_sub. rewrite Nat.add_1_r, seq_S, map_app, concat_app. cbn [map concat Nat.add].
  rewrite Nat.eqb_refl. cbn [app]. f_equal.
  assert (G : forall pre post, concat (map (fun j => if Nat.eqb j (List.length pre + List.length post) then [newline]
     else match nth_error (pre ++ post ++ [v0]) j with Some v => padded (text (show 6 v)) ++ sep | None => [] end)
       (seq (List.length pre) (List.length post)))
     = concat (map (fun v => padded (text (show 6 v)) ++ sep) post)).
  { intros pre post. revert pre. induction post as [|v r IH]; intros pre; [reflexivity|].
    cbn [List.length seq map concat].
    destruct (Nat.eqb_spec (List.length pre) (List.length pre + S (List.length r))) as [Z|_]; [lia|].
    rewrite nth_error_app2, Nat.sub_diag by lia. cbn [app nth_error]. f_equal.
    specialize (IH (pre ++ [v])). rewrite app_length in IH. cbn [List.length] in IH.
    rewrite <- app_assoc in IH. cbn [app] in IH.
    rewrite <- IH. rewrite Nat.add_1_r. replace (List.length pre + S (List.length r)) with (S (List.length pre) + List.length r) by lia.
    reflexivity. }
  exact (G [] row0).
Qed.
Print Assumptions C34_write_matrix_partial.

(** So C34 is false of the code: the last column is in no file. *)
Theorem C34_write_matrix_refuted : forall V (show : nat -> V -> shown) header sep (row : list V) (a b : V),
  write_matrix show header sep [row ++ [a]] = write_matrix show header sep [row ++ [b]].
Proof.
  intros V show header sep row a b.
  rewrite !C34_write_matrix_partial by (constructor; [destruct row; discriminate|constructor]).
  cbn [map]. rewrite !removelast_last. reflexivity.
Qed.
Print Assumptions C34_write_matrix_refuted.

(** ** C40 The table of background functions *)

(** The header the English property asks for: column numbers and names in the
    requested order, with units. *)
Definition heading (q : quantity) : string :=
  match q with
  | Qz => "z" | Qa => "a" | QH => "H[1/Mpc]" | QconfH => "conformal_H[1/Mpc]" | QconfHprime => "conformal_H_prime[1/Mpc^2]"
  | QD1 => "D1" | Qf => "f" | Qchi => "comoving_distance[Mpc]"
  end.
Fixpoint announced (i : nat) (qs : list quantity) (sep : bytes) : bytes :=
  match qs with
  | [] => []
  | q :: r => decimal i ++ [")"%char] ++ list_ascii_of_string (heading q) ++ sep ++ announced (S i) r sep
  end.
Lemma heading_is : forall q, list_ascii_of_string (heading q) = qname q ++ qunit q.
Proof. intros []; reflexivity. Qed.

Lemma header_announced : forall qs sep i, header_from i (map qname qs) sep = announced (S i) qs sep.
Proof.
  induction qs as [|q r IH]; intros sep i; [reflexivity|]. cbn [map header_from announced].
  rewrite recognise_name, IH, Nat.add_1_r, heading_is, <- !app_assoc. reflexivity.
Qed.

Lemma outputs_known : forall V (column : quantity -> list V) qs rest, List.length qs < 20 ->
  (match rest with s :: _ => recognise s = None | [] => True end) ->
  until_null (outputs column (map qname qs ++ rest)) = Some (map column qs).
Proof.
  intros V column qs rest L R. unfold outputs.
  set (g := fun i : nat => _).
  assert (G : forall qs' pre k, qs = pre ++ qs' -> List.length qs' < k ->
     until_null (map g (seq (List.length pre) k)) = Some (map column qs')).
  { induction qs' as [|q r IH]; intros pre k E K; (destruct k as [|k]; [cbn in K; lia|]).
    - cbn [seq map]. unfold g at 1. rewrite app_nil_r in E. subst pre.
      rewrite nth_error_app2 by (rewrite map_length; lia). rewrite map_length, Nat.sub_diag.
      destruct rest as [|s rest]; cbn [nth_error]; [reflexivity|rewrite R; reflexivity].
    - cbn [seq map]. unfold g at 1. rewrite E, map_app, <- app_assoc, nth_error_app2 by (rewrite map_length; lia).
      rewrite map_length, Nat.sub_diag. cbn [map app nth_error]. rewrite recognise_name. cbn [until_null].
      specialize (IH (pre ++ [q]) k). rewrite app_length, Nat.add_1_r in IH.
      rewrite IH; [reflexivity|rewrite <- app_assoc; exact E|cbn in K; lia]. }
  exact (G qs [] 20 eq_refl L).
Qed.

Lemma skipn_short : forall qs rest, List.length qs <= 20 -> forallb (fun s => match recognise s with Some _ => false | None => true end) rest = true ->
  existsb (fun s => match recognise s with Some _ => true | None => false end) (skipn 20 (map qname qs ++ rest)) = false.
Proof.
  intros qs rest L F. rewrite skipn_app, skipn_all2 by (rewrite map_length; exact L). cbn [app].
  generalize (20 - List.length (map qname qs)) as k. intros k.
  revert k. induction rest as [|s r IH]; intros k; [destruct k; reflexivity|].
  cbn [forallb] in F. apply andb_prop in F. destruct F as [F1 F2].
  destruct k as [|k]; [|apply IH; exact F2]. cbn [skipn existsb].
  destruct (recognise s); [discriminate|]. exact (IH F2 0).
Qed.

(** C40 for fewer than twenty known quantities whose header fits its buffer: the
    header announces the requested columns and the table holds them in that order. *)
Theorem C40_background_partial : forall V (show : nat -> V -> shown) (column : quantity -> list V) sep bins qs,
  qs <> [] -> List.length qs < 20 ->
  List.length (str "# " ++ announced 1 qs sep ++ [newline]) < 256 ->
  (forall q, bins <= List.length (column q)) ->
  exists rows,
    output_background show column sep bins (map qname qs)
      = File (str "# " ++ announced 1 qs sep ++ [newline] ++ concat (map (row_text show sep) rows))
    /\ List.length rows = bins
    /\ forall i r, nth_error rows i = Some r -> is_row (map column qs) i r.
Proof.
  intros V show column sep bins qs N L H C.
  destruct (rows_from_spec (map column qs) bins 0) as [rows [Er [Lr Sr]]].
  { apply Forall_forall. intros c Hc. apply in_map_iff in Hc. destruct Hc as [q [<- _]]. apply C. }
  exists rows. split; [|split; [exact Lr|exact Sr]].
  unfold output_background. rewrite <- (app_nil_r (map qname qs)) at 1.
  rewrite skipn_short by (lia || reflexivity).
  assert (T : header_text (map qname qs) sep = str "# " ++ announced 1 qs sep ++ [newline])
    by (unfold header_text; rewrite header_announced; reflexivity).
  rewrite T. unfold BUF. destruct (Nat.leb_spec 256 (List.length (str "# " ++ announced 1 qs sep ++ [newline]))) as [Z|_]; [lia|].
  unfold write_ncol_null. rewrite <- (app_nil_r (map qname qs)), outputs_known by (exact L || exact I).
  destruct qs as [|q0 qr]; [congruence|]. cbn [map].
  destruct (Nat.leb_spec 1024 (List.length (column q0 :: map column qr))) as [Z|_].
  { cbn [List.length] in *. rewrite map_length in Z. lia. }
  change (column q0 :: map column qr) with (map column (q0 :: qr)). rewrite Er.
  cbn [head]. rewrite <- !app_assoc. reflexivity.
Qed.
Print Assumptions C40_background_partial.

(** All eight quantities, separated by tabs, meet the hypotheses. *)
Example C40_example :
  let qs := [Qz; Qa; QH; QconfH; QconfHprime; QD1; Qf; Qchi] in
  qs <> [] /\ List.length qs < 20
  /\ List.length (str "# " ++ announced 1 qs ["009"%char] ++ [newline]) < 256
  /\ (forall q : quantity, 2 <= List.length [D5; D7]).
Proof. repeat split; try discriminate; vm_compute; repeat constructor. Qed.

(** C40 is false of the code.  An unknown name hides every column after it, while
    the header still announces them: *)
Theorem C40_unknown_name_refuted : forall V (show : nat -> V -> shown) (column : quantity -> list V) sep bins qs s qs',
  qs <> [] -> List.length (qs ++ qs') < 19 -> recognise s = None ->
  (forall q, bins <= List.length (column q)) ->
  List.length (header_text (map qname qs ++ s :: map qname qs') sep) < 256 ->
  exists rows,
    output_background show column sep bins (map qname qs ++ s :: map qname qs')
      = File (header_text (map qname qs ++ s :: map qname qs') sep ++ concat (map (row_text show sep) rows))
    /\ (forall i r, nth_error rows i = Some r -> is_row (map column qs) i r)
    /\ header_text (map qname qs ++ s :: map qname qs') sep
       = str "# " ++ announced 1 qs sep ++ announced (List.length qs + 2) qs' sep ++ [newline].
Proof.
  intros V show column sep bins qs s qs' N L U C H.
  destruct (rows_from_spec (map column qs) bins 0) as [rows [Er [Lr Sr]]].
  { apply Forall_forall. intros c Hc. apply in_map_iff in Hc. destruct Hc as [q [<- _]]. apply C. }
  exists rows. rewrite app_length in L. split; [|split; [exact Sr|]].
  - unfold output_background.
    assert (Z : skipn 20 (map qname qs ++ s :: map qname qs') = []).
    { apply skipn_all2. rewrite app_length. cbn [List.length]. rewrite !map_length. lia. }
    rewrite Z. cbn [existsb]. unfold BUF.
    destruct (Nat.leb_spec 256 (List.length (header_text (map qname qs ++ s :: map qname qs') sep))) as [Y|_]; [lia|].
    unfold write_ncol_null. rewrite outputs_known by (lia || exact U).
    destruct qs as [|q0 qr]; [congruence|]. cbn [map].
    destruct (Nat.leb_spec 1024 (List.length (column q0 :: map column qr))) as [Y|_].
    { cbn [List.length] in *. rewrite map_length in Y. lia. }
    change (column q0 :: map column qr) with (map column (q0 :: qr)). rewrite Er. reflexivity.
  - unfold header_text. f_equal. rewrite app_assoc. f_equal.
    assert (G : forall qs i, header_from i (map qname qs ++ s :: map qname qs') sep
       = announced (S i) qs sep ++ announced (i + List.length qs + 2) qs' sep).
    { clear - U. induction qs as [|q r IH]; intros i; cbn [map app header_from announced List.length].
      - rewrite U, header_announced. cbn [app]. f_equal. lia.
      - rewrite recognise_name, IH, Nat.add_1_r, heading_is, <- !app_assoc. replace (S i + List.length r + 2) with (i + S (List.length r) + 2) by lia. cbn [app]. rewrite <- !app_assoc. reflexivity. }
    exact (G qs 0).
Qed.
Print Assumptions C40_unknown_name_refuted.

(** Twenty columns: no null pointer ends the arguments of the writer. *)
Theorem C40_twenty_columns_refuted : forall V (show : nat -> V -> shown) (column : quantity -> list V) bins,
  output_background show column ["009"%char] bins (repeat (qname Qz) 20) = Bad.
Proof. reflexivity. Qed.
Print Assumptions C40_twenty_columns_refuted.

(** More than twenty: a write outside the array of pointers. *)
Theorem C40_many_columns_refuted : forall V (show : nat -> V -> shown) (column : quantity -> list V) sep bins names q rest,
  List.length names = 20 -> output_background show column sep bins (names ++ qname q :: rest) = Bad.
Proof.
  intros V show column sep bins names q rest L. unfold output_background.
  rewrite skipn_app, skipn_all2, L by lia. cbn [app Nat.sub skipn existsb]. rewrite recognise_name. reflexivity.
Qed.
Print Assumptions C40_many_columns_refuted.

(** Ten times the longest name: a write outside the header buffer. *)
Theorem C40_long_header_refuted : forall V (show : nat -> V -> shown) (column : quantity -> list V) bins,
  output_background show column ["009"%char] bins (repeat (qname QconfHprime) 10) = Bad.
Proof. intros V show column bins. unfold output_background. vm_compute. reflexivity. Qed.
Print Assumptions C40_long_header_refuted.
