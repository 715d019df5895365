(** * Reading and writing tables of numbers: src/common.c:110-456, 821-914

    Files are byte strings.  The C library is modelled as far as these functions
    use it: [fgetc], [fgets] with the 256-byte buffer, [strtok], [atof] (the
    decimal, infinity and NaN forms [printf] produces; hexadecimal floats and the
    longer spellings "infinity" and "nan(...)" are left out), [fprintf] with
    "%s" and "%.<p>e".  Opening, rewinding and closing succeed. *)
From Coq Require Import ZArith Arith Bool Ascii String List Lia.
Import ListNotations.
Open Scope char_scope.
Open Scope nat_scope.

Definition bytes := list ascii.
Definition newline : ascii := "010".
Definition nul : ascii := "000".
Definition hash : ascii := "#".
(** 0xFF: as a [char] it is -1, which the readers take for EOF.  The comparison with EOF at common.c:127. *)
Definition xff : ascii := "255".

(** COFFE_MAX_STRLEN, common.h. *)
Definition BUF := 256.

(** ** Numbers as text *)
(** printf of C, called at common.c:257-446. *)
Inductive digit := D0 | D1 | D2 | D3 | D4 | D5 | D6 | D7 | D8 | D9.
Definition digit_char (d : digit) : ascii :=
  match d with D0 => "0" | D1 => "1" | D2 => "2" | D3 => "3" | D4 => "4"
             | D5 => "5" | D6 => "6" | D7 => "7" | D8 => "8" | D9 => "9" end.
(** atof of C, called at common.c:154, 221-223 and 885. *)
Definition char_digit (c : ascii) : option digit :=
  if Ascii.eqb c "0" then Some D0 else if Ascii.eqb c "1" then Some D1
  else if Ascii.eqb c "2" then Some D2 else if Ascii.eqb c "3" then Some D3
  else if Ascii.eqb c "4" then Some D4 else if Ascii.eqb c "5" then Some D5
  else if Ascii.eqb c "6" then Some D6 else if Ascii.eqb c "7" then Some D7
  else if Ascii.eqb c "8" then Some D8 else if Ascii.eqb c "9" then Some D9 else None.

(** What "%.<p>e" prints for a double: sign, leading digit, [p] digits, exponent
    of two or three digits; or an infinity or NaN.  printf of C, called at common.c:257-446. *)
Inductive exponent := E2 (a b : digit) | E3 (a b c : digit).
Inductive shown := Fin (neg : bool) (lead : digit) (frac : list digit) (eneg : bool) (e : exponent)
                 | Inf (neg : bool) | Nan (neg : bool).
Definition exp_digits (e : exponent) : list digit :=
  match e with E2 a b => [a; b] | E3 a b c => [a; b; c] end.
Definition minus (neg : bool) : bytes := if neg then ["-"] else [].
Definition text (n : shown) : bytes :=
  match n with
  | Fin neg lead frac eneg e =>
      minus neg ++ digit_char lead :: "." :: map digit_char frac
      ++ "e" :: (if eneg then "-" else "+") :: map digit_char (exp_digits e)
  | Inf neg => minus neg ++ ["i"; "n"; "f"]
  | Nan neg => minus neg ++ ["n"; "a"; "n"]
  end.

(** What [atof] finds at the start of a string.  atof of C, called at common.c:154, 221-223 and 885. *)
Inductive literal :=
| Lit (neg : bool) (ints fracs : list digit) (exp : option (bool * list digit))
| LInf (neg : bool) | LNan (neg : bool)
| NoNumber.

Definition is_space (c : ascii) : bool :=
  existsb (Ascii.eqb c) [" "; "009"; "010"; "011"; "012"; "013"].
Fixpoint skip_space (s : bytes) : bytes :=
  match s with c :: r => if is_space c then skip_space r else s | [] => [] end.
Fixpoint take_digits (s : bytes) : list digit * bytes :=
  match s with
  | c :: r => match char_digit c with
              | Some d => let (ds, q) := take_digits r in (d :: ds, q)
              | None => ([], s)
              end
  | [] => ([], [])
  end.
Definition take_sign (s : bytes) : bool * bytes :=
  match s with
  | c :: r => if Ascii.eqb c "-" then (true, r) else if Ascii.eqb c "+" then (false, r) else (false, s)
  | [] => (false, [])
  end.
Definition lower (c : ascii) : ascii :=
  let n := nat_of_ascii c in if Nat.leb 65 n && Nat.leb n 90 then ascii_of_nat (n + 32) else c.
Definition starts (w s : bytes) : bool :=
  Nat.leb (List.length w) (List.length s)
  && forallb (fun p => Ascii.eqb (fst p) (lower (snd p))) (combine w s).
Definition take_exp (s : bytes) : option (bool * list digit) :=
  match s with
  | c :: r => if Ascii.eqb (lower c) "e"
              then let (neg, q) := take_sign r in
                   match take_digits q with
                   | ([], _) => None
                   | (ds, _) => Some (neg, ds)
                   end
              else None
  | [] => None
  end.

(** [atof], without hexadecimal floats: it looks at the string up to its
    terminating NUL.  atof of C, called at common.c:154, 221-223 and 885. *)
Definition scan (s : bytes) : literal :=
  let (neg, s) := take_sign (skip_space s) in
  if starts ["i"; "n"; "f"] s then LInf neg
  else if starts ["n"; "a"; "n"] s then LNan neg
  else let (ints, s) := take_digits s in
       let (fracs, s') := match s with
                          | c :: r => if Ascii.eqb c "." then take_digits r else ([], s)
                          | [] => ([], []) end in
       match ints ++ fracs with
       | [] => NoNumber
       | _ => Lit neg ints fracs (take_exp s')
       end.

(** The literal that stands in the text of a printed number.  printf of C, called at common.c:257-446. *)
Definition literal_of (n : shown) : literal :=
  match n with
  | Fin neg lead frac eneg e => Lit neg [lead] frac (Some (eneg, exp_digits e))
  | Inf neg => LInf neg
  | Nan neg => LNan neg
  end.

(** ** The C library *)

(** The C string in a buffer: up to the first NUL.  C semantics of the buffer of common.c:137-152. *)
Fixpoint c_string (s : bytes) : bytes :=
  match s with c :: r => if Ascii.eqb c nul then [] else c :: c_string r | [] => [] end.

(** [fgets(buf, size, file)]: at most [size - 1] bytes, up to and including a
    newline: the bytes stored and the bytes left.  Called at common.c:137, 152, 202, 218, 855 and 879. *)
Fixpoint fgets_n (n : nat) (s : bytes) : bytes * bytes :=
  match n, s with
  | S n, c :: r => if Ascii.eqb c newline then ([c], r)
                   else let (p, q) := fgets_n n r in (c :: p, q)
  | _, _ => ([], s)
  end.
Definition fgets (s : bytes) : bytes * bytes := fgets_n (BUF - 1) s.

(** [strtok] with the delimiters ",\t: ": the tokens of a string.  Called at common.c:220-222 and 881-886. *)
Definition is_delim (c : ascii) : bool := existsb (Ascii.eqb c) [","; "009"; ":"; " "].
Fixpoint tokens_from (cur : bytes) (s : bytes) : list bytes :=
  match s with
  | [] => match cur with [] => [] | _ => [rev cur] end
  | c :: r => if is_delim c
              then match cur with [] => tokens_from [] r | _ => rev cur :: tokens_from [] r end
              else tokens_from (c :: cur) r
  end.
Definition tokens (s : bytes) : list bytes := tokens_from [] s.

(** ** The readers *)

(** [while ((c = fgetc(data)) != EOF) if (c == '\n') ++n], common.c:126-128. *)
Fixpoint count_newlines (s : bytes) : nat :=
  match s with
  | [] => 0
  | c :: r => if Ascii.eqb c xff then 0
              else (if Ascii.eqb c newline then 1 else 0) + count_newlines r
  end.

(** [n] calls of fgets: what the buffer holds after each of them
    (common.c:137-140, 152-158; a call at the end of the file leaves the buffer
    unchanged). *)
Fixpoint pieces (n : nat) (buf s : bytes) : list bytes :=
  match n with
  | O => []
  | S n => let (p, q) := fgets s in
           let buf' := match p with [] => buf | _ => p end in
           buf' :: pieces n buf' q
  end.
Definition is_comment (b : bytes) : bool :=
  match b with c :: _ => Ascii.eqb c hash | [] => false end.

(** The buffers that are not comments, in order, among as many as the file has
    newlines; [buf] is the indeterminate content of the buffer at the start.
    common.c:150-158, 216-226 and 877-890. *)
Definition data_pieces (buf s : bytes) : list bytes :=
  filter (fun b => negb (is_comment b)) (pieces (count_newlines s) buf s).

(** A reader ends with rows, or with undefined behaviour ([atof(NULL)]).  A cell
    no value is stored in is [None].  common.c:150-158, 216-226 and 877-890. *)
Inductive rows_res := Undef | Rows (r : list (list (option literal))).

(** read_1col, common.c:110-165. *)
Definition read_1col (buf s : bytes) : rows_res :=
  Rows (map (fun b => [Some (scan (c_string b))]) (data_pieces buf s)).

(** read_2col, common.c:173-234. *)
Definition read_2col (buf s : bytes) : rows_res :=
  fold_right (fun b acc =>
    match tokens (c_string b), acc with
    | t1 :: t2 :: _, Rows r => Rows ([Some (scan t1); Some (scan t2)] :: r)
    | _, _ => Undef
    end) (Rows []) (data_pieces buf s).

(** coffe_read_ncol, common.c:821-914. *)
Definition cell (ts : list bytes) (j : nat) : option literal :=
  match nth_error ts j with Some t => Some (scan t) | None => None end.
Definition read_ncol (n : nat) (buf s : bytes) : rows_res :=
  Rows (map (fun b => map (cell (tokens (c_string b))) (seq 0 n)) (data_pieces buf s)).

(** ** The writers *)
Section Writers.
Context {V : Type}.
(** What "%.<p>e" shows of a double. *)
Variable show : nat -> V -> shown.

(** common.c:256-257, 293-294, 332 and 396. *)
Definition head (header : option bytes) : bytes := match header with Some h => h | None => [] end.

(** write_1col, common.c:242-268. *)
Definition write_1col (header : option bytes) (vs : list V) : bytes :=
  head header ++ concat (map (fun v => text (show 15 v) ++ [newline]) vs).

(** write_2col, common.c:277-305, for arrays of [len] elements. *)
Definition write_2col (header : option bytes) (sep : bytes) (vs : list (V * V)) : bytes :=
  head header ++ concat (map (fun p => text (show 15 (fst p)) ++ sep ++ text (show 15 (snd p)) ++ [newline]) vs).

(** One row of write_ncol and write_ncol_null: the separator also follows the
    last column.  common.c:399-404. *)
Definition row_text (sep : bytes) (row : list V) : bytes :=
  concat (map (fun v => text (show 10 v) ++ sep) row) ++ [newline].

(** Row [i] of a list of columns; [None] outside an array.  common.c:399-404. *)
Fixpoint row_of (cols : list (list V)) (i : nat) : option (list V) :=
  match cols with
  | [] => Some []
  | c :: r => match nth_error c i, row_of r i with
              | Some v, Some vs => Some (v :: vs) | _, _ => None end
  end.
Fixpoint rows_from (cols : list (list V)) (i n : nat) : option (list (list V)) :=
  match n with
  | O => Some []
  | S n => match row_of cols i, rows_from cols (S i) n with
           | Some r, Some rs => Some (r :: rs) | _, _ => None end
  end.

(** write_ncol_null, common.c:368-413: the columns up to the first null pointer;
    no file if there are none.  [None]: undefined behaviour (reading past the end
    of a column, or past the argument list when no null pointer ends it;
    [COFFE_MAX_ALLOCABLE] = 1024 pointers are stored). *)
Inductive written := NoFile | File (b : bytes) | Bad.
Fixpoint until_null (args : list (option (list V))) : option (list (list V)) :=
  match args with
  | [] => None
  | None :: _ => Some []
  | Some c :: r => match until_null r with Some cs => Some (c :: cs) | None => None end
  end.
Definition write_ncol_null (header : option bytes) (sep : bytes) (len : nat)
  (args : list (option (list V))) : written :=
  match until_null args with
  | None => Bad
  | Some [] => NoFile
  | Some cols =>
      if Nat.leb 1024 (List.length cols) then Bad else
      match rows_from cols 0 len with
      | Some rows => File (head header ++ concat (map (row_text sep) rows))
      | None => Bad
      end
  end.

(** write_ncol, common.c:316-360: before row [i], [all_values[i]] is read, an
    array with one element per column. *)
Definition write_ncol (header : option bytes) (sep : bytes) (len : nat) (cols : list (list V)) : written :=
  match rows_from cols 0 len with
  | Some rows => if Nat.leb len (List.length cols)
                 then File (head header ++ concat (map (row_text sep) rows)) else Bad
  | None => Bad
  end.

(** "%10e": six digits, blanks on the left up to ten characters.  common.c:444. *)
Definition padded (b : bytes) : bytes := repeat " "%char (10 - List.length b) ++ b.

(** write_matrix, common.c:421-456: for the last column only the newline is
    written. *)
Definition matrix_row (sep : bytes) (row : list V) : bytes :=
  concat (map (fun j => if Nat.eqb j (List.length row - 1) then [newline]
                        else match nth_error row j with
                             | Some v => padded (text (show 6 v)) ++ sep | None => [] end)
              (seq 0 (List.length row))).
Definition write_matrix (header : option bytes) (sep : bytes) (rows : list (list V)) : bytes :=
  match header with Some h => h ++ [newline] | None => [] end
  ++ concat (map (matrix_row sep) rows).
End Writers.

(** ** Scanning a printed number *)
Lemma char_digit_char : forall d, char_digit (digit_char d) = Some d.
Proof. destruct d; reflexivity. Qed.

(** Specification or proof only; nothing in the code. *)
Definition no_digit (s : bytes) : Prop := match s with c :: _ => char_digit c = None | [] => True end.

Lemma take_digits_app : forall ds s, no_digit s -> take_digits (map digit_char ds ++ s) = (ds, s).
Proof.
  induction ds as [|d r IH]; intros s H; cbn [map app].
  - destruct s as [|c q]; [reflexivity|]. cbn in *. rewrite H. reflexivity.
  - cbn [take_digits]. rewrite char_digit_char, IH by exact H. reflexivity.
Qed.

Lemma scan_text : forall n s, no_digit s -> scan (text n ++ s) = literal_of n.
Proof.
  intros [neg lead frac eneg e|neg|neg] s H.
  - unfold scan, text. rewrite <- !app_assoc.
    assert (T : take_sign (skip_space (minus neg ++ (digit_char lead :: "."%char :: map digit_char frac
       ++ "e"%char :: (if eneg then "-"%char else "+"%char) :: map digit_char (exp_digits e)) ++ s))
       = (neg, (digit_char lead :: "."%char :: map digit_char frac
       ++ "e"%char :: (if eneg then "-"%char else "+"%char) :: map digit_char (exp_digits e)) ++ s)).
    { destruct neg; [reflexivity|]. destruct lead; reflexivity. }
    rewrite T.
    assert (S1 : forall w, starts ["i"%char; "n"%char; "f"%char] (digit_char lead :: w) = false).
    { intros w. unfold starts. cbn [combine]. destruct w as [|c w]; [reflexivity|].
      destruct lead; cbn; apply andb_false_r. }
    assert (S2 : forall w, starts ["n"%char; "a"%char; "n"%char] (digit_char lead :: w) = false).
    { intros w. unfold starts. cbn [combine]. destruct w as [|c w]; [reflexivity|].
      destruct lead; cbn; apply andb_false_r. }
    cbn [app]. rewrite S1, S2.
    cbn [take_digits]. rewrite char_digit_char.
    change (char_digit ".") with (@None digit). cbn [Ascii.eqb].
    change (Ascii.eqb "." ".") with true. cbv iota.
    rewrite <- app_assoc. rewrite take_digits_app by reflexivity.
    cbn [app]. unfold take_exp. change (Ascii.eqb (lower "e") "e") with true. cbv iota.
    unfold take_sign.
    destruct eneg; cbn [Ascii.eqb Bool.eqb]; rewrite take_digits_app by exact H; destruct e; reflexivity.
  - destruct neg; reflexivity.
  - destruct neg; reflexivity.
Qed.

(** ** Lines *)
(** Specification or proof only; nothing in the code. *)
Definition plain (c : ascii) : bool := negb (Ascii.eqb c newline) && negb (Ascii.eqb c xff).
Definition unlines (ls : list bytes) : bytes := concat (map (fun l => l ++ [newline]) ls).

Lemma fgets_line : forall l n r, forallb plain l = true -> List.length l < n ->
  fgets_n n (l ++ newline :: r) = (l ++ [newline], r).
Proof.
  induction l as [|c q IH]; intros n r P L; (destruct n as [|n]; [cbn in L; lia|]).
  - reflexivity.
  - cbn [app fgets_n]. cbn in P. apply andb_prop in P. destruct P as [P1 P2].
    unfold plain in P1. apply andb_prop in P1. destruct P1 as [P1 _].
    apply negb_true_iff in P1. rewrite P1.
    rewrite IH by (cbn in L; (exact P2 || lia)). reflexivity.
Qed.

Lemma count_line : forall l r, forallb plain l = true ->
  count_newlines (l ++ newline :: r) = S (count_newlines r).
Proof.
  induction l as [|c q IH]; intros r P; cbn [app count_newlines].
  - reflexivity.
  - cbn in P. apply andb_prop in P. destruct P as [P1 P2].
    unfold plain in P1. apply andb_prop in P1. destruct P1 as [P0 P1].
    apply negb_true_iff in P1, P0. rewrite P1, P0, IH by exact P2. reflexivity.
Qed.

(** Lines that fit the buffer and contain no byte 0xFF.  Specification or proof only; nothing in the code. *)
Definition readable (l : bytes) : Prop := forallb plain l = true /\ List.length l < BUF - 1.

Lemma count_unlines : forall ls rest, Forall readable ls ->
  count_newlines (unlines ls ++ rest) = List.length ls + count_newlines rest.
Proof.
  induction ls as [|l r IH]; intros rest F; [reflexivity|].
  inversion F as [|? ? [P _] F']; subst. unfold unlines. cbn [map concat].
  rewrite <- !app_assoc. cbn [app]. rewrite count_line by exact P.
  fold (unlines r). rewrite IH by exact F'. reflexivity.
Qed.

Lemma pieces_unlines : forall ls buf rest, Forall readable ls ->
  pieces (List.length ls) buf (unlines ls ++ rest) = map (fun l => l ++ [newline]) ls.
Proof.
  induction ls as [|l r IH]; intros buf rest F; [reflexivity|].
  inversion F as [|? ? [P L] F']; subst. unfold unlines. cbn [map concat List.length pieces].
  rewrite <- !app_assoc. cbn [app]. unfold fgets. rewrite fgets_line by assumption.
  fold (unlines r). rewrite IH by exact F'. destruct l; reflexivity.
Qed.

(** The lines a reader uses of a file whose lines are readable and whose last
    line, without a newline, is [rest]: all but the last. *)
Lemma data_unlines : forall ls buf rest, Forall readable ls -> count_newlines rest = 0 ->
  data_pieces buf (unlines ls ++ rest) =
  map (fun l => l ++ [newline]) (filter (fun l => negb (is_comment l)) ls).
Proof.
  intros ls buf rest F R. unfold data_pieces.
  rewrite count_unlines, R, Nat.add_0_r by exact F. rewrite pieces_unlines by exact F.
  clear. induction ls as [|l r IH]; [reflexivity|]. cbn [map filter].
  assert (E : is_comment (l ++ [newline]) = is_comment l) by (destruct l; reflexivity).
  rewrite E, IH. destruct (is_comment l); reflexivity.
Qed.

(** ** Tokens *)
(** Specification or proof only; nothing in the code. *)
Definition clean (c : ascii) : bool := negb (is_delim c).
Lemma tokens_from_clean : forall w cur s, forallb clean w = true ->
  tokens_from cur (w ++ s) = tokens_from (rev w ++ cur) s.
Proof.
  induction w as [|c r IH]; intros cur s H; [reflexivity|].
  cbn [forallb] in H. apply andb_prop in H. destruct H as [H1 H2]. unfold clean in H1. apply negb_true_iff in H1.
  cbn [app tokens_from rev]. rewrite H1, IH by exact H2. rewrite <- app_assoc. reflexivity.
Qed.
Lemma tokens_delims : forall d s, forallb is_delim d = true ->
  tokens_from [] (d ++ s) = tokens_from [] s.
Proof.
  induction d as [|c r IH]; intros s H; [reflexivity|].
  cbn [forallb] in H. apply andb_prop in H. destruct H as [H1 H2]. cbn [app tokens_from]. rewrite H1.
  apply IH. exact H2.
Qed.
(** A word, a nonempty separator, and the rest. *)
Lemma tokens_word : forall w d s, w <> [] -> d <> [] -> forallb clean w = true -> forallb is_delim d = true ->
  tokens (w ++ d ++ s) = w :: tokens s.
Proof.
  intros w d s Nw Nd C D. unfold tokens. rewrite tokens_from_clean by exact C. rewrite app_nil_r.
  destruct d as [|c r]; [congruence|]. cbn [forallb] in D. apply andb_prop in D. destruct D as [D1 D2].
  cbn [app tokens_from]. rewrite D1.
  destruct (rev w) as [|x y] eqn:E.
  - apply (f_equal (@rev ascii)) in E. rewrite rev_involutive in E. cbn in E. congruence.
  - rewrite <- E, rev_involutive. rewrite tokens_delims by exact D2. reflexivity.
Qed.
Lemma tokens_last : forall w, w <> [] -> forallb clean w = true -> tokens w = [w].
Proof.
  intros w N C. unfold tokens. rewrite <- (app_nil_r w) at 1. rewrite tokens_from_clean by exact C.
  rewrite app_nil_r. cbn [tokens_from].
  destruct (rev w) as [|x y] eqn:E.
  - apply (f_equal (@rev ascii)) in E. rewrite rev_involutive in E. cbn in E. congruence.
  - rewrite <- E, rev_involutive. reflexivity.
Qed.

(** ** The characters of a printed number *)
(** Specification or proof only; nothing in the code. *)
Definition numeric (c : ascii) : bool :=
  existsb (Ascii.eqb c) ["0"; "1"; "2"; "3"; "4"; "5"; "6"; "7"; "8"; "9"; "."; "-"; "+"; "e"; "i"; "n"; "f"; "a"]%char.
Lemma text_numeric : forall n, forallb numeric (text n) = true.
Proof.
  assert (D : forall ds, forallb numeric (map digit_char ds) = true).
  { induction ds as [|d r IH]; [reflexivity|]. cbn [map forallb]. rewrite IH. destruct d; reflexivity. }
  intros [neg lead frac eneg e|neg|neg]; [|destruct neg; reflexivity|destruct neg; reflexivity].
  unfold text. rewrite forallb_app. cbn [forallb]. rewrite forallb_app. cbn [forallb].
  rewrite !D. destruct neg, lead, eneg; reflexivity.
Qed.
Lemma text_nonempty : forall n, text n <> [].
Proof.
  intros [neg lead frac eneg e|neg|neg]; unfold text; destruct neg; cbn; discriminate.
Qed.
Lemma numeric_all : forall (P : ascii -> bool),
  (forall c, In c ["0"; "1"; "2"; "3"; "4"; "5"; "6"; "7"; "8"; "9"; "."; "-"; "+"; "e"; "i"; "n"; "f"; "a"]%char -> P c = true) ->
  forall n, forallb P (text n) = true.
Proof.
  intros P H n. apply forallb_forall. intros c Hc.
  pose proof (text_numeric n) as N. rewrite forallb_forall in N. specialize (N c Hc).
  unfold numeric in N. apply existsb_exists in N. destruct N as [x [Hx Ex]].
  apply Ascii.eqb_eq in Ex. subst x. apply H. exact Hx.
Qed.
Lemma text_clean : forall n, forallb clean (text n) = true.
Proof. apply numeric_all. intros c H. repeat (destruct H as [<-|H]; [reflexivity|]). contradiction. Qed.
Lemma text_plain : forall n, forallb plain (text n) = true.
Proof. apply numeric_all. intros c H. repeat (destruct H as [<-|H]; [reflexivity|]). contradiction. Qed.
Definition not_nul (c : ascii) : bool := negb (Ascii.eqb c nul).
Lemma text_not_nul : forall n, forallb not_nul (text n) = true.
Proof. apply numeric_all. intros c H. repeat (destruct H as [<-|H]; [reflexivity|]). contradiction. Qed.
Lemma text_not_comment : forall n s, is_comment (text n ++ s) = false.
Proof.
  intros n s. pose proof (text_nonempty n) as N.
  assert (C : forallb (fun c => negb (Ascii.eqb c hash)) (text n) = true).
  { apply numeric_all. intros c H. repeat (destruct H as [<-|H]; [reflexivity|]). contradiction. }
  destruct (text n) as [|c r]; [congruence|]. cbn in *. apply andb_prop in C. destruct C as [C _].
  apply negb_true_iff in C. exact C.
Qed.
Lemma text_length : forall n p, match n with Fin _ _ frac _ _ => List.length frac = p | _ => True end ->
  List.length (text n) <= p + 8.
Proof.
  intros [neg lead frac eneg e|neg|neg] p H; [|destruct neg; cbn; lia|destruct neg; cbn; lia].
  unfold text. rewrite app_length. cbn [List.length]. rewrite app_length. cbn [List.length].
  rewrite !map_length, H. destruct neg, e; cbn; lia.
Qed.

Lemma c_string_id : forall s, forallb not_nul s = true -> c_string s = s.
Proof.
  induction s as [|c r IH]; intros H; [reflexivity|]. cbn [forallb] in H. apply andb_prop in H.
  destruct H as [H1 H2]. unfold not_nul in H1. apply negb_true_iff in H1.
  cbn [c_string]. rewrite H1, IH by exact H2. reflexivity.
Qed.
