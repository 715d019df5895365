(** * Properties of the command line program: C37 *)
From Coq Require Import ZArith Bool List String Ascii Arith Lia.
From Coq Require Decimal DecimalString DecimalZ DecimalPos.
From Verif Require Import F64 Numeric FileIO Output Parser ParserLemmas Props_Parser Main MainLemmas.
Import ListNotations.
Open Scope list_scope.
Open Scope Z_scope.

(** ** Specification *)

(** The command line: -s FILE and -n NUMBER, apart or joined, in any order, the
    last one counting; other words are skipped, "--" ends the options. *)
Inductive command : option bytes -> option bytes -> list bytes -> option bytes -> option bytes -> Prop :=
| cmd_nil : forall s n, command s n [] s n
| cmd_end : forall s n r, command s n (str "--" :: r) s n
| cmd_word : forall s n w r s' n', absolute_word w -> command s n r s' n' -> command s n (w :: r) s' n'
| cmd_settings : forall s n f r s' n', command (Some f) n r s' n' -> command s n (str "-s" :: f :: r) s' n'
| cmd_settings_joined : forall s n f r s' n', f <> [] -> command (Some f) n r s' n' -> command s n ((str "-s" ++ f) :: r) s' n'
| cmd_threads : forall s n k r s' n', command s (Some k) r s' n' -> command s n (str "-n" :: k :: r) s' n'
| cmd_threads_joined : forall s n k r s' n', k <> [] -> command s (Some k) r s' n' -> command s n ((str "-n" ++ k) :: r) s' n'
with absolute_word : bytes -> Prop :=
| word_empty : absolute_word []
| word_dash : absolute_word (str "-")
| word_other : forall c r, c <> "-"%char -> absolute_word (c :: r).

(** The modules of an output type (1 correlation function, 2 multipoles, 3 averaged
    multipoles, 4 covariance, 5 averaged covariance). *)
Definition modules_of (t : Z) : list called :=
  match t with
  | 1 => [Background; Integrals; Corrfunc]
  | 2 => [Background; Integrals; Multipoles]
  | 3 => [Background; Integrals; AverageMultipoles]
  | 4 | 5 => [Background; Covariance]
  | _ => [Background]
  end.
Definition result_file (t : Z) : option bytes :=
  match t with
  | 1 => Some (str "corrfunc.dat")
  | 2 => Some (str "multipoles.dat")
  | 4 => Some (str "covariance_multipoles.dat")
  | 5 => Some (str "covariance_average_multipoles.dat")
  | _ => None
  end.

Section Spec.
Variable E : environment.

(** The parameters the modules are given. *)
Definition started (file : bytes) (nopt : option bytes) (s : store) : Prop :=
  exists n s0, n > 0
    /\ match nopt with Some k => atoi k = Done n | None => n = e_cores E end
    /\ parser_init (e_world E file) = Done s0
    /\ (forall f, f <> "nthreads"%string -> s f = s0 f) /\ s "nthreads"%string = VI n.

(** The tables: a comment with the contributions, a comment with the columns, and
    one line for each value the module returned. *)
Definition is_on (s : store) (c : string) : bool := match s c with VI z => negb (z =? 0) | _ => false end.
Definition title (s : store) : bytes :=
  str "# correlation contributions: "
  ++ List.concat (map (fun c => str c ++ [" "%char])
       (filter (is_on s) ["den"; "rsd"; "d1"; "d2"; "g1"; "g2"; "g3"; "g4"; "g5"; "len"]%string))
  ++ [newline].
Fixpoint with_blanks (l : list bytes) : bytes :=
  match l with [] => [newline] | [x] => x ++ [newline] | x :: r => x ++ [" "%char] ++ with_blanks r end.
Notation num := (fun x => text (e_show E 10 x)).
Inductive table (s : store) (b : e_BG E) : Z -> bytes -> Prop :=
| table_corrfunc : forall i rows, e_integrals E s b = Done i -> e_corrfunc E s b i = Done rows ->
    table s b 1 (title s ++ str "# z_mean, sep, mu, value" ++ [newline]
      ++ List.concat (map (fun r => with_blanks [num (cf_z r); num (cf_sep r); num (cf_mu r); num (cf_value r)]) rows))
| table_multipoles : forall i rows, e_integrals E s b = Done i -> e_multipoles E s b i = Done rows ->
    table s b 2 (title s ++ str "# z_mean, l, sep, value" ++ [newline]
      ++ List.concat (map (fun r => with_blanks [num (mp_z r); int_text (mp_l r); num (mp_sep r); num (mp_value r)]) rows))
| table_covariance : forall rows other, e_covariance E s b = Done (rows, other) ->
    table s b 4 (title s ++ str "# z_mean, l1, l2, sep1, sep2, value" ++ [newline]
      ++ List.concat (map (fun r => with_blanks [num (cov_z r); int_text (cov_l1 r); int_text (cov_l2 r);
                                            num (cov_sep1 r); num (cov_sep2 r); num (cov_value r)]) rows))
| table_average_covariance : forall other rows, e_covariance E s b = Done (other, rows) ->
    table s b 5 (str "# sep[Mpc/h]" ++ ["009"%char] ++ str "sep[Mpc/h]" ++ ["009"%char] ++ str "result" ++ [newline]
      ++ List.concat (map (fun r => with_blanks [num (ac_sep1 r); num (ac_sep2 r); int_text (ac_l1 r); int_text (ac_l2 r);
                                            num (ac_zmin r); num (ac_zmax r); num (ac_value r)]) rows)).

(** The text before the names of the files: "$TIME" stands for the time stamp. *)
Definition wanted_prefix (x : string) : bytes := if String.eqb x "$TIME" then e_time E ++ str "_" else str x.
(** A file of the run: in the directory asked for. *)
Definition file_place (path x : string) (name : bytes) : place :=
  (absolute (str path), pieces [] (str path) ++ [wanted_prefix x ++ name]).
Definition before (d : disk) (l : place) : bytes := match d l with Some (Text t) => t | _ => [] end.
End Spec.

(** ** The command line *)
Lemma command_choose : forall s n args s' n', command s n args s' n' -> choose (getopt Nothing args) s n = Some (s', n').
Proof.
  intros s n args s' n' H. induction H as [s n|s n r|s n w r s' n' W C IH|s n f r s' n' C IH|s n f r s' n' N C IH
    |s n f r s' n' C IH|s n f r s' n' N C IH].
  - reflexivity.
  - reflexivity.
  - destruct W as [| |c w N]; [exact IH|exact IH|]. destruct w as [|x w]; [exact IH|].
    cbn [getopt]. destruct (Ascii.eqb c "-") eqn:F; [apply Ascii.eqb_eq in F; contradiction|exact IH].
  - exact IH.
  - destruct f as [|c f]; [congruence|]. cbn. exact IH.
  - exact IH.
  - destruct f as [|c f]; [congruence|]. cbn. exact IH.
Qed.

(** -h, -v and -C end the program before anything is read or written. *)
Theorem C37_information : forall E d w r, In w [str "-h"; str "-v"; str "-C"] -> main E (w :: r) d = Done (mkOut d []).
Proof. intros E d w r [<-|[<-|[<-|[]]]]; reflexivity. Qed.
Theorem C37_usage : forall E d args n, command None None args None n -> main E args d = Done (mkOut d []).
Proof. intros E d args n H. unfold main. rewrite (command_choose _ _ _ _ _ H). reflexivity. Qed.

(** ** The number of threads *)
(** How a number is written: Coq's own decimal notation. *)
Definition decimal (z : Z) : bytes := str (DecimalString.NilZero.string_of_int (Z.to_int z)).
Definition no_digit (s : bytes) : Prop :=
  match s with [] => True | c :: _ => ~ In c (str "0123456789") end.

Fixpoint digits_of (u : Decimal.uint) : list digit :=
  match u with
  | Decimal.Nil => []
  | Decimal.D0 u => D0 :: digits_of u | Decimal.D1 u => D1 :: digits_of u | Decimal.D2 u => D2 :: digits_of u
  | Decimal.D3 u => D3 :: digits_of u | Decimal.D4 u => D4 :: digits_of u | Decimal.D5 u => D5 :: digits_of u
  | Decimal.D6 u => D6 :: digits_of u | Decimal.D7 u => D7 :: digits_of u | Decimal.D8 u => D8 :: digits_of u
  | Decimal.D9 u => D9 :: digits_of u
  end.
Lemma take_uint : forall u r, no_digit r -> take_digits (str (DecimalString.NilEmpty.string_of_uint u) ++ r) = (digits_of u, r).
Proof.
  intros u r N. induction u; [|cbn in IHu |- *; unfold str in IHu; rewrite IHu; reflexivity ..].
  cbn. destruct r as [|c r]; [reflexivity|]. cbn [take_digits]. unfold char_digit.
  repeat match goal with |- context [Ascii.eqb c ?d] =>
    destruct (Ascii.eqb c d) eqn:F; [exfalso; apply N; apply Ascii.eqb_eq in F; subst c; cbn; tauto|clear F] end.
  reflexivity.
Qed.
Lemma number_acc : forall u p, fold_left (fun z d => 10 * z + digit_value d) (digits_of u) (Zpos p) = Zpos (Pos.of_uint_acc u p).
Proof.
  induction u as [|u IH|u IH|u IH|u IH|u IH|u IH|u IH|u IH|u IH|u IH]; intros p; [reflexivity|..];
    cbn [digits_of fold_left Pos.of_uint_acc digit_value]; rewrite <- IH; apply f_equal;
    rewrite ?Pos2Z.inj_add, Pos2Z.inj_mul; ring.
Qed.
Lemma number_uint : forall u, number (digits_of u) = Z.of_N (Pos.of_uint u).
Proof.
  unfold number. induction u as [|u IH|u IH|u IH|u IH|u IH|u IH|u IH|u IH|u IH|u IH]; [reflexivity|exact IH|..];
    cbn [digits_of fold_left Pos.of_uint digit_value Z.of_N];
    match goal with |- context [Pos.of_uint_acc _ ?p] => exact (number_acc u p) end.
Qed.
Lemma uint_text : forall u, u <> Decimal.Nil -> DecimalString.NilZero.string_of_uint u = DecimalString.NilEmpty.string_of_uint u.
Proof. intros [] H; [congruence|reflexivity ..]. Qed.
Lemma uint_head : forall u, u <> Decimal.Nil -> exists c r, str (DecimalString.NilEmpty.string_of_uint u) = c :: r
  /\ In c (str "0123456789").
Proof. intros [] H; [congruence|eexists; eexists; (split; [reflexivity|cbn; tauto]) ..]. Qed.
Lemma atoi_decimal : forall z r, (-2147483648 <= z <= 2147483647) -> no_digit r -> atoi (decimal z ++ r) = Done z.
Proof.
  intros z r B N. unfold decimal, atoi.
  assert (D : exists u, u <> Decimal.Nil /\ Z.to_int z = (if z <? 0 then Decimal.Neg u else Decimal.Pos u) /\ Z.of_N (Pos.of_uint u) = Z.abs z).
  { pose proof (DecimalZ.of_to z) as O. destruct z as [|p|p].
    - exists (Decimal.D0 Decimal.Nil). repeat split. discriminate.
    - exists (Pos.to_uint p). split; [apply DecimalPos.Unsigned.to_uint_nonnil|]. split; [reflexivity|exact O].
    - exists (Pos.to_uint p). split; [apply DecimalPos.Unsigned.to_uint_nonnil|]. split; [reflexivity|].
      cbn in O |- *. unfold Z.of_uint in O. destruct (Z.of_N (Pos.of_uint (Pos.to_uint p))); cbn in O; congruence. }
  destruct D as (u & Nn & -> & V). destruct (Z.ltb_spec z 0) as [L|L].
  - change (str (DecimalString.NilZero.string_of_int (Decimal.Neg u))) with ("-"%char :: str (DecimalString.NilZero.string_of_uint u)).
    rewrite uint_text by exact Nn. cbn [app]. cbn [skip_space]. change (is_space "-") with false. cbn [take_sign]. rewrite Ascii.eqb_refl. rewrite take_uint by exact N. rewrite number_uint, V.
    replace (- Z.abs z) with z by lia. destruct (Z.leb_spec (-2147483648) z); [|lia]. destruct (Z.leb_spec z 2147483647); [|lia]. reflexivity.
  - change (str (DecimalString.NilZero.string_of_int (Decimal.Pos u))) with (str (DecimalString.NilZero.string_of_uint u)).
    rewrite uint_text by exact Nn. destruct (uint_head u Nn) as (c & t & E & I).
    pose proof (take_uint u r N) as T. rewrite E in *. cbn [app] in *.
    assert (S : skip_space (c :: t ++ r) = c :: t ++ r /\ take_sign (c :: t ++ r) = (false, c :: t ++ r)).
    { cbn in I. repeat (destruct I as [<-|I]; [split; reflexivity|]). destruct I. }
    destruct S as [S1 S2]. rewrite S1, S2, T. rewrite number_uint, V.
    replace (Z.abs z) with z by lia. destruct (Z.leb_spec (-2147483648) z); [|lia]. destruct (Z.leb_spec z 2147483647); [|lia]. reflexivity.
Qed.

(** The number after -n is read as a decimal number with its sign (whatever
    follows it).  A run gets exactly that many threads; a number that is not
    positive ends the program before anything is read or written. *)
Theorem C37_threads : forall E args d file z rest o,
  command None None args (Some file) (Some (decimal z ++ rest)) -> (List.length file < 256)%nat ->
  -2147483648 <= z <= 2147483647 -> no_digit rest ->
  (z <= 0 -> main E args d = Exited) /\
  (main E args d = Done o -> 0 < z /\ forall s, started E file (Some (decimal z ++ rest)) s -> s "nthreads"%string = VI z).
Proof.
  intros E args d file z rest o C Lf B N. pose proof (atoi_decimal z rest B N) as A.
  assert (X : z <= 0 -> main E args d = Exited).
  { intros L. unfold main. rewrite (command_choose _ _ _ _ _ C).
    replace (Nat.leb BUF (List.length file)) with false by (symmetry; apply Nat.leb_gt; exact Lf).
    unfold threads. rewrite A. cbn [bind]. destruct (Z.leb_spec z 0); [reflexivity|lia]. }
  split; [exact X|]. intros M. split.
  - destruct (Z_le_gt_dec z 0) as [L|L]; [|lia]. rewrite (X L) in M. discriminate.
  - intros s (n & s0 & _ & An & _ & _ & Sn). rewrite A in An. injection An as <-. exact Sn.
Qed.
Example C37_threads_met : command None None [str "-s"; str "x.cfg"; str "-n"; str "-12 threads"] (Some (str "x.cfg")) (Some (decimal (-12) ++ str " threads"))
  /\ no_digit (str " threads") /\ decimal 16 = str "16".
Proof.
  split; [|split; [|reflexivity]].
  - apply cmd_settings, cmd_threads. apply cmd_nil.
  - cbn. intros H. repeat (destruct H as [H|H]; [discriminate|]). exact H.
Qed.
Print Assumptions C37_threads.

(** ** The modules that run *)
Lemma main_started : forall E args d file nopt o, command None None args (Some file) nopt -> main E args d = Done o ->
  exists s b t R, started E file nopt s /\ s "output_type"%string = VI t /\ e_background E s = Done b
    /\ o_ran o = modules_of t /\ output_init E (w_conf (e_world E file)) s b R d = Done (o_disk o)
    /\ (t = 1 -> exists i, e_integrals E s b = Done i /\ e_corrfunc E s b i = Done (r_cf R))
    /\ (t = 2 -> exists i, e_integrals E s b = Done i /\ e_multipoles E s b i = Done (r_mp R))
    /\ (t = 4 -> exists q, e_covariance E s b = Done (r_cov R, q))
    /\ (t = 5 -> exists q, e_covariance E s b = Done (q, r_acov R)).
Proof.
  intros E args d file nopt o C M. unfold main in M. rewrite (command_choose _ _ _ _ _ C) in M.
  destruct (Nat.leb BUF (List.length file)); [discriminate|]. bd M n En. destruct (n <=? 0) eqn:Ln; [discriminate|].
  bd M s0 Es. set (s := put s0 "nthreads" (VI n)) in *. bd M t Et. bd M b Eb.
  assert (St : started E file nopt s).
  { exists n, s0. split; [lia|]. split.
    - unfold threads in En. destruct nopt; [exact En|apply done_inj in En; symmetry; exact En].
    - split; [exact Es|]. split; [|reflexivity]. intros f F. unfold s, put.
      destruct (String.eqb "nthreads" f) eqn:G; [|reflexivity]. apply String.eqb_eq in G. congruence. }
  apply getI_inv in Et.
  bd M it Ei. bd M cf Ec. bd M mp Em. bd M ra Er. bd M cv Ev. bd M d' Ed. apply done_inj in M. subst o.
  exists s, b, t. eexists. split; [exact St|]. split; [exact Et|]. split; [exact Eb|].
  cbn [o_ran o_disk]. 
  assert (T : t = 1 \/ t = 2 \/ t = 3 \/ t = 4 \/ t = 5 \/ (t <> 1 /\ t <> 2 /\ t <> 3 /\ t <> 4 /\ t <> 5)) by lia.
  assert (Ran : [Background] ++ snd it ++ snd cf ++ snd mp ++ snd ra ++ snd cv = modules_of t
     /\ (t = 1 -> exists i, e_integrals E s b = Done i /\ e_corrfunc E s b i = Done (fst cf))
     /\ (t = 2 -> exists i, e_integrals E s b = Done i /\ e_multipoles E s b i = Done (fst mp))
     /\ (t = 4 \/ t = 5 -> e_covariance E s b = Done (fst (fst cv), snd (fst cv)))).
  { destruct T as [->|[->|[->|[->|[->|T]]]]].
    6: { replace (t =? 1) with false in * by lia. replace (t =? 2) with false in * by lia. replace (t =? 3) with false in * by lia.
         replace (t =? 4) with false in * by lia. replace (t =? 5) with false in * by lia. cbn [orb] in *.
         apply done_inj in Ei, Ec, Em, Er, Ev. subst it cf mp ra cv. cbn [snd app].
         split; [|split; [lia|split; lia]]. unfold modules_of.
         destruct t as [|p|p]; [reflexivity| |reflexivity].
         do 3 (try (destruct p as [p|p|]); try reflexivity; try (exfalso; lia)). }
    all: cbn [Z.eqb Pos.eqb orb] in *.
    1-3: bd Ei i Ii; apply done_inj in Ei; subst it; cbn [fst snd] in *.
    1: bd Ec rows Rw; apply done_inj in Ec, Em, Er, Ev; subst cf mp ra cv.
    2: bd Em rows Rw; apply done_inj in Ec, Em, Er, Ev; subst cf mp ra cv.
    3: bd Er rows Rw; apply done_inj in Ec, Em, Er, Ev; subst cf mp ra cv.
    4-5: bd Ev rows Rw; apply done_inj in Ei, Ec, Em, Er, Ev; subst it cf mp ra cv.
    all: cbn [fst snd app]; split; [reflexivity|]; repeat split; intros; try lia; eauto.
    all: destruct rows; exact Rw. }
  destruct Ran as (Ran & R1 & R2 & R4).
  split; [exact Ran|]. split; [exact Ed|]. cbn [r_cf r_mp r_cov r_acov].
  repeat split; auto; intros ->; eexists; apply R4; auto.
Qed.

Lemma started_type : forall E file nopt s t, started E file nopt s -> s "output_type"%string = VI t ->
  c_int (w_conf (e_world E file)) "output_type" = Some t.
Proof.
  intros E file nopt s t (n & s0 & _ & _ & P & F & _) T.
  destruct (C38_scalars _ _ P) as (I & _). destruct (I "output_type" "output_type")%string as (z & Z1 & Z2);
    [apply (nth_error_In _ 1); reflexivity|]. rewrite F in T by discriminate. rewrite Z2 in T. injection T as ->. exact Z1.
Qed.
Lemma started_strings : forall E file nopt s, started E file nopt s ->
  exists p x, c_string (w_conf (e_world E file)) "output_path" = Some p /\ s "output_path"%string = VS p
    /\ c_string (w_conf (e_world E file)) "output_prefix" = Some x /\ s "output_prefix"%string = VS x.
Proof.
  intros E file nopt s (n & s0 & _ & _ & P & F & _). destruct (C38_scalars _ _ P) as (_ & _ & I).
  destruct (I "output_path" "output_path")%string as (p & P1 & P2); [apply (nth_error_In _ 0); reflexivity|].
  destruct (I "output_prefix" "output_prefix")%string as (x & X1 & X2); [apply (nth_error_In _ 1); reflexivity|].
  exists p, x. rewrite !F by discriminate. auto.
Qed.

(** A run with a settings file calls the background and the module of the output
    type, with the integrals exactly when that module needs them. *)
Theorem C37_modules : forall E args d file nopt o, command None None args (Some file) nopt -> main E args d = Done o ->
  exists t, c_int (w_conf (e_world E file)) "output_type" = Some t /\ o_ran o = modules_of t.
Proof.
  intros E args d file nopt o C M. destruct (main_started _ _ _ _ _ _ C M) as (s & b & t & R & St & T & _ & Ran & _).
  exists t. split; [exact (started_type _ _ _ _ _ St T)|exact Ran].
Qed.
Print Assumptions C37_modules.

(** ** The files *)
Lemma printed_short : forall t, (List.length t < 256)%nat -> printed t = t.
Proof. intros t H. unfold printed. apply firstn_all2. unfold BUF. lia. Qed.

Lemma joined_with_blanks : forall l, l <> [] -> line l = with_blanks l.
Proof.
  assert (G : forall l, l <> [] -> joined l ++ [newline] = with_blanks l).
  { induction l as [|x [|y r] IH]; intros N; [congruence|reflexivity|].
    change (joined (x :: y :: r)) with (x ++ blank ++ joined (y :: r)).
    change (with_blanks (x :: y :: r)) with (x ++ [" "%char] ++ with_blanks (y :: r)).
    rewrite <- IH by discriminate. rewrite <- !app_assoc. reflexivity. }
  exact G.
Qed.
Lemma contribution_names_spec : forall s l q, contribution_names s l = Done q ->
  q = List.concat (map (fun c => str c ++ [" "%char]) (filter (is_on s) l)).
Proof.
  induction l as [|c l IH]; intros q H; cbn [contribution_names] in H; [apply done_inj in H; subst; reflexivity|].
  bd H b B. bd H p P. apply done_inj in H. subst q. rewrite (IH p P). cbn [filter].
  unfold flag in B. bd B z Zz. apply done_inj in B. subst b. apply getI_inv in Zz. unfold is_on. rewrite Zz.
  destruct (negb (z =? 0)); reflexivity.
Qed.
Lemma header_spec : forall s c h, result_header s c = Done h -> h = title s ++ str c ++ [newline].
Proof.
  intros s c h H. unfold result_header in H. bd H q Q. apply contribution_names_spec in Q. subst q. apply done_inj in H. subst h.
  unfold title, header_order. rewrite <- !app_assoc. reflexivity.
Qed.

Lemma overwrite_at : forall d p t, overwrite d p t (place_of p) = Some (Text t).
Proof. intros. apply write_same. Qed.

Lemma some_inj : forall A (a b : A), Some a = Some b -> a = b.
Proof. congruence. Qed.

(** What is written before the result file. *)
Lemma settings_frame : forall E K prefix d l, l <> place_of (printed (prefix ++ str "settings.cfg")) ->
  write_settings E K prefix d l = d l.
Proof.
  intros E K prefix d l N. unfold write_settings. destruct (opens _ _ _); [|reflexivity]. apply write_other. congruence.
Qed.
Lemma background_frame : forall E s b prefix d d' l, write_background E s b prefix d = Done d' ->
  l <> place_of (printed (prefix ++ str "background.dat")) -> d' l = d l.
Proof.
  intros E s b prefix d d' l H N. unfold write_background in H. bd H names X. bd H bins Y.
  destruct (output_background _ _ _ _ _) as [|t|]; [apply done_inj in H; subst; reflexivity| |discriminate].
  apply done_inj in H. subst d'. destruct (opens _ _ _); [|reflexivity]. apply write_other. congruence.
Qed.
Lemma result_frame : forall E s t prefix R d d' l, write_result E s t prefix R d = Done d' ->
  (forall name, result_file t = Some name -> l <> place_of (printed (prefix ++ name))) -> d' l = d l.
Proof.
  intros E s t prefix R d d' l H N. unfold write_result in H.
  destruct (Z.eqb_spec t 1) as [->|T1].
  { bd H h Hh. unfold append_result in H. destruct (opens _ _ _); [|discriminate]. apply done_inj in H. subst d'.
    apply write_other. intros F. exact (N _ eq_refl (eq_sym F)). }
  destruct (Z.eqb_spec t 2) as [->|T2].
  { bd H h Hh. unfold append_result in H. destruct (opens _ _ _); [|discriminate]. apply done_inj in H. subst d'.
    apply write_other. intros F. exact (N _ eq_refl (eq_sym F)). }
  destruct (Z.eqb_spec t 4) as [->|T4].
  { bd H h Hh. unfold append_result in H. destruct (opens _ _ _); [|discriminate]. apply done_inj in H. subst d'.
    apply write_other. intros F. exact (N _ eq_refl (eq_sym F)). }
  destruct (Z.eqb_spec t 5) as [->|T5].
  { destruct (opens _ _ _); [|discriminate]. apply done_inj in H. subst d'.
    apply write_other. intros F. exact (N _ eq_refl (eq_sym F)). }
  apply done_inj in H. subst d'. reflexivity.
Qed.

(** The result file: what it held before (nothing for the averaged covariance) and
    then the table of the module. *)
Lemma result_written : forall E s b t prefix R d d' name, write_result E s t prefix R d = Done d' ->
  result_file t = Some name ->
  (t = 1 -> exists i, e_integrals E s b = Done i /\ e_corrfunc E s b i = Done (r_cf R)) ->
  (t = 2 -> exists i, e_integrals E s b = Done i /\ e_multipoles E s b i = Done (r_mp R)) ->
  (t = 4 -> exists q, e_covariance E s b = Done (r_cov R, q)) ->
  (t = 5 -> exists q, e_covariance E s b = Done (q, r_acov R)) ->
  let l := place_of (printed (prefix ++ name)) in
  exists x, table E s b t x /\ d' l = Some (Text ((if t =? 5 then [] else before d l) ++ x)).
Proof.
  intros E s b t prefix R d d' name H N R1 R2 R4 R5 l. unfold write_result in H.
  assert (T : t = 1 \/ t = 2 \/ t = 4 \/ t = 5).
  { unfold result_file in N. destruct t as [|p|p]; try discriminate.
    do 3 (try (destruct p as [p|p|]); try discriminate; auto). }
  destruct T as [->|[->|[->| ->]]]; cbn [Z.eqb Pos.eqb] in H; apply some_inj in N; subst name.
  1-3: bd H h Hh; apply header_spec in Hh; subst h; unfold append_result in H; fold l in H; destruct (opens _ _ _); [|discriminate];
       apply done_inj in H; subst d'.
  1: destruct (R1 eq_refl) as (i & I1 & I2). 2: destruct (R2 eq_refl) as (i & I1 & I2). 3: destruct (R4 eq_refl) as (q & I2).
  1-3: eexists; split; [econstructor; eassumption|]; unfold append; fold l; rewrite write_same; unfold content, before; fold l;
       cbn [Z.eqb Pos.eqb].
  1: replace (map (corrfunc_line E) (r_cf R)) with (map (fun r => with_blanks [text (e_show E 10 (cf_z r));
       text (e_show E 10 (cf_sep r)); text (e_show E 10 (cf_mu r)); text (e_show E 10 (cf_value r))]) (r_cf R))
       by (apply map_ext; intros r; symmetry; apply joined_with_blanks; discriminate).
  2: replace (map (multipole_line E) (r_mp R)) with (map (fun r => with_blanks [text (e_show E 10 (mp_z r));
       int_text (mp_l r); text (e_show E 10 (mp_sep r)); text (e_show E 10 (mp_value r))]) (r_mp R))
       by (apply map_ext; intros r; symmetry; apply joined_with_blanks; discriminate).
  3: replace (map (covariance_line E) (r_cov R)) with (map (fun r => with_blanks [text (e_show E 10 (cov_z r));
       int_text (cov_l1 r); int_text (cov_l2 r); text (e_show E 10 (cov_sep1 r)); text (e_show E 10 (cov_sep2 r));
       text (e_show E 10 (cov_value r))]) (r_cov R))
       by (apply map_ext; intros r; symmetry; apply joined_with_blanks; discriminate).
  1-3: rewrite <- !app_assoc; reflexivity.
  destruct (R5 eq_refl) as (q & I2). destruct (opens _ _ _); [|discriminate]. apply done_inj in H. subst d'.
  eexists. split; [econstructor; eassumption|]. unfold l. rewrite overwrite_at. cbn [Z.eqb Pos.eqb].
  replace (map (average_covariance_line E) (r_acov R)) with (map (fun r => with_blanks [text (e_show E 10 (ac_sep1 r));
    text (e_show E 10 (ac_sep2 r)); int_text (ac_l1 r); int_text (ac_l2 r); text (e_show E 10 (ac_zmin r)); text (e_show E 10 (ac_zmax r));
    text (e_show E 10 (ac_value r))]) (r_acov R))
    by (apply map_ext; intros r; symmetry; apply joined_with_blanks; discriminate).
  reflexivity.
Qed.

(** The files of a run are in the directory asked for. *)
Definition own_names : list bytes :=
  [str "settings.cfg"; str "background.dat"; str "corrfunc.dat"; str "multipoles.dat";
   str "covariance_multipoles.dat"; str "covariance_average_multipoles.dat"].
Lemma own_names_facts : forall name, In name own_names -> no_slash name /\ name <> [] /\ (List.length name < 34)%nat.
Proof.
  assert (G : forall n, forallb (fun c => negb (Ascii.eqb c slash)) n = true -> no_slash n).
  { intros n H I. rewrite forallb_forall in H. specialize (H _ I). discriminate. }
  intros name I. repeat (destruct I as [<-|I]; [split; [apply G; reflexivity|split; [discriminate|cbn; lia]]|]). destruct I.
Qed.
Lemma result_file_own : forall t name, result_file t = Some name -> In name (skipn 2 own_names).
Proof.
  intros t name H. unfold result_file in H. destruct t as [|p|p]; try discriminate.
  do 3 (try (destruct p as [p|p|]); try discriminate); apply some_inj in H; subst name;
    [apply (nth_error_In _ 3)|apply (nth_error_In _ 2)|apply (nth_error_In _ 1)|apply (nth_error_In _ 0)]; reflexivity.
Qed.
Lemma run_places : forall E path x p' name, In name own_names ->
  place_of p' = place_of (str path) -> ends_in_slash p' = true -> no_slash (wanted_prefix E x) ->
  (List.length p' + List.length (wanted_prefix E x) + 34 < 256)%nat ->
  place_of (printed (printed (p' ++ wanted_prefix E x) ++ name)) = file_place E path x name
  /\ printed (printed (p' ++ wanted_prefix E x) ++ name) = p' ++ (wanted_prefix E x ++ name).
Proof.
  intros E path x p' name I P En S L. destruct (own_names_facts _ I) as (S1 & N1 & L1).
  assert (Q : printed (printed (p' ++ wanted_prefix E x) ++ name) = p' ++ wanted_prefix E x ++ name).
  { rewrite (printed_short (p' ++ _)) by (rewrite app_length; lia). rewrite <- app_assoc. apply printed_short.
    rewrite !app_length. lia. }
  split; [|exact Q]. rewrite Q. rewrite place_in_dir; auto.
  - unfold file_place. f_equal.
    + unfold place_of in P. congruence. + rewrite P. reflexivity.
  - intros F. apply in_app_or in F. destruct F as [F|F]; [exact (S F)|exact (S1 F)].
  - intros F. apply app_eq_nil in F. destruct F as [_ F]. exact (N1 F).
Qed.
Lemma places_apart : forall E path x a b, file_place E path x a = file_place E path x b -> a = b.
Proof.
  intros E path x a b H. unfold file_place in H. injection H as H. apply app_inj_tail in H. destruct H as [_ H].
  apply app_inv_head in H. exact H.
Qed.
Lemma file_not_dir : forall E path x name, file_place E path x name <> place_of (str path).
Proof.
  intros E path x name H. unfold file_place, place_of in H. injection H as H. apply (f_equal (@List.length _)) in H.
  rewrite app_length in H. cbn in H. lia.
Qed.
Lemma prefix_is : forall E s x p, s "output_prefix"%string = VS x -> file_prefix E s p = Done (printed (p ++ wanted_prefix E x)).
Proof. intros E s x p H. unfold file_prefix, getS. rewrite H. reflexivity. Qed.

Section Runs.
Variables (E : environment) (args : list bytes) (d : disk) (file : bytes) (nopt : option bytes) (t : Z) (path x : string).
Let K := w_conf (e_world E file).
Hypothesis C : command None None args (Some file) nopt.
Hypothesis T : c_int K "output_type" = Some t.
Hypothesis Pa : c_string K "output_path" = Some path.
Hypothesis Px : c_string K "output_prefix" = Some x.
Hypothesis Np : str path <> [].
Hypothesis Sx : no_slash (wanted_prefix E x).
Hypothesis L : (List.length (str path) + List.length (wanted_prefix E x) + 40 < 256)%nat.
Hypothesis Cr : creatable (e_may E) d (place_of (str path)).

Lemma run_steps : forall o, main E args d = Done o ->
  exists s b R d1 d2 prefix, started E file nopt s /\ e_background E s = Done b /\ o_ran o = modules_of t
    /\ adds_dirs d d1 /\ at_place d1 (place_of (str path)) = Some Dir
    /\ (forall l, d1 l = d l \/ (List.length (snd l) <= List.length (snd (place_of (str path))))%nat)
    /\ (forall name, In name own_names -> place_of (printed (prefix ++ name)) = file_place E path x name)
    /\ write_background E s b prefix (write_settings E K prefix d1) = Done d2
    /\ write_result E s t prefix R d2 = Done (o_disk o)
    /\ (t = 1 -> exists i, e_integrals E s b = Done i /\ e_corrfunc E s b i = Done (r_cf R))
    /\ (t = 2 -> exists i, e_integrals E s b = Done i /\ e_multipoles E s b i = Done (r_mp R))
    /\ (t = 4 -> exists q, e_covariance E s b = Done (r_cov R, q))
    /\ (t = 5 -> exists q, e_covariance E s b = Done (q, r_acov R)).
Proof.
  intros o M. destruct (main_started _ _ _ _ _ _ C M) as (s & b & t' & R & St & Tt & Eb & Ran & Out & R1 & R2 & R4 & R5).
  pose proof (started_type _ _ _ _ _ St Tt) as T'. unfold K in T. rewrite T in T'. injection T' as <-.
  destruct (started_strings _ _ _ _ St) as (p & y & P1 & P2 & X1 & X2).
  unfold K in Pa, Px. rewrite Pa in P1. rewrite Px in X1. injection P1 as <-. injection X1 as <-.
  unfold output_init in Out. bd Out p0 Ep. unfold getS in Ep. rewrite P2 in Ep. apply done_inj in Ep. subst p0.
  bd Out r Er. rewrite (prefix_is E s x (fst r) X2) in Out. cbn [bind] in Out. bd Out t0 Et. unfold getI in Et. rewrite Tt in Et.
  apply done_inj in Et. subst t0. bd Out d2 Eo2.
  destruct (make_path_ok (e_may E) d (str path) Np) as (p' & d1 & Mk & Q1 & Q2 & Q3 & Q4 & Q5 & Q6); [unfold BUF; lia|exact Cr|].
  rewrite Mk in Er. apply done_inj in Er. subst r. cbn [fst snd] in *.
  exists s, b, R, d1, d2, (printed (p' ++ wanted_prefix E x)). repeat (split; [auto; fail|]). 
  split. { intros name I. apply run_places; auto. lia. }
  repeat (split; [auto; fail|]). auto.
Qed.

(** After a complete run the result file of the output type holds the table the
    module computed, below what it held before. *)
Lemma result_of_run : forall o name, main E args d = Done o -> result_file t = Some name ->
  exists s b tab, started E file nopt s /\ e_background E s = Done b /\ table E s b t tab
    /\ o_disk o (file_place E path x name)
       = Some (Text ((if t =? 5 then [] else before d (file_place E path x name)) ++ tab)).
Proof.
  intros o name M N. destruct (run_steps o M) as (s & b & R & d1 & d2 & prefix & St & Eb & _ & Ad & _ & Sh & Pl & Wb & Wr & R1 & R2 & R4 & R5).
  destruct (result_written E s b t prefix R d2 (o_disk o) name Wr N R1 R2 R4 R5) as (tab & Tb & H).
  pose proof (result_file_own _ _ N) as I.
  assert (I' : In name own_names) by (apply (in_or_app (firstn 2 own_names)); right; exact I).
  rewrite (Pl name I') in H. exists s, b, tab. repeat (split; [assumption|]). rewrite H.
  replace (before d2 (file_place E path x name)) with (before d (file_place E path x name)); [reflexivity|].
  assert (A : name <> str "settings.cfg" /\ name <> str "background.dat").
  { unfold own_names, skipn in I. repeat (destruct I as [<-|I]; [split; discriminate|]). destruct I. }
  destruct A as [A1 A2].
  assert (D2 : d2 (file_place E path x name) = d1 (file_place E path x name)).
  { rewrite (background_frame _ _ _ _ _ _ _ Wb).
    - apply settings_frame. rewrite (Pl (str "settings.cfg")) by (apply (nth_error_In _ 0); reflexivity).
      intros F. apply places_apart in F. contradiction.
    - rewrite (Pl (str "background.dat")) by (apply (nth_error_In _ 1); reflexivity).
      intros F. apply places_apart in F. contradiction. }
  unfold before. rewrite D2. destruct (Sh (file_place E path x name)) as [F|F]; [rewrite F; reflexivity|].
  unfold file_place in F. cbn [snd place_of] in F. rewrite app_length in F. cbn [List.length] in F. lia.
Qed.

(** Nothing else is changed: directories may be made, and the settings, the
    background and the result file written. *)
Lemma only_of_run : forall o l, main E args d = Done o ->
  o_disk o l = d l \/ (d l = None /\ o_disk o l = Some Dir)
  \/ l = file_place E path x (str "settings.cfg") \/ l = file_place E path x (str "background.dat")
  \/ exists name, result_file t = Some name /\ l = file_place E path x name.
Proof.
  intros o l M. destruct (run_steps o M) as (s & b & R & d1 & d2 & prefix & St & Eb & _ & Ad & _ & Sh & Pl & Wb & Wr & _).
  destruct (place_eqb l (file_place E path x (str "settings.cfg"))) eqn:F1.
  { apply place_eqb_eq in F1. auto. }
  destruct (place_eqb l (file_place E path x (str "background.dat"))) eqn:F2.
  { apply place_eqb_eq in F2. auto. }
  assert (F3 : (exists name, result_file t = Some name /\ l = file_place E path x name)
            \/ forall name, result_file t = Some name -> l <> file_place E path x name).
  { destruct (result_file t) as [name|]; [|right; discriminate].
    destruct (place_eqb l (file_place E path x name)) eqn:F3.
    - apply place_eqb_eq in F3. left. exists name. auto.
    - right. intros n H. injection H as <-. intros G. apply place_eqb_eq in G. congruence. }
  destruct F3 as [F3|F3]; [auto|].
  assert (Q : o_disk o l = d1 l).
  { rewrite (result_frame _ _ _ _ _ _ _ _ Wr).
    - rewrite (background_frame _ _ _ _ _ _ _ Wb).
      + apply settings_frame. rewrite (Pl (str "settings.cfg")) by (apply (nth_error_In _ 0); reflexivity).
        intros G. apply place_eqb_eq in G. congruence.
      + rewrite (Pl (str "background.dat")) by (apply (nth_error_In _ 1); reflexivity).
        intros G. apply place_eqb_eq in G. congruence.
    - intros name N. pose proof (result_file_own _ _ N) as I.
      rewrite (Pl name) by (apply (in_or_app (firstn 2 own_names)); right; exact I). exact (F3 name N). }
  rewrite Q. destruct (Ad l) as [G|[G1 G2]]; [left; exact G|right; left; auto].
Qed.
End Runs.

(** C37 for the output types 1, 2, 4 and 5, when the names of the files fit in 255
    bytes and the directories exist or can be made. *)
Theorem C37_result_partial : forall E args d file nopt t path x o name,
  command None None args (Some file) nopt ->
  c_int (w_conf (e_world E file)) "output_type" = Some t ->
  c_string (w_conf (e_world E file)) "output_path" = Some path ->
  c_string (w_conf (e_world E file)) "output_prefix" = Some x ->
  str path <> [] -> no_slash (wanted_prefix E x) ->
  (List.length (str path) + List.length (wanted_prefix E x) + 40 < 256)%nat ->
  creatable (e_may E) d (place_of (str path)) ->
  main E args d = Done o -> result_file t = Some name ->
  exists s b tab, started E file nopt s /\ e_background E s = Done b /\ table E s b t tab
    /\ o_disk o (file_place E path x name)
       = Some (Text ((if t =? 5 then [] else before d (file_place E path x name)) ++ tab)).
Proof. intros E args d file nopt t path x o name C T Pa Px Np Sx L Cr M N. exact (result_of_run E args d file nopt t path x C T Pa Px Np Sx L Cr o name M N). Qed.
Print Assumptions C37_result_partial.

Theorem C37_only : forall E args d file nopt t path x o l,
  command None None args (Some file) nopt ->
  c_int (w_conf (e_world E file)) "output_type" = Some t ->
  c_string (w_conf (e_world E file)) "output_path" = Some path ->
  c_string (w_conf (e_world E file)) "output_prefix" = Some x ->
  str path <> [] -> no_slash (wanted_prefix E x) ->
  (List.length (str path) + List.length (wanted_prefix E x) + 40 < 256)%nat ->
  creatable (e_may E) d (place_of (str path)) ->
  main E args d = Done o ->
  o_disk o l = d l \/ (d l = None /\ o_disk o l = Some Dir)
  \/ l = file_place E path x (str "settings.cfg") \/ l = file_place E path x (str "background.dat")
  \/ exists name, result_file t = Some name /\ l = file_place E path x name.
Proof. intros E args d file nopt t path x o l C T Pa Px Np Sx L Cr M. exact (only_of_run E args d file nopt t path x C T Pa Px Np Sx L Cr o l M). Qed.
Print Assumptions C37_only.

(** C37 is false of the averaged multipoles: the module runs and its result is
    written nowhere. *)
Theorem C37_average_refuted : forall E args d file nopt path x o,
  command None None args (Some file) nopt ->
  c_int (w_conf (e_world E file)) "output_type" = Some 3 ->
  c_string (w_conf (e_world E file)) "output_path" = Some path ->
  c_string (w_conf (e_world E file)) "output_prefix" = Some x ->
  str path <> [] -> no_slash (wanted_prefix E x) ->
  (List.length (str path) + List.length (wanted_prefix E x) + 40 < 256)%nat ->
  creatable (e_may E) d (place_of (str path)) ->
  main E args d = Done o ->
  o_ran o = [Background; Integrals; AverageMultipoles]
  /\ forall l t, o_disk o l = Some (Text t) -> o_disk o l <> d l ->
       l = file_place E path x (str "settings.cfg") \/ l = file_place E path x (str "background.dat").
Proof.
  intros E args d file nopt path x o C T Pa Px Np Sx L Cr M. split.
  - destruct (C37_modules E args d file nopt o C M) as (t & T' & R). rewrite T in T'. injection T' as <-. exact R.
  - intros l t D N. destruct (C37_only E args d file nopt 3 path x o l C T Pa Px Np Sx L Cr M) as [H|[[_ H]|[H|[H|(name & H & _)]]]];
      [contradiction|congruence|auto|auto|discriminate].
Qed.
Print Assumptions C37_average_refuted.

(** Running again appends: the file then holds the earlier table and the new one. *)
Theorem C37_rerun_refuted : forall E args d file nopt t path x o o2 name,
  command None None args (Some file) nopt ->
  c_int (w_conf (e_world E file)) "output_type" = Some t -> t <> 5 ->
  c_string (w_conf (e_world E file)) "output_path" = Some path ->
  c_string (w_conf (e_world E file)) "output_prefix" = Some x ->
  str path <> [] -> no_slash (wanted_prefix E x) ->
  (List.length (str path) + List.length (wanted_prefix E x) + 40 < 256)%nat ->
  creatable (e_may E) d (place_of (str path)) -> creatable (e_may E) (o_disk o) (place_of (str path)) ->
  main E args d = Done o -> main E args (o_disk o) = Done o2 -> result_file t = Some name ->
  d (file_place E path x name) = None ->
  exists s s2 b b2 tab tab2, started E file nopt s /\ started E file nopt s2
    /\ table E s b t tab /\ table E s2 b2 t tab2
    /\ o_disk o2 (file_place E path x name) = Some (Text (tab ++ tab2)).
Proof.
  intros E args d file nopt t path x o o2 name C T T5 Pa Px Np Sx L Cr Cr2 M M2 N D.
  destruct (C37_result_partial E args d file nopt t path x o name C T Pa Px Np Sx L Cr M N) as (s & b & tab & S1 & _ & T1 & D1).
  destruct (C37_result_partial E args (o_disk o) file nopt t path x o2 name C T Pa Px Np Sx L Cr2 M2 N) as (s2 & b2 & tab2 & S2 & _ & T2 & D2).
  exists s, s2, b, b2, tab, tab2. repeat (split; [assumption|]). rewrite D2.
  replace (t =? 5) with false in * by (symmetry; apply Z.eqb_neq; exact T5).
  unfold before in *. rewrite D in D1. cbn [app] in D1. rewrite D1. reflexivity.
Qed.
Print Assumptions C37_rerun_refuted.

(** ** The run completes when its modules do and its files can be opened *)
Lemma ends_name : forall p name, name <> [] -> no_slash name -> ends_in_slash (p ++ name) = false.
Proof.
  intros p name N S. unfold ends_in_slash. rewrite rev_app_distr. destruct (rev name) as [|c r] eqn:F.
  { apply (f_equal (@rev _)) in F. rewrite rev_involutive in F. contradiction. }
  cbn [app]. destruct (Ascii.eqb c slash) eqn:G; [|reflexivity]. apply Ascii.eqb_eq in G. subst c.
  destruct S. apply in_rev. rewrite F. left. reflexivity.
Qed.
Lemma opens_file : forall E d path x p' name, In name own_names ->
  place_of p' = place_of (str path) -> ends_in_slash p' = true -> no_slash (wanted_prefix E x) ->
  (List.length p' + List.length (wanted_prefix E x) + 34 < 256)%nat ->
  at_place d (place_of (str path)) = Some Dir -> d (file_place E path x name) <> Some Dir ->
  e_may E (file_place E path x name) = true ->
  opens (e_may E) d (printed (printed (p' ++ wanted_prefix E x) ++ name)) = true.
Proof.
  intros E d path x p' name I P En S L D1 D2 M. destruct (run_places E path x p' name I P En S L) as [Q1 Q2].
  destruct (own_names_facts _ I) as (S1 & N1 & _).
  unfold opens. rewrite Q1. rewrite Q2 at 1 2.
  assert (Sn : no_slash (wanted_prefix E x ++ name)).
  { intros F. apply in_app_or in F. destruct F as [F|F]; [exact (S F)|exact (S1 F)]. }
  assert (Nn : wanted_prefix E x ++ name <> []) by (intros F; apply app_eq_nil in F; destruct F as [_ F]; exact (N1 F)).
  rewrite (ends_name p' _ Nn Sn), M.
  assert (Pp : parent (file_place E path x name) = place_of (str path)).
  { unfold parent, file_place, place_of. cbn [fst snd]. f_equal. apply removelast_last. }
  rewrite Pp. unfold is_dir at 1. rewrite D1.
  assert (Nd : is_dir d (file_place E path x name) = false).
  { unfold is_dir, at_place, file_place. cbn [snd]. unfold file_place in D2.
    destruct (pieces [] (str path) ++ [wanted_prefix E x ++ name]) as [|q r] eqn:F; [destruct (pieces [] (str path)); discriminate|].
    destruct (d (absolute (str path), q :: r)) as [[|]|]; try reflexivity. congruence. }
  rewrite Nd. destruct (p' ++ wanted_prefix E x ++ name) eqn:F; [apply app_eq_nil in F; destruct F; contradiction|reflexivity].
Qed.
Lemma names_done : forall s l, (forall c, In c l -> exists z, s c = VI z) -> exists q, contribution_names s l = Done q.
Proof.
  induction l as [|c l IH]; intros H; [exists []; reflexivity|]. cbn [contribution_names]. unfold flag, getI.
  destruct (H c (or_introl eq_refl)) as (z & ->). cbn [bind]. destruct IH as (q & ->); [intros; apply H; right; assumption|].
  cbn [bind]. eexists. reflexivity.
Qed.

Theorem C37_completes : forall E args d file nopt n t path x s0 names bins,
  command None None args (Some file) nopt -> (List.length file < 256)%nat ->
  match nopt with Some k => atoi k = Done n | None => n = e_cores E end -> n > 0 ->
  parser_init (e_world E file) = Done s0 ->
  c_int (w_conf (e_world E file)) "output_type" = Some t ->
  c_string (w_conf (e_world E file)) "output_path" = Some path ->
  c_string (w_conf (e_world E file)) "output_prefix" = Some x ->
  str path <> [] -> no_slash (wanted_prefix E x) ->
  (List.length (str path) + List.length (wanted_prefix E x) + 40 < 256)%nat ->
  creatable (e_may E) d (place_of (str path)) ->
  (forall name, In name own_names -> e_may E (file_place E path x name) = true /\ d (file_place E path x name) <> Some Dir) ->
  s0 "type_bg"%string = VSs names -> s0 "background_bins"%string = VI bins ->
  (* the modules return, and the table of the background can be written *)
  (forall s, started E file nopt s -> exists b, e_background E s = Done b
     /\ output_background (e_show E) (e_columns E b) ["009"%char] (Z.to_nat bins) (map str names) <> Bad
     /\ (t = 1 \/ t = 2 \/ t = 3 -> exists i, e_integrals E s b = Done i
          /\ (t = 1 -> exists r, e_corrfunc E s b i = Done r) /\ (t = 2 -> exists r, e_multipoles E s b i = Done r)
          /\ (t = 3 -> exists r, e_average E s b i = Done r))
     /\ (t = 4 \/ t = 5 -> exists r, e_covariance E s b = Done r)) ->
  exists o, main E args d = Done o.
Proof.
  intros E args d file nopt n t path x s0 names bins C Lf An Pn P T Pa Px Np Sx L Cr Fl Tn Tb Mo.
  unfold main. rewrite (command_choose _ _ _ _ _ C).
  replace (Nat.leb BUF (List.length file)) with false by (symmetry; apply Nat.leb_gt; exact Lf).
  assert (Th : threads E nopt = Done n). { unfold threads. destruct nopt; [exact An|subst n; reflexivity]. }
  rewrite Th. cbn [bind]. replace (n <=? 0) with false by lia. rewrite P. cbn [bind].
  set (s := put s0 "nthreads" (VI n)).
  assert (F : forall f, f <> "nthreads"%string -> s f = s0 f).
  { intros f H. unfold s, put. destruct (String.eqb "nthreads" f) eqn:G; [|reflexivity]. apply String.eqb_eq in G. congruence. }
  assert (St : started E file nopt s) by (exists n, s0; auto).
  destruct (C38_scalars _ _ P) as (I & _ & J).
  destruct (I "output_type" "output_type")%string as (z & Z1 & Z2); [apply (nth_error_In _ 1); reflexivity|].
  rewrite T in Z1. injection Z1 as <-.
  destruct (J "output_path" "output_path")%string as (p & P1 & P2); [apply (nth_error_In _ 0); reflexivity|].
  destruct (J "output_prefix" "output_prefix")%string as (y & X1 & X2); [apply (nth_error_In _ 1); reflexivity|].
  rewrite Pa in P1. rewrite Px in X1. injection P1 as <-. injection X1 as <-.
  assert (Gt : getI s "output_type" = Done t) by (unfold getI; rewrite F, Z2 by discriminate; reflexivity).
  rewrite Gt. cbn [bind]. destruct (Mo s St) as (b & Eb & Ob & Mi & Mc). rewrite Eb. cbn [bind].
  assert (Out : forall R, exists d', output_init E (w_conf (e_world E file)) s b R d = Done d').
  { intros R. unfold output_init, getS. rewrite F, P2 by discriminate. cbn [bind].
    destruct (make_path_ok (e_may E) d (str path) Np) as (p' & d1 & Mk & Q1 & Q2 & Q3 & Q4 & Q5 & Q6); [unfold BUF; lia|exact Cr|].
    rewrite Mk. cbn [bind fst snd]. rewrite (prefix_is E s x p') by (rewrite F, X2 by discriminate; reflexivity). cbn [bind].
    rewrite Gt. cbn [bind]. set (prefix := printed (p' ++ wanted_prefix E x)).
    assert (L' : (List.length p' + List.length (wanted_prefix E x) + 34 < 256)%nat) by lia.
    assert (Pl : forall name, In name own_names -> place_of (printed (prefix ++ name)) = file_place E path x name).
    { intros name N. exact (proj1 (run_places E path x p' name N Q1 Q2 Sx L')). }
    assert (D1 : forall name, d1 (file_place E path x name) = d (file_place E path x name)).
    { intros name. destruct (Q6 (file_place E path x name)) as [G|G]; [exact G|].
      unfold file_place in G. cbn [snd place_of] in G. rewrite app_length in G. cbn [List.length] in G. lia. }
    unfold write_background, getSs, getI. rewrite !F by discriminate. rewrite Tn, Tb. cbn [bind].
    assert (B : exists d2, match output_background (e_show E) (e_columns E b) ["009"%char] (Z.to_nat bins) (map str names) with
        | NoFile => Done (write_settings E (w_conf (e_world E file)) prefix d1)
        | File u => Done (if opens (e_may E) (write_settings E (w_conf (e_world E file)) prefix d1) (printed (prefix ++ str "background.dat"))
                          then overwrite (write_settings E (w_conf (e_world E file)) prefix d1) (printed (prefix ++ str "background.dat")) u
                          else write_settings E (w_conf (e_world E file)) prefix d1)
        | Bad => Undefined end = Done d2
        /\ forall l, l <> file_place E path x (str "settings.cfg") -> l <> file_place E path x (str "background.dat") -> d2 l = d1 l).
    { assert (S1 : forall l, l <> file_place E path x (str "settings.cfg") -> write_settings E (w_conf (e_world E file)) prefix d1 l = d1 l).
      { intros l N. apply settings_frame. rewrite (Pl (str "settings.cfg")) by (apply (nth_error_In _ 0); reflexivity). exact N. }
      destruct (output_background _ _ _ _ _) as [|u|]; [| |congruence]; eexists; (split; [reflexivity|]); intros l N1 N2.
      - exact (S1 l N1).
      - destruct (opens _ _ _); [|exact (S1 l N1)]. unfold overwrite.
        rewrite write_other; [exact (S1 l N1)|]. rewrite (Pl (str "background.dat")) by (apply (nth_error_In _ 1); reflexivity). congruence. }
    destruct B as (d2 & B1 & B2). rewrite B1. cbn [bind].
    assert (Op : forall name, In name (skipn 2 own_names) -> opens (e_may E) d2 (printed (prefix ++ name)) = true).
    { intros name N. assert (N' : In name own_names) by (apply (in_or_app (firstn 2 own_names)); right; exact N).
      destruct (Fl name N') as [Fa Fb].
      assert (A : name <> str "settings.cfg" /\ name <> str "background.dat").
      { unfold own_names, skipn in N. repeat (destruct N as [<-|N]; [split; discriminate|]). destruct N. }
      apply opens_file with (path := path); auto.
      - rewrite <- Q3. unfold at_place. destruct (snd (place_of (str path))); [reflexivity|].
        apply B2; intros G; symmetry in G; exact (file_not_dir _ _ _ _ G).
      - rewrite B2, D1; [exact Fb| |]; intros G; apply places_apart in G; tauto. }
    destruct (names_done s header_order) as (q & Hq).
    { destruct (C38_contributions _ _ P) as [Cc _]. intros c Hc.
      assert (Hc2 : In c ["den"; "rsd"; "len"; "d1"; "d2"; "g1"; "g2"; "g3"; "g4"; "g5"]%string /\ c <> "nthreads"%string).
      { unfold header_order in Hc. repeat (destruct Hc as [<-|Hc]; [split; [cbn; auto 12|discriminate]|]). destruct Hc. }
      destruct Hc2 as [H1 H2]. rewrite (F c H2). destruct (Cc c H1) as [Ca Cb].
      destruct (in_dec string_dec c (asked_contributions (w_conf (e_world E file)))) as [H|H];
        [rewrite (Ca H)|rewrite (Cb H)]; eexists; reflexivity. }
    unfold write_result, result_header. rewrite Hq. cbn [bind]. unfold append_result.
    rewrite (Op (str "corrfunc.dat")) by (apply (nth_error_In _ 0); reflexivity).
    rewrite (Op (str "multipoles.dat")) by (apply (nth_error_In _ 1); reflexivity).
    rewrite (Op (str "covariance_multipoles.dat")) by (apply (nth_error_In _ 2); reflexivity).
    rewrite (Op (str "covariance_average_multipoles.dat")) by (apply (nth_error_In _ 3); reflexivity).
    destruct (t =? 1), (t =? 2), (t =? 4), (t =? 5); eexists; reflexivity. }
  destruct (Z.eqb_spec t 1) as [->|T1].
  { destruct Mi as (i & Hi & H1 & _); [auto|]. destruct (H1 eq_refl) as (r & Hr).
    cbn [orb Z.eqb Pos.eqb]. rewrite Hi. cbn [bind fst snd]. rewrite Hr. cbn [bind fst snd].
    match goal with |- context [output_init E _ s b ?R d] => destruct (Out R) as (d' & ->) end. eexists. reflexivity. }
  destruct (Z.eqb_spec t 2) as [->|T2].
  { destruct Mi as (i & Hi & _ & H1 & _); [auto|]. destruct (H1 eq_refl) as (r & Hr).
    cbn [orb Z.eqb Pos.eqb]. rewrite Hi. cbn [bind fst snd]. rewrite Hr. cbn [bind fst snd].
    match goal with |- context [output_init E _ s b ?R d] => destruct (Out R) as (d' & ->) end. eexists. reflexivity. }
  destruct (Z.eqb_spec t 3) as [->|T3].
  { destruct Mi as (i & Hi & _ & _ & H1); [auto|]. destruct (H1 eq_refl) as (r & Hr).
    cbn [orb Z.eqb Pos.eqb]. rewrite Hi. cbn [bind fst snd]. rewrite Hr. cbn [bind fst snd].
    match goal with |- context [output_init E _ s b ?R d] => destruct (Out R) as (d' & ->) end. eexists. reflexivity. }
  cbn [orb bind].
  destruct (Z.eqb_spec t 4) as [->|T4].
  { destruct Mc as (r & Hr); [auto|]. cbn [orb]. rewrite Hr. cbn [bind fst snd].
    match goal with |- context [output_init E _ s b ?R d] => destruct (Out R) as (d' & ->) end. eexists. reflexivity. }
  destruct (Z.eqb_spec t 5) as [->|T5].
  { destruct Mc as (r & Hr); [auto|]. cbn [orb]. rewrite Hr. cbn [bind fst snd].
    match goal with |- context [output_init E _ s b ?R d] => destruct (Out R) as (d' & ->) end. eexists. reflexivity. }
  cbn [orb bind fst snd].
  match goal with |- context [output_init E _ s b ?R d] => destruct (Out R) as (d' & ->) end. eexists. reflexivity.
Qed.
Print Assumptions C37_completes.

(** ** Concrete runs *)
Definition small_env (t : Z) : environment :=
  mkEnv unit unit (fun _ => with_settings [("separations_sampling", GInt 4); ("output_type", GInt t)]%string) 2 (str "2020-01-01")
    (fun _ => str "settings") (fun _ _ => Fin false D1 [D5] false (E2 D0 D2)) (fun _ => true)
    (fun _ => Done tt) (fun _ _ => repeat (of_Z 1) 1000) (fun _ _ => Done tt)
    (fun _ _ _ => Done [mkCf (of_Z 1) (of_Z 1) (of_Z 1) (of_Z 1)])
    (fun _ _ _ => Done [mkMp (of_Z 1) 2 (of_Z 1) (of_Z 1)])
    (fun _ _ _ => Done [mkRamp (of_Z 1) (of_Z 2) 2 (of_Z 1) (of_Z 1)])
    (fun _ _ => Done ([], [])).
Definition small_args : list bytes := [str "-n"; str "4"; str "input"; str "-sx.cfg"].
Example C37_command : command None None small_args (Some (str "x.cfg")) (Some (str "4")).
Proof.
  unfold small_args. apply cmd_threads. apply cmd_word; [apply word_other; discriminate|].
  apply (cmd_settings_joined _ _ (str "x.cfg")); [discriminate|]. apply cmd_nil.
Qed.
Example C37_multipoles_nonvacuous : exists o, main (small_env 2) small_args (fun _ => None) = Done o
  /\ o_ran o = [Background; Integrals; Multipoles]
  /\ o_disk o (false, [str "results"; str "run_multipoles.dat"])
     = Some (Text (str "# correlation contributions: den rsd g4 " ++ [newline] ++ str "# z_mean, l, sep, value" ++ [newline]
              ++ str "1.5e+02 2 1.5e+02 1.5e+02" ++ [newline])).
Proof.
  destruct (main (small_env 2) small_args (fun _ => None)) as [o| |] eqn:M.
  - exists o. split; [reflexivity|]. 
    assert (A : match main (small_env 2) small_args (fun _ => None) with
                | Done o => Some (o_ran o, o_disk o (false, [str "results"; str "run_multipoles.dat"])) | _ => None end
              = Some ([Background; Integrals; Multipoles],
                 Some (Text (str "# correlation contributions: den rsd g4 " ++ [newline] ++ str "# z_mean, l, sep, value" ++ [newline]
              ++ str "1.5e+02 2 1.5e+02 1.5e+02" ++ [newline])))) by (vm_compute; reflexivity).
    rewrite M in A. apply some_inj in A. apply pair_equal_spec in A. exact A.
  - exfalso. assert (A : match main (small_env 2) small_args (fun _ => None) with Exited => false | _ => true end = true) by (vm_compute; reflexivity).
    rewrite M in A. discriminate.
  - exfalso. assert (A : match main (small_env 2) small_args (fun _ => None) with Undefined => false | _ => true end = true) by (vm_compute; reflexivity).
    rewrite M in A. discriminate.
Qed.
Example C37_average_nonvacuous : exists o, main (small_env 3) small_args (fun _ => None) = Done o.
Proof.
  destruct (main (small_env 3) small_args (fun _ => None)) as [o| |] eqn:M; [exists o; reflexivity| |]; exfalso;
    assert (A : match main (small_env 3) small_args (fun _ => None) with Done _ => true | _ => false end = true) by (vm_compute; reflexivity);
    rewrite M in A; discriminate.
Qed.
Example C37_creatable : creatable (fun _ => true) (fun _ => None) (place_of (str "results/")) /\ no_slash (wanted_prefix (small_env 2) "run_").
Proof.
  split.
  - intros k K. right. split; [|reflexivity]. destruct k as [|[|k]]; [lia|reflexivity|]. cbn in K. lia.
  - intros I. cbn in I. repeat (destruct I as [I|I]; [discriminate|]). destruct I.
Qed.
