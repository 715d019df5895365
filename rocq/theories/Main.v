(** * The command line program: main (src/main.c:44-194) and coffe_output_init
    (src/output.c:42-203, 323-407)

    Text is a list of bytes without NUL.  The file system is a map from places
    (absolute or relative to the working directory, and the components between
    the slashes) to directories and files.  Simplifications: no links, "." and
    ".." are ordinary names, printing to the terminal is left out, writes to an
    open file succeed.  The integral tables written by a HAVE_INTEGRALS build and
    POSIXLY_CORRECT (which stops getopt at the first other argument) are not
    modelled.  The freeing at the end is in the memory model. *)
From Coq Require Import ZArith Bool List String Ascii Arith DecimalString.
From Verif Require Import F64 Numeric FileIO Output Parser.
Import ListNotations.
Open Scope list_scope.
Open Scope Z_scope.

(** ** The command line: getopt(argc, argv, "hvCs:n:"), main.c:60-91.  GNU getopt
    takes options anywhere before "--", several letters in one argument, and the
    value of [s] and [n] from the rest of the argument or from the next one.  An
    unknown letter and a missing value are reported and skipped (no [case]). *)
Inductive option_seen := Help | Version | Copyright | Settings (file : bytes) | Threads (n : bytes).
Inductive wanted := Nothing | WantSettings | WantThreads.
Fixpoint letters (cs : bytes) : list option_seen * wanted :=
  match cs with
  | [] => ([], Nothing)
  | c :: r =>
      if Ascii.eqb c "h" then let (l, w) := letters r in (Help :: l, w)
      else if Ascii.eqb c "v" then let (l, w) := letters r in (Version :: l, w)
      else if Ascii.eqb c "C" then let (l, w) := letters r in (Copyright :: l, w)
      else if Ascii.eqb c "s" then match r with [] => ([], WantSettings) | _ => ([Settings r], Nothing) end
      else if Ascii.eqb c "n" then match r with [] => ([], WantThreads) | _ => ([Threads r], Nothing) end
      else letters r
  end.
Fixpoint getopt (w : wanted) (args : list bytes) : list option_seen :=
  match args with
  | [] => []
  | a :: r =>
      match w with
      | WantSettings => Settings a :: getopt Nothing r
      | WantThreads => Threads a :: getopt Nothing r
      | Nothing =>
          match a with
          | c :: x :: cs =>
              if Ascii.eqb c "-"
              then if Ascii.eqb x "-" && match cs with [] => true | _ => false end then []
                   else let (l, w') := letters (x :: cs) in l ++ getopt w' r
              else getopt Nothing r
          | _ => getopt Nothing r
          end
      end
  end.

(** The switch: the first of -h, -v, -C ends the program; otherwise the last -s and
    the last -n count.  main.c:59-91. *)
Fixpoint choose (l : list option_seen) (s n : option bytes) : option (option bytes * option bytes) :=
  match l with
  | [] => Some (s, n)
  | Settings f :: r => choose r (Some f) n
  | Threads t :: r => choose r s (Some t)
  | _ :: _ => None
  end.

(** [atoi]; a number an [int] cannot hold is undefined.  Called at main.c:106. *)
Definition digit_value (d : digit) : Z :=
  match d with D0 => 0 | D1 => 1 | D2 => 2 | D3 => 3 | D4 => 4 | D5 => 5 | D6 => 6 | D7 => 7 | D8 => 8 | D9 => 9 end.
Definition number (l : list digit) : Z := fold_left (fun z d => 10 * z + digit_value d) l 0.
Definition atoi (s : bytes) : res Z :=
  let (neg, q) := take_sign (skip_space s) in
  let (ds, _) := take_digits q in
  let z := if neg then - number ds else number ds in
  if (-2147483648 <=? z) && (z <=? 2147483647) then Done z else Undefined.

(** ** The file system *)
(** The operating system below output.c:50-68. *)
Definition place := (bool * list bytes)%type.
Inductive node := Dir | Text (b : bytes).
Definition disk := place -> option node.
Definition slash : ascii := "/".
Fixpoint pieces (cur : bytes) (s : bytes) : list bytes :=
  match s with
  | [] => match cur with [] => [] | _ => [rev cur] end
  | c :: r => if Ascii.eqb c slash
              then match cur with [] => pieces [] r | _ => rev cur :: pieces [] r end
              else pieces (c :: cur) r
  end.
Definition absolute (p : bytes) : bool := match p with c :: _ => Ascii.eqb c slash | [] => false end.
Definition ends_in_slash (p : bytes) : bool := match rev p with c :: _ => Ascii.eqb c slash | [] => false end.
Definition place_of (p : bytes) : place := (absolute p, pieces [] p).
Definition parent (l : place) : place := (fst l, removelast (snd l)).
(** The root and the working directory exist.  The operating system below output.c:50-68. *)
Definition at_place (d : disk) (l : place) : option node :=
  match snd l with [] => Some Dir | _ => d l end.
Fixpoint place_eqb_list (a b : list bytes) : bool :=
  match a, b with
  | [], [] => true
  | x :: a, y :: b => beqb x y && place_eqb_list a b
  | _, _ => false end.
Definition place_eqb (a b : place) : bool := Bool.eqb (fst a) (fst b) && place_eqb_list (snd a) (snd b).
Definition write (d : disk) (l : place) (n : node) : disk := fun k => if place_eqb l k then Some n else d k.
(** [stat] succeeds.  Called at output.c:50 and 67. *)
Definition exists_at (d : disk) (p : bytes) : bool :=
  match p with
  | [] => false
  | _ => match at_place d (place_of p) with
         | Some Dir => true
         | Some (Text _) => negb (ends_in_slash p)
         | None => false end
  end.

Section Disk.
(** Where the user may create or change something. *)
Variable may : place -> bool.
(** Called at output.c:68. *)
Definition is_dir (d : disk) (l : place) : bool := match at_place d l with Some Dir => true | _ => false end.
Definition mkdir (d : disk) (p : bytes) : option disk :=
  match p with
  | [] => None
  | _ => let l := place_of p in
         match at_place d l with
         | None => if is_dir d (parent l) && may l then Some (write d l Dir) else None
         | Some _ => None end
  end.
(** [fopen] for writing or appending succeeds.  fopen, called at output.c:119, 152, 178 and 387. *)
Definition opens (d : disk) (p : bytes) : bool :=
  let l := place_of p in
  match p with [] => false | _ => true end
  && negb (ends_in_slash p) && is_dir d (parent l) && negb (is_dir d l) && may l.
Definition content (d : disk) (p : bytes) : bytes :=
  match d (place_of p) with Some (Text b) => b | _ => [] end.
(** Modes "w" and "a".  fopen, called at output.c:119, 152, 178 and 387. *)
Definition overwrite (d : disk) (p t : bytes) : disk := write d (place_of p) (Text t).
Definition append (d : disk) (p t : bytes) : disk := write d (place_of p) (Text (content d p ++ t)).

(** ** output_make_path, output.c:42-80.  [path] and [temp_output] have 256 bytes;
    the third argument of strncat bounds what is appended, not the total. *)
Fixpoint make_dirs (d : disk) (out : bytes) (parts : list bytes) : res (option bytes * disk) :=
  match parts with
  | [] => Done (Some out, d)
  | q :: r =>
      let out := out ++ q in
      if Nat.leb BUF (List.length out) then Undefined else
      let next d := if Nat.leb BUF (List.length out + 1) then Undefined else make_dirs d (out ++ [slash]) r in
      if exists_at d out then next d
      else match mkdir d out with
           | Some d' => next d'
           | None => Done (None, d) end
  end.
Definition make_path (d : disk) (path : bytes) : res (bytes * disk) :=
  if exists_at d path
  then if ends_in_slash path then Done (path, d)
       else if Nat.leb BUF (List.length path + 1) then Undefined else Done (path ++ [slash], d)
  else do r <- make_dirs d (if absolute path then [slash] else []) (pieces [] path);;
       match r with
       | (Some [], _) => Undefined                    (* path[-1] is read *)
       | (Some out, d') =>
           if ends_in_slash out then Done (out, d')
           else if Nat.leb BUF (List.length out + 1) then Undefined else Done (out ++ [slash], d')
       | (None, d') => Done (path, d') end.
End Disk.

(** [snprintf] into 256 bytes. *)
Definition printed (t : bytes) : bytes := firstn (BUF - 1) t.

(** ** The modules the program calls, and what they return *)
(** corrfunc.h, multipoles.h, average_multipoles.h, covariance.h:24-46; read at output.c:104-203. *)
Record corrfunc_row := mkCf { cf_z : f64; cf_sep : f64; cf_mu : f64; cf_value : f64 }.
Record multipole_row := mkMp { mp_z : f64; mp_l : Z; mp_sep : f64; mp_value : f64 }.
Record average_row := mkRamp { ramp_zmin : f64; ramp_zmax : f64; ramp_l : Z; ramp_sep : f64; ramp_value : f64 }.
Record covariance_row := mkCov { cov_z : f64; cov_l1 : Z; cov_l2 : Z; cov_sep1 : f64; cov_sep2 : f64; cov_value : f64 }.
Record average_covariance_row := mkAcov
  { ac_zmin : f64; ac_zmax : f64; ac_l1 : Z; ac_l2 : Z; ac_sep1 : f64; ac_sep2 : f64; ac_value : f64 }.

(** The calls of main.c:44-194. *)
Inductive called := Background | Integrals | Corrfunc | Multipoles | AverageMultipoles | Covariance.

Record environment := mkEnv {
  e_BG : Type; e_IT : Type;
  e_world : bytes -> world;               (* what the parser finds at a settings file *)
  e_cores : Z;                            (* omp_get_max_threads() *)
  e_time : bytes;                         (* the time stamp *)
  e_conf_text : conf -> bytes;            (* config_write_file *)
  e_show : nat -> f64 -> shown;           (* "%.<p>e" *)
  e_may : place -> bool;
  e_background : store -> res e_BG;
  e_columns : e_BG -> quantity -> list f64;
  e_integrals : store -> e_BG -> res e_IT;
  e_corrfunc : store -> e_BG -> e_IT -> res (list corrfunc_row);
  e_multipoles : store -> e_BG -> e_IT -> res (list multipole_row);
  e_average : store -> e_BG -> e_IT -> res (list average_row);
  e_covariance : store -> e_BG -> res (list covariance_row * list average_covariance_row)
}.

Section Run.
Variable E : environment.

(** ** The writers, output.c:82-203 and 377-406 *)
Definition sci (x : f64) : bytes := text (e_show E 10 x).
Definition int_text (z : Z) : bytes := str (NilEmpty.string_of_int (Z.to_int z)).
Definition blank : bytes := [" "%char].
Fixpoint joined (l : list bytes) : bytes :=
  match l with [] => [] | [x] => x | x :: r => x ++ blank ++ joined r end.
Definition line (l : list bytes) : bytes := joined l ++ [newline].
Definition corrfunc_line (r : corrfunc_row) : bytes :=
  line [sci (cf_z r); sci (cf_sep r); sci (cf_mu r); sci (cf_value r)].
Definition multipole_line (r : multipole_row) : bytes :=
  line [sci (mp_z r); int_text (mp_l r); sci (mp_sep r); sci (mp_value r)].
Definition covariance_line (r : covariance_row) : bytes :=
  line [sci (cov_z r); int_text (cov_l1 r); int_text (cov_l2 r); sci (cov_sep1 r); sci (cov_sep2 r); sci (cov_value r)].
Definition average_covariance_line (r : average_covariance_row) : bytes :=
  line [sci (ac_sep1 r); sci (ac_sep2 r); int_text (ac_l1 r); int_text (ac_l2 r); sci (ac_zmin r); sci (ac_zmax r);
        sci (ac_value r)].

(** output_correlation_contributions_header, output.c:82-103 *)
Definition header_order : list string :=
  ["den"; "rsd"; "d1"; "d2"; "g1"; "g2"; "g3"; "g4"; "g5"; "len"]%string.
Fixpoint contribution_names (s : store) (l : list string) : res bytes :=
  match l with
  | [] => Done []
  | c :: r => do b <- flag c s;; do q <- contribution_names s r;; Done ((if b then str c ++ blank else []) ++ q)
  end.
Definition result_header (s : store) (columns : string) : res bytes :=
  do q <- contribution_names s header_order;;
  Done (str "# correlation contributions: " ++ q ++ [newline] ++ str columns ++ [newline]).

(** Opening a result file is not checked: [fprintf] gets a null pointer.  output.c:119-123, 152-156, 178-189. *)
Definition append_result (d : disk) (p t : bytes) : res disk :=
  if opens (e_may E) d p then Done (append d p t) else Undefined.

(** ** coffe_output_init, output.c:323-407 *)
Record results := mkResults {
  r_cf : list corrfunc_row; r_mp : list multipole_row;
  r_cov : list covariance_row; r_acov : list average_covariance_row }.
Definition write_result (s : store) (t : Z) (prefix : bytes) (R : results) (d : disk) : res disk :=
  if t =? 1 then
    do h <- result_header s "# z_mean, sep, mu, value";;
    append_result d (printed (prefix ++ str "corrfunc.dat")) (h ++ List.concat (map corrfunc_line (r_cf R)))
  else if t =? 2 then
    do h <- result_header s "# z_mean, l, sep, value";;
    append_result d (printed (prefix ++ str "multipoles.dat")) (h ++ List.concat (map multipole_line (r_mp R)))
  else if t =? 4 then
    do h <- result_header s "# z_mean, l1, l2, sep1, sep2, value";;
    append_result d (printed (prefix ++ str "covariance_multipoles.dat")) (h ++ List.concat (map covariance_line (r_cov R)))
  else if t =? 5 then
    let p := printed (prefix ++ str "covariance_average_multipoles.dat") in
    if opens (e_may E) d p
    then Done (overwrite d p (str "# sep[Mpc/h]" ++ ["009"%char] ++ str "sep[Mpc/h]" ++ ["009"%char] ++ str "result"
                              ++ [newline] ++ List.concat (map average_covariance_line (r_acov R))))
    else Undefined
  else Done d.
Definition write_settings (K : conf) (prefix : bytes) (d : disk) : disk :=
  let p := printed (prefix ++ str "settings.cfg") in
  if opens (e_may E) d p then overwrite d p (e_conf_text E K) else d.
(** write_ncol_null reports that it cannot open the file and returns.  output.c:210-321. *)
Definition write_background (s : store) (b : e_BG E) (prefix : bytes) (d : disk) : res disk :=
  do names <- getSs s "type_bg";; do bins <- getI s "background_bins";;
  let p := printed (prefix ++ str "background.dat") in
  match output_background (e_show E) (e_columns E b) ["009"%char] (Z.to_nat bins) (map str names) with
  | NoFile => Done d
  | File t => Done (if opens (e_may E) d p then overwrite d p t else d)
  | Bad => Undefined
  end.
(** output.c:323-407. *)
Definition file_prefix (s : store) (path : bytes) : res bytes :=
  do x <- getS s "output_prefix";;
  Done (printed (path ++ (if String.eqb x "$TIME" then e_time E ++ ["_"%char] else str x))).
Definition output_init (K : conf) (s : store) (b : e_BG E) (R : results) (d : disk) : res disk :=
  do path <- getS s "output_path";;
  do r <- make_path (e_may E) d (str path);;
  do prefix <- file_prefix s (fst r);;
  do t <- getI s "output_type";;
  do d2 <- write_background s b prefix (write_settings K prefix (snd r));;
  write_result s t prefix R d2.

(** ** main, main.c:44-194 *)
Record outcome := mkOut { o_disk : disk; o_ran : list called }.
Definition threads (n : option bytes) : res Z :=
  match n with Some t => atoi t | None => Done (e_cores E) end.
Definition main (args : list bytes) (d : disk) : res outcome :=
  match choose (getopt Nothing args) None None with
  | None => Done (mkOut d [])                                (* help, version, copyright *)
  | Some (None, _) => Done (mkOut d [])                      (* the usage message *)
  | Some (Some file, nopt) =>
      (* strncpy leaves no NUL after 256 bytes *)
      if Nat.leb BUF (List.length file) then Undefined else
      do n <- threads nopt;;
      if n <=? 0 then Exited else
      do s0 <- parser_init (e_world E file);;
      let s := put s0 "nthreads" (VI n) in
      do t <- getI s "output_type";;
      do b <- e_background E s;;
      do it <- (if (t =? 1) || (t =? 2) || (t =? 3)
                then do i <- e_integrals E s b;; Done (Some i, [Integrals]) else Done (None, []));;
      do cf <- (if t =? 1 then match fst it with
                               | Some i => do r <- e_corrfunc E s b i;; Done (r, [Corrfunc])
                               | None => Undefined end else Done ([], []));;
      do mp <- (if t =? 2 then match fst it with
                               | Some i => do r <- e_multipoles E s b i;; Done (r, [Multipoles])
                               | None => Undefined end else Done ([], []));;
      do ra <- (if t =? 3 then match fst it with
                               | Some i => do r <- e_average E s b i;; Done (r, [AverageMultipoles])
                               | None => Undefined end else Done ([], []));;
      do cv <- (if (t =? 4) || (t =? 5) then do r <- e_covariance E s b;; Done (r, [Covariance])
                else Done (([], []), []));;
      do d' <- output_init (w_conf (e_world E file)) s b
                 (mkResults (fst cf) (fst mp) (fst (fst cv)) (snd (fst cv))) d;;
      Done (mkOut d' ([Background] ++ snd it ++ snd cf ++ snd mp ++ snd ra ++ snd cv))
  end.
End Run.
