(** * Properties of the settings parser: C38, C39 *)
From Coq Require Import ZArith Bool List String Ascii Arith Lia.
From Verif Require Import F64 Arrays Numeric Parser ParserLemmas.
Import ListNotations.
Open Scope string_scope.
Open Scope list_scope.
Open Scope Z_scope.

(** Where a member is last assigned at the top level of the parser. *)
Fixpoint last_touch (f : string) (i : nat) (l : list step) : option nat :=
  match l with
  | [] => None
  | t :: r => match last_touch f (S i) r with
              | Some n => Some n
              | None => if existsb (String.eqb f) (touches t) then Some i else None end
  end.
Ltac last_of f W := let r := eval vm_compute in (last_touch f 0 (program W)) in
  match r with Some ?n => n end.

Section Parsed.
Variables (W : world) (s : store).
Hypothesis R : run (program W) (initial W) = Done s.
Let K := w_conf W.

Lemma mandatory_int : forall n key f, nth_error (program W) n = Some (parse_int W key f true) ->
  touched (skipn (S n) (program W)) f = false -> exists z, c_int K key = Some z /\ s f = VI z.
Proof.
  intros n key f N T. destruct (final_set _ _ _ _ _ _ R N T) as (s1 & _ & E & _). cbn beta in E. fold K in E.
  destruct (c_int K key) as [z|]; [|discriminate]. apply done_inj in E. exists z. split; [reflexivity|symmetry; exact E].
Qed.
Lemma mandatory_double : forall n key f, nth_error (program W) n = Some (parse_double W key f true) ->
  touched (skipn (S n) (program W)) f = false -> exists z, c_float K key = Some z /\ s f = VF z.
Proof.
  intros n key f N T. destruct (final_set _ _ _ _ _ _ R N T) as (s1 & _ & E & _). cbn beta in E. fold K in E.
  destruct (c_float K key) as [z|]; [|discriminate]. apply done_inj in E. exists z. split; [reflexivity|symmetry; exact E].
Qed.
Lemma mandatory_string : forall n key f, nth_error (program W) n = Some (parse_string W key f) ->
  touched (skipn (S n) (program W)) f = false -> exists z, c_string K key = Some z /\ s f = VS z.
Proof.
  intros n key f N T. destruct (final_set _ _ _ _ _ _ R N T) as (s1 & _ & E & _). cbn beta in E. fold K in E.
  destruct (c_string K key) as [z|]; [|discriminate]. destruct (Nat.ltb _ _); [|discriminate].
  apply done_inj in E. exists z. split; [reflexivity|symmetry; exact E].
Qed.
Lemma optional_int : forall n key f, nth_error (program W) n = Some (parse_int W key f false) ->
  touched (skipn (S n) (program W)) f = false -> touched (firstn n (program W)) f = false ->
  s f = match c_int K key with Some z => VI z | None => initial W f end.
Proof.
  intros n key f N T T0. destruct (final_set _ _ _ _ _ _ R N T) as (s1 & R1 & E & _). cbn beta in E. fold K in E.
  destruct (c_int K key) as [z|]; apply done_inj in E; [symmetry; exact E|].
  rewrite <- E. exact (frame _ _ _ _ R1 T0).
Qed.
End Parsed.

(** ** What the settings file asks for: the names the documentation gives and the
    members they are stored in. *)
Definition int_settings : list (string * string) :=
  [("verbose", "verbose"); ("output_type", "output_type"); ("background_sampling", "background_bins");
   ("bessel_sampling", "bessel_bins"); ("integration_sampling", "integration_bins");
   ("covariance_integration_method", "covariance_integration_method");
   ("flatsky_local", "flatsky_local"); ("flatsky_local_nonlocal", "flatsky_local_nonlocal");
   ("flatsky_nonlocal", "flatsky_nonlocal"); ("b_derivative", "b_derivative"); ("f_derivative", "f_derivative");
   ("b_tilde_derivative", "b_tilde_derivative"); ("f_tilde_derivative", "f_tilde_derivative");
   ("have_window", "have_window"); ("only_cross_correlations", "only_cross_correlations")].
Definition double_settings : list (string * string) :=
  [("omega_m", "Omega0_m"); ("omega_baryon", "Omega0_baryon"); ("omega_gamma", "Omega0_gamma"); ("w0", "w0"); ("wa", "wa")].
Definition string_settings : list (string * string) :=
  [("output_path", "output_path"); ("output_prefix", "output_prefix")].
Definition optional_settings : list string :=
  ["read_galaxy_bias1"; "read_galaxy_bias2"; "read_magnification_bias1"; "read_magnification_bias2";
   "read_evolution_bias1"; "read_evolution_bias2"; "degree_galaxy_bias1"; "degree_galaxy_bias2";
   "degree_magnification_bias1"; "degree_magnification_bias2"; "degree_evolution_bias1"; "degree_evolution_bias2"].

Ltac in_list H := repeat (destruct H as [H|H]; [injection H as <- <-|]); [..|destruct H].

Lemma parsed : forall W s, parser_init W = Done s -> run (program W) (initial W) = Done s.
Proof. intros W s H. unfold parser_init in H. bd H v E. exact H. Qed.

Ltac each_mandatory L R :=
  match goal with |- exists z, _ = Some z /\ ?s ?f = _ =>
    match type of R with run (program ?W) _ = _ =>
      let n := last_of f W in apply (L W s R n); reflexivity end end.

Theorem C38_scalars : forall W s, parser_init W = Done s ->
  (forall key f, In (key, f) int_settings -> exists z, c_int (w_conf W) key = Some z /\ s f = VI z)
  /\ (forall key f, In (key, f) double_settings -> exists x, c_float (w_conf W) key = Some x /\ s f = VF x)
  /\ (forall key f, In (key, f) string_settings -> exists t, c_string (w_conf W) key = Some t /\ s f = VS t).
Proof.
  intros W s H. apply parsed in H. repeat split; intros key f I; in_list I.
  all: first [each_mandatory mandatory_int H | each_mandatory mandatory_double H | each_mandatory mandatory_string H].
Qed.
Print Assumptions C38_scalars.

Theorem C38_optional : forall W s, parser_init W = Done s -> forall key, In key optional_settings ->
  s key = match c_int (w_conf W) key with Some z => VI z | None => initial W key end.
Proof.
  intros W s H key I. apply parsed in H. repeat (destruct I as [<-|I]); [..|destruct I].
  all: match goal with |- ?a ?f = _ => match goal with R : run (program ?W) _ = Done a |- _ => let n := last_of f W in apply (optional_int W a R n); reflexivity end end.
Qed.
Print Assumptions C38_optional.

(** ** Lists *)
Definition floats (K : conf) (key : string) (d : value) : value :=
  match c_list K key with Some l => VFs (map e_float l) | None => d end.
Definition ints (K : conf) (key : string) (d : value) : value :=
  match c_list K key with Some l => VIs (map e_int l) | None => d end.

Lemma array_in : forall W l n key f s1 s2, run l s1 = Done s2 -> nth_error l n = Some (parse_double_array W key f) ->
  touched (skipn (S n) l) f = false -> touched (firstn n l) f = false ->
  s2 f = floats (w_conf W) key (s1 f).
Proof.
  intros W l n key f s1 s2 R N T T0. destruct (final_set _ _ _ _ _ _ R N T) as (s3 & R3 & E & _). cbn beta in E.
  unfold floats. destruct (c_list (w_conf W) key); apply done_inj in E; [symmetry; exact E|].
  rewrite <- E. exact (frame _ _ _ _ R3 T0).
Qed.

(** A conditional on the output type, seen from the final store. *)
Lemma on_type : forall l n ts body s0 s t, run l s0 = Done s -> nth_error l n = Some (When (type_in ts) body) ->
  touched (skipn n l) "output_type" = false -> s "output_type" = VI t ->
  exists s1 s2, run (firstn n l) s0 = Done s1 /\ s1 "output_type" = VI t
    /\ (if existsb (Z.eqb t) ts then run body s1 = Done s2 else s2 = s1)
    /\ (forall g, touched (skipn (S n) l) g = false -> s2 g = s g).
Proof.
  intros l n ts body s0 s t R N T O.
  destruct (final_when _ _ _ _ _ _ R N) as (s1 & b & s2 & R1 & C & B & S1 & S2).
  exists s1, s2. split; [exact R1|]. split; [rewrite (S1 _ T); exact O|]. split; [|exact S2].
  unfold type_in in C. bd C z E. apply getI_inv in E. rewrite (S1 _ T), O in E. injection E as <-.
  apply done_inj in C. rewrite C. exact B.
Qed.

Section Lists.
Variables (W : world) (s : store) (t : Z).
Hypothesis R : run (program W) (initial W) = Done s.
Hypothesis O : s "output_type" = VI t.
Let K := w_conf W.

Lemma mu_list : t = 1 -> s "mu" = floats K "mu" (VFs [lit 1 2]).
Proof.
  intros T. destruct (on_type _ 12 _ _ _ _ t R eq_refl eq_refl O) as (s1 & s2 & R1 & _ & B & S2).
  rewrite <- (S2 "mu" eq_refl). subst t. cbn [existsb] in B.
  rewrite (array_in W _ 0 "mu" "mu" _ _ B eq_refl eq_refl eq_refl), (frame _ "mu" _ _ R1 eq_refl). reflexivity.
Qed.
Lemma multipole_list : In t [2; 3; 4; 5] -> s "multipole_values" = ints K "multipoles" (VIs []).
Proof.
  intros T. destruct (on_type _ 13 _ _ _ _ t R eq_refl eq_refl O) as (s1 & s2 & R1 & _ & B & S2).
  rewrite <- (S2 "multipole_values" eq_refl).
  replace (existsb (Z.eqb t) [2; 3; 4; 5]) with true in B by (destruct T as [<-|[<-|[<-|[<-|[]]]]]; reflexivity).
  destruct (final_set _ 1 "multipole_values" _ _ _ B eq_refl eq_refl) as (s3 & R3 & E & _).
  cbn beta in E. fold K in E. unfold ints. destruct (c_list K "multipoles"); apply done_inj in E; [symmetry; exact E|].
  rewrite <- E. destruct (final_set _ 0 "multipole_values" _ _ _ R3 eq_refl eq_refl) as (s4 & _ & E4 & _).
  apply done_inj in E4. symmetry. exact E4.
Qed.
(** A list that is read in one conditional only. *)
Lemma typed_array : forall l n j ts body key f s' u, run l (initial W) = Done s' -> s' "output_type" = VI u ->
  nth_error l n = Some (When (type_in ts) body) -> nth_error body j = Some (parse_double_array W key f) ->
  touched (skipn n l) "output_type" = false -> touched (skipn (S n) l) f = false -> touched (firstn n l) f = false ->
  touched (skipn (S j) body) f = false -> touched (firstn j body) f = false ->
  s' f = if existsb (Z.eqb u) ts then floats K key (initial W f) else initial W f.
Proof.
  intros l n j ts body key f s' u R' O' N J T0 T1 T2 T3 T4.
  destruct (on_type l n ts body _ s' u R' N T0 O') as (s1 & s2 & R1 & _ & B & S2).
  rewrite <- (S2 f T1). rewrite <- (frame _ _ _ _ R1 T2). destruct (existsb _ _).
  - exact (array_in W _ j _ _ _ _ B J T3 T4).
  - subst s2. reflexivity.
Qed.

Lemma density_list : In t [4; 5] ->
  s "density1" = floats K "density1" (VFs [lit 1 1000]) /\ s "density2" = floats K "density2" (VFs [lit 1 1000])
  /\ s "pixelsize" = floats K "pixelsize" (VFs [of_Z 10]).
Proof.
  intros T.
  assert (E : existsb (Z.eqb t) [4; 5] = true) by (destruct T as [<-|[<-|[]]]; reflexivity).
  repeat split.
  - rewrite (typed_array _ 47 0 [4; 5] _ "density1" "density1" s t R O eq_refl eq_refl) by reflexivity. rewrite E. reflexivity.
  - rewrite (typed_array _ 47 1 [4; 5] _ "density2" "density2" s t R O eq_refl eq_refl) by reflexivity. rewrite E. reflexivity.
  - rewrite (typed_array _ 47 3 [4; 5] _ "pixelsize" "pixelsize" s t R O eq_refl eq_refl) by reflexivity. rewrite E. reflexivity.
Qed.
Lemma deltaz_list : t = 4 -> s "deltaz" = floats K "deltaz" (VFs [lit 2 10]).
Proof. intros T. rewrite (typed_array _ 48 1 [4] _ "deltaz" "deltaz" s t R O eq_refl eq_refl) by reflexivity. subst t. reflexivity. Qed.
Lemma fsky_list : In t [4; 5] -> s "fsky" = floats K "fsky" (VFs [of_Z 1]).
Proof.
  intros T. assert (E : existsb (Z.eqb t) [4; 5] = true) by (destruct T as [<-|[<-|[]]]; reflexivity).
  destruct (on_type _ 48 _ _ _ _ t R eq_refl eq_refl O) as (s1 & s2 & R1 & O1 & B & S2).
  rewrite <- (S2 "fsky" eq_refl).
  assert (F : s1 "fsky" = floats K "fsky" (VFs [of_Z 1])).
  { rewrite (typed_array _ 47 2 [4; 5] _ "fsky" "fsky" s1 t R1 O1 eq_refl eq_refl) by reflexivity. rewrite E. reflexivity. }
  destruct (existsb (Z.eqb t) [4]).
  - rewrite (array_in W _ 2 "fsky" "fsky" _ _ B eq_refl eq_refl eq_refl), F. fold K. unfold floats.
    destruct (c_list K "fsky"); reflexivity.
  - subst s2. exact F.
Qed.
Lemma z_mean_first : In t [1; 2; 4] -> forall n s1, run (firstn n (program W)) (initial W) = Done s1 ->
  nth_error (firstn n (program W)) 9 = nth_error (program W) 9 ->
  touched (skipn 9 (firstn n (program W))) "output_type" = false ->
  touched (skipn 10 (firstn n (program W))) "z_mean" = false -> s1 "output_type" = VI t ->
  s1 "z_mean" = floats K "z_mean" (VFs [])
  /\ forall l, s1 "z_mean" = VFs l -> Forall (fun z => fleb z (of_Z 0) = false) l.
Proof.
  intros T n s1 R1 N T0 T1 O1.
  destruct (on_type _ 9 _ _ _ _ t R1 N T0 O1) as (s2 & s3 & R2 & _ & B & S3).
  rewrite <- (S3 "z_mean" T1).
  replace (existsb (Z.eqb t) [1; 2; 4]) with true in B by (destruct T as [<-|[<-|[<-|[]]]]; reflexivity).
  split.
  - destruct (final_set _ 1 "z_mean" _ _ _ B eq_refl eq_refl) as (s4 & R4 & E & _).
    cbn beta in E. fold K in E. unfold floats. destruct (c_list K "z_mean"); apply done_inj in E; [symmetry; exact E|].
    rewrite <- E. destruct (final_set _ 0 "z_mean" _ _ _ R4 eq_refl eq_refl) as (s5 & _ & E5 & _).
    apply done_inj in E5. symmetry. exact E5.
  - intros l L. destruct (final_stop _ 2 _ _ _ B eq_refl) as (s4 & _ & E & S4). cbn beta in E.
    rewrite <- (S4 "z_mean" eq_refl) in L. unfold getFs in E. rewrite L in E. cbn [bind] in E. apply done_inj in E.
    apply Forall_forall. intros z Z. destruct (fleb z (of_Z 0)) eqn:F; [|reflexivity].
    assert (existsb (fun z => fleb z (of_Z 0)) l = true) by (apply existsb_exists; exists z; split; assumption). congruence.
Qed.
Lemma z_mean_list : In t [1; 2; 4] -> s "z_mean" = floats K "z_mean" (VFs [])
  /\ forall l, s "z_mean" = VFs l -> Forall (fun z => fleb z (of_Z 0) = false) l.
Proof.
  intros T. destruct (on_type _ 48 _ _ _ _ t R eq_refl eq_refl O) as (s1 & s2 & R1 & O1 & B & S2).
  destruct (z_mean_first T 48 s1 R1 eq_refl eq_refl eq_refl O1) as [F P].
  assert (Q : s2 "z_mean" = s1 "z_mean").
  { destruct (existsb (Z.eqb t) [4]).
    - rewrite (array_in W _ 0 "z_mean" "z_mean" _ _ B eq_refl eq_refl eq_refl), F. fold K. unfold floats.
      destruct (c_list K "z_mean"); reflexivity.
    - subst s2. reflexivity. }
  rewrite <- (S2 "z_mean" eq_refl), Q. split; [exact F|exact P].
Qed.
Lemma z_range_list :
  (t = 3 -> s "zmin" = floats K "z_min" (VFs [lit 9 10]) /\ s "zmax" = floats K "z_max" (VFs [lit 11 10]))
  /\ (t = 5 -> s "zmin" = floats K "zmin" (VFs [lit 9 10]) /\ s "zmax" = floats K "zmax" (VFs [lit 11 10])).
Proof.
  destruct (on_type _ 49 _ _ _ _ t R eq_refl eq_refl O) as (s1 & s2 & R1 & O1 & B & S2).
  rewrite <- (S2 "zmin" eq_refl), <- (S2 "zmax" eq_refl).
  assert (A : s1 "zmin" = if existsb (Z.eqb t) [3] then floats K "z_min" (VFs [lit 9 10]) else VFs [lit 9 10])
    by (rewrite (typed_array _ 10 0 [3] _ "z_min" "zmin" s1 t R1 O1 eq_refl eq_refl) by reflexivity; reflexivity).
  assert (A' : s1 "zmax" = if existsb (Z.eqb t) [3] then floats K "z_max" (VFs [lit 11 10]) else VFs [lit 11 10])
    by (rewrite (typed_array _ 10 1 [3] _ "z_max" "zmax" s1 t R1 O1 eq_refl eq_refl) by reflexivity; reflexivity).
  split; intros ->.
  - cbn [existsb Z.eqb Pos.eqb orb] in A, A', B. subst s2. split; assumption.
  - cbn [existsb Z.eqb Pos.eqb orb] in A, A', B.
    rewrite (array_in W _ 0 "zmin" "zmin" _ _ B eq_refl eq_refl eq_refl), (array_in W _ 1 "zmax" "zmax" _ _ B eq_refl eq_refl eq_refl), A, A'.
    split; reflexivity.
Qed.

Lemma differ_false : forall fs s1, differ fs s1 = Done false ->
  exists l, s1 "density1" = VFs l /\ forall f, In f fs -> exists q, s1 f = VFs q /\ List.length q = List.length l.
Proof.
  intros fs s1 D. unfold differ in D. bd D n E. unfold length_of in E. bd E l L. apply getFs_inv in L. apply done_inj in E.
  exists l. split; [exact L|]. revert D. induction fs as [|f r IH]; intros D g G; [destruct G|].
  cbn [fold_right] in D. bd D b Eb. bd D m Em. unfold length_of in Em. bd Em q Q. apply getFs_inv in Q. apply done_inj in Em.
  apply done_inj in D. apply orb_false_iff in D. destruct D as [-> D]. apply negb_false_iff, Nat.eqb_eq in D.
  destruct G as [<-|G]; [exists q; split; [exact Q|congruence]|exact (IH Eb g G)].
Qed.
Lemma lengths_multipoles : t = 4 -> exists n, forall f, In f ["density1"; "density2"; "z_mean"; "deltaz"; "fsky"; "pixelsize"] ->
  exists l, s f = VFs l /\ List.length l = n.
Proof.
  intros T. destruct (on_type _ 48 _ _ _ _ t R eq_refl eq_refl O) as (s1 & s2 & R1 & O1 & B & S2). subst t. cbn [existsb Z.eqb Pos.eqb orb] in B.
  destruct (final_stop _ 3 _ _ _ B eq_refl) as (s3 & _ & D & S3). destruct (differ_false _ _ D) as (l & L & A).
  exists (List.length l). intros f F.
  assert (Q : s3 f = s f).
  { rewrite (S3 f); [apply (S2 f)|]; repeat (destruct F as [<-|F]; [reflexivity|]); destruct F. }
  rewrite <- Q. destruct F as [<-|F]; [exists l; split; [exact L|reflexivity]|]. apply A.
  cbn in F |- *. tauto.
Qed.
Lemma lengths_average : t = 5 -> exists n, forall f, In f ["density1"; "density2"; "zmin"; "zmax"; "fsky"] ->
  exists l, s f = VFs l /\ List.length l = n.
Proof.
  intros T. destruct (on_type _ 49 _ _ _ _ t R eq_refl eq_refl O) as (s1 & s2 & R1 & O1 & B & S2). subst t. cbn [existsb Z.eqb Pos.eqb orb] in B.
  destruct (final_stop _ 2 _ _ _ B eq_refl) as (s3 & _ & D & S3). destruct (differ_false _ _ D) as (l & L & A).
  exists (List.length l). intros f F.
  assert (Q : s3 f = s f).
  { rewrite (S3 f); [apply (S2 f)|]; repeat (destruct F as [<-|F]; [reflexivity|]); destruct F. }
  rewrite <- Q. destruct F as [<-|F]; [exists l; split; [exact L|reflexivity]|]. apply A.
  cbn in F |- *. tauto.
Qed.
End Lists.

(** ** C38: lists *)
Theorem C38_lists : forall W s t, parser_init W = Done s -> c_int (w_conf W) "output_type" = Some t ->
  (In t [1; 2; 4] -> s "z_mean" = floats (w_conf W) "z_mean" (VFs []))
  /\ (t = 1 -> s "mu" = floats (w_conf W) "mu" (VFs [lit 1 2]))
  /\ (In t [2; 3; 4; 5] -> s "multipole_values" = ints (w_conf W) "multipoles" (VIs []))
  /\ (t = 3 -> s "zmin" = floats (w_conf W) "z_min" (VFs [lit 9 10])
               /\ s "zmax" = floats (w_conf W) "z_max" (VFs [lit 11 10]))
  /\ (t = 5 -> s "zmin" = floats (w_conf W) "zmin" (VFs [lit 9 10])
               /\ s "zmax" = floats (w_conf W) "zmax" (VFs [lit 11 10]))
  /\ (In t [4; 5] -> s "density1" = floats (w_conf W) "density1" (VFs [lit 1 1000])
               /\ s "density2" = floats (w_conf W) "density2" (VFs [lit 1 1000])
               /\ s "fsky" = floats (w_conf W) "fsky" (VFs [of_Z 1])
               /\ s "pixelsize" = floats (w_conf W) "pixelsize" (VFs [of_Z 10]))
  /\ (t = 4 -> s "deltaz" = floats (w_conf W) "deltaz" (VFs [lit 2 10])).
Proof.
  intros W s t H T. assert (O : s "output_type" = VI t).
  { destruct (C38_scalars W s H) as (I & _). destruct (I "output_type" "output_type") as (z & Z & S); [right; left; reflexivity|].
    rewrite T in Z. injection Z as <-. exact S. }
  apply parsed in H. split; [|split; [|split; [|split; [|split; [|split]]]]].
  - intros I. exact (proj1 (z_mean_list W s t H O I)).
  - exact (mu_list W s t H O).
  - exact (multipole_list W s t H O).
  - exact (proj1 (z_range_list W s t H O)).
  - exact (proj2 (z_range_list W s t H O)).
  - intros I. destruct (density_list W s t H O I) as (A & B & C). pose proof (fsky_list W s t H O I). auto.
  - exact (deltaz_list W s t H O).
Qed.
Print Assumptions C38_lists.

(** ** C38: what is refused *)
Lemma not_fleb_fltb : forall x y, is_nan x = false -> is_nan y = false -> fleb x y = false -> fltb y x = true.
Proof.
  intros x y Hx Hy. unfold fltb, fleb, SpecFloat.SFltb, SpecFloat.SFleb.
  rewrite (SFcompare_antisym x y). destruct (SFcompare_some x y Hx Hy) as [c ->]. destruct c; simpl; congruence.
Qed.
Lemma stored_type : forall W s t, parser_init W = Done s -> c_int (w_conf W) "output_type" = Some t -> s "output_type" = VI t.
Proof.
  intros W s t H T. destruct (C38_scalars W s H) as (I & _).
  destruct (I "output_type" "output_type") as (z & Z & S); [right; left; reflexivity|]. rewrite T in Z. injection Z as <-. exact S.
Qed.

Theorem C38_derivatives_partial : forall W s, parser_init W = Done s ->
  exists a b c d,
    c_int (w_conf W) "b_derivative" = Some a /\ c_int (w_conf W) "f_derivative" = Some b
    /\ c_int (w_conf W) "b_tilde_derivative" = Some c /\ c_int (w_conf W) "f_tilde_derivative" = Some d
    /\ a + b + c + d <= 1
    /\ ((forall z, In z [a; b; c; d] -> z = 0 \/ z = 1) -> (List.length (filter (Z.eqb 1%Z) [a; b; c; d]) <= 1)%nat).
Proof.
  intros W s H. destruct (C38_scalars W s H) as (I & _).
  destruct (I "b_derivative" "b_derivative") as (a & A & Sa); [apply (nth_error_In _ 9); reflexivity|].
  destruct (I "f_derivative" "f_derivative") as (b & B & Sb); [apply (nth_error_In _ 10); reflexivity|].
  destruct (I "b_tilde_derivative" "b_tilde_derivative") as (c & C & Sc); [apply (nth_error_In _ 11); reflexivity|].
  destruct (I "f_tilde_derivative" "f_tilde_derivative") as (d & D & Sd); [apply (nth_error_In _ 12); reflexivity|].
  apply parsed in H. destruct (final_stop _ 72 _ _ _ H eq_refl) as (s1 & _ & E & S1). cbn beta in E.
  unfold getI in E. rewrite (S1 "b_derivative" eq_refl), (S1 "f_derivative" eq_refl), (S1 "b_tilde_derivative" eq_refl),
    (S1 "f_tilde_derivative" eq_refl), Sa, Sb, Sc, Sd in E. cbn [bind] in E.
  bd E x Ex. bd E y Ey. bd E z Ez. unfold add_int in Ex, Ey, Ez.
  destruct (fits (a + b)); [|discriminate]. apply done_inj in Ex. subst x.
  destruct (fits (a + b + c)); [|discriminate]. apply done_inj in Ey. subst y.
  destruct (fits (a + b + c + d)); [|discriminate]. apply done_inj in Ez. subst z.
  apply done_inj in E. apply Z.ltb_ge in E.
  exists a, b, c, d. repeat (split; [assumption|]). intros Z.
  destruct (Z a) as [->| ->]; [cbn; tauto| |]; destruct (Z b) as [->| ->]; try (cbn; tauto);
    destruct (Z c) as [->| ->]; try (cbn; tauto); destruct (Z d) as [->| ->]; try (cbn; tauto); cbn; lia.
Qed.
Print Assumptions C38_derivatives_partial.

Theorem C38_window : forall W s w, parser_init W = Done s -> c_int (w_conf W) "have_window" = Some w -> w <> 0 ->
  exists x, c_float (w_conf W) "window_size" = Some x /\ s "window_size" = VF x
    /\ (is_nan x = true \/ (fltb (of_Z 0) x = true /\ fltb x (of_Z 1000) = true)).
Proof.
  intros W s w H E NZ. destruct (C38_scalars W s H) as (I & _).
  destruct (I "have_window" "have_window") as (z & Z & Sz); [apply (nth_error_In _ 13); reflexivity|].
  rewrite E in Z. injection Z as <-. apply parsed in H.
  destruct (final_when _ 77 _ _ _ _ H eq_refl) as (s1 & b & s2 & _ & C & B & S1 & S2).
  unfold flag, getI in C. rewrite (S1 "have_window" eq_refl), Sz in C. cbn [bind] in C. apply done_inj in C.
  apply Z.eqb_neq in NZ. rewrite NZ in C. cbn in C. subst b.
  destruct (final_set _ 0 "window_size" _ _ _ B eq_refl eq_refl) as (s3 & _ & F & _). cbn beta in F.
  destruct (c_float (w_conf W) "window_size") as [x|]; [|discriminate]. apply done_inj in F. exists x. split; [reflexivity|].
  rewrite <- (S2 "window_size" eq_refl). split; [symmetry; exact F|].
  destruct (final_stop _ 1 _ _ _ B eq_refl) as (s4 & _ & G & S4). cbn beta in G. unfold getF in G.
  rewrite (S4 "window_size" eq_refl), <- F in G. cbn [bind] in G. apply done_inj in G. apply orb_false_iff in G. destruct G as [G1 G2].
  destruct (is_nan x) eqn:X; [left; reflexivity|]. right. split; apply not_fleb_fltb; (reflexivity || assumption).
Qed.
Print Assumptions C38_window.

Theorem C38_lengths : forall W s t, parser_init W = Done s -> c_int (w_conf W) "output_type" = Some t ->
  (t = 4 -> exists n, forall f, In f ["density1"; "density2"; "z_mean"; "deltaz"; "fsky"; "pixelsize"] ->
     exists l, s f = VFs l /\ List.length l = n)
  /\ (t = 5 -> exists n, forall f, In f ["density1"; "density2"; "zmin"; "zmax"; "fsky"] ->
     exists l, s f = VFs l /\ List.length l = n)
  /\ (In t [1; 2; 4] -> exists l, s "z_mean" = VFs l /\ Forall (fun z => fleb z (of_Z 0) = false) l).
Proof.
  intros W s t H T. pose proof (stored_type W s t H T) as O. apply parsed in H. split; [|split].
  - exact (lengths_multipoles W s t H O).
  - exact (lengths_average W s t H O).
  - intros I. destruct (z_mean_list W s t H O I) as [A B].
    assert (E : exists l, floats (w_conf W) "z_mean" (VFs []) = VFs l)
      by (unfold floats; destruct (c_list (w_conf W) "z_mean"); eexists; reflexivity).
    destruct E as (l & L). rewrite L in A. exists l. split; [exact A|exact (B l A)].
Qed.
Print Assumptions C38_lengths.

(** The numerical methods are those the program has. *)
Theorem C38_methods : forall W s, parser_init W = Done s ->
  c_readable (w_conf W) = true
  /\ (w_cuba W = false -> exists m, c_int (w_conf W) "integration_method" = Some m /\ s "integration_method" = VI m /\ 0 <= m <= 2)
  /\ (exists m, c_int (w_conf W) "covariance_integration_method" = Some m /\ s "covariance_integration_method" = VI m
      /\ (m = 1 \/ m = 2)
      /\ (m = 2 -> exists b i,
           c_int (w_conf W) "covariance_integration_bins" = Some b /\ s "covariance_integration_bins" = VI b /\ 0 < b
           /\ c_int (w_conf W) "covariance_interpolation_method" = Some i /\ s "covariance_interpolation_method" = VI i
           /\ (i = 1 \/ i = 2))).
Proof.
  intros W s H. apply parsed in H.
  assert (OneTwo : forall m, negb (m =? 1) && negb (m =? 2) = false -> m = 1 \/ m = 2).
  { intros m Q. destruct (m =? 1) eqn:A; [apply Z.eqb_eq in A; tauto|].
    destruct (m =? 2) eqn:B; [apply Z.eqb_eq in B; tauto|discriminate]. }
  split; [|split].
  - destruct (final_stop _ 0 _ _ _ H eq_refl) as (s1 & _ & E & _). apply done_inj in E.
    destruct (c_readable (w_conf W)); [reflexivity|discriminate].
  - intros C. destruct (final_when _ 16 _ _ _ _ H eq_refl) as (s1 & b & s2 & _ & Cb & B & _ & S2).
    rewrite C in Cb. apply done_inj in Cb. cbn in Cb. subst b.
    destruct (final_set _ 0 "integration_method" _ _ _ B eq_refl eq_refl) as (s3 & _ & F & _). cbn beta in F.
    destruct (c_int (w_conf W) "integration_method") as [m|]; [|discriminate]. apply done_inj in F.
    exists m. split; [reflexivity|]. rewrite <- (S2 "integration_method" eq_refl). split; [symmetry; exact F|].
    destruct (final_stop _ 1 _ _ _ B eq_refl) as (s4 & _ & G & S4). cbn beta in G. unfold getI in G.
    rewrite (S4 "integration_method" eq_refl), <- F in G. cbn [bind] in G. apply done_inj in G.
    apply orb_false_iff in G. destruct G as [G1 G2]. apply Z.ltb_ge in G1, G2. lia.
  - destruct (mandatory_int W s H 18 "covariance_integration_method" "covariance_integration_method" eq_refl eq_refl) as (m & M & Sm).
    exists m. split; [exact M|]. split; [exact Sm|].
    destruct (final_stop _ 19 _ _ _ H eq_refl) as (s1 & _ & E & S1). cbn beta in E. unfold getI in E.
    rewrite (S1 "covariance_integration_method" eq_refl), Sm in E. cbn [bind] in E. apply done_inj in E.
    split; [apply OneTwo; exact E|]. intros ->.
    destruct (final_when _ 20 _ _ _ _ H eq_refl) as (s2 & b & s3 & _ & Cb & B & T2 & T3).
    unfold getI in Cb. rewrite (T2 "covariance_integration_method" eq_refl), Sm in Cb. cbn [bind] in Cb.
    apply done_inj in Cb. cbn in Cb. subst b.
    destruct (final_set _ 0 "covariance_integration_bins" _ _ _ B eq_refl eq_refl) as (s4 & _ & F & _). cbn beta in F.
    destruct (c_int (w_conf W) "covariance_integration_bins") as [n|]; [|discriminate]. apply done_inj in F.
    destruct (final_stop _ 1 _ _ _ B eq_refl) as (s5 & _ & G & S5). cbn beta in G. unfold getI in G.
    rewrite (S5 "covariance_integration_bins" eq_refl), <- F in G. cbn [bind] in G. apply done_inj in G. apply Z.leb_gt in G.
    destruct (final_set _ 2 "covariance_interpolation_method" _ _ _ B eq_refl eq_refl) as (s6 & _ & F2 & _). cbn beta in F2.
    destruct (c_int (w_conf W) "covariance_interpolation_method") as [i|]; [|discriminate]. apply done_inj in F2.
    destruct (final_stop _ 3 _ _ _ B eq_refl) as (s7 & _ & G2 & S7). cbn beta in G2. unfold getI in G2.
    rewrite (S7 "covariance_interpolation_method" eq_refl), <- F2 in G2. cbn [bind] in G2. apply done_inj in G2.
    exists n, i. rewrite <- (T3 "covariance_integration_bins" eq_refl), <- (T3 "covariance_interpolation_method" eq_refl), <- F, <- F2.
    repeat split; [exact G|apply OneTwo; exact G2].
Qed.
Print Assumptions C38_methods.

(** *** The amplitude *)
Definition uses_class (W : world) (z : Z) : Prop := w_class W = true /\ c_int (w_conf W) "have_class" = Some z /\ z <> 0.
Lemma class_branch : forall W s z, parser_init W = Done s -> uses_class W z ->
  exists s1 s2, run (firstn 79 (program W)) (initial W) = Done s1 /\ run (class_settings W) s1 = Done s2
    /\ (forall g, touched (skipn 79 (program W)) g = false -> s1 g = s g)
    /\ (forall g, touched (skipn 81 (program W)) g = false -> s2 g = s g)
    /\ run (skipn 81 (program W)) s2 = Done s.
Proof.
  intros W s z H (C & Z & NZ). apply parsed in H.
  destruct (at_step _ 80 _ _ _ H eq_refl) as (s2 & s3 & R2 & E2 & R3).
  destruct (final_when _ 79 _ _ _ _ R2 eq_refl) as (s1 & b & s2' & R1 & Cb & B & S1 & S2).
  assert (Q : s2' = s2).
  { destruct (at_step _ 79 _ _ _ R2 eq_refl) as (u1 & u2 & U1 & U2 & U3).
    rewrite firstn_firstn in U1, R1. cbn [Nat.min] in U1, R1. rewrite R1 in U1. injection U1 as <-.
    cbn [skipn firstn program] in U3. change (run [] u2 = Done s2) in U3. injection U3 as <-.
    rewrite run_when, Cb in U2. cbn [bind] in U2. destruct b; [congruence|]. injection U2 as <-. exact B. }
  subst s2'.
  assert (HC : s1 "have_class" = VI z).
  { rewrite firstn_firstn in R1. cbn [Nat.min] in R1.
    destruct (final_when _ 78 _ _ _ _ R1 eq_refl) as (v1 & b1 & v2 & _ & Cb1 & B1 & _ & V2).
    apply done_inj in Cb1. rewrite C in Cb1. subst b1.
    destruct (final_set _ 0 "have_class" _ _ _ B1 eq_refl eq_refl) as (v3 & _ & F & _). cbn beta in F. rewrite Z in F.
    apply done_inj in F. rewrite <- (V2 "have_class" eq_refl). symmetry. exact F. }
  assert (N1 : not_class W s1 = Done false).
  { unfold not_class, flag, getI. rewrite C, HC. cbn [bind]. apply Z.eqb_neq in NZ. rewrite NZ. reflexivity. }
  rewrite N1 in Cb. cbn [bind negb] in Cb. apply done_inj in Cb. subst b.
  assert (HC2 : s2 "have_class" = VI z) by (rewrite (frame _ "have_class" _ _ B eq_refl); exact HC).
  assert (N2 : not_class W s2 = Done false).
  { unfold not_class, flag, getI. rewrite C, HC2. cbn [bind]. apply Z.eqb_neq in NZ. rewrite NZ. reflexivity. }
  rewrite run_when, N2 in E2. cbn [bind] in E2. injection E2 as <-.
  exists s1, s2. rewrite firstn_firstn in R1. cbn [Nat.min] in R1. split; [exact R1|]. split; [exact B|]. split; [|split].
  - intros g G. symmetry. apply (frame (skipn 79 (program W))); [|exact G].
    change (run (skipn 79 (program W)) s1 = Done s).
    change (skipn 79 (program W)) with (nth 79 (program W) (Stop (fun _ => Done true)) :: nth 80 (program W) (Stop (fun _ => Done true)) :: skipn 81 (program W)).
    change (nth 79 (program W) (Stop (fun _ => Done true))) with (When (fun s => do b <- not_class W s;; Done (negb b)) (class_settings W)).
    change (nth 80 (program W) (Stop (fun _ => Done true))) with (When (not_class W) (file_spectrum W)).
    cbn [run]. rewrite !run_when, N1. cbn [bind negb]. rewrite B. cbn [bind]. rewrite run_when, N2. cbn [bind]. exact R3.
  - intros g G. symmetry. exact (frame _ _ _ _ R3 G).
  - exact R3.
Qed.

Lemma file_branch : forall W s, parser_init W = Done s -> (forall z, ~ uses_class W z) ->
  exists s1 s2, run (firstn 79 (program W)) (initial W) = Done s1 /\ run (file_spectrum W) s1 = Done s2
    /\ (forall g, touched (skipn 79 (program W)) g = false -> s1 g = s g)
    /\ run (skipn 81 (program W)) s2 = Done s.
Proof.
  intros W s H NC. apply parsed in H.
  destruct (at_step _ 79 _ _ _ H eq_refl) as (s1 & s2 & R1 & E1 & R2).
  assert (N : not_class W s1 = Done true).
  { unfold not_class. destruct (w_class W) eqn:C; [|reflexivity].
    destruct (final_when _ 78 _ _ _ _ R1 eq_refl) as (v1 & b1 & v2 & _ & Cb1 & B1 & _ & V2).
    apply done_inj in Cb1. rewrite C in Cb1. subst b1.
    destruct (final_set _ 0 "have_class" _ _ _ B1 eq_refl eq_refl) as (v3 & _ & F & _). cbn beta in F.
    destruct (c_int (w_conf W) "have_class") as [z|] eqn:Z; [|discriminate]. apply done_inj in F.
    unfold flag, getI. rewrite <- (V2 "have_class" eq_refl), <- F. cbn [bind].
    destruct (z =? 0) eqn:Z0; [reflexivity|]. exfalso. apply (NC z). split; [exact C|]. split; [exact Z|]. apply Z.eqb_neq. exact Z0. }
  rewrite run_when, N in E1. cbn [bind negb] in E1. injection E1 as <-.
  change (run (When (not_class W) (file_spectrum W) :: skipn 81 (program W)) s1 = Done s) in R2.
  cbn [run] in R2. bd R2 s3 E3. rewrite run_when, N in E3. cbn [bind] in E3.
  exists s1, s3. split; [exact R1|]. split; [exact E3|]. split; [|exact R2].
  intros g G. symmetry. apply (frame (skipn 79 (program W))); [|exact G].
  change (skipn 79 (program W)) with (When (fun s => do b <- not_class W s;; Done (negb b)) (class_settings W) :: When (not_class W) (file_spectrum W) :: skipn 81 (program W)).
  cbn [run]. rewrite !run_when, N. cbn [bind negb]. rewrite run_when, N. cbn [bind]. rewrite E3. exact R2.
Qed.

Theorem C38_amplitude : forall W s z, parser_init W = Done s -> uses_class W z ->
  (c_float (w_conf W) "sigma8" = None \/ c_float (w_conf W) "A_s" = None)
  /\ s "sigma8" = match c_float (w_conf W) "sigma8" with Some x => VF x | None => VF (lit 8156 10000) end
  /\ s "A_s" = match c_float (w_conf W) "A_s" with Some x => VF x | None => VF (of_Z 0) end.
Proof.
  intros W s z H U. destruct (class_branch W s z H U) as (s1 & s2 & R1 & B & S1 & S2 & R2). split; [|split].
  - destruct (final_stop _ 6 _ _ _ B eq_refl) as (s3 & R3 & E & _). cbn beta in E. bd E a A. bd E b Bb. apply getI_inv in A, Bb.
    destruct (final_set _ 3 "error_sigma8" _ _ _ R3 eq_refl eq_refl) as (s4 & _ & E4 & _). cbn beta in E4.
    destruct (final_set _ 5 "error_A_s" _ _ _ R3 eq_refl eq_refl) as (s5 & _ & E5 & _). cbn beta in E5.
    apply done_inj in E4, E5. rewrite A in E4. rewrite Bb in E5. injection E4 as E4. injection E5 as E5.
    destruct (c_float (w_conf W) "sigma8"); [|left; reflexivity]. destruct (c_float (w_conf W) "A_s"); [|right; reflexivity].
    subst a b. discriminate.
  - rewrite <- (S2 "sigma8" eq_refl). destruct (final_set _ 2 "sigma8" _ _ _ B eq_refl eq_refl) as (s3 & R3 & E & _). cbn beta in E.
    destruct (c_float (w_conf W) "sigma8"); apply done_inj in E; rewrite <- E; [reflexivity|].
    rewrite (frame _ "sigma8" _ _ R3 eq_refl), (frame _ "sigma8" _ _ R1 eq_refl). reflexivity.
  - rewrite <- (S2 "A_s" eq_refl). destruct (final_set _ 4 "A_s" _ _ _ B eq_refl eq_refl) as (s3 & R3 & E & _). cbn beta in E.
    destruct (c_float (w_conf W) "A_s"); apply done_inj in E; rewrite <- E; [reflexivity|].
    rewrite (frame _ "A_s" _ _ R3 eq_refl), (frame _ "A_s" _ _ R1 eq_refl). reflexivity.
Qed.
Print Assumptions C38_amplitude.

(** *** The power spectrum and the range of wavenumbers *)
Definition windowed_table (W : world) (pts : list (f64 * f64)) (w : Z) (size : value) : list (f64 * f64) :=
  if w =? 0 then pts
  else map (fun p => (fst p, fmul (snd p) (w_window W (fmul (match size with VF x => x | _ => of_Z 0 end) (fst p))))) pts.
Definition clamp_low (x lo : f64) : f64 := if fltb x lo then lo else x.
Definition clamp_high (x hi : f64) : f64 := if fltb hi x then hi else x.

Lemma spline_done : forall pts m v, spline pts m = Done v -> v = VSp pts /\ pts <> [].
Proof.
  intros pts m v H. unfold spline in H. destruct (Nat.leb (min_points m) (List.length pts) && _) eqn:E; [|discriminate].
  apply done_inj in H. split; [symmetry; exact H|]. intros ->. apply andb_prop in E. destruct E as [E _].
  apply Nat.leb_le in E. cbn in E. unfold min_points in E.
  repeat match type of E with context [if ?b then _ else _] => destruct b end; lia.
Qed.
Lemma windowed_spec : forall W s pts q w x, windowed W s pts = Done q -> s "have_window" = VI w -> s "window_size" = VF x ->
  q = windowed_table W pts w (VF x).
Proof.
  intros W s pts q w x H A B. unfold windowed, flag, getI, getF in H. rewrite A, B in H. cbn [bind] in H. apply done_inj in H.
  subst q. unfold windowed_table. destruct (w =? 0); reflexivity.
Qed.
Lemma k_end : forall W s2 s kmin kmax, run (skipn 81 (program W)) s2 = Done s ->
  s2 "k_min" = VF kmin -> s2 "k_max" = VF kmax ->
  exists p0 p1 pts, s2 "power_spectrum" = VSp pts /\ s "power_spectrum" = VSp pts /\ s "power_spectrum_norm" = VSp pts
    /\ hd_error pts = Some p0 /\ hd_error (rev pts) = Some p1
    /\ s "k_min" = VF (clamp_low kmin (fst p0)) /\ s "k_max" = VF (clamp_high kmax (fst p1))
    /\ s "k_min_norm" = s "k_min" /\ s "k_max_norm" = s "k_max".
Proof.
  intros W s2 s kmin kmax R A B.
  destruct (final_set _ 0 "k_min" _ _ _ R eq_refl eq_refl) as (u & Ru & E & _). injection Ru as <-. cbn beta in E.
  bd E l L. apply getSp_inv in L. bd E k0 K0. bd E x X. apply getF_inv in X. rewrite A in X. injection X as <-. apply done_inj in E.
  destruct (final_set _ 1 "k_max" _ _ _ R eq_refl eq_refl) as (u & Ru & E1 & _). cbn beta in E1.
  bd E1 l1 L1. apply getSp_inv in L1. bd E1 k1 K1. bd E1 x X. apply getF_inv in X. apply done_inj in E1.
  rewrite (frame _ "power_spectrum" _ _ Ru eq_refl), L in L1. injection L1 as <-.
  rewrite (frame _ "k_max" _ _ Ru eq_refl), B in X. injection X as <-.
  rewrite (frame _ "k_max" _ _ Ru eq_refl), B in E1.
  destruct (final_set _ 2 "power_spectrum_norm" _ _ _ R eq_refl eq_refl) as (u2 & Ru2 & E2 & _). cbn beta in E2.
  bd E2 l2 L2. apply getSp_inv in L2. rewrite (frame _ "power_spectrum" _ _ Ru2 eq_refl), L in L2. injection L2 as <-.
  bd E2 m M. apply spline_done in E2. destruct E2 as [E2 _].
  destruct (final_set _ 3 "k_min_norm" _ _ _ R eq_refl eq_refl) as (u3 & Ru3 & E3 & G3). cbn beta in E3.
  bd E3 y Y. apply getF_inv in Y. apply done_inj in E3. rewrite (G3 "k_min" eq_refl) in Y.
  destruct (final_set _ 4 "k_max_norm" _ _ _ R eq_refl eq_refl) as (u4 & Ru4 & E4 & G4). cbn beta in E4.
  bd E4 y4 Y4. apply getF_inv in Y4. apply done_inj in E4. rewrite (G4 "k_max" eq_refl) in Y4.
  unfold first_k in K0. destruct l as [|p0 l']; [discriminate|]. apply done_inj in K0. subst k0.
  unfold last_k in K1. destruct (rev (p0 :: l')) as [|p1 r] eqn:Q; [discriminate|]. apply done_inj in K1. subst k1.
  exists p0, p1, (p0 :: l'). rewrite Q. repeat split.
  - exact L.
  - rewrite (frame _ "power_spectrum" _ _ R eq_refl). exact L.
  - exact E2.
  - rewrite <- E. unfold clamp_low. destruct (fltb kmin (fst p0)); [reflexivity|exact A].
  - rewrite <- E1. unfold clamp_high. destruct (fltb (fst p1) kmax); reflexivity.
  - rewrite <- E3, Y. reflexivity.
  - rewrite <- E4, Y4. reflexivity.
Qed.

(** The members computed from the spectrum CLASS returns: CLASS sees every other
    member as it is finally stored. *)
Definition derived_from_spectrum : list string :=
  ["class_pk"; "k_min"; "k_max"; "k_min_norm"; "k_max_norm"; "power_spectrum"; "power_spectrum_norm"].
Lemma not_derived : forall W g, ~ In g derived_from_spectrum -> touched (external_spectrum W ++ skipn 81 (program W)) g = false.
Proof.
  intros W g N. destruct (touched _ g) eqn:E; [|reflexivity]. exfalso. apply N. unfold touched in E. apply existsb_exists in E.
  destruct E as (x & X & G). apply String.eqb_eq in G. subst x.
  cbn in X. unfold derived_from_spectrum. cbn. intuition.
Qed.

Theorem C38_spectrum : forall W s, parser_init W = Done s ->
  exists kmin kmax w size p0 p1 pts source,
    c_float (w_conf W) "k_min" = Some kmin /\ c_float (w_conf W) "k_max" = Some kmax
    /\ c_int (w_conf W) "have_window" = Some w /\ s "window_size" = VF size
    /\ s "power_spectrum" = VSp pts /\ s "power_spectrum_norm" = VSp pts
    /\ hd_error pts = Some p0 /\ hd_error (rev pts) = Some p1
    /\ s "k_min" = VF (clamp_low kmin (fst p0)) /\ s "k_max" = VF (clamp_high kmax (fst p1))
    /\ s "k_min_norm" = s "k_min" /\ s "k_max_norm" = s "k_max"
    /\ ((pts = windowed_table W source w (VF size)
         /\ ((exists z s1, uses_class W z /\ w_spectrum W s1 = Some source
                /\ s1 "k_min" = VF kmin /\ s1 "k_max" = VF kmax
                /\ forall g, ~ In g derived_from_spectrum -> s1 g = s g)
             \/ ((forall z, ~ uses_class W z)
                 /\ exists name, c_string (w_conf W) "input_power_spectrum" = Some name /\ w_file W name = Some source)))
        \/ ((forall z, ~ uses_class W z) /\ pts = default_table W
            /\ exists name, c_string (w_conf W) "input_power_spectrum" = Some name /\ w_file W name = None)).
Proof.
  intros W s H. pose proof (parsed W s H) as R.
  destruct (C38_scalars W s H) as (I & _).
  destruct (I "have_window" "have_window") as (w & Cw & Sw); [apply (nth_error_In _ 13); reflexivity|].
  assert (P : forall s1, run (firstn 79 (program W)) (initial W) = Done s1 ->
     (forall g, touched (skipn 79 (program W)) g = false -> s1 g = s g) ->
     exists kmin kmax size, c_float (w_conf W) "k_min" = Some kmin /\ c_float (w_conf W) "k_max" = Some kmax
       /\ s1 "k_min" = VF kmin /\ s1 "k_max" = VF kmax /\ s1 "have_window" = VI w /\ s1 "window_size" = VF size
       /\ s "window_size" = VF size /\ s1 "power_spectrum" = VSp (default_table W)).
  { intros s1 R1 G.
    destruct (final_set _ 73 "k_min" _ _ _ R1 eq_refl eq_refl) as (a & _ & Ea & _). cbn beta in Ea.
    destruct (final_set _ 74 "k_max" _ _ _ R1 eq_refl eq_refl) as (b & _ & Eb & _). cbn beta in Eb.
    destruct (c_float (w_conf W) "k_min") as [kmin|]; [|discriminate]. destruct (c_float (w_conf W) "k_max") as [kmax|]; [|discriminate].
    apply done_inj in Ea, Eb.
    destruct (final_when _ 77 _ _ _ _ R1 eq_refl) as (c1 & bb & c2 & Rc & Cc & Bc & _ & C2).
    assert (S : exists size, c2 "window_size" = VF size).
    { destruct bb.
      - destruct (final_set _ 0 "window_size" _ _ _ Bc eq_refl eq_refl) as (c3 & _ & F & _). cbn beta in F.
        destruct (c_float (w_conf W) "window_size") as [x|]; [|discriminate]. apply done_inj in F. exists x. symmetry. exact F.
      - subst c2. exists (of_Z 0). rewrite (frame _ "window_size" _ _ Rc eq_refl). reflexivity. }
    destruct S as (size & S). rewrite (C2 "window_size" eq_refl) in S.
    exists kmin, kmax, size. rewrite <- (G "window_size" eq_refl), (G "have_window" eq_refl), (frame _ "power_spectrum" _ _ R1 eq_refl).
    repeat split; congruence || reflexivity. }
  assert (D : (exists z, uses_class W z) \/ forall z, ~ uses_class W z).
  { destruct (w_class W) eqn:C; [|right; intros z (X & _); congruence].
    destruct (c_int (w_conf W) "have_class") as [z|] eqn:Z; [|right; intros z (_ & X & _); congruence].
    destruct (Z.eq_dec z 0) as [->|NZ]; [right; intros z (_ & X & Y); rewrite Z in X; injection X as <-; exact (Y eq_refl)|].
    left. exists z. repeat split; assumption. }
  destruct D as [(z & U)|NU].
  - destruct (class_branch W s z H U) as (s1 & s2 & R1 & B & S1 & _ & R2).
    destruct (P s1 R1 S1) as (kmin & kmax & size & Ck & CK & Kk & KK & Hw & Sz & Sf & _).
    unfold class_settings in B. rewrite run_app in B. bd B s3 B0.
    assert (Q : s3 "k_min" = VF kmin /\ s3 "k_max" = VF kmax /\ s3 "have_window" = VI w /\ s3 "window_size" = VF size).
    { rewrite (frame _ "k_min" _ _ B0 eq_refl), (frame _ "k_max" _ _ B0 eq_refl), (frame _ "have_window" _ _ B0 eq_refl),
        (frame _ "window_size" _ _ B0 eq_refl). auto. }
    destruct Q as (Q1 & Q2 & Q3 & Q4).
    destruct (final_set _ 0 "class_pk" _ _ _ B eq_refl eq_refl) as (u0 & Ru0 & E0 & _). injection Ru0 as <-. cbn beta in E0.
    destruct (w_spectrum W s3) as [source|] eqn:SP; [|discriminate]. bd E0 q0 W0. apply done_inj in E0.
    apply (windowed_spec W s3 source q0 w size W0 Q3) in Q4. subst q0.
    destruct (final_set _ 2 "k_min" _ _ _ B eq_refl eq_refl) as (u2 & Ru2 & E2 & _). cbn beta in E2.
    destruct (final_set _ 4 "k_max" _ _ _ B eq_refl eq_refl) as (u4 & Ru4 & E4 & _). cbn beta in E4.
    destruct (final_set _ 5 "power_spectrum" _ _ _ B eq_refl eq_refl) as (u5 & Ru5 & E5 & _). cbn beta in E5.
    assert (L : forall n u, run (firstn (S n) (external_spectrum W)) s3 = Done u -> touched (skipn 1 (firstn (S n) (external_spectrum W))) "class_pk" = false ->
      u "class_pk" = VSp (windowed_table W source w (VF size))).
    { intros n u Ru T. destruct (final_set _ 0 "class_pk" _ _ _ Ru eq_refl T) as (v & Rv & Ev & _).
      cbn [firstn run] in Rv. apply done_inj in Rv. subst v. cbn beta in Ev. rewrite SP, W0 in Ev. cbn [bind] in Ev. apply done_inj in Ev.
      symmetry. exact Ev. }
    pose proof (L _ u2 Ru2 eq_refl) as L2. pose proof (L _ u4 Ru4 eq_refl) as L4. pose proof (L _ u5 Ru5 eq_refl) as L5.
    unfold getSp in E2, E4, E5. rewrite L2 in E2. rewrite L4 in E4. rewrite L5 in E5. cbn [bind] in E2, E4, E5.
    bd E5 m M. apply spline_done in E5. destruct E5 as [E5 NE].
    bd E2 k0 K0. bd E2 x X. apply getF_inv in X. rewrite (frame _ "k_min" _ _ Ru2 eq_refl), Q1 in X. injection X as <-.
    rewrite (frame _ "k_min" _ _ Ru2 eq_refl), Q1 in E2. apply done_inj in E2.
    bd E4 k1 K1. bd E4 x X. apply getF_inv in X. rewrite (frame _ "k_max" _ _ Ru4 eq_refl), Q2 in X. injection X as <-.
    rewrite (frame _ "k_max" _ _ Ru4 eq_refl), Q2 in E4. apply done_inj in E4.
    assert (E2' : s2 "k_min" = VF (clamp_low kmin k0)) by (rewrite <- E2; unfold clamp_low; destruct (fltb kmin k0); reflexivity).
    assert (E4' : s2 "k_max" = VF (clamp_high kmax k1)) by (rewrite <- E4; unfold clamp_high; destruct (fltb k1 kmax); reflexivity).
    destruct (k_end W s2 s _ _ R2 E2' E4') as (p0 & p1 & pts & A1 & A2 & A3 & A4 & A5 & A6 & A7 & A8 & A9).
    rewrite E5 in A1. injection A1 as <-.
    exists kmin, kmax, w, size, p0, p1, (windowed_table W source w (VF size)), source.
    repeat (split; [assumption|]).
    assert (C0 : fst p0 = k0).
    { unfold first_k in K0. destruct (windowed_table W source w (VF size)); [discriminate|]. injection A4 as ->. apply done_inj in K0. exact K0. }
    assert (C1 : fst p1 = k1).
    { unfold last_k in K1. destruct (rev (windowed_table W source w (VF size))); [discriminate|]. injection A5 as ->. apply done_inj in K1. exact K1. }
    rewrite C0 in *. rewrite C1 in *.
    split; [rewrite A6; f_equal; unfold clamp_low; destruct (fltb kmin k0) eqn:F; [destruct (fltb k0 k0); reflexivity|rewrite F; reflexivity]|].
    split; [rewrite A7; f_equal; unfold clamp_high; destruct (fltb k1 kmax) eqn:F; [destruct (fltb k1 k1); reflexivity|rewrite F; reflexivity]|].
    split; [exact A8|]. split; [exact A9|]. left. split; [reflexivity|]. left. exists z, s3.
    repeat (split; [assumption|]). intros g G. apply (not_derived W) in G. symmetry. apply (frame (external_spectrum W ++ skipn 81 (program W))); [|exact G].
    rewrite run_app, B. exact R2.
  - destruct (file_branch W s H NU) as (s1 & s2 & R1 & B & S1 & R2).
    destruct (P s1 R1 S1) as (kmin & kmax & size & Ck & CK & Kk & KK & Hw & Sz & Sf & PS).
    assert (Q1 : s2 "k_min" = VF kmin) by (rewrite (frame _ "k_min" _ _ B eq_refl); exact Kk).
    assert (Q2 : s2 "k_max" = VF kmax) by (rewrite (frame _ "k_max" _ _ B eq_refl); exact KK).
    destruct (k_end W s2 s _ _ R2 Q1 Q2) as (p0 & p1 & pts & A1 & A2 & A3 & A4 & A5 & A6 & A7 & A8 & A9).
    destruct (final_set _ 2 "power_spectrum" _ _ _ B eq_refl eq_refl) as (u & Ru & E & _). cbn beta in E.
    bd E name Nm. apply getS_inv in Nm. bd E m M.
    destruct (final_set _ 1 "file_power_spectrum" _ _ _ Ru eq_refl eq_refl) as (v & _ & Ev & _). cbn beta in Ev. rewrite Nm in Ev.
    destruct (c_string (w_conf W) "input_power_spectrum") as [nm|] eqn:CS; [|discriminate].
    destruct (Nat.ltb (String.length nm) 256); [|discriminate]. apply done_inj in Ev. injection Ev as ->.
    destruct (w_file W name) as [source|] eqn:WF.
    + bd E q Wq. apply spline_done in E. destruct E as [E _]. rewrite E in A1. injection A1 as <-.
      apply (windowed_spec W u source q w size) in Wq;
        [|rewrite (frame _ "have_window" _ _ Ru eq_refl); exact Hw|rewrite (frame _ "window_size" _ _ Ru eq_refl); exact Sz].
      subst q. exists kmin, kmax, w, size, p0, p1, (windowed_table W source w (VF size)), source.
      repeat (split; [assumption|]). left. split; [reflexivity|]. right. split; [exact NU|]. exists name. split; [reflexivity|exact WF].
    + apply done_inj in E. rewrite (frame _ "power_spectrum" _ _ Ru eq_refl), PS, A1 in E. injection E as <-.
      exists kmin, kmax, w, size, p0, p1, (default_table W), (default_table W).
      repeat (split; [assumption|]). right. split; [exact NU|]. split; [reflexivity|]. exists name. split; [reflexivity|exact WF].
Qed.
Print Assumptions C38_spectrum.

(** *** Biases *)
Definition bias_names : list string :=
  ["galaxy_bias1"; "galaxy_bias2"; "magnification_bias1"; "magnification_bias2"; "evolution_bias1"; "evolution_bias2"].

Lemma skip_one : forall A n (l : list A), skipn 1 (skipn n l) = skipn (S n) l.
Proof. induction n as [|n IH]; intros [|x l]; try reflexivity. cbn [skipn] in *. exact (IH l). Qed.
Lemma bias_of : forall W s n name flagname, run (program W) (initial W) = Done s ->
  nth_error (program W) n = nth_error (parse_bias W (append "input_" name) (append "file_" name) name name flagname) 0 ->
  nth_error (program W) (S n) = nth_error (parse_bias W (append "input_" name) (append "file_" name) name name flagname) 1 ->
  touched (skipn n (program W)) flagname = false -> touched (skipn (S (S n)) (program W)) name = false ->
  forall z, s flagname = VI z ->
  if z =? 1
  then exists file pts, c_string (w_conf W) (append "input_" name) = Some file /\ w_file W file = Some pts /\ s name = VSp pts
  else exists v, c_float (w_conf W) name = Some v /\ s name = VSp (constant_bias v).
Proof.
  intros W s n name fl R N0 N1 T0 T1 z Z. 
  match type of N0 with _ = ?r => let x := eval cbv beta iota delta [nth_error parse_bias] in r in change (nth_error (program W) n = x) in N0 end.
  match type of N1 with _ = ?r => let x := eval cbv beta iota delta [nth_error parse_bias] in r in change (nth_error (program W) (S n) = x) in N1 end.
  destruct (at_step _ _ _ _ _ R N0) as (s1 & s2 & R1 & E1 & R2).
  assert (G1 : s1 fl = s fl).
  { symmetry. apply (frame (skipn n (program W))); [|exact T0].
    rewrite <- (firstn_skipn n (program W)), run_app, R1 in R. exact R. }
  assert (N1' : nth_error (skipn (S n) (program W)) 0 = nth_error (program W) (S n)).
  { rewrite <- (firstn_skipn (S n) (program W)) at 2. rewrite nth_error_app2; rewrite firstn_length.
    - replace (S n - Nat.min (S n) (List.length (program W)))%nat with 0%nat; [reflexivity|].
      assert (S n < List.length (program W))%nat by (apply nth_error_Some; rewrite N1; discriminate). lia.
    - lia. }
  rewrite N1 in N1'. destruct (at_step _ _ _ _ _ R2 N1') as (s2' & s3 & R2' & E2 & R3). injection R2' as <-.
  assert (T1' : touched (skipn 1 (skipn (S n) (program W))) name = false) by (rewrite skip_one; exact T1).
  assert (G2 : s2 fl = s fl).
  { symmetry. apply (frame (skipn (S n) (program W))); [exact R2|].
    assert (Q : skipn n (program W) = match nth_error (program W) n with Some t => [t] | None => [] end ++ skipn (S n) (program W)).
    { clear. generalize (program W). induction n as [|n IH]; intros [|x l]; try reflexivity. cbn [skipn nth_error]. apply IH. }
    rewrite Q, touched_app in T0. apply orb_false_iff in T0. tauto. }
  rewrite run_when in E1, E2. unfold getI in E1, E2. rewrite G1, Z in E1. rewrite G2, Z in E2. cbn [bind] in E1, E2.
  rewrite (frame _ _ _ _ R3 T1').
  destruct (z =? 1); cbn [negb] in E2.
  - injection E2 as <-.
    destruct (final_set _ 1 name _ _ _ E1 eq_refl eq_refl) as (u & Ru & E & _). cbn beta in E.
    bd E file Fi. apply getS_inv in Fi. bd E m M.
    destruct (w_file W file) as [pts|] eqn:WF; [|discriminate]. apply spline_done in E. destruct E as [E _].
    destruct (final_set _ 0 (append "file_" name) _ _ _ Ru eq_refl eq_refl) as (v & _ & Ev & _). cbn beta in Ev. rewrite Fi in Ev.
    destruct (c_string (w_conf W) (append "input_" name)) as [nm|]; [|discriminate].
    destruct (Nat.ltb (String.length nm) 256); [|discriminate]. apply done_inj in Ev. injection Ev as ->.
    exists file, pts. repeat split; assumption.
  - injection E1 as <-.
    destruct (final_set _ 1 name _ _ _ E2 eq_refl eq_refl) as (u & Ru & E & _). cbn beta in E.
    bd E v V. apply getF_inv in V. bd E m M. apply spline_done in E. destruct E as [E _].
    destruct (final_set _ 0 "value" _ _ _ Ru eq_refl eq_refl) as (q & _ & Ev & _). cbn beta in Ev. rewrite V in Ev.
    destruct (c_float (w_conf W) name) as [x|]; [|discriminate]. apply done_inj in Ev. injection Ev as ->.
    exists v. split; [reflexivity|exact E].
Qed.

Theorem C38_biases : forall W s, parser_init W = Done s -> forall name, In name bias_names ->
  if match c_int (w_conf W) (append "read_" name) with Some z => z =? 1 | None => false end
  then exists file pts, c_string (w_conf W) (append "input_" name) = Some file /\ w_file W file = Some pts /\ s name = VSp pts
  else exists v, c_float (w_conf W) name = Some v
         /\ s name = VSp (map (fun i => (of_Z (Z.of_nat i), v)) (seq 0 11)).
Proof.
  intros W s H name I.
  assert (Z : In (append "read_" name) optional_settings) by (cbn in I |- *; intuition (subst; auto 20)).
  pose proof (C38_optional W s H _ Z) as F. apply parsed in H.
  assert (D : initial W (append "read_" name) = VI 0) by (cbn in I; intuition (subst; reflexivity)). rewrite D in F.
  assert (F' : exists z, s (append "read_" name) = VI z
     /\ (z =? 1) = match c_int (w_conf W) (append "read_" name) with Some z => z =? 1 | None => false end).
  { destruct (c_int (w_conf W) (append "read_" name)) as [z|]; [exists z|exists 0]; (split; [exact F|reflexivity]). }
  destruct F' as (z & Fz & <-).
  destruct I as [<-|[<-|[<-|[<-|[<-|[<-|[]]]]]]].
  - exact (bias_of W s 25 _ _ H eq_refl eq_refl eq_refl eq_refl z Fz).
  - exact (bias_of W s 29 _ _ H eq_refl eq_refl eq_refl eq_refl z Fz).
  - exact (bias_of W s 33 _ _ H eq_refl eq_refl eq_refl eq_refl z Fz).
  - exact (bias_of W s 37 _ _ H eq_refl eq_refl eq_refl eq_refl z Fz).
  - exact (bias_of W s 41 _ _ H eq_refl eq_refl eq_refl eq_refl z Fz).
  - exact (bias_of W s 45 _ _ H eq_refl eq_refl eq_refl eq_refl z Fz).
Qed.
Print Assumptions C38_biases.

(** *** Contributions *)
Fixpoint given_strings (l : list element) : list string :=
  match l with [] => [] | e :: r => match e_string e with Some t => t :: given_strings r | None => given_strings r end end.
Lemma all_strings_spec : forall l q, all_strings l = Done q -> q = given_strings l.
Proof.
  induction l as [|e r IH]; intros q H; cbn in *; [apply done_inj in H; auto|].
  destruct (e_string e); [|discriminate]. bd H p P. apply done_inj in H. subst q. rewrite (IH p P). reflexivity.
Qed.
Definition asked_contributions (K : conf) : list string :=
  match c_list K "correlation_contributions" with Some l => given_strings l | None => [] end.

Theorem C38_contributions : forall W s, parser_init W = Done s ->
  (forall c, In c ["den"; "rsd"; "len"; "d1"; "d2"; "g1"; "g2"; "g3"; "g4"; "g5"] ->
     (In c (asked_contributions (w_conf W)) -> s c = VI 1) /\ (~ In c (asked_contributions (w_conf W)) -> s c = VI 0))
  /\ s "divergent" = VI (if existsb (fun c => existsb (String.eqb c) (asked_contributions (w_conf W))) ["d2"; "g1"; "g2"; "g3"; "g4"; "g5"]
                         then 1 else 0).
Proof.
  intros W s H. apply parsed in H.
  assert (L : forall n s1, (52 <= n)%nat -> run (firstn n (program W)) (initial W) = Done s1 ->
     nth_error (firstn n (program W)) 51 = nth_error (program W) 51 ->
     touched (skipn 52 (firstn n (program W))) "correlation_contributions" = false ->
     s1 "correlation_contributions" = VSs (asked_contributions (w_conf W))).
  { intros n s1 Ln R1 N T. destruct (final_set _ 51 "correlation_contributions" _ _ _ R1 N T) as (u & Ru & E & _). cbn beta in E.
    unfold asked_contributions. destruct (c_list (w_conf W) "correlation_contributions") as [l|].
    - bd E q Q. apply all_strings_spec in Q. subst q. apply done_inj in E. symmetry. exact E.
    - apply done_inj in E. rewrite <- E. rewrite firstn_firstn in Ru. replace (Nat.min 51 n) with 51%nat in Ru by lia.
      destruct (final_set _ 50 "correlation_contributions" _ _ _ Ru eq_refl eq_refl) as (v & _ & Ev & _).
      apply done_inj in Ev. symmetry. exact Ev. }
  assert (C : forall c, In c ["den"; "rsd"; "len"; "d1"; "d2"; "g1"; "g2"; "g3"; "g4"; "g5"] ->
     s c = VI (if existsb (String.eqb c) (asked_contributions (w_conf W)) then 1 else 0)).
  { intros c I.
    assert (G : forall n, (52 <= n)%nat -> nth_error (program W) n = Some (Set_ c (fun s => do l <- getSs s "correlation_contributions";;
                    Done (VI (if existsb (String.eqb c) l then 1 else 0)))) ->
       nth_error (firstn n (program W)) 51 = nth_error (program W) 51 ->
       touched (skipn 52 (firstn n (program W))) "correlation_contributions" = false ->
       touched (skipn (S n) (program W)) c = false ->
       s c = VI (if existsb (String.eqb c) (asked_contributions (w_conf W)) then 1 else 0)).
    { intros n Ln N N2 T T2. destruct (final_set _ n c _ _ _ H N T2) as (u & Ru & E & _). cbn beta in E.
      unfold getSs in E. rewrite (L n u Ln Ru N2 T) in E. cbn [bind] in E. apply done_inj in E. symmetry. exact E. }
    repeat (destruct I as [<-|I]); [apply (G 52%nat)|apply (G 53%nat)|apply (G 54%nat)|apply (G 55%nat)|apply (G 56%nat)
      |apply (G 57%nat)|apply (G 58%nat)|apply (G 59%nat)|apply (G 60%nat)|apply (G 61%nat)|destruct I]; try reflexivity; lia. }
  split.
  - intros c I. rewrite (C c I). split; intros A.
    + replace (existsb (String.eqb c) (asked_contributions (w_conf W))) with true; [reflexivity|].
      symmetry. apply existsb_exists. exists c. split; [exact A|apply String.eqb_refl].
    + destruct (existsb (String.eqb c) (asked_contributions (w_conf W))) eqn:E; [|reflexivity].
      apply existsb_exists in E. destruct E as (x & X & Q). apply String.eqb_eq in Q. subst x. contradiction.
  - destruct (final_set _ 62 "divergent" _ _ _ H eq_refl eq_refl) as (u & Ru & E & G). cbn beta in E.
    unfold flag, getI in E.
    rewrite (G "d2" eq_refl), (G "g1" eq_refl), (G "g2" eq_refl), (G "g3" eq_refl), (G "g4" eq_refl), (G "g5" eq_refl) in E.
    rewrite (C "d2"), (C "g1"), (C "g2"), (C "g3"), (C "g4"), (C "g5") in E by (cbn; auto 20). cbn [bind] in E. apply done_inj in E.
    rewrite <- E. cbn [existsb]. rewrite (frame _ "divergent" _ _ Ru eq_refl).
    repeat match goal with |- context [existsb (String.eqb ?c) ?l] => destruct (existsb (String.eqb c) l) end; reflexivity.
Qed.
Print Assumptions C38_contributions.

(** *** Densities that follow from the closure relations *)
Theorem C38_densities : forall W s, parser_init W = Done s ->
  exists m b g nu, s "Omega0_m" = VF m /\ s "Omega0_baryon" = VF b /\ s "Omega0_gamma" = VF g /\ s "Omega0_nu" = VF nu
    /\ s "Omega0_de" = VF (fsub (of_Z 1) (fadd m g)) /\ s "Omega0_cdm" = VF (fsub (fsub m b) nu).
Proof.
  intros W s H. destruct (C38_scalars W s H) as (_ & I & _).
  destruct (I "omega_m" "Omega0_m") as (m & _ & M); [apply (nth_error_In _ 0); reflexivity|].
  destruct (I "omega_baryon" "Omega0_baryon") as (b & _ & B); [apply (nth_error_In _ 1); reflexivity|].
  destruct (I "omega_gamma" "Omega0_gamma") as (g & _ & G); [apply (nth_error_In _ 2); reflexivity|].
  assert (DE : s "Omega0_de" = VF (fsub (of_Z 1) (fadd m g))).
  { pose proof (parsed W s H) as R. destruct (final_set _ 8 "Omega0_de" _ _ _ R eq_refl eq_refl) as (u & _ & E & F). cbn beta in E.
    unfold getF in E. rewrite (F "Omega0_m" eq_refl), (F "Omega0_gamma" eq_refl), M, G in E. cbn [bind] in E. apply done_inj in E.
    symmetry. exact E. }
  assert (D : (exists z, uses_class W z) \/ forall z, ~ uses_class W z).
  { destruct (w_class W) eqn:C; [|right; intros z (X & _); congruence].
    destruct (c_int (w_conf W) "have_class") as [z|] eqn:Z; [|right; intros z (_ & X & _); congruence].
    destruct (Z.eq_dec z 0) as [->|NZ]; [right; intros z (_ & X & Y); rewrite Z in X; injection X as <-; exact (Y eq_refl)|].
    left. exists z. repeat split; assumption. }
  destruct D as [(z & U)|NU].
  - destruct (class_branch W s z H U) as (s1 & s2 & R1 & Bc & S1 & S2 & R2).
    destruct (final_set _ 15 "Omega0_cdm" _ _ _ Bc eq_refl eq_refl) as (u & _ & E & F). cbn beta in E.
    bd E m' M'. apply getF_inv in M'. bd E b' B'. apply getF_inv in B'. bd E n' N'. apply getF_inv in N'. apply done_inj in E.
    rewrite (F "Omega0_m" eq_refl), (S2 "Omega0_m" eq_refl), M in M'. injection M' as <-.
    rewrite (F "Omega0_baryon" eq_refl), (S2 "Omega0_baryon" eq_refl), B in B'. injection B' as <-.
    rewrite (F "Omega0_nu" eq_refl), (S2 "Omega0_nu" eq_refl) in N'.
    exists m, b, g, n'. repeat (split; [assumption|]). rewrite <- (S2 "Omega0_cdm" eq_refl). symmetry. exact E.
  - destruct (file_branch W s H NU) as (s1 & s2 & R1 & Bf & S1 & R2).
    destruct (final_set _ 0 "Omega0_cdm" _ _ _ Bf eq_refl eq_refl) as (u & Ru & E & F). injection Ru as <-. cbn beta in E.
    bd E m' M'. apply getF_inv in M'. bd E b' B'. apply getF_inv in B'. bd E n' N'. apply getF_inv in N'. apply done_inj in E.
    rewrite (S1 "Omega0_m" eq_refl), M in M'. injection M' as <-.
    rewrite (S1 "Omega0_baryon" eq_refl), B in B'. injection B' as <-.
    assert (X : s "Omega0_nu" = s1 "Omega0_nu").
    { rewrite (frame _ "Omega0_nu" _ _ R2 eq_refl). exact (frame _ "Omega0_nu" _ _ Bf eq_refl). }
    exists m, b, g, n'. repeat (split; [assumption|]). split; [congruence|]. split; [exact DE|].
    rewrite (frame _ "Omega0_cdm" _ _ R2 eq_refl). symmetry. exact E.
Qed.
Print Assumptions C38_densities.

(** ** C39: the separations *)
Lemma all_values_some : forall l, all_values (map Some l) = Done l.
Proof. induction l as [|x l IH]; [reflexivity|]. cbn. unfold all_values in IH. rewrite IH. reflexivity. Qed.

Lemma fill_range : forall (f : nat -> f64) n i (pre : list (option f64)), List.length pre = i ->
  for_from i n (fun j a => wr a j (Some (f j))) (pre ++ repeat None n) = Some (pre ++ map (fun j => Some (f j)) (seq i n)).
Proof.
  intros f. induction n as [|n IH]; intros i pre L; [reflexivity|]. cbn [repeat for_from seq map].
  assert (Q : wr (pre ++ None :: repeat None n) i (Some (f i)) = Some (pre ++ Some (f i) :: repeat None n)).
  { clear IH. generalize (Some (f i)) as v. intros v. revert pre L. induction i as [|i IHi]; intros [|x pre] L; try discriminate; [reflexivity|].
    cbn [app wr]. rewrite IHi by (injection L as L; exact L). reflexivity. }
  rewrite Q. change (Some (f i) :: repeat None n) with ([Some (f i)] ++ repeat None n). rewrite app_assoc.
  rewrite (IH (S i)); [|rewrite app_length; cbn; lia]. rewrite <- app_assoc. reflexivity.
Qed.
Lemma make_range_spec : forall a b n l, make_range a b n = Done l ->
  0 <= n /\ fleb b a = false /\ l = map (frange_value a b (Z.to_nat n)) (seq 0 (Z.to_nat n)).
Proof.
  intros a b n l H. unfold make_range in H. destruct (fleb b a) eqn:F; [discriminate|]. destruct (n <? 0) eqn:N; [discriminate|].
  apply Z.ltb_ge in N. split; [exact N|]. split; [reflexivity|]. unfold fgenerate_range in H. rewrite F in H. unfold for_, fresh in H.
  change (repeat None (Z.to_nat n)) with (@nil (option f64) ++ repeat None (Z.to_nat n)) in H.
  rewrite (fill_range (frange_value a b (Z.to_nat n)) (Z.to_nat n) 0 []) in H by reflexivity. cbn [app of_opt bind] in H.
  rewrite <- map_map, all_values_some in H. apply done_inj in H. symmetry. exact H.
Qed.

Theorem C39_sampling_partial : forall W s t, parser_init W = Done s -> c_int (w_conf W) "output_type" = Some t ->
  In t [1; 2; 3; 4] ->
  exists lo hi, c_float (w_conf W) "separations_min" = Some lo /\ c_float (w_conf W) "separations_max" = Some hi
    /\ fleb hi lo = false
    /\ ((exists n, c_int (w_conf W) "separations_sampling" = Some n /\ c_float (w_conf W) "separations_step" = None
         /\ s "sep" = VFs (map (frange_value lo hi (Z.to_nat n)) (seq 0 (Z.to_nat n))))
        \/ (exists x, c_float (w_conf W) "separations_step" = Some x /\ c_int (w_conf W) "separations_sampling" = None
         /\ s "sep" = VFs [])).
Proof.
  intros W s t H T I. pose proof (stored_type W s t H T) as O. apply parsed in H.
  destruct (on_type _ 14 _ _ _ _ t H eq_refl eq_refl O) as (s1 & s2 & R1 & _ & B & S2).
  replace (existsb (Z.eqb t) [1; 2; 3; 4]) with true in B by (destruct I as [<-|[<-|[<-|[<-|[]]]]]; reflexivity).
  rewrite <- (S2 "sep" eq_refl).
  destruct (final_set _ 10 "sep" _ _ _ B eq_refl eq_refl) as (u & Ru & E & _). cbn beta in E.
  bd E a A. apply getF_inv in A. bd E b Bb. apply getF_inv in Bb. bd E n Nn. apply getI_inv in Nn. bd E l L. apply done_inj in E.
  destruct (final_set _ 0 "xmin" _ _ _ Ru eq_refl eq_refl) as (u0 & _ & E0 & _). cbn beta in E0. rewrite A in E0.
  destruct (final_set _ 1 "xmax" _ _ _ Ru eq_refl eq_refl) as (u1 & _ & E1 & _). cbn beta in E1. rewrite Bb in E1.
  destruct (c_float (w_conf W) "separations_min") as [lo|]; [|discriminate]. apply done_inj in E0. injection E0 as ->.
  destruct (c_float (w_conf W) "separations_max") as [hi|]; [|discriminate]. apply done_inj in E1. injection E1 as ->.
  apply make_range_spec in L. destruct L as (N0 & F & ->). exists a, b. repeat (split; [reflexivity|]). split; [exact F|].
  destruct (final_set _ 4 "sampling" _ _ _ Ru eq_refl eq_refl) as (u4 & Ru4 & E4 & _). cbn beta in E4. rewrite Nn in E4.
  destruct (final_set _ 3 "sampling" _ _ _ Ru4 eq_refl eq_refl) as (u3 & _ & E3 & _). apply done_inj in E3.
  destruct (final_stop _ 8 _ _ _ Ru eq_refl) as (u8 & Ru8 & E8 & _). cbn beta in E8.
  destruct (final_stop _ 9 _ _ _ Ru eq_refl) as (u9 & Ru9 & E9 & _). cbn beta in E9.
  bd E8 x X. bd E8 y Y. apply getI_inv in X, Y. bd E9 x9 X9. bd E9 y9 Y9. apply getI_inv in X9, Y9.
  destruct (final_set _ 5 "error1" _ _ _ Ru8 eq_refl eq_refl) as (v & _ & V & _). apply done_inj in V. rewrite X in V. injection V as V.
  destruct (final_set _ 7 "error2" _ _ _ Ru8 eq_refl eq_refl) as (v' & _ & V' & _). apply done_inj in V'. rewrite Y in V'. injection V' as V'.
  destruct (final_set _ 5 "error1" _ _ _ Ru9 eq_refl eq_refl) as (v9 & _ & V9 & _). apply done_inj in V9. rewrite X9 in V9. injection V9 as V9.
  destruct (final_set _ 7 "error2" _ _ _ Ru9 eq_refl eq_refl) as (v9' & _ & V9' & _). apply done_inj in V9'. rewrite Y9 in V9'. injection V9' as V9'.
  apply done_inj in E8, E9.
  destruct (c_int (w_conf W) "separations_sampling") as [k|]; destruct (c_float (w_conf W) "separations_step") as [st|];
    subst x y x9 y9; try discriminate.
  - left. apply done_inj in E4. injection E4 as ->. exists n. repeat split. symmetry. exact E.
  - right. exists st. apply done_inj in E4. rewrite <- E3 in E4. injection E4 as <-. repeat split. symmetry. exact E.
Qed.
Print Assumptions C39_sampling_partial.

(** The values of the range in exact arithmetic are min, min + step, ... below max
    (see C29 for [frange_value] against the real values). *)
Theorem C39_step_refuted : forall W s t x, parser_init W = Done s -> c_int (w_conf W) "output_type" = Some t ->
  In t [1; 2; 3; 4] -> c_float (w_conf W) "separations_step" = Some x -> s "sep" = VFs [].
Proof.
  intros W s t x H T I X. destruct (C39_sampling_partial W s t H T I) as (lo & hi & _ & _ & _ & [(n & _ & N & _)|(y & _ & _ & S)]);
    [congruence|exact S].
Qed.
Print Assumptions C39_step_refuted.

(** For the redshift-averaged covariance the separations of the file are ignored. *)
Theorem C39_average_covariance_refuted : forall W s, parser_init W = Done s -> c_int (w_conf W) "output_type" = Some 5 ->
  s "sep" = VFs (map (frange_value (of_Z 5) (of_Z 305) 100) (seq 0 100)).
Proof.
  intros W s H T. pose proof (stored_type W s 5 H T) as O. apply parsed in H.
  destruct (on_type _ 14 _ _ _ _ 5 H eq_refl eq_refl O) as (s1 & s2 & R1 & _ & B & S2). cbn [existsb Z.eqb Pos.eqb orb] in B. subst s2.
  rewrite <- (S2 "sep" eq_refl). exact (frame _ "sep" _ _ R1 eq_refl).
Qed.
Print Assumptions C39_average_covariance_refuted.

(** ** Concrete settings files *)
Inductive setting := GInt (z : Z) | GFloat (x : f64) | GString (t : string) | GList (l : list element).
Fixpoint look (l : list (string * setting)) (k : string) : option setting :=
  match l with [] => None | (n, v) :: r => if String.eqb n k then Some v else look r k end.
(** Automatic conversion from integers to doubles. *)
Definition conf_of (l : list (string * setting)) : conf :=
  mkConf true
    (fun k => match look l k with Some (GInt z) => Some z | _ => None end)
    (fun k => match look l k with Some (GInt z) => Some (of_Z z) | Some (GFloat x) => Some x | _ => None end)
    (fun k => match look l k with Some (GString t) => Some t | _ => None end)
    (fun k => match look l k with Some (GList q) => Some q | _ => None end).
Definition num (n d : Z) : element := mkE 0 (lit n d) None.
Definition whole (z : Z) : element := mkE z (of_Z z) None.
Definition word (t : string) : element := mkE 0 (of_Z 0) (Some t).
Definition small_table : list (f64 * f64) :=
  map (fun i => (of_Z (Z.of_nat i), of_Z 1)) (seq 1 8).
Definition basic : list (string * setting) :=
  [("verbose", GInt 0); ("output_type", GInt 2); ("output_background", GList [word "z"; word "a"]);
   ("background_sampling", GInt 1000); ("omega_m", GFloat (lit 3 10)); ("omega_baryon", GFloat (lit 5 100));
   ("omega_gamma", GFloat (lit 9 100000)); ("z_mean", GList [num 1 2; num 1 1]); ("interpolation", GInt 5);
   ("multipoles", GList [whole 0; whole 2]); ("separations_min", GFloat (of_Z 10)); ("separations_max", GFloat (of_Z 50));
   ("bessel_sampling", GInt 1000); ("integration_method", GInt 2); ("integration_sampling", GInt 1000);
   ("covariance_integration_method", GInt 1); ("w0", GInt (-1)); ("wa", GInt 0);
   ("galaxy_bias1", GFloat (lit 3 2)); ("galaxy_bias2", GInt 2); ("magnification_bias1", GInt 0); ("magnification_bias2", GInt 0);
   ("evolution_bias1", GInt 0); ("evolution_bias2", GInt 0); ("density1", GList [num 1 1000; num 1 500]);
   ("density2", GList [num 1 1000; num 1 500]); ("fsky", GList [num 1 2; num 1 2]); ("covariance_window", GInt 0);
   ("zmin", GList [num 1 2; num 1 1]); ("zmax", GList [num 6 10; num 11 10]);
   ("correlation_contributions", GList [word "den"; word "rsd"; word "g4"]); ("output_path", GString "results/");
   ("output_prefix", GString "run_"); ("flatsky_local", GInt 0); ("flatsky_local_nonlocal", GInt 0); ("flatsky_nonlocal", GInt 0);
   ("b_derivative", GInt 0); ("f_derivative", GInt 0); ("b_tilde_derivative", GInt 0); ("f_tilde_derivative", GInt 0);
   ("k_min", GFloat (lit 1 100)); ("k_max", GFloat (of_Z 5)); ("have_window", GInt 0); ("only_cross_correlations", GInt 0);
   ("have_class", GInt 0); ("input_power_spectrum", GString "pk.dat")].
Definition with_settings (l : list (string * setting)) : world :=
  mkWorld true false (conf_of (l ++ basic)) (fun n => if String.eqb n "pk.dat" then Some small_table else None)
    small_table (fun x => x) (fun _ => None).
Definition value_of (r : res store) (f : string) : option value := match r with Done s => Some (s f) | _ => None end.
Lemma value_of_done : forall r f v, value_of r f = Some v -> exists s, r = Done s /\ s f = v.
Proof. intros [s| |] f v H; try discriminate. injection H as H. exists s. split; [reflexivity|exact H]. Qed.

Example C38_nonvacuous : exists s,
  parser_init (with_settings [("separations_sampling", GInt 4); ("have_window", GInt 1); ("window_size", GInt 5)]) = Done s
  /\ s "sep" = VFs [of_Z 10; of_Z 20; of_Z 30; of_Z 40] /\ s "k_min" = VF (of_Z 1).
Proof.
  set (W := with_settings _).
  destruct (value_of_done (parser_init W) "sep" (VFs [of_Z 10; of_Z 20; of_Z 30; of_Z 40]) ltac:(vm_compute; reflexivity)) as (s & E & A).
  exists s. split; [exact E|]. split; [exact A|].
  destruct (value_of_done (parser_init W) "k_min" (VF (of_Z 1)) ltac:(vm_compute; reflexivity)) as (s' & E' & A').
  rewrite E in E'. injection E' as <-. exact A'.
Qed.
Example C38_class_nonvacuous : exists s W, uses_class W 1 /\ parser_init W = Done s
  /\ s "A_s" = VF (lit 2 1000000000) /\ s "power_spectrum" = VSp small_table.
Proof.
  set (V := with_settings [("separations_sampling", GInt 4); ("have_class", GInt 1); ("pk_type", GInt 0); ("h", GFloat (lit 67 100));
    ("A_s", GFloat (lit 2 1000000000)); ("n_s", GInt 1); ("k_pivot", GFloat (lit 5 100))]).
  set (W := mkWorld true false (w_conf V) (w_file V) (w_table V) (w_window V) (fun _ => Some small_table)).
  destruct (value_of_done (parser_init W) "A_s" (VF (lit 2 1000000000)) ltac:(vm_compute; reflexivity)) as (s & E & A).
  exists s, W. split; [repeat split; discriminate|]. split; [exact E|]. split; [exact A|].
  destruct (value_of_done (parser_init W) "power_spectrum" (VSp small_table) ltac:(vm_compute; reflexivity)) as (s' & E' & A').
  rewrite E in E'. injection E' as <-. exact A'.
Qed.
Example C39_step_nonvacuous : exists s,
  parser_init (with_settings [("separations_step", GInt 10)]) = Done s /\ s "sep" = VFs [].
Proof. apply value_of_done. vm_compute. reflexivity. Qed.
Example C39_average_covariance_nonvacuous : exists s,
  parser_init (with_settings [("output_type", GInt 5); ("separations_sampling", GInt 4)]) = Done s /\ s "output_type" = VI 5.
Proof. apply value_of_done. vm_compute. reflexivity. Qed.

(** The test on the derivative options adds them up. *)
Theorem C38_derivatives_refuted : exists W s, parser_init W = Done s
  /\ s "b_derivative" = VI 1 /\ s "f_derivative" = VI 1 /\ s "b_tilde_derivative" = VI (-1).
Proof.
  exists (with_settings [("separations_sampling", GInt 4); ("b_derivative", GInt 1); ("f_derivative", GInt 1); ("b_tilde_derivative", GInt (-1))]).
  set (W := with_settings _).
  destruct (value_of_done (parser_init W) "b_derivative" (VI 1) ltac:(vm_compute; reflexivity)) as (s & E & A).
  exists s. split; [exact E|]. split; [exact A|].
  destruct (value_of_done (parser_init W) "f_derivative" (VI 1) ltac:(vm_compute; reflexivity)) as (s' & E' & A').
  destruct (value_of_done (parser_init W) "b_tilde_derivative" (VI (-1)) ltac:(vm_compute; reflexivity)) as (s2 & E2 & A2).
  rewrite E in E', E2. injection E' as <-. injection E2 as <-. split; assumption.
Qed.
Print Assumptions C38_derivatives_refuted.

(** The pixel sizes are not compared for the redshift-averaged covariance. *)
Theorem C38_pixelsize_refuted : exists W s, parser_init W = Done s /\ s "output_type" = VI 5
  /\ (exists l, s "density1" = VFs l /\ List.length l = 2%nat) /\ (exists l, s "pixelsize" = VFs l /\ List.length l = 1%nat).
Proof.
  exists (with_settings [("output_type", GInt 5)]). set (W := with_settings _).
  destruct (value_of_done (parser_init W) "output_type" (VI 5) ltac:(vm_compute; reflexivity)) as (s & E & A).
  exists s. split; [exact E|]. split; [exact A|]. split.
  - destruct (value_of_done (parser_init W) "density1" (VFs [lit 1 1000; lit 1 500]) ltac:(vm_compute; reflexivity)) as (s' & E' & A').
    rewrite E in E'. injection E' as <-. eexists. split; [exact A'|reflexivity].
  - destruct (value_of_done (parser_init W) "pixelsize" (VFs [of_Z 10]) ltac:(vm_compute; reflexivity)) as (s' & E' & A').
    rewrite E in E'. injection E' as <-. eexists. split; [exact A'|reflexivity].
Qed.
Print Assumptions C38_pixelsize_refuted.

(** A missing text setting is copied from an uninitialised pointer instead of
    being reported; a missing list is replaced by the default. *)
Definition without (k : string) (K : conf) : conf :=
  mkConf (c_readable K) (fun n => if String.eqb n k then None else c_int K n)
    (fun n => if String.eqb n k then None else c_float K n) (fun n => if String.eqb n k then None else c_string K n)
    (fun n => if String.eqb n k then None else c_list K n).
Definition world_without (k : string) (W : world) : world :=
  mkWorld (w_class W) (w_cuba W) (without k (w_conf W)) (w_file W) (w_table W) (w_window W) (w_spectrum W).
Theorem C38_missing_text_refuted :
  parser_init (world_without "output_path" (with_settings [("separations_sampling", GInt 4)])) = Undefined.
Proof. vm_compute. reflexivity. Qed.
Theorem C38_missing_list_refuted : exists s,
  parser_init (world_without "z_mean" (with_settings [("separations_sampling", GInt 4)])) = Done s /\ s "z_mean" = VFs [].
Proof. apply value_of_done. vm_compute. reflexivity. Qed.
