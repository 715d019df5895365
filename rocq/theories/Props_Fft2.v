(** * The two-dimensional transform of the covariance: C42, and why C23 fails with FFTlog *)
From Coq Require Import ZArith Reals List Lia Lra Bool Arith.
From Coquelicot Require Import Coquelicot.
From Coq Require Import List.
From Verif Require Import Arrays Numeric Fft Props_Fft.
Import ListNotations.
Open Scope nat_scope.

(** ** Loops over the elements of a matrix *)
Lemma rfor_app : forall I S (l1 l2 : list I) (body : I -> S -> res S) s,
  rfor_list (l1 ++ l2) body s = rbind (rfor_list l1 body s) (rfor_list l2 body).
Proof.
  induction l1 as [|x r IH]; intros l2 body s; [reflexivity|]. cbn [app rfor_list].
  destruct (body x s); cbn [rbind]; [apply IH|reflexivity|reflexivity].
Qed.
Lemma rfor_map : forall I J S (f : I -> J) (l : list I) (body : J -> S -> res S) s,
  rfor_list (map f l) body s = rfor_list l (fun x => body (f x)) s.
Proof.
  induction l as [|x r IH]; intros body s; [reflexivity|]. cbn [map rfor_list].
  destruct (body (f x) s); cbn [rbind]; [apply IH|reflexivity|reflexivity].
Qed.
Lemma rfor_nest : forall I J S (l : list I) (r : list J) (body : I -> J -> S -> res S) s,
  rfor_list l (fun x s => rfor_list r (body x) s) s = rfor_list (list_prod l r) (fun xy => body (fst xy) (snd xy)) s.
Proof.
  induction l as [|x t IH]; intros r body s; [reflexivity|]. cbn [list_prod rfor_list].
  rewrite rfor_app, rfor_map. cbn [fst snd].
  destruct (rfor_list r (body x) s); cbn [rbind]; [apply IH|reflexivity|reflexivity].
Qed.
Lemma rfor_ext : forall I S (l : list I) (b1 b2 : I -> S -> res S) s,
  (forall x s, In x l -> b1 x s = b2 x s) -> rfor_list l b1 s = rfor_list l b2 s.
Proof.
  induction l as [|x r IH]; intros b1 b2 s H; [reflexivity|]. cbn [rfor_list]. rewrite (H x s (or_introl eq_refl)).
  destruct (b2 x s); cbn [rbind]; try reflexivity. apply IH. intros y t Hy. apply H. right. exact Hy.
Qed.
Lemma NoDup_map_in : forall A B (f : A -> B) l, NoDup l -> (forall x y, In x l -> In y l -> f x = f y -> x = y) -> NoDup (map f l).
Proof.
  induction l as [|x r IH]; intros N H; [constructor|]. inversion N; subst. cbn. constructor.
  - intros I. apply in_map_iff in I. destruct I as (y & E & Hy). assert (y = x) by (apply H; [right; exact Hy|left; reflexivity|exact E]).
    subst. contradiction.
  - apply IH; [assumption|]. intros a b Ha Hb. apply H; right; assumption.
Qed.
Lemma NoDup_app_intro : forall A (l r : list A), NoDup l -> NoDup r -> (forall x, In x l -> ~ In x r) -> NoDup (l ++ r).
Proof.
  induction l as [|x t IH]; intros r Nl Nr D; [exact Nr|]. inversion Nl; subst. cbn. constructor.
  - rewrite in_app_iff. intros [I|I]; [contradiction|]. exact (D x (or_introl eq_refl) I).
  - apply IH; try assumption. intros y Hy. apply D. right. exact Hy.
Qed.
Lemma NoDup_prod : forall A B (l : list A) (r : list B), NoDup l -> NoDup r -> NoDup (list_prod l r).
Proof.
  induction l as [|x t IH]; intros r Nl Nr; [constructor|]. inversion Nl; subst. cbn [list_prod].
  apply NoDup_app_intro.
  - apply NoDup_map_in; [exact Nr|]. intros a b _ _ E. injection E. auto.
  - apply IH; assumption.
  - intros [a b] Ha Hb. apply in_map_iff in Ha. destruct Ha as (c & E & _). injection E as <- <-.
    apply in_prod_iff in Hb. tauto.
Qed.

Lemma modify_ok : forall o i j f, i < m_rows o -> j < m_cols o ->
  exists o', modify o (Z.of_nat i) (Z.of_nat j) f = Done o' /\ m_rows o' = m_rows o /\ m_cols o' = m_cols o
    /\ m_at o' i j = f (m_at o i j) /\ forall a b, (a, b) <> (i, j) -> m_at o' a b = m_at o a b.
Proof.
  intros o i j f Hi Hj. unfold modify.
  assert (E : ((0 <=? Z.of_nat i) && (Z.of_nat i <? Z.of_nat (m_rows o)) && (0 <=? Z.of_nat j) && (Z.of_nat j <? Z.of_nat (m_cols o)))%Z%bool = true).
  { rewrite !andb_true_iff, !Z.leb_le, !Z.ltb_lt. lia. }
  rewrite E. eexists. split; [reflexivity|]. cbn [m_rows m_cols m_at]. rewrite !Nat2Z.id, !Nat.eqb_refl. cbn [andb].
  split; [reflexivity|]. split; [reflexivity|]. split; [reflexivity|].
  intros a b N. destruct (Nat.eqb_spec a i) as [->|]; [|reflexivity]. destruct (Nat.eqb_spec b j) as [->|]; [|reflexivity]. congruence.
Qed.
Lemma mods : forall T (cell : T -> nat * nat) (F : T -> xc -> xc) (l : list T) body o,
  NoDup (map cell l) -> (forall t, In t l -> fst (cell t) < m_rows o /\ snd (cell t) < m_cols o) ->
  (forall t o, In t l -> body t o = modify o (Z.of_nat (fst (cell t))) (Z.of_nat (snd (cell t))) (F t)) ->
  exists o', rfor_list l body o = Done o' /\ m_rows o' = m_rows o /\ m_cols o' = m_cols o
    /\ (forall t, In t l -> m_at o' (fst (cell t)) (snd (cell t)) = F t (m_at o (fst (cell t)) (snd (cell t))))
    /\ (forall a b, ~ In (a, b) (map cell l) -> m_at o' a b = m_at o a b).
Proof.
  intros T cell F. induction l as [|t r IH]; intros body o N B H.
  - exists o. repeat split; try reflexivity. intros t [].
  - cbn [rfor_list]. rewrite H by (left; reflexivity).
    destruct (B t (or_introl eq_refl)) as [B1 B2].
    destruct (modify_ok o (fst (cell t)) (snd (cell t)) (F t) B1 B2) as (o1 & E1 & R1 & C1 & A1 & O1). rewrite E1. cbn [rbind].
    cbn [map] in N. inversion N as [|? ? Nt Nr]; subst.
    destruct (IH body o1 Nr) as (o2 & E2 & R2 & C2 & A2 & O2).
    + intros u Hu. rewrite R1, C1. apply B. right. exact Hu.
    + intros u p Hu. apply H. right. exact Hu.
    + exists o2. split; [exact E2|]. split; [congruence|]. split; [congruence|]. split.
      * intros u [->|Hu].
        -- rewrite O2 by (rewrite <- surjective_pairing; exact Nt). exact A1.
        -- rewrite A2 by exact Hu. rewrite O1; [reflexivity|]. rewrite <- !surjective_pairing. intros E. apply Nt. rewrite <- E.
           apply in_map. exact Hu.
      * intros a b Hab. cbn [map In] in Hab. rewrite O2 by tauto. apply O1. rewrite <- surjective_pairing. intros E. apply Hab. left. congruence.
Qed.

(** ** The window *)
Definition col_window (half : nat) (j : nat) (z : xc) : xc :=
  if half - half / 4 <=? j then xmul z (edge (half / 4) (half - j)) else z.
Definition row_window (half : nat) (i : nat) (z : xc) : xc :=
  if i <=? half then (if half - half / 4 <=? i then xmul z (edge (half / 4) (half - i)) else z)
  else if i <=? half + 1 + half / 4 then xmul z (edge (half / 4) (i - half - 1)) else z.
Lemma quarter : forall n, n / 4 <= n /\ (2 <= n -> n / 4 + 2 <= n).
Proof.
  intros n. pose proof (Nat.div_mod_eq n 4). pose proof (Nat.mod_upper_bound n 4 ltac:(lia)). split; [lia|]. intros.
  destruct (Nat.lt_ge_cases n 4); lia.
Qed.
Lemma c_window_ok : forall o half1 half2, m_rows o = 2 * half1 -> m_cols o = half2 + 1 -> 2 <= half1 ->
  exists o', c_window_2d o half1 half2 = Done o' /\ m_rows o' = m_rows o /\ m_cols o' = m_cols o
    /\ forall i j, i < 2 * half1 -> j <= half2 -> m_at o' i j = row_window half1 i (col_window half2 j (m_at o i j)).
Proof.
  intros o half1 half2 Ro Co H1. unfold c_window_2d.
  pose proof (quarter half1) as [Q1 Q1']. specialize (Q1' H1). pose proof (quarter half2) as [Q2 _].
  set (cut1 := half1 / 4) in *. set (cut2 := half2 / 4) in *.
  rewrite (rfor_nest nat nat mat (seq 0 (cut2 + 1)) (seq 0 (2 * half1))
             (fun j i o => modify o (Z.of_nat i) (Z.of_nat half2 - Z.of_nat j) (fun z => xmul z (edge cut2 j))) o).
  destruct (mods (nat * nat) (fun ji => (snd ji, half2 - fst ji)) (fun ji z => xmul z (edge cut2 (fst ji)))
              (list_prod (seq 0 (cut2 + 1)) (seq 0 (2 * half1)))
              (fun ji o => modify o (Z.of_nat (snd ji)) (Z.of_nat half2 - Z.of_nat (fst ji)) (fun z => xmul z (edge cut2 (fst ji)))) o)
    as (o1 & E1 & R1 & C1 & A1 & O1).
  { apply NoDup_map_in; [apply NoDup_prod; apply seq_NoDup|]. intros [j i] [j' i'] Hx Hy E. cbn [fst snd] in E.
    apply in_prod_iff in Hx, Hy. rewrite !in_seq in Hx, Hy. injection E as E1 E2. f_equal; lia. }
  { intros [j i] Hx. apply in_prod_iff in Hx. rewrite !in_seq in Hx. cbn [fst snd]. lia. }
  { intros [j i] p Hx. apply in_prod_iff in Hx. rewrite !in_seq in Hx. cbn [fst snd]. f_equal. lia. }
  rewrite E1. cbn [rbind].
  assert (Eq : rfor_list (seq 0 (cut1 + 1)) (fun i o => rfor_list (seq 0 (half2 + 1)) (fun j o =>
        let! o' := modify o (Z.of_nat half1 - Z.of_nat i) (Z.of_nat j) (fun z => xmul z (edge cut1 i)) in
        modify o' (Z.of_nat half1 + 1 + Z.of_nat i) (Z.of_nat j) (fun z => xmul z (edge cut1 i))) o) o1
    = rfor_list (list_prod (list_prod (seq 0 (cut1 + 1)) (seq 0 (half2 + 1))) [false; true])
        (fun t o => modify o (Z.of_nat (if snd t then half1 + 1 + fst (fst t) else half1 - fst (fst t))) (Z.of_nat (snd (fst t)))
                       (fun z => xmul z (edge cut1 (fst (fst t))))) o1).
  { rewrite <- (rfor_nest (nat * nat) bool mat (list_prod (seq 0 (cut1 + 1)) (seq 0 (half2 + 1))) [false; true]
        (fun ij s o => modify o (Z.of_nat (if (s : bool) then half1 + 1 + fst ij else half1 - fst ij)) (Z.of_nat (snd ij))
                       (fun z => xmul z (edge cut1 (fst ij)))) o1).
    rewrite (rfor_nest nat nat mat (seq 0 (cut1 + 1)) (seq 0 (half2 + 1)) (fun i j o =>
        let! o' := modify o (Z.of_nat half1 - Z.of_nat i) (Z.of_nat j) (fun z => xmul z (edge cut1 i)) in
        modify o' (Z.of_nat half1 + 1 + Z.of_nat i) (Z.of_nat j) (fun z => xmul z (edge cut1 i))) o1).
    apply rfor_ext. intros [i j] p Hx. apply in_prod_iff in Hx. rewrite !in_seq in Hx. cbn [rfor_list fst snd].
    replace (Z.of_nat (half1 - i)) with (Z.of_nat half1 - Z.of_nat i)%Z by lia.
    replace (Z.of_nat (half1 + 1 + i)) with (Z.of_nat half1 + 1 + Z.of_nat i)%Z by lia.
    destruct (modify p _ _ _); cbn [rbind]; try reflexivity. rewrite rbind_done. reflexivity. }
  rewrite Eq. clear Eq.
  destruct (mods (nat * nat * bool) (fun t => (if snd t then half1 + 1 + fst (fst t) else half1 - fst (fst t), snd (fst t)))
              (fun t z => xmul z (edge cut1 (fst (fst t))))
              (list_prod (list_prod (seq 0 (cut1 + 1)) (seq 0 (half2 + 1))) [false; true])
              (fun t o => modify o (Z.of_nat (if snd t then half1 + 1 + fst (fst t) else half1 - fst (fst t))) (Z.of_nat (snd (fst t)))
                       (fun z => xmul z (edge cut1 (fst (fst t))))) o1)
    as (o2 & E2 & R2 & C2 & A2 & O2).
  { apply NoDup_map_in.
    - apply NoDup_prod; [apply NoDup_prod; apply seq_NoDup|]. repeat constructor; cbn; intuition congruence.
    - intros [[i j] s] [[i' j'] s'] Hx Hy E. apply in_prod_iff in Hx, Hy. rewrite !in_prod_iff, !in_seq in Hx, Hy.
      cbn [fst snd] in E. injection E as E1' E2'. assert (s = s') by (destruct s, s'; [reflexivity|lia|lia|reflexivity]). subst s'.
      assert (i = i') by (destruct s; lia). congruence. }
  { intros [[i j] s] Hx. rewrite !in_prod_iff, !in_seq in Hx. cbn [fst snd]. rewrite R1, C1, Ro, Co. destruct s; lia. }
  { intros [[i j] s] p Hx. reflexivity. }
  exists o2. split; [exact E2|]. split; [congruence|]. split; [congruence|].
  intros i j Hi Hj.
  assert (Col : m_at o1 i j = col_window half2 j (m_at o i j)).
  { unfold col_window. fold cut2. destruct (Nat.leb_spec (half2 - cut2) j) as [L|L].
    - pose proof (A1 (half2 - j, i)) as A. cbn [fst snd] in A. replace (half2 - (half2 - j)) with j in A by lia.
      apply A. apply in_prod_iff. rewrite !in_seq. lia.
    - apply O1. intros I. apply in_map_iff in I. destruct I as ([j' i'] & E & Hx). apply in_prod_iff in Hx. rewrite !in_seq in Hx.
      cbn [fst snd] in E. injection E as -> E. lia. }
  rewrite <- Col. unfold row_window. fold cut1. destruct (Nat.leb_spec i half1) as [L|L].
  - destruct (Nat.leb_spec (half1 - cut1) i) as [L'|L'].
    + pose proof (A2 ((half1 - i, j), false)) as A. cbn [fst snd] in A. replace (half1 - (half1 - i)) with i in A by lia.
      apply A. rewrite !in_prod_iff, !in_seq. split; [lia|]. cbn; auto.
    + apply O2. intros I. apply in_map_iff in I. destruct I as ([[i' j'] s] & E & Hx). rewrite !in_prod_iff, !in_seq in Hx.
      cbn [fst snd] in E. injection E as E <-. destruct s; lia.
  - destruct (Nat.leb_spec i (half1 + 1 + cut1)) as [L'|L'].
    + pose proof (A2 ((i - half1 - 1, j), true)) as A. cbn [fst snd] in A. replace (half1 + 1 + (i - half1 - 1)) with i in A by lia.
      apply A. rewrite !in_prod_iff, !in_seq. split; [lia|]. cbn; auto.
    + apply O2. intros I. apply in_map_iff in I. destruct I as ([[i' j'] s] & E & Hx). rewrite !in_prod_iff, !in_seq in Hx.
      cbn [fst snd] in E. injection E as E <-. destruct s; lia.
Qed.

(** ** The transform *)
Lemma rsum_ext : forall n f g, (forall k, k < n -> f k = g k) -> rsum n f = rsum n g.
Proof.
  intros n f g H. unfold rsum. f_equal. apply map_ext_in. intros k Hk. apply H. apply in_seq in Hk. lia.
Qed.
Lemma forallb_ext_in' : forall A (f g : A -> bool) l, (forall x, In x l -> f x = g x) -> forallb f l = forallb g l.
Proof.
  induction l as [|x r IH]; intros H; [reflexivity|]. cbn. rewrite (H x (or_introl eq_refl)), IH; [reflexivity|].
  intros y Hy. apply H. right. exact Hy.
Qed.
Lemma c2r_2d_ext : forall N1 N2 F G a b, (forall i j, i < N1 -> j <= N2 / 2 -> F i j = G i j) ->
  c2r_2d N1 N2 F a b = c2r_2d N1 N2 G a b.
Proof.
  intros N1 N2 F G a b H. unfold c2r_2d.
  assert (E : forallb (fun ij => match F (fst ij) (snd ij) with Some _ => true | None => false end) (list_prod (seq 0 N1) (seq 0 (N2 / 2 + 1)))
            = forallb (fun ij => match G (fst ij) (snd ij) with Some _ => true | None => false end) (list_prod (seq 0 N1) (seq 0 (N2 / 2 + 1)))).
  { apply forallb_ext_in'. intros [i j] Hx. apply in_prod_iff in Hx. rewrite !in_seq in Hx. cbn [fst snd]. rewrite H by lia. reflexivity. }
  rewrite E. clear E. destruct (forallb _ _); [|reflexivity]. f_equal. apply rsum_ext. intros j Hj. f_equal. apply rsum_ext. intros i Hi.
  rewrite H by lia. reflexivity.
Qed.

(** Frequency number i of the samples [ks], and the factor that multiplies it. *)
Definition eta (ks : list R) (N i : nat) : R := (2 * PI / ln (nth 1 ks 0 / nth 0 ks 0) / INR N * INR i)%R.
Definition phase (ks : list R) (N i : nat) : R := (eta ks N i * ln (nth 0 ks 0 * (1 / nth (N - 1) ks 0)))%R.
Definition factor (g : kernel) (l : Z) (nu : R) (ks : list R) (N i : nat) : C :=
  if i <=? N / 2 then Cmult (cis (- phase ks N i)) (g l nu (eta ks N i))
  else Cmult (cis (phase ks N (N - i))) (Cconj (g l nu (eta ks N (N - i)))).
Definition biased2 (ks1 ks2 : list R) (f : nat -> nat -> R) (nu1 nu2 : R) (a b : nat) : R :=
  (f a b / Rpower (nth a ks1 0) nu1 / Rpower (nth b ks2 0) nu2)%R.
Definition spectrum2 (g : kernel) (ks1 ks2 : list R) (f : nat -> nat -> R) (N1 N2 : nat) (l1 l2 : Z) (nu1 nu2 : R) (i j : nat) : xc :=
  option_map (fun z => Cconj (Cmult z (Cmult (factor g l2 nu2 ks2 N2 j) (factor g l1 nu1 ks1 N1 i))))
    (row_window (N1 / 2) i (col_window (N2 / 2) j (Some (r2c_2d N1 N2 (biased2 ks1 ks2 f nu1 nu2) i j)))).
Definition radius (ks : list R) (N i : nat) : R := (1 / nth (N - 1 - i) ks 0)%R.
Definition norm2 (ks1 ks2 : list R) (N1 N2 : nat) (nu1 nu2 : R) (a b : nat) (y : R) : R :=
  (y * PI / (16 * INR N1 * INR N2 * Rpower (radius ks2 N2 b) nu2 * Rpower (radius ks1 N1 a) nu1))%R.

Lemma load0 : forall (ks : list R) i, i < List.length ks -> load (map Some ks) (Z.of_nat i) = Done (nth i ks 0%R).
Proof. intros. apply load_ok. assumption. Qed.
Lemma even_half : forall N, Nat.odd N = false -> 2 * (N / 2) = N.
Proof.
  intros N H. pose proof (Nat.div_mod_eq N 2). assert (Ev : Nat.even N = true) by (rewrite <- Nat.negb_odd, H; reflexivity). apply Nat.even_spec in Ev. destruct Ev as [m ->].
  rewrite (Nat.mul_comm 2 m), Nat.div_mul by lia. lia.
Qed.
Lemma radii_ok : forall ks N, List.length ks = N -> 
  rfor 0 N (fun i a => let! k := load (map Some ks) (Z.of_nat N - 1 - Z.of_nat i) in store a (Z.of_nat i) (1 / k)%R) (fresh N)
  = Done (map Some (map (radius ks N) (seq 0 N))).
Proof.
  intros ks N L. apply fill; [apply fresh_length|]. intros i b Hi _ _.
  replace (Z.of_nat N - 1 - Z.of_nat i)%Z with (Z.of_nat (N - 1 - i)) by lia. rewrite load0 by lia. reflexivity.
Qed.
Lemma two_sph_ok : forall g ks1 ks2 f N1 N2 l1 l2 nu1 nu2,
  Nat.odd N1 = false -> Nat.odd N2 = false -> 4 <= N1 -> 2 <= N2 -> List.length ks1 = N1 -> List.length ks2 = N2 ->
  exists out, two_sph_bessel g (map Some ks1) (map Some ks2) f N1 N2 l1 l2 nu1 nu2 false = Done out
    /\ b2_r1 out = map Some (map (radius ks1 N1) (seq 0 N1)) /\ b2_r2 out = map Some (map (radius ks2 N2) (seq 0 N2))
    /\ forall a b, a < N1 -> b < N2 -> b2_at out a b
       = option_map (norm2 ks1 ks2 N1 N2 nu1 nu2 a b) (c2r_2d N1 N2 (spectrum2 g ks1 ks2 f N1 N2 l1 l2 nu1 nu2) a b).
Proof.
  intros g ks1 ks2 f N1 N2 l1 l2 nu1 nu2 O1 O2 H1 H2 L1 L2. unfold two_sph_bessel. rewrite O1, O2.
  pose proof (even_half N1 O1) as E1. pose proof (even_half N2 O2) as E2.
  assert (Z0 : forall a : list (option R), load a 0 = load a (Z.of_nat 0)) by reflexivity.
  assert (Z1 : forall a : list (option R), load a 1 = load a (Z.of_nat 1)) by reflexivity.
  rewrite (Z0 (map Some ks1)), (Z0 (map Some ks2)), (Z1 (map Some ks1)), (Z1 (map Some ks2)).
  rewrite (load0 ks1 0), (load0 ks2 0) by lia. cbn [rbind].
  rewrite (load0 ks1 1), (load0 ks2 1) by lia. cbn [rbind].
  rewrite (radii_ok ks1 N1 L1), (radii_ok ks2 N2 L2). cbn [rbind].
  rewrite (Z0 (map Some (map (radius ks1 N1) (seq 0 N1)))), (Z0 (map Some (map (radius ks2 N2) (seq 0 N2)))), (load_map R (radius ks1 N1) N1 0), (load_map R (radius ks2 N2) N2 0) by lia. cbn [rbind].
  rewrite !values_ok. cbn [rbind].
  set (half1 := N1 / 2) in *. set (half2 := N2 / 2) in *.
  set (out := {| m_rows := N1; m_cols := half2 + 1; m_at := _ |}).
  destruct (c_window_ok out half1 half2) as (o1 & W1 & R1 & C1 & A1); [cbn [out m_rows]; lia|reflexivity|lia|].
  rewrite W1. cbn [rbind].
  set (v1 := fun ij : nat * nat => Cmult (Cmult (Cmult (cpow_i (nth 0 ks2 0%R * radius ks2 N2 0) (- (2 * PI / ln (nth 1 ks2 0%R / nth 0 ks2 0%R) / INR N2 * INR (snd ij))))
      (g l2 nu2 (2 * PI / ln (nth 1 ks2 0%R / nth 0 ks2 0%R) / INR N2 * INR (snd ij))%R)) (cpow_i (nth 0 ks1 0%R * radius ks1 N1 0) (- (2 * PI / ln (nth 1 ks1 0%R / nth 0 ks1 0%R) / INR N1 * INR (fst ij)))))
      (g l1 nu1 (2 * PI / ln (nth 1 ks1 0%R / nth 0 ks1 0%R) / INR N1 * INR (fst ij))%R)).
  destruct (mods (nat * nat) (fun ij => ij) (fun ij z => option_map (fun z => c_scale_conj z (v1 ij)) z)
              (list_prod (seq 0 (half1 + 1)) (seq 0 (half2 + 1)))
              (fun ij o => let (i, j) := ij in modify o (Z.of_nat i) (Z.of_nat j) (fun z => option_map (fun z => c_scale_conj z (v1 (i, j))) z)) o1)
    as (o2 & W2 & R2 & C2 & A2 & U2).
  { rewrite map_id. apply NoDup_prod; apply seq_NoDup. }
  { intros [i j] Hx. apply in_prod_iff in Hx. rewrite !in_seq in Hx. cbn [fst snd]. rewrite R1, C1. cbn [out m_rows m_cols]. lia. }
  { intros [i j] p Hx. reflexivity. }
  unfold v1 in W2. cbn [fst snd] in W2. rewrite W2. cbn [rbind]. fold v1 in W2.
  set (v2 := fun ij : nat * nat => Cmult (Cmult (Cmult (cpow_i (nth 0 ks2 0%R * radius ks2 N2 0) (- (2 * PI / ln (nth 1 ks2 0%R / nth 0 ks2 0%R) / INR N2 * INR (snd ij))))
      (g l2 nu2 (2 * PI / ln (nth 1 ks2 0%R / nth 0 ks2 0%R) / INR N2 * INR (snd ij))%R)) (cpow_i (nth 0 ks1 0%R * radius ks1 N1 0) (2 * PI / ln (nth 1 ks1 0%R / nth 0 ks1 0%R) / INR N1 * INR (N1 - fst ij))))
      (Cconj (g l1 nu1 (2 * PI / ln (nth 1 ks1 0%R / nth 0 ks1 0%R) / INR N1 * INR (N1 - fst ij))%R))).
  destruct (mods (nat * nat) (fun ij => ij) (fun ij z => option_map (fun z => c_scale_conj z (v2 ij)) z)
              (list_prod (seq (half1 + 1) (N1 - (half1 + 1))) (seq 0 (half2 + 1)))
              (fun ij o => let (i, j) := ij in modify o (Z.of_nat i) (Z.of_nat j) (fun z => option_map (fun z => c_scale_conj z (v2 (i, j))) z)) o2)
    as (o3 & W3 & R3 & C3 & A3 & U3).
  { rewrite map_id. apply NoDup_prod; apply seq_NoDup. }
  { intros [i j] Hx. apply in_prod_iff in Hx. rewrite !in_seq in Hx. cbn [fst snd]. rewrite R2, C2, R1, C1. cbn [out m_rows m_cols]. lia. }
  { intros [i j] p Hx. reflexivity. }
  unfold v2 in W3. cbn [fst snd] in W3. rewrite W3. cbn [rbind].
  eexists. split; [reflexivity|]. cbn [b2_r1 b2_r2 b2_at]. split; [reflexivity|]. split; [reflexivity|].
  intros a b Ha Hb. rewrite !nth_mapseq by assumption. fold (norm2 ks1 ks2 N1 N2 nu1 nu2 a b).
  f_equal. apply c2r_2d_ext. intros i j Hi Hj. fold half2 in Hj. rewrite map_id in U2, U3.
  unfold spectrum2. fold half1 half2. specialize (A1 i j ltac:(lia) Hj). cbn [out m_at] in A1.
  unfold biased2. rewrite <- A1. unfold factor. fold half1 half2.
  destruct (Nat.leb_spec i half1) as [L|L].
  - rewrite U3 by (intros I; apply in_prod_iff in I; rewrite !in_seq in I; lia).
    pose proof (A2 (i, j)) as A. cbn [fst snd] in A. rewrite A by (apply in_prod_iff; rewrite !in_seq; lia).
    destruct (m_at o1 i j); [cbn [option_map]|reflexivity]. f_equal. unfold c_scale_conj. f_equal. f_equal.
    destruct (Nat.leb_spec j half2); [|lia].
    unfold v1, cpow_i, phase, radius, eta. cbn [fst snd]. rewrite !Nat.sub_0_r.
    rewrite !Ropp_mult_distr_l. ring.
  - pose proof (A3 (i, j)) as A. cbn [fst snd] in A. rewrite A by (apply in_prod_iff; rewrite !in_seq; lia).
    rewrite U2 by (intros I; apply in_prod_iff in I; rewrite !in_seq in I; lia).
    destruct (m_at o1 i j); [cbn [option_map]|reflexivity]. f_equal. unfold c_scale_conj. f_equal. f_equal.
    destruct (Nat.leb_spec j half2); [|lia].
    unfold v2, cpow_i, phase, radius, eta. cbn [fst snd]. rewrite !Nat.sub_0_r.
    rewrite !Ropp_mult_distr_l. ring.
Qed.

(** The samples wavenumbers must be positive and increase. *)
Definition increasing_positive (ks : list R) : Prop :=
  (forall i, i < List.length ks -> (0 < nth i ks 0)%R)
  /\ forall i, S i < List.length ks -> (nth i ks 0 < nth (S i) ks 0)%R.

Lemma edge_finite : forall cut i, 1 <= cut -> exists w, edge cut i = Some w.
Proof. intros cut i H. unfold edge. destruct (Nat.eqb_spec cut 0); [lia|]. eexists. reflexivity. Qed.
Lemma windows_finite : forall h1 h2 i j z, 4 <= h1 -> 4 <= h2 -> exists w, row_window h1 i (col_window h2 j (Some z)) = Some w.
Proof.
  intros h1 h2 i j z H1 H2.
  assert (Q1 : 1 <= h1 / 4) by (apply Nat.div_le_lower_bound; lia). assert (Q2 : 1 <= h2 / 4) by (apply Nat.div_le_lower_bound; lia).
  assert (exists w, col_window h2 j (Some z) = Some w) as [w ->].
  { unfold col_window. destruct (_ <=? _); [|eauto]. destruct (edge_finite (h2 / 4) (h2 - j) Q2) as [e ->]. cbn. eauto. }
  unfold row_window. destruct (i <=? h1); destruct (_ <=? _); [|eauto| |eauto].
  - destruct (edge_finite (h1 / 4) (h1 - i) Q1) as [e ->]. cbn. eauto.
  - destruct (edge_finite (h1 / 4) (i - h1 - 1) Q1) as [e ->]. cbn. eauto.
Qed.
Lemma c2r_2d_finite : forall N1 N2 F a b, (forall i j, i < N1 -> j <= N2 / 2 -> exists z, F i j = Some z) ->
  exists y, c2r_2d N1 N2 F a b = Some y.
Proof.
  intros N1 N2 F a b H. unfold c2r_2d.
  assert (E : forallb (fun ij => match F (fst ij) (snd ij) with Some _ => true | None => false end) (list_prod (seq 0 N1) (seq 0 (N2 / 2 + 1))) = true).
  { apply forallb_forall. intros [i j] Hx. apply in_prod_iff in Hx. rewrite !in_seq in Hx. cbn [fst snd].
    destruct (H i j ltac:(lia) ltac:(lia)) as [z ->]. reflexivity. }
  rewrite E. eauto.
Qed.

(** C42, the two-dimensional transform (twobessel.c:16-113): with an even number of at least 8 samples in each direction, all the
    accesses are inside the arrays, the separations are the reciprocals of the wavenumbers in the opposite order, they increase, and
    every value is a number. *)
Theorem C42_two_sph_partial : forall g ks1 ks2 f N1 N2 l1 l2 nu1 nu2,
  Nat.odd N1 = false -> Nat.odd N2 = false -> 8 <= N1 -> 8 <= N2 ->
  List.length ks1 = N1 -> List.length ks2 = N2 -> increasing_positive ks1 -> increasing_positive ks2 ->
  exists out r1 r2, two_sph_bessel g (map Some ks1) (map Some ks2) f N1 N2 l1 l2 nu1 nu2 false = Done out
    /\ b2_r1 out = map Some r1 /\ b2_r2 out = map Some r2
    /\ r1 = map Rinv (rev ks1) /\ r2 = map Rinv (rev ks2)
    /\ increasing_positive r1 /\ increasing_positive r2
    /\ forall a b, a < N1 -> b < N2 -> exists y, b2_at out a b = Some y.
Proof.
  intros g ks1 ks2 f N1 N2 l1 l2 nu1 nu2 O1 O2 H1 H2 L1 L2 I1 I2.
  destruct (two_sph_ok g ks1 ks2 f N1 N2 l1 l2 nu1 nu2 O1 O2 ltac:(lia) ltac:(lia) L1 L2) as (out & D & R1 & R2 & A).
  assert (Rev : forall ks N, List.length ks = N -> map (radius ks N) (seq 0 N) = map Rinv (rev ks)).
  { intros ks N L. apply (nth_ext _ _ 0%R 0%R); [rewrite !map_length, rev_length, seq_length; lia|].
    intros n Hn. rewrite map_length, seq_length in Hn. rewrite nth_mapseq by assumption.
    rewrite (nth_indep _ 0%R (/ 0)%R) by (rewrite map_length, rev_length; lia). rewrite map_nth, rev_nth by lia.
    unfold radius, Rdiv. rewrite Rmult_1_l. f_equal. f_equal. lia. }
  assert (Inc : forall ks N, List.length ks = N -> increasing_positive ks -> increasing_positive (map (radius ks N) (seq 0 N))).
  { intros ks N L [P Q]. split; intros i; rewrite map_length, seq_length; intros Hi; rewrite !nth_mapseq by lia; unfold radius, Rdiv; rewrite !Rmult_1_l.
    - apply Rinv_0_lt_compat. apply P. lia.
    - apply Rinv_lt_contravar.
      + apply Rmult_lt_0_compat; apply P; lia.
      + specialize (Q (N - 1 - S i) ltac:(lia)). replace (S (N - 1 - S i)) with (N - 1 - i) in Q by lia. exact Q. }
  exists out, (map (radius ks1 N1) (seq 0 N1)), (map (radius ks2 N2) (seq 0 N2)). split; [exact D|]. split; [exact R1|]. split; [exact R2|].
  split; [apply Rev, L1|]. split; [apply Rev, L2|]. split; [apply Inc; assumption|]. split; [apply Inc; assumption|].
  intros a b Ha Hb. rewrite A by assumption.
  destruct (c2r_2d_finite N1 N2 (spectrum2 g ks1 ks2 f N1 N2 l1 l2 nu1 nu2) a b) as [y ->]; [|cbn; eauto].
  intros i j Hi Hj. unfold spectrum2. pose proof (even_half N1 O1). pose proof (even_half N2 O2).
  destruct (windows_finite (N1 / 2) (N2 / 2) i j (r2c_2d N1 N2 (biased2 ks1 ks2 f nu1 nu2) i j) ltac:(lia) ltac:(lia)) as [w ->].
  cbn. eauto.
Qed.
Print Assumptions C42_two_sph_partial.

Example C42_two_sph_example : exists ks, List.length ks = 8 /\ increasing_positive ks.
Proof.
  exists (map (fun i => INR (S i)) (seq 0 8)). split; [reflexivity|].
  split; intros i Hi; cbn [length map seq] in Hi; rewrite !nth_mapseq by lia; [apply lt_0_INR; lia|apply lt_INR; lia].
Qed.

(** With 4 or 6 samples the window width is zero, its 0/0 makes every value not a number. *)
Theorem C42_few_samples_refuted : forall g ks1 ks2 f N1 N2 l1 l2 nu1 nu2,
  N1 = 4 \/ N1 = 6 -> Nat.odd N2 = false -> 2 <= N2 -> List.length ks1 = N1 -> List.length ks2 = N2 ->
  exists out, two_sph_bessel g (map Some ks1) (map Some ks2) f N1 N2 l1 l2 nu1 nu2 false = Done out
    /\ forall a b, a < N1 -> b < N2 -> b2_at out a b = None.
Proof.
  intros g ks1 ks2 f N1 N2 l1 l2 nu1 nu2 HN O2 H2 L1 L2.
  assert (O1 : Nat.odd N1 = false) by (destruct HN as [-> | ->]; reflexivity).
  destruct (two_sph_ok g ks1 ks2 f N1 N2 l1 l2 nu1 nu2 O1 O2 ltac:(lia) ltac:(lia) L1 L2) as (out & D & _ & _ & A).
  exists out. split; [exact D|]. intros a b Ha Hb. rewrite A by assumption.
  assert (E : c2r_2d N1 N2 (spectrum2 g ks1 ks2 f N1 N2 l1 l2 nu1 nu2) a b = None); [|rewrite E; reflexivity].
  unfold c2r_2d.
  assert (E : forallb (fun ij => match spectrum2 g ks1 ks2 f N1 N2 l1 l2 nu1 nu2 (fst ij) (snd ij) with Some _ => true | None => false end)
                (list_prod (seq 0 N1) (seq 0 (N2 / 2 + 1))) = false); [|rewrite E; reflexivity].
  apply not_true_is_false. intros T. rewrite forallb_forall in T. specialize (T (N1 / 2, 0)). cbn [fst snd] in T.
  assert (I : In (N1 / 2, 0) (list_prod (seq 0 N1) (seq 0 (N2 / 2 + 1)))).
  { apply in_prod_iff. rewrite !in_seq. pose proof (Nat.div_lt N1 2). destruct HN as [-> | ->]; cbn; lia. }
  specialize (T I). unfold spectrum2 in T.
  assert (W : forall z, row_window (N1 / 2) (N1 / 2) z = None).
  { intros z. unfold row_window. rewrite Nat.leb_refl. rewrite (proj2 (Nat.leb_le (N1 / 2 - N1 / 2 / 4) (N1 / 2))) by lia.
    assert (E : N1 / 2 / 4 = 0) by (destruct HN as [-> | ->]; reflexivity). rewrite E. destruct z; reflexivity. }
  rewrite W in T. discriminate T.
Qed.
(** With two samples the second half of the window starts outside the array; with none the first wavenumber is read from an empty one;
    an odd number ends the process. *)
Theorem C42_two_samples_refuted : forall g f l1 l2 nu1 nu2 k0 k1,
  two_sph_bessel g [Some k0; Some k1] [Some k0; Some k1] f 2 2 l1 l2 nu1 nu2 false = Undefined.
Proof. intros. reflexivity. Qed.
Theorem C42_no_sample_refuted : forall g f l1 l2 nu1 nu2, two_sph_bessel g [] [] f 0 0 l1 l2 nu1 nu2 false = Undefined.
Proof. intros. reflexivity. Qed.
Theorem C42_odd_exits_refuted : forall g k1 k2 f N1 N2 l1 l2 nu1 nu2 cpp, Nat.odd N1 = true \/ Nat.odd N2 = true ->
  two_sph_bessel g k1 k2 f N1 N2 l1 l2 nu1 nu2 cpp = Exited.
Proof.
  intros g k1 k2 f N1 N2 l1 l2 nu1 nu2 cpp [H|H]; unfold two_sph_bessel; rewrite H; [reflexivity|]. destruct (Nat.odd N1); reflexivity.
Qed.

(** ** C23 fails with FFTlog *)
Lemma rsum_S : forall n f, rsum (S n) f = (f 0%nat + rsum n (fun k => f (S k)))%R.
Proof.
  intros n f. unfold rsum. cbn [seq map fold_right]. f_equal. f_equal. rewrite <- seq_shift, map_map. reflexivity.
Qed.
Lemma rsum_0 : forall f, rsum 0 f = 0%R.
Proof. reflexivity. Qed.
Lemma csum_S : forall n f, csum (S n) f = Cplus (f 0%nat) (csum n (fun k => f (S k))).
Proof.
  intros n f. unfold csum. cbn [seq map fold_right]. f_equal. f_equal. rewrite <- seq_shift, map_map. reflexivity.
Qed.
Lemma rsum_plus : forall n f g, rsum n (fun k => f k + g k)%R = (rsum n f + rsum n g)%R.
Proof. induction n; intros f g; [cbn; lra|]. rewrite !rsum_S, IHn. lra. Qed.
Lemma rsum_scale : forall n c f, rsum n (fun k => c * f k)%R = (c * rsum n f)%R.
Proof. induction n; intros c f; [cbn; lra|]. rewrite !rsum_S, IHn. lra. Qed.
Lemma rsum_zero : forall n, rsum n (fun _ => 0%R) = 0%R.
Proof. induction n; [reflexivity|]. rewrite rsum_S, IHn. lra. Qed.
Lemma rsum_swap : forall n m f, rsum n (fun a => rsum m (fun b => f a b)) = rsum m (fun b => rsum n (fun a => f a b)).
Proof.
  induction n; intros m f; [cbn; rewrite rsum_zero; reflexivity|]. rewrite rsum_S, IHn, <- rsum_plus. apply rsum_ext. intros k _.
  rewrite (rsum_S n (fun a => f a k)). reflexivity.
Qed.
Lemma cis_plus : forall x y, cis (x + y) = Cmult (cis x) (cis y).
Proof. intros. unfold cis, Cmult. cbn [fst snd]. rewrite cos_plus, sin_plus. f_equal; ring. Qed.
Lemma csum_ext : forall n f g, (forall k, k < n -> f k = g k) -> csum n f = csum n g.
Proof. intros n f g H. unfold csum. f_equal. apply map_ext_in. intros k Hk. apply H. apply in_seq in Hk. lia. Qed.
Lemma csum_last : forall n f, csum (S n) f = Cplus (csum n f) (f n).
Proof.
  induction n; intros f; [unfold csum; cbn; ring|]. rewrite csum_S, IHn, (csum_S n f). ring.
Qed.
Lemma csum_scale : forall n c f, csum n (fun k => Cmult c (f k)) = Cmult c (csum n f).
Proof. induction n; intros c f; [unfold csum; cbn; ring|]. rewrite !csum_S, IHn. ring. Qed.
Lemma cos_lt_1 : forall x, (0 < x < 2 * PI)%R -> (cos x < 1)%R.
Proof.
  intros x H. replace x with (2 * (x / 2))%R by lra. rewrite cos_2a_sin. pose proof (sin_gt_0 (x / 2) ltac:(lra) ltac:(lra)). nra.
Qed.
(** The sum of the n-th roots of unity taken [j] at a time. *)
Lemma roots_sum : forall n j, 0 < j -> j < n -> csum n (fun b => cis (2 * PI * (INR b * INR j / INR n))) = RtoC 0.
Proof.
  intros n j Hj Hn. assert (In : INR n <> 0%R) by (apply not_0_INR; lia).
  set (z := cis (2 * PI * (INR j / INR n))). set (f := fun b => cis (2 * PI * (INR b * INR j / INR n))).
  assert (St : forall b, f (S b) = Cmult z (f b)).
  { intros b. unfold f, z. rewrite <- cis_plus. apply f_equal. rewrite S_INR. unfold Rdiv. ring. }
  assert (F0 : f 0 = RtoC 1). { unfold f, cis. cbn [INR]. replace (2 * PI * (0 * INR j / INR n))%R with 0%R by (unfold Rdiv; ring). rewrite cos_0, sin_0. reflexivity. }
  assert (Fn : f n = RtoC 1).
  { unfold f, cis. replace (2 * PI * (INR n * INR j / INR n))%R with (0 + 2 * INR j * PI)%R by (field; exact In).
    rewrite cos_period, sin_period, cos_0, sin_0. reflexivity. }
  assert (E : Cmult z (csum n f) = csum n f).
  { rewrite <- csum_scale. rewrite (csum_ext n (fun k => Cmult z (f k)) (fun k => f (S k))) by (intros; symmetry; apply St).
    pose proof (csum_last n f) as A. rewrite csum_S, F0, Fn in A.
    replace (csum n (fun k => f (S k))) with (Cplus (Cplus (RtoC 1) (csum n (fun k => f (S k)))) (Copp (RtoC 1))) by ring. rewrite A. ring. }
  assert (Zne : Cplus z (Copp (RtoC 1)) <> RtoC 0).
  { intros Z. apply (f_equal fst) in Z. unfold z, cis, Cplus, Copp, RtoC in Z. cbn [fst] in Z.
    assert (0 < INR j / INR n < 1)%R.
    { assert (0 < INR j)%R by (apply lt_0_INR; lia). assert (INR j < INR n)%R by (apply lt_INR; lia). split.
      - apply Rdiv_lt_0_compat; lra.
      - apply Rmult_lt_reg_r with (INR n); [lra|]. unfold Rdiv. rewrite Rmult_assoc, Rinv_l by lra. lra. }
    pose proof PI_RGT_0. pose proof (cos_lt_1 (2 * PI * (INR j / INR n)) ltac:(nra)). lra. }
  change (csum n f = RtoC 0).
  assert (P : Cmult (Cplus z (Copp (RtoC 1))) (csum n f) = RtoC 0).
  { replace (Cmult (Cplus z (Copp (RtoC 1))) (csum n f)) with (Cplus (Cmult z (csum n f)) (Copp (csum n f))) by ring. rewrite E. ring. }
  destruct (Ceq_dec (csum n f) (RtoC 0)) as [Q|Q]; [exact Q|]. exfalso. exact (Cmult_neq_0 _ _ Zne Q P).
Qed.
Lemma csum_fst : forall n f, fst (csum n f) = rsum n (fun k => fst (f k)).
Proof. induction n; intros f; [reflexivity|]. rewrite csum_S, rsum_S. cbn [Cplus fst]. rewrite IHn. reflexivity. Qed.
Lemma roots_real : forall n j z x, 0 < n -> j < n ->
  rsum n (fun b => fst (Cmult z (cis (2 * PI * (x + INR b * INR j / INR n))))) = (if j =? 0 then INR n * fst (Cmult z (cis (2 * PI * x))) else 0)%R.
Proof.
  intros n j z x Hn Hj. rewrite <- (csum_fst n (fun b => Cmult z (cis (2 * PI * (x + INR b * INR j / INR n))))).
  rewrite (csum_ext n _ (fun b => Cmult (Cmult z (cis (2 * PI * x))) (cis (2 * PI * (INR b * INR j / INR n))))).
  2:{ intros k _. rewrite <- Cmult_assoc, <- cis_plus. f_equal. f_equal. ring. }
  rewrite csum_scale. destruct (Nat.eqb_spec j 0) as [->|Nj].
  - rewrite (csum_ext n _ (fun _ => RtoC 1)).
    2:{ intros k _. cbn [INR]. replace (2 * PI * (INR k * 0 / INR n))%R with 0%R by (unfold Rdiv; ring). unfold cis. rewrite cos_0, sin_0. reflexivity. }
    assert (Ones : forall m, csum m (fun _ => RtoC 1) = RtoC (INR m)).
    { induction m; [reflexivity|]. rewrite csum_last, IHm, S_INR, RtoC_plus. reflexivity. }
    rewrite Ones. generalize (Cmult z (cis (2 * PI * x))) as u. intros u. unfold Cmult, RtoC. cbn [fst snd]. ring.
  - rewrite roots_sum by lia. generalize (Cmult z (cis (2 * PI * x))) as u. intros u. unfold Cmult, RtoC. cbn [fst snd]. ring.
Qed.

(** The sums of the result over one of the two separations keep only the zero frequency of the other. *)
Lemma c2r_2d_values : forall N1 N2 F G a b, (forall i j, i < N1 -> j <= N2 / 2 -> F i j = Some (G i j)) ->
  c2r_2d N1 N2 F a b = Some (rsum (N2 / 2 + 1) (fun j => c2r_weight N2 j
      * rsum N1 (fun i => fst (Cmult (G i j) (cis (2 * PI * (INR a * INR i / INR N1 + INR b * INR j / INR N2)))))))%R.
Proof.
  intros N1 N2 F G a b H. rewrite (c2r_2d_ext N1 N2 F (fun i j => Some (G i j)) a b H). unfold c2r_2d.
  assert (E : forallb (fun ij : nat * nat => true) (list_prod (seq 0 N1) (seq 0 (N2 / 2 + 1))) = true) by (apply forallb_forall; reflexivity).
  rewrite E. reflexivity.
Qed.
Lemma sum_second : forall (G : nat -> nat -> C) a,
  rsum 8 (fun b => rsum 5 (fun j => c2r_weight 8 j * rsum 8 (fun i => fst (Cmult (G i j) (cis (2 * PI * (INR a * INR i / INR 8 + INR b * INR j / INR 8)))))))%R
  = (8 * rsum 8 (fun i => fst (Cmult (G i 0%nat) (cis (2 * PI * (INR a * INR i / INR 8))))))%R.
Proof.
  intros G a. rewrite rsum_swap.
  rewrite (rsum_ext 5 _ (fun j => c2r_weight 8 j * rsum 8 (fun i => if (j =? 0)%nat then INR 8 * fst (Cmult (G i j) (cis (2 * PI * (INR a * INR i / INR 8)))) else 0))%R).
  2:{ intros j Hj. rewrite rsum_scale. f_equal. rewrite rsum_swap. apply rsum_ext. intros i _. apply (roots_real 8 j); lia. }
  rewrite (rsum_ext 5 _ (fun j => if (j =? 0)%nat then 8 * rsum 8 (fun i => fst (Cmult (G i 0%nat) (cis (2 * PI * (INR a * INR i / INR 8))))) else 0)%R).
  - generalize (8 * rsum 8 (fun i => fst (Cmult (G i 0%nat) (cis (2 * PI * (INR a * INR i / INR 8))))))%R. intros y.
    rewrite !rsum_S, rsum_0. cbn [Nat.eqb]. ring.
  - intros j _. destruct (Nat.eqb_spec j 0) as [->|_].
    + rewrite rsum_scale. unfold c2r_weight. cbn [Nat.eqb]. replace (INR 8) with 8%R by (cbn; lra). ring.
    + rewrite rsum_zero. ring.
Qed.
Lemma sum_first : forall (G : nat -> nat -> C) a,
  rsum 8 (fun b => rsum 5 (fun j => c2r_weight 8 j * rsum 8 (fun i => fst (Cmult (G i j) (cis (2 * PI * (INR b * INR i / INR 8 + INR a * INR j / INR 8)))))))%R
  = (8 * rsum 5 (fun j => c2r_weight 8 j * fst (Cmult (G 0%nat j) (cis (2 * PI * (INR a * INR j / INR 8))))))%R.
Proof.
  intros G a. rewrite rsum_swap.
  rewrite <- rsum_scale. apply rsum_ext. intros j Hj. rewrite rsum_scale, rsum_swap.
  rewrite (rsum_ext 8 _ (fun i => if (i =? 0)%nat then INR 8 * fst (Cmult (G i j) (cis (2 * PI * (INR a * INR j / INR 8)))) else 0)%R).
  2:{ intros i Hi. rewrite <- (roots_real 8 i (G i j) (INR a * INR j / INR 8)) by lia. apply rsum_ext. intros b _.
      f_equal. f_equal. f_equal. ring. }
  rewrite !(rsum_S _ (fun _ => _)), rsum_0. cbn [Nat.eqb]. replace (INR 8) with 8%R by (cbn; lra). ring.
Qed.
Lemma edge_1_0 : edge 1 0 = Some 0%R.
Proof. unfold edge. cbn [Nat.eqb INR]. apply f_equal. replace (2 * 0 * PI / 1)%R with 0%R by field. rewrite sin_0. field. apply PI_neq0. Qed.
Lemma edge_1_1 : edge 1 1 = Some 1%R.
Proof. unfold edge. cbn [Nat.eqb INR]. apply f_equal. replace (2 * 1 * PI / 1)%R with (2 * PI)%R by field. rewrite sin_2PI. field. apply PI_neq0. Qed.

Section Asymmetry.
  Variables (g : kernel) (l : Z) (nu : R) (ks : list R).
  Let q (a : nat) : R := if (a =? 0)%nat then 2%R else 1%R.
  Let p (a : nat) : R := (q a * Rpower (nth a ks 0) nu * Rpower (nth a ks 0) nu)%R.
  Let f (a b : nat) : R := if (a =? b)%nat then p a else 0%R.
  Let c (i : nat) : C := factor g l nu ks 8 i.

  Lemma biased_diag : forall a b, biased2 ks ks f nu nu a b = (if (a =? b)%nat then q a else 0)%R.
  Proof.
    intros a b. unfold biased2, f, p. destruct (Nat.eqb_spec a b) as [->|_]; [|unfold Rdiv; ring].
    assert (Rpower (nth b ks 0) nu <> 0)%R by (unfold Rpower; pose proof (exp_pos (nu * ln (nth b ks 0%R))%R); lra).
    field. assumption.
  Qed.
  Lemma csum_zero : forall n, csum n (fun _ => RtoC 0) = RtoC 0.
  Proof. induction n; [reflexivity|]. rewrite csum_S, IHn. ring. Qed.
  Lemma csum_plus : forall n u v, csum n (fun k => Cplus (u k) (v k)) = Cplus (csum n u) (csum n v).
  Proof. induction n; intros u v; [unfold csum; cbn; ring|]. rewrite !csum_S, IHn. ring. Qed.
  Lemma csum_delta : forall n a (v : nat -> C), a < n -> csum n (fun b => if a =? b then v b else RtoC 0) = v a.
  Proof.
    induction n; intros a v H; [lia|]. rewrite csum_S. destruct a as [|a]; cbn [Nat.eqb].
    - rewrite csum_zero. ring.
    - rewrite (IHn a (fun b => v (S b))) by lia. ring.
  Qed.
  Lemma diag_spectrum : forall i j, r2c_2d 8 8 (biased2 ks ks f nu nu) i j
    = Cplus (RtoC 1) (csum 8 (fun a => cis (- (2 * PI * (INR a * INR i / INR 8 + INR a * INR j / INR 8))))).
  Proof.
    intros i j. unfold r2c_2d.
    rewrite (csum_ext 8 _ (fun a => Cplus (if 0 =? a then RtoC 1 else RtoC 0) (cis (- (2 * PI * (INR a * INR i / INR 8 + INR a * INR j / INR 8)))))).
    - rewrite csum_plus. f_equal. apply (csum_delta 8 0 (fun _ => RtoC 1)). lia.
    - intros a Ha. rewrite (csum_ext 8 _ (fun b => if a =? b then Cmult (RtoC (q b)) (cis (- (2 * PI * (INR a * INR i / INR 8 + INR b * INR j / INR 8)))) else RtoC 0)).
      + rewrite (csum_delta 8 a (fun b => Cmult (RtoC (q b)) (cis (- (2 * PI * (INR a * INR i / INR 8 + INR b * INR j / INR 8)))))) by assumption.
        unfold q. destruct a as [|a]; cbn [Nat.eqb].
        * change (INR 0) with 0%R. replace (- (2 * PI * (0 * INR i / INR 8 + 0 * INR j / INR 8)))%R with 0%R by (unfold Rdiv; ring).
          unfold cis. rewrite cos_0, sin_0. change (1%R, 0%R) with (RtoC 1). replace (RtoC 2) with (Cplus (RtoC 1) (RtoC 1)) by (rewrite <- RtoC_plus; f_equal; lra). ring.
        * ring.
      + intros b Hb. rewrite biased_diag. destruct (Nat.eqb_spec a b) as [->|]; [reflexivity|]. ring.
  Qed.
  Lemma conj_roots : forall j, 0 < j -> j < 8 -> csum 8 (fun a => cis (- (2 * PI * (INR a * INR j / INR 8)))) = RtoC 0.
  Proof.
    intros j H1 H2. rewrite <- (roots_sum 8 (8 - j)) by lia. apply csum_ext. intros a _.
    unfold cis. rewrite <- (cos_period (- (2 * PI * (INR a * INR j / INR 8))) a), <- (sin_period (- (2 * PI * (INR a * INR j / INR 8))) a).
    replace (- (2 * PI * (INR a * INR j / INR 8)) + 2 * INR a * PI)%R with (2 * PI * (INR a * INR (8 - j) / INR 8))%R; [reflexivity|].
    rewrite minus_INR by lia. replace (INR 8) with 8%R by (cbn; lra). field.
  Qed.
  Lemma diag_row : forall i, 0 < i -> i < 8 -> r2c_2d 8 8 (biased2 ks ks f nu nu) i 0 = RtoC 1.
  Proof.
    intros i H1 H2. rewrite diag_spectrum. rewrite (csum_ext 8 _ (fun a => cis (- (2 * PI * (INR a * INR i / INR 8))))).
    - rewrite conj_roots by assumption. ring.
    - intros a _. f_equal. cbn [INR]. unfold Rdiv. ring.
  Qed.
  Lemma diag_col : forall j, 0 < j -> j < 8 -> r2c_2d 8 8 (biased2 ks ks f nu nu) 0 j = RtoC 1.
  Proof.
    intros i H1 H2. rewrite diag_spectrum. rewrite (csum_ext 8 _ (fun a => cis (- (2 * PI * (INR a * INR i / INR 8))))).
    - rewrite conj_roots by assumption. ring.
    - intros a _. f_equal. cbn [INR]. unfold Rdiv. ring.
  Qed.

  Hypothesis L : List.length ks = 8.
  Hypothesis g_real : snd (g l nu 0%R) = 0%R.
  Hypothesis g_nonzero : fst (g l nu 0%R) <> 0%R.
  Hypothesis g_three : g l nu (2 * PI / ln (nth 1 ks 0 / nth 0 ks 0) / 8 * 3)%R <> RtoC 0.

  Lemma c_conj : forall i, 4 < i -> c i = Cconj (c (8 - i)).
  Proof.
    intros i H. unfold c, factor. change (8 / 2) with 4. destruct (Nat.leb_spec i 4); [lia|]. destruct (Nat.leb_spec (8 - i) 4); [|lia].
    unfold Cmult, Cconj, cis. cbn [fst snd]. rewrite cos_neg, sin_neg. f_equal; ring.
  Qed.
  Lemma c_zero : exists c0, c 0 = RtoC c0 /\ c0 <> 0%R.
  Proof.
    exists (fst (g l nu 0%R)). split; [|exact g_nonzero]. unfold c, factor. cbn [Nat.leb].
    assert (E : eta ks 8 0 = 0%R) by (unfold eta; cbn [INR]; ring). unfold phase. rewrite E, Rmult_0_l, Ropp_0.
    unfold cis. rewrite cos_0, sin_0. destruct (g l nu 0%R) as [x y]. cbn [fst snd] in *. rewrite g_real. unfold Cmult, RtoC. cbn [fst snd]. f_equal; ring.
  Qed.
  Lemma c_three : fst (c 3) <> 0%R \/ snd (c 3) <> 0%R.
  Proof.
    assert (E : eta ks 8 3 = (2 * PI / ln (nth 1 ks 0 / nth 0 ks 0) / 8 * 3)%R) by (unfold eta; replace (INR 8) with 8%R by (cbn; lra); replace (INR 3) with 3%R by (cbn; lra); reflexivity).
    destruct (Req_dec (fst (c 3)) 0) as [A|A]; [|left; exact A]. destruct (Req_dec (snd (c 3)) 0) as [B|B]; [|right; exact B]. exfalso.
    assert (Z : c 3 = RtoC 0) by (rewrite (surjective_pairing (c 3)), A, B; reflexivity).
    revert Z. unfold c, factor. change (3 <=? 8 / 2) with true. cbn iota. apply Cmult_neq_0; [|rewrite E; exact g_three].
    intros Z. assert (Z1 := f_equal fst Z). assert (Z2 := f_equal snd Z). cbn [cis fst snd RtoC] in Z1, Z2.
    pose proof (sin2_cos2 (- phase ks 8 3)) as T. rewrite Z1, Z2 in T. unfold Rsqr in T. lra.
  Qed.

  (** The windowed spectrum on the first row and column. *)
  Let S2 := spectrum2 g ks ks f 8 8 l l nu nu.
  Lemma S_row : forall i, 0 < i -> i < 8 ->
    S2 i 0 = Some (if (i =? 4)%nat || (i =? 5)%nat then RtoC 0 else Cconj (Cmult (c 0) (c i)))%bool.
  Proof.
    intros i H1 H2. unfold S2, spectrum2. rewrite diag_row by assumption. fold (c 0) (c i). change (8 / 2) with 4.
    do 8 (destruct i as [|i]; [first [lia | unfold row_window, col_window; change (4 / 4) with 1; cbn [Nat.leb Nat.sub Nat.add Nat.eqb orb]; rewrite ?edge_1_0, ?edge_1_1; unfold xmul, option_map; apply f_equal; rewrite ?Cconj_mult; unfold Cmult, Cconj, RtoC; cbn [fst snd]; f_equal; ring]|]). lia.
  Qed.
  Lemma S_col : forall j, 0 < j -> j <= 4 ->
    S2 0 j = Some (if (j =? 4)%nat then RtoC 0 else Cconj (Cmult (c 0) (c j)))%bool.
  Proof.
    intros j H1 H2. unfold S2, spectrum2. rewrite diag_col by lia. fold (c 0) (c j). change (8 / 2) with 4.
    do 5 (destruct j as [|j]; [first [lia | unfold row_window, col_window; change (4 / 4) with 1; cbn [Nat.leb Nat.sub Nat.add Nat.eqb orb]; rewrite ?edge_1_0, ?edge_1_1; unfold xmul, option_map; apply f_equal; unfold Cmult, Cconj, RtoC; cbn [fst snd]; f_equal; ring]|]). lia.
  Qed.

  Let G (i j : nat) : C := match S2 i j with Some z => z | None => RtoC 0 end.
  Lemma S_some : forall i j, S2 i j = Some (G i j).
  Proof.
    intros i j. unfold G. unfold S2, spectrum2. change (8 / 2) with 4.
    destruct (windows_finite 4 4 i j (r2c_2d 8 8 (biased2 ks ks f nu nu) i j) ltac:(lia) ltac:(lia)) as [w ->]. reflexivity.
  Qed.
  Lemma S_origin : G 0 0 = Cconj (Cmult (r2c_2d 8 8 (biased2 ks ks f nu nu) 0 0) (Cmult (c 0) (c 0))).
  Proof. unfold G, S2, spectrum2. change (8 / 2) with 4. unfold row_window, col_window. change (4 / 4) with 1. cbn [Nat.leb Nat.sub option_map]. reflexivity. Qed.
  Lemma cis_0 : forall i, cis (2 * PI * (INR 0 * INR i / INR 8)) = RtoC 1.
  Proof. intros i. change (INR 0) with 0%R. replace (2 * PI * (0 * INR i / INR 8))%R with 0%R by (unfold Rdiv; ring). unfold cis. rewrite cos_0, sin_0. reflexivity. Qed.
  Lemma cis_2 : forall i, cis (2 * PI * (INR 2 * INR (S i) / INR 8)) = Cmult Ci (cis (2 * PI * (INR 2 * INR i / INR 8))).
  Proof.
    intros i. rewrite (S_INR i). replace (INR 2) with 2%R by (cbn; lra). replace (INR 8) with 8%R by (cbn; lra).
    replace (2 * PI * (2 * (INR i + 1) / 8))%R with (PI / 2 + 2 * PI * (2 * INR i / 8))%R by field. rewrite cis_plus. f_equal.
    unfold cis, Ci. rewrite cos_PI2, sin_PI2. reflexivity.
  Qed.
  Lemma sums_differ : ~ (forall a, a < 8 ->
      rsum 8 (fun i => fst (Cmult (G i 0%nat) (cis (2 * PI * (INR a * INR i / INR 8)))))
      = rsum 5 (fun j => c2r_weight 8 j * fst (Cmult (G 0%nat j) (cis (2 * PI * (INR a * INR j / INR 8)))))%R).
  Proof.
    intros H. destruct c_zero as (c0 & C0 & N0).
    assert (Grow : forall i, 0 < i -> i < 8 -> G i 0 = if ((i =? 4) || (i =? 5))%bool then RtoC 0 else Cconj (Cmult (c 0) (c i))).
    { intros i H1 H2. unfold G. rewrite S_row by assumption. reflexivity. }
    assert (Gcol : forall j, 0 < j -> j <= 4 -> G 0 j = if j =? 4 then RtoC 0 else Cconj (Cmult (c 0) (c j))).
    { intros i H1 H2. unfold G. rewrite S_col by assumption. reflexivity. }
    pose proof (H 0 ltac:(lia)) as A. pose proof (H 2 ltac:(lia)) as B. clear H.
    rewrite !rsum_S, !rsum_0 in A, B. rewrite !cis_2 in B. rewrite !cis_0 in A.
    change (cis (2 * PI * (INR 2 * INR 0 / INR 8))) with (cis (2 * PI * (INR 2 * 0 / INR 8))) in B.
    replace (2 * PI * (INR 2 * 0 / INR 8))%R with 0%R in B by (unfold Rdiv; ring).
    rewrite (Grow 1), (Grow 2), (Grow 3), (Grow 4), (Grow 5), (Grow 6), (Grow 7), (Gcol 1), (Gcol 2), (Gcol 3), (Gcol 4) in A by lia.
    rewrite (Grow 1), (Grow 2), (Grow 3), (Grow 4), (Grow 5), (Grow 6), (Grow 7), (Gcol 1), (Gcol 2), (Gcol 3), (Gcol 4) in B by lia.
    cbn [Nat.eqb orb] in A, B. rewrite (c_conj 6), (c_conj 7), C0 in A by lia. rewrite (c_conj 6), (c_conj 7), C0 in B by lia.
    change (8 - 6) with 2 in *. change (8 - 7) with 1 in *.
    unfold c2r_weight in A, B. cbn [Nat.eqb Nat.even andb] in A, B. change (8 / 2) with 4 in *. cbn [Nat.eqb] in A, B.
    assert (K : cis 0 = RtoC 1) by (unfold cis; rewrite cos_0, sin_0; reflexivity). rewrite K in B.
    destruct c_three as [X|X]; apply X; clear X; apply Rmult_eq_reg_l with c0; trivial; rewrite Rmult_0_r.
    - clear B. revert A. unfold Cmult, Cconj, RtoC. cbn [fst snd]. lra.
    - clear A. revert B. unfold Cmult, Cconj, RtoC, Ci. cbn [fst snd]. lra.
  Qed.
End Asymmetry.

(** C23 asks that exchanging the two separations leaves the covariance unchanged.  The FFTlog method does not have it: the window
    (utils.c:232-258) sets to zero the frequency -3 of the first wavenumber and keeps the frequency 3 of the second. *)
Theorem C23_fftlog_refuted : forall (g : kernel) (l : Z) (nu : R) (ks : list R),
  List.length ks = 8 -> snd (g l nu 0%R) = 0%R -> fst (g l nu 0%R) <> 0%R ->
  g l nu (2 * PI / ln (nth 1 ks 0 / nth 0 ks 0) / 8 * 3)%R <> RtoC 0 ->
  exists p : nat -> R, (forall a, 0 < p a)%R
    /\ exists out, two_sph_bessel g (map Some ks) (map Some ks) (fun a b => if (a =? b)%nat then p a else 0%R) 8 8 l l nu nu false = Done out
    /\ exists a b, a < 8 /\ b < 8 /\ b2_at out a b <> b2_at out b a.
Proof.
  intros g l nu ks L G1 G2 G3.
  exists (fun a => (if (a =? 0)%nat then 2%R else 1%R) * Rpower (nth a ks 0) nu * Rpower (nth a ks 0) nu)%R.
  split. { intros a. unfold Rpower. pose proof (exp_pos (nu * ln (nth a ks 0%R))%R). destruct (a =? 0); nra. }
  set (f := fun a b : nat => if (a =? b)%nat then _ else 0%R).
  destruct (two_sph_ok g ks ks f 8 8 l l nu nu eq_refl eq_refl ltac:(lia) ltac:(lia) L L) as (out & D & _ & _ & A).
  exists out. split; [exact D|].
  destruct (Classical_Prop.classic (exists a b, a < 8 /\ b < 8 /\ b2_at out a b <> b2_at out b a)) as [E|E]; [exact E|exfalso].
  assert (Sym : forall a b, a < 8 -> b < 8 -> b2_at out a b = b2_at out b a).
  { intros a b Ha Hb. apply Classical_Prop.NNPP. intros N. apply E. exists a, b. auto. }
  clear E. apply (sums_differ g l nu ks L G1 G2 G3). intros a Ha.
  apply Rmult_eq_reg_l with 8%R; [|lra]. 
  pose (G := fun i j : nat => match spectrum2 g ks ks f 8 8 l l nu nu i j with Some z => z | None => RtoC 0 end).
  etransitivity; [symmetry; exact (sum_second G a)|]. etransitivity; [|exact (sum_first G a)]. apply rsum_ext. intros b Hb.
  specialize (Sym a b Ha Hb). rewrite !A in Sym by assumption.
  rewrite !(c2r_2d_values 8 8 (spectrum2 g ks ks f 8 8 l l nu nu) G _ _ (fun i j _ _ => S_some g l nu ks L i j)) in Sym. cbn [option_map] in Sym.
  change (8 / 2 + 1) with 5 in Sym. injection Sym as Sym. revert Sym. unfold norm2.
  match goal with |- (?X * _ / _ = ?Y * _ / _)%R -> ?X' = ?Y' => change X' with X; change Y' with Y; generalize X Y end.
  intros x y Sym.
  assert (forall i, Rpower (radius ks 8 i) nu <> 0)%R by (intros i; unfold Rpower; pose proof (exp_pos (nu * ln (radius ks 8 i))%R); lra).
  assert (INR 8 <> 0)%R by (cbn; lra). pose proof PI_neq0.
  apply Rmult_eq_reg_r with (PI / (16 * INR 8 * INR 8 * Rpower (radius ks 8 b) nu * Rpower (radius ks 8 a) nu))%R.
  - replace (y * (PI / (16 * INR 8 * INR 8 * Rpower (radius ks 8 b) nu * Rpower (radius ks 8 a) nu)))%R
      with (y * PI / (16 * INR 8 * INR 8 * Rpower (radius ks 8 a) nu * Rpower (radius ks 8 b) nu))%R by (field; auto).
    rewrite <- Sym. field; auto.
  - apply Rmult_integral_contrapositive_currified; [assumption|]. apply Rinv_neq_0_compat.
    repeat apply Rmult_integral_contrapositive_currified; auto; lra.
Qed.
Print Assumptions C23_fftlog_refuted.
Example C23_fftlog_hypotheses : exists (g : kernel) (ks : list R), List.length ks = 8 /\ snd (g 0%Z 1%R 0%R) = 0%R /\ fst (g 0%Z 1%R 0%R) <> 0%R
  /\ g 0%Z 1%R (2 * PI / ln (nth 1 ks 0 / nth 0 ks 0) / 8 * 3)%R <> RtoC 0.
Proof.
  exists (fun _ _ t => cis t), (map (fun i => INR (S i)) (seq 0 8)). cbn [cis fst snd]. rewrite sin_0, cos_0.
  split; [reflexivity|]. split; [reflexivity|]. split; [lra|]. set (t := (_ * 3)%R). clearbody t. intros E.
  assert (E1 := f_equal fst E). assert (E2 := f_equal snd E). cbn [cis fst snd RtoC] in E1, E2.
  pose proof (sin2_cos2 t) as T. rewrite E1, E2 in T. unfold Rsqr in T. lra.
Qed.

(** ** C66 and C67 for the two-dimensional transform *)
Definition factor_of (cut i : nat) : R := match edge cut i with Some w => w | None => 0%R end.
Definition weight (h1 h2 i j : nat) : R :=
  ((if i <=? h1 then (if h1 - h1 / 4 <=? i then factor_of (h1 / 4) (h1 - i) else 1)
    else if i <=? h1 + 1 + h1 / 4 then factor_of (h1 / 4) (i - h1 - 1) else 1)
   * (if h2 - h2 / 4 <=? j then factor_of (h2 / 4) (h2 - j) else 1))%R.
Lemma windows_weight : forall h1 h2 i j z, 4 <= h1 -> 4 <= h2 ->
  row_window h1 i (col_window h2 j (Some z)) = Some (Cmult z (RtoC (weight h1 h2 i j))).
Proof.
  intros h1 h2 i j [z1 z2] H1 H2.
  assert (Q1 : 1 <= h1 / 4) by (apply Nat.div_le_lower_bound; lia). assert (Q2 : 1 <= h2 / 4) by (apply Nat.div_le_lower_bound; lia).
  assert (E : forall cut k, 1 <= cut -> edge cut k = Some (factor_of cut k)).
  { intros cut k H. unfold factor_of. destruct (edge_finite cut k H) as [w ->]. reflexivity. }
  unfold row_window, col_window, weight.
  destruct (i <=? h1); destruct (_ <=? _); destruct (_ <=? _); rewrite ?E by assumption; unfold xmul; apply f_equal; unfold Cmult, RtoC; cbn [fst snd]; f_equal; ring.
Qed.
(** The values, without the cases that are not numbers. *)
Definition two_sum (g : kernel) (ks1 ks2 : list R) (f : nat -> nat -> R) (N1 N2 : nat) (l1 l2 : Z) (nu1 nu2 : R) (a b : nat) : R :=
  rsum (N2 / 2 + 1) (fun j => c2r_weight N2 j * rsum N1 (fun i =>
    fst (Cmult (Cconj (Cmult (Cmult (r2c_2d N1 N2 (biased2 ks1 ks2 f nu1 nu2) i j) (RtoC (weight (N1 / 2) (N2 / 2) i j)))
                             (Cmult (factor g l2 nu2 ks2 N2 j) (factor g l1 nu1 ks1 N1 i))))
               (cis (2 * PI * (INR a * INR i / INR N1 + INR b * INR j / INR N2))))))%R.
Lemma two_sph_values : forall g ks1 ks2 f N1 N2 l1 l2 nu1 nu2,
  Nat.odd N1 = false -> Nat.odd N2 = false -> 8 <= N1 -> 8 <= N2 -> List.length ks1 = N1 -> List.length ks2 = N2 ->
  exists out, two_sph_bessel g (map Some ks1) (map Some ks2) f N1 N2 l1 l2 nu1 nu2 false = Done out
    /\ b2_r1 out = map Some (map (radius ks1 N1) (seq 0 N1)) /\ b2_r2 out = map Some (map (radius ks2 N2) (seq 0 N2))
    /\ forall a b, a < N1 -> b < N2 -> b2_at out a b = Some (norm2 ks1 ks2 N1 N2 nu1 nu2 a b (two_sum g ks1 ks2 f N1 N2 l1 l2 nu1 nu2 a b)).
Proof.
  intros g ks1 ks2 f N1 N2 l1 l2 nu1 nu2 O1 O2 H1 H2 L1 L2.
  destruct (two_sph_ok g ks1 ks2 f N1 N2 l1 l2 nu1 nu2 O1 O2 ltac:(lia) ltac:(lia) L1 L2) as (out & D & R1 & R2 & A).
  exists out. split; [exact D|]. split; [exact R1|]. split; [exact R2|]. intros a b Ha Hb. rewrite A by assumption.
  pose proof (even_half N1 O1). pose proof (even_half N2 O2).
  erewrite c2r_2d_values; [reflexivity|]. intros i j Hi Hj. unfold spectrum2. rewrite windows_weight by lia. reflexivity.
Qed.
Lemma two_sum_lin : forall g ks1 ks2 ks1' ks2' f f1 f2 (u v : R) N1 N2 l1 l2 nu1 nu2 a b,
  (forall i, factor g l1 nu1 ks1' N1 i = factor g l1 nu1 ks1 N1 i) -> (forall i, factor g l2 nu2 ks2' N2 i = factor g l2 nu2 ks2 N2 i) ->
  (forall i j, i < N1 -> j < N2 -> (biased2 ks1' ks2' f nu1 nu2 i j = u * biased2 ks1 ks2 f1 nu1 nu2 i j + v * biased2 ks1 ks2 f2 nu1 nu2 i j)%R) ->
  (two_sum g ks1' ks2' f N1 N2 l1 l2 nu1 nu2 a b
   = u * two_sum g ks1 ks2 f1 N1 N2 l1 l2 nu1 nu2 a b + v * two_sum g ks1 ks2 f2 N1 N2 l1 l2 nu1 nu2 a b)%R.
Proof.
  intros g ks1 ks2 ks1' ks2' f f1 f2 u v N1 N2 l1 l2 nu1 nu2 a b F1 F2 B. unfold two_sum. apply rsum_lin. intros j _.
  rewrite !F2.
  match goal with |- (?c * ?x = u * (?c * ?y) + v * (?c * ?z))%R => enough (E : (x = u * y + v * z)%R) by (rewrite E; ring) end.
  apply rsum_lin. intros i _. rewrite F1.
  assert (R : r2c_2d N1 N2 (biased2 ks1' ks2' f nu1 nu2) i j
            = Cplus (Cmult (RtoC u) (r2c_2d N1 N2 (biased2 ks1 ks2 f1 nu1 nu2) i j)) (Cmult (RtoC v) (r2c_2d N1 N2 (biased2 ks1 ks2 f2 nu1 nu2) i j))).
  { unfold r2c_2d. apply csum_lin. intros k Hk. apply csum_lin. intros n Hn. rewrite B by assumption. rewrite RtoC_plus, !RtoC_mult. ring. }
  rewrite R. clear R B.
  generalize (r2c_2d N1 N2 (biased2 ks1 ks2 f1 nu1 nu2) i j), (r2c_2d N1 N2 (biased2 ks1 ks2 f2 nu1 nu2) i j), (factor g l2 nu2 ks2 N2 j), (factor g l1 nu1 ks1 N1 i),
    (weight (N1 / 2) (N2 / 2) i j), (cis (2 * PI * (INR a * INR i / INR N1 + INR b * INR j / INR N2))).
  intros [x1 x2] [y1 y2] [s1 s2] [t1 t2] w [e1 e2]. unfold Cmult, Cplus, Cconj, RtoC. cbn [fst snd]. ring.
Qed.
Theorem C66_two_sph_linear : forall g ks1 ks2 f1 f2 (u v : R) N1 N2 l1 l2 nu1 nu2,
  Nat.odd N1 = false -> Nat.odd N2 = false -> 8 <= N1 -> 8 <= N2 -> List.length ks1 = N1 -> List.length ks2 = N2 ->
  let transform h := two_sph_bessel g (map Some ks1) (map Some ks2) h N1 N2 l1 l2 nu1 nu2 false in
  exists o o1 o2, transform f1 = Done o1 /\ transform f2 = Done o2 /\ transform (fun i j => u * f1 i j + v * f2 i j)%R = Done o
    /\ b2_r1 o = b2_r1 o1 /\ b2_r1 o = b2_r1 o2 /\ b2_r2 o = b2_r2 o1 /\ b2_r2 o = b2_r2 o2
    /\ forall a b, a < N1 -> b < N2 -> exists y1 y2, b2_at o1 a b = Some y1 /\ b2_at o2 a b = Some y2 /\ b2_at o a b = Some (u * y1 + v * y2)%R.
Proof.
  intros g ks1 ks2 f1 f2 u v N1 N2 l1 l2 nu1 nu2 O1 O2 H1 H2 L1 L2 transform.
  pose proof (fun h => two_sph_values g ks1 ks2 h N1 N2 l1 l2 nu1 nu2 O1 O2 H1 H2 L1 L2) as T.
  destruct (T f1) as (o1 & D1 & A1 & B1 & V1). destruct (T f2) as (o2 & D2 & A2 & B2 & V2).
  destruct (T (fun i j => u * f1 i j + v * f2 i j)%R) as (o & D & A & B & V).
  exists o, o1, o2. split; [exact D1|]. split; [exact D2|]. split; [exact D|]. rewrite A, A1, A2, B, B1, B2.
  do 4 (split; [reflexivity|]). intros a b Ha Hb. rewrite V1, V2, V by assumption. eexists. eexists. split; [reflexivity|]. split; [reflexivity|].
  apply f_equal. rewrite (two_sum_lin g ks1 ks2 ks1 ks2 _ f1 f2 u v); [unfold norm2, Rdiv; ring|reflexivity|reflexivity|].
  intros i j _ _. unfold biased2, Rdiv. ring.
Qed.
Print Assumptions C66_two_sph_linear.

Theorem C67_two_sph_units : forall g ks1 ks2 f (c : R) N1 N2 l1 l2 nu1 nu2,
  Nat.odd N1 = false -> Nat.odd N2 = false -> 8 <= N1 -> 8 <= N2 -> List.length ks1 = N1 -> List.length ks2 = N2 ->
  (0 < c)%R -> increasing_positive ks1 -> increasing_positive ks2 ->
  exists o o', two_sph_bessel g (map Some ks1) (map Some ks2) f N1 N2 l1 l2 nu1 nu2 false = Done o
    /\ two_sph_bessel g (map Some (map (Rmult c) ks1)) (map Some (map (Rmult c) ks2)) f N1 N2 l1 l2 nu1 nu2 false = Done o'
    /\ b2_r1 o' = map (option_map (fun r => r / c)%R) (b2_r1 o) /\ b2_r2 o' = map (option_map (fun r => r / c)%R) (b2_r2 o)
    /\ forall a b, a < N1 -> b < N2 -> exists y, b2_at o a b = Some y /\ b2_at o' a b = Some y.
Proof.
  intros g ks1 ks2 f c N1 N2 l1 l2 nu1 nu2 O1 O2 H1 H2 L1 L2 Hc [P1 _] [P2 _].
  destruct (two_sph_values g ks1 ks2 f N1 N2 l1 l2 nu1 nu2 O1 O2 H1 H2 L1 L2) as (o & D & R1 & R2 & V).
  destruct (two_sph_values g (map (Rmult c) ks1) (map (Rmult c) ks2) f N1 N2 l1 l2 nu1 nu2 O1 O2 H1 H2) as (o' & D' & R1' & R2' & V'); [rewrite map_length; assumption..|].
  assert (Nt : forall ks i, nth i (map (Rmult c) ks) 0%R = (c * nth i ks 0)%R).
  { intros ks i. rewrite <- (Rmult_0_r c) at 1. apply map_nth. }
  assert (Rad : forall ks N i, radius (map (Rmult c) ks) N i = (radius ks N i / c)%R).
  { intros ks N i. unfold radius, Rdiv. rewrite Nt, Rinv_mult. ring. }
  assert (Fac : forall l nu ks N i, factor g l nu (map (Rmult c) ks) N i = factor g l nu ks N i).
  { intros l nu ks N i.
    assert (E : forall i, eta (map (Rmult c) ks) N i = eta ks N i) by (intros k; unfold eta; rewrite !Nt, ratio_scale by exact Hc; reflexivity).
    assert (E' : forall i, phase (map (Rmult c) ks) N i = phase ks N i).
    { intros k. unfold phase. rewrite E, !Nt. apply f_equal. apply f_equal. unfold Rdiv. rewrite !Rmult_1_l, Rinv_mult.
      replace (c * nth 0 ks 0 * (/ c * / nth (N - 1) ks 0))%R with ((/ c * c) * (nth 0 ks 0 * / nth (N - 1) ks 0))%R by ring. rewrite Rinv_l by lra. ring. }
    unfold factor. rewrite !E, !E'. reflexivity. }
  assert (Pw : forall x nu, (0 < x)%R -> Rpower (c * x) nu = (Rpower c nu * Rpower x nu)%R) by (intros; symmetry; apply Rpower_mult_distr; lra).
  assert (Pi : forall x nu, (0 < x)%R -> Rpower (x / c) nu = (Rpower x nu / Rpower c nu)%R).
  { intros x nu Hx. apply Rmult_eq_reg_l with (Rpower c nu); [|unfold Rpower; pose proof (exp_pos (nu * ln c)%R); lra].
    rewrite <- Pw by (apply Rdiv_lt_0_compat; assumption). replace (c * (x / c))%R with x by (field; lra). field.
    unfold Rpower; pose proof (exp_pos (nu * ln c)%R); lra. }
  exists o, o'. split; [exact D|]. split; [exact D'|].
  rewrite R1, R1', R2, R2'. split; [rewrite !map_map; apply map_ext; intros i; cbn [option_map]; rewrite Rad; reflexivity|].
  split; [rewrite !map_map; apply map_ext; intros i; cbn [option_map]; rewrite Rad; reflexivity|].
  intros a b Ha Hb. rewrite V, V' by assumption. eexists. split; [reflexivity|]. apply f_equal.
  assert (Ne : forall nu, Rpower c nu <> 0%R) by (intros nu; unfold Rpower; pose proof (exp_pos (nu * ln c)%R); lra).
  rewrite (two_sum_lin g ks1 ks2 _ _ f f f (/ Rpower c nu1 * / Rpower c nu2)%R 0%R); [|apply Fac|apply Fac|].
  - unfold norm2. rewrite !Rad, !Pi.
    + generalize (two_sum g ks1 ks2 f N1 N2 l1 l2 nu1 nu2 a b). intros s.
      assert (Nr : forall x nu, Rpower x nu <> 0%R) by (intros x nu; unfold Rpower; pose proof (exp_pos (nu * ln x)%R); lra).
      pose proof (Nr (radius ks1 N1 a) nu1). pose proof (Nr (radius ks2 N2 b) nu2). pose proof (Ne nu1). pose proof (Ne nu2).
      assert (INR N1 <> 0%R) by (apply not_0_INR; lia). assert (INR N2 <> 0%R) by (apply not_0_INR; lia).
      field. repeat split; assumption.
    + unfold radius. apply Rdiv_lt_0_compat; [lra|]. first [apply P1; lia | apply P2; lia].
    + unfold radius. apply Rdiv_lt_0_compat; [lra|]. first [apply P1; lia | apply P2; lia].
  - intros i j Hi Hj. unfold biased2. rewrite !Nt, !Pw by (first [apply P1|apply P2]; lia). unfold Rdiv. rewrite !Rinv_mult. ring.
Qed.
Print Assumptions C67_two_sph_units.
