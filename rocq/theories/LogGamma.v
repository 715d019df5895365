(** * The kernels of the logarithmic transforms
    (src/twofast.c:97-223, src/utils.c:156-221)

    Real arithmetic; complex numbers are Coquelicot's.  [M_PI] and [SQRT_PI] are pi and its
    square root.  A value that would not be finite is not followed any further: [Exited]
    where the program checks for it at once, [Undefined] elsewhere. *)
From Coq Require Import ZArith QArith Reals Qreals List Lia Lra Bool Arith.
From Coquelicot Require Import Coquelicot.
From Coq Require Import List.
From Verif Require Import Arrays Numeric Fft.
Import ListNotations.
Open Scope R_scope.

(** ** <complex.h> *)
Definition cexp (z : C) : C := (exp (fst z) * cos (snd z), exp (fst z) * sin (snd z)).
Definition csin (z : C) : C := (sin (fst z) * cosh (snd z), cos (fst z) * sinh (snd z)).
(** The argument in (-pi, pi], of a number that is not zero.
    carg and clog of <complex.h>, called in twofast.c:97-223 and utils.c:179-210. *)
Definition carg (z : C) : R :=
  let '(x, y) := z in
  if rlt 0 x then atan (y / x)
  else if rlt x 0 then (if rlt y 0 then atan (y / x) - PI else atan (y / x) + PI)
  else if rlt y 0 then - (PI / 2) else PI / 2.
Definition clog (z : C) : option C := if Ceq_dec z (RtoC 0) then None else Some (ln (Cmod z), carg z).
(** [x / y]; not finite when [y] is zero.  Complex division and cpow in twofast.c:97-223 and utils.c:179-210. *)
Definition cquot (x y : C) : option C := if Ceq_dec y (RtoC 0) then None else Some (Cdiv x y).
(** [cpow(a, w)] of a positive real [a].  Complex division and cpow in twofast.c:97-223 and utils.c:179-210. *)
Definition cpow_pos (a : R) (w : C) : C := cexp (Cmult w (RtoC (ln a))).

Definition or_exit {A} (o : option A) : res A := match o with Some x => Done x | None => Exited end.

(** ** Lanczos' approximation *)
(** The constants, as the doubles they denote: twofast.c:99-108 and 116, utils.c:158-167 and 181-190
    (other decimals, the same doubles). *)
Definition lanczos_first : Q := 562949953421205 # 562949953421312.
Definition lanczos_rest : list Q :=
  [5950736089418501 # 8796093022208; -5537752839100187 # 4398046511104; 848079078717083 # 1099511627776;
   -6214088902520669 # 35184372088832; 7041008316161153 # 562949953421312; -4992549864024149 # 36028797018963968;
   5893731530977871 # 590295810358705651712; 5688119651184367 # 37778931862957161709568].
Definition qC (q : Q) : C := RtoC (Q2R q).

(** The loop twofast.c:118-119 over the coefficients from number [i] on, [z] already lowered by one. *)
Fixpoint twofast_loop (z : C) (i : nat) (cs : list Q) (x : C) : option C :=
  match cs with
  | [] => Some x
  | c :: r => match cquot (qC c) (Cplus (Cplus z (RtoC (INR i))) (RtoC 1)) with
              | Some t => twofast_loop z (S i) r (Cplus x t)
              | None => None
              end
  end.
(** twofast.c:116-121: the result of the branch [creal(z) >= 0.5]. *)
Definition twofast_right (z0 : C) : option C :=
  let z := Cminus z0 (RtoC 1) in
  match twofast_loop z 0 lanczos_rest (qC lanczos_first) with
  | None => None
  | Some x =>
      let t := Cminus (Cplus z (RtoC (INR (List.length lanczos_rest)))) (RtoC (1 / 2)) in
      match clog t, clog x with
      | Some lt, Some lx =>
          Some (Cplus (Cminus (Cplus (RtoC (ln (2 * PI) / 2)) (Cmult (Cplus z (RtoC (1 / 2))) lt)) t) lx)
      | _, _ => None
      end
  end.
(** twofast_lgamma, twofast.c:97-144.  [fuel]: how deep it may call itself. *)
Fixpoint twofast_lgamma_ (fuel : nat) (z : C) : res C :=
  match fuel with
  | O => Undefined
  | S f =>
      if rlt (fst z) (1 / 2) then
        let! s := of_opt (clog (csin (Cmult (RtoC PI) z))) in
        let! g := twofast_lgamma_ f (Cminus (RtoC 1) z) in
        Done (Cminus (Cminus (RtoC (ln PI)) s) g)
      else or_exit (twofast_right z)
  end.
Definition twofast_lgamma : C -> res C := twofast_lgamma_ 2.

(** twofast_gamma, twofast.c:146-193; [cpow(t, w)] is [cexp(w * clog(t))]. *)
Definition twofast_gamma_right (z0 : C) : option C :=
  let z := Cminus z0 (RtoC 1) in
  match twofast_loop z 0 lanczos_rest (qC lanczos_first) with
  | None => None
  | Some x =>
      let t := Cminus (Cplus z (RtoC (INR (List.length lanczos_rest)))) (RtoC (1 / 2)) in
      match clog t with
      | Some lt => Some (Cmult (Cdiv (Cmult (RtoC (sqrt (2 * PI))) (cexp (Cmult (Cplus z (RtoC (1 / 2))) lt))) (cexp t)) x)
      | None => None
      end
  end.
Fixpoint twofast_gamma_ (fuel : nat) (z : C) : res C :=
  match fuel with
  | O => Undefined
  | S f =>
      if rlt (fst z) (1 / 2) then
        let! g := twofast_gamma_ f (Cminus (RtoC 1) z) in
        let! u := of_opt (cquot (RtoC PI) (csin (Cmult (RtoC PI) z))) in
        of_opt (cquot u g)
      else or_exit (twofast_gamma_right z)
  end.
Definition twofast_gamma : C -> res C := twofast_gamma_ 2.

(** twofast_mql, twofast.c:196-223. *)
Definition twofast_mql (t q l alpha : R) : res C :=
  let n := Cminus (RtoC (q - 1)) (Cmult (RtoC t) Ci) in
  let! a := twofast_lgamma (Cdiv (Cplus (RtoC (1 + l)) n) (RtoC 2)) in
  let! b := twofast_lgamma (Cdiv (Cminus (RtoC (2 + l)) n) (RtoC 2)) in
  let unl := Cmult (Cmult (cpow_pos 2 (Cminus n (RtoC 1))) (RtoC (sqrt PI))) (cexp (Cminus a b)) in
  Done (Cmult (cpow_pos alpha (Cminus (Cmult (RtoC t) Ci) (RtoC q))) unl).

(** ** utils.c *)
(** The loop utils.c:195, [n] from 1 to 8, [z] already lowered by one. *)
Fixpoint lanczos_loop (z : C) (n : nat) (cs : list Q) (x : C) : option C :=
  match cs with
  | [] => Some x
  | c :: r => match cquot (qC c) (Cplus z (RtoC (INR n))) with
              | Some t => lanczos_loop z (S n) r (Cplus x t)
              | None => None
              end
  end.
(** lngamma_lanczos, utils.c:179-199. *)
Definition lngamma_right (z0 : C) : option C :=
  let z := Cminus z0 (RtoC 1) in
  match lanczos_loop z 1 lanczos_rest (qC lanczos_first) with
  | None => None
  | Some x =>
      let t := Cplus z (RtoC (15 / 2)) in
      match clog t, clog x with
      | Some lt, Some lx =>
          Some (Cplus (Cminus (Cplus (RtoC (ln (2 * PI) / 2)) (Cmult (Cplus z (RtoC (1 / 2))) lt)) t) lx)
      | _, _ => None
      end
  end.
Fixpoint lngamma_ (fuel : nat) (z : C) : res C :=
  match fuel with
  | O => Undefined
  | S f =>
      if rlt (fst z) (1 / 2) then
        let! s := of_opt (clog (csin (Cmult (RtoC PI) z))) in
        let! g := lngamma_ f (Cminus (RtoC 1) z) in
        Done (Cminus (Cminus (RtoC (ln PI)) s) g)
      else of_opt (lngamma_right z)
  end.
Definition lngamma_lanczos : C -> res C := lngamma_ 2.

(** One round of the loop of g_l, utils.c:206-209. *)
Definition g_l_at (l nu eta : R) : res C :=
  let z := Cplus (RtoC nu) (Cmult Ci (RtoC eta)) in
  let! a := lngamma_lanczos (Cdiv (Cplus (RtoC l) z) (RtoC 2)) in
  let! b := lngamma_lanczos (Cdiv (Cminus (RtoC (3 + l)) z) (RtoC 2)) in
  Done (cexp (Cminus (Cplus (Cmult z (RtoC (ln 2))) a) b)).
(** g_l, utils.c:201-210: the array [gl] for the array [eta]. *)
Fixpoint g_l (l nu : R) (eta : list R) : res (list C) :=
  match eta with
  | [] => Done []
  | e :: r => let! v := g_l_at l nu e in let! vs := g_l l nu r in Done (v :: vs)
  end.

(** ** Elementary facts *)
Lemma rlt_iff : forall a b, rlt a b = true <-> a < b.
Proof. intros. unfold rlt. destruct (Rlt_dec a b); split; intros; [assumption|reflexivity|discriminate|contradiction]. Qed.
Lemma rlt_not : forall a b, rlt a b = false <-> b <= a.
Proof. intros. unfold rlt. destruct (Rlt_dec a b); split; intros; [discriminate|lra|lra|reflexivity]. Qed.
Lemma C_ext : forall a b : C, fst a = fst b -> snd a = snd b -> a = b.
Proof. intros [a1 a2] [b1 b2]. cbn. congruence. Qed.
Lemma C_neq : forall a : C, a <> RtoC 0 <-> 0 < fst a ^ 2 + snd a ^ 2.
Proof.
  intros [x y]; unfold RtoC; cbn [fst snd]. split.
  - intros H. destruct (Req_dec x 0) as [->|Hx]; [destruct (Req_dec y 0) as [->|Hy]; [congruence|] |]; nra.
  - intros H E. injection E as -> ->. lra.
Qed.
Lemma cexp_add : forall a b, cexp (Cplus a b) = Cmult (cexp a) (cexp b).
Proof.
  intros [a1 a2] [b1 b2]. unfold cexp, Cplus, Cmult; cbn [fst snd]. rewrite exp_plus, cos_plus, sin_plus.
  apply C_ext; cbn [fst snd]; ring.
Qed.
Lemma cexp_nz : forall a, cexp a <> RtoC 0.
Proof.
  intros [a b]. apply C_neq. unfold cexp; cbn [fst snd]. pose proof (exp_pos a). pose proof (sin2_cos2 b) as S; unfold Rsqr in S.
  replace ((exp a * cos b) ^ 2 + (exp a * sin b) ^ 2) with (exp a * exp a * (sin b * sin b + cos b * cos b)) by ring. rewrite S. nra.
Qed.
Lemma cexp_0 : cexp (RtoC 0) = RtoC 1.
Proof. unfold cexp, RtoC; cbn [fst snd]. rewrite exp_0, cos_0, sin_0. apply C_ext; cbn [fst snd]; ring. Qed.
Lemma cexp_opp : forall a, cexp (Copp a) = Cinv (cexp a).
Proof.
  intros a. assert (E : Cmult (cexp (Copp a)) (cexp a) = RtoC 1).
  { rewrite <- cexp_add. replace (Cplus (Copp a) a) with (RtoC 0) by ring. apply cexp_0. }
  rewrite <- (Cmult_1_r (cexp (Copp a))). rewrite <- (Cinv_r (cexp a)) by apply cexp_nz. rewrite Cmult_assoc, E. ring.
Qed.
Lemma cexp_sub : forall a b, cexp (Cminus a b) = Cdiv (cexp a) (cexp b).
Proof. intros. unfold Cminus, Cdiv. rewrite cexp_add, cexp_opp. reflexivity. Qed.
Lemma cexp_R : forall x, cexp (RtoC x) = RtoC (exp x).
Proof. intros. unfold cexp, RtoC; cbn [fst snd]. rewrite cos_0, sin_0. apply C_ext; cbn [fst snd]; ring. Qed.
Lemma cexp_conj : forall a, cexp (Cconj a) = Cconj (cexp a).
Proof. intros [a b]. unfold cexp, Cconj; cbn [fst snd]. rewrite cos_neg, sin_neg. apply C_ext; cbn [fst snd]; ring. Qed.

Lemma Cmod_pos_sq : forall z : C, Cmod z * Cmod z = fst z ^ 2 + snd z ^ 2.
Proof. intros [x y]. unfold Cmod; cbn [fst snd]. apply sqrt_sqrt. nra. Qed.

Lemma atan_cos : forall x y, 0 < x -> sqrt (x ^ 2 + y ^ 2) * cos (atan (y / x)) = x.
Proof.
  intros x y Hx. rewrite cos_atan.
  replace (x ^ 2 + y ^ 2) with (x ^ 2 * (1 + (y / x)²)) by (unfold Rsqr; field; lra).
  rewrite sqrt_mult_alt by nra. replace (sqrt (x ^ 2)) with x by (rewrite sqrt_pow2; lra).
  assert (0 < sqrt (1 + (y / x)²)) by (apply sqrt_lt_R0; pose proof (Rle_0_sqr (y / x)); lra). field. lra.
Qed.
Lemma atan_sin : forall x y, 0 < x -> sqrt (x ^ 2 + y ^ 2) * sin (atan (y / x)) = y.
Proof.
  intros x y Hx. rewrite sin_atan.
  replace (x ^ 2 + y ^ 2) with (x ^ 2 * (1 + (y / x)²)) by (unfold Rsqr; field; lra).
  rewrite sqrt_mult_alt by nra. replace (sqrt (x ^ 2)) with x by (rewrite sqrt_pow2; lra).
  assert (0 < sqrt (1 + (y / x)²)) by (apply sqrt_lt_R0; pose proof (Rle_0_sqr (y / x)); lra). field. lra.
Qed.

Lemma cexp_clog : forall z w, clog z = Some w -> cexp w = z.
Proof.
  intros [x y] w. unfold clog. destruct (Ceq_dec (x, y) (RtoC 0)) as [|N]; [discriminate|]. intros [= <-].
  assert (P := proj1 (C_neq (x, y)) N). cbn [fst snd] in P.
  assert (M : 0 < Cmod (x, y)) by (apply Cmod_gt_0; exact N).
  unfold cexp. cbn [fst snd]. rewrite exp_ln by exact M. unfold Cmod, carg; cbn [fst snd].
  destruct (rlt 0 x) eqn:E1; [apply rlt_iff in E1; rewrite atan_cos, atan_sin by exact E1; reflexivity|]. apply rlt_not in E1.
  destruct (rlt x 0) eqn:E2.
  - apply rlt_iff in E2.
    replace (y / x) with ((- y) / (- x)) by (field; lra).
    assert (Ec := atan_cos (- x) (- y) ltac:(lra)). assert (Es := atan_sin (- x) (- y) ltac:(lra)).
    replace ((- x) ^ 2 + (- y) ^ 2) with (x ^ 2 + y ^ 2) in Ec, Es by ring.
    destruct (rlt y 0).
    + unfold Rminus. rewrite cos_plus, sin_plus, cos_neg, sin_neg, cos_PI, sin_PI. apply C_ext; cbn [fst snd]; nra.
    + rewrite neg_cos, neg_sin. apply C_ext; cbn [fst snd]; nra.
  - apply rlt_not in E2. assert (x = 0) by lra. subst x. replace (0 ^ 2 + y ^ 2) with (y ^ 2) by ring.
    destruct (rlt y 0) eqn:E3; [apply rlt_iff in E3 | apply rlt_not in E3].
    + replace (y ^ 2) with ((- y) ^ 2) by ring. rewrite sqrt_pow2 by lra. rewrite cos_neg, sin_neg, cos_PI2, sin_PI2.
      apply C_ext; cbn [fst snd]; ring.
    + rewrite sqrt_pow2 by lra. rewrite cos_PI2, sin_PI2. apply C_ext; cbn [fst snd]; ring.
Qed.
Lemma clog_some : forall z, z <> RtoC 0 -> exists w, clog z = Some w.
Proof. intros z N. unfold clog. destruct (Ceq_dec z (RtoC 0)); [contradiction|]. eexists; reflexivity. Qed.
(** Off the negative real axis the logarithm respects conjugation. *)
Lemma clog_conj : forall z w, 0 < fst z -> clog z = Some w -> clog (Cconj z) = Some (Cconj w).
Proof.
  intros [x y] w Hx. cbn [fst] in Hx. unfold clog.
  destruct (Ceq_dec (x, y) (RtoC 0)) as [|N]; [discriminate|]. intros [= <-].
  unfold Cconj; cbn [fst snd]. destruct (Ceq_dec (x, - y) (RtoC 0)) as [E|_]; [injection E; lra|].
  f_equal. apply C_ext; cbn [fst snd].
  - f_equal. unfold Cmod; cbn [fst snd]. f_equal. ring.
  - unfold carg. rewrite (proj2 (rlt_iff 0 x) Hx). replace (- y / x) with (- (y / x)) by (field; lra). apply atan_opp.
Qed.

Lemma csin_nz : forall z, (snd z <> 0 \/ forall k : Z, fst z <> IZR k) -> csin (Cmult (RtoC PI) z) <> RtoC 0.
Proof.
  intros [x y] H E. cbn [fst snd] in H. unfold csin, Cmult, RtoC in E. cbn [fst snd] in E. injection E as E1 E2.
  replace (PI * x - 0 * y) with (PI * x) in E1, E2 by ring. replace (PI * y + 0 * x) with (PI * y) in E1, E2 by ring.
  assert (Hc : 0 < cosh (PI * y)) by (unfold cosh; pose proof (exp_pos (PI * y)); pose proof (exp_pos (- (PI * y))); lra).
  assert (S0 : sin (PI * x) = 0) by (apply Rmult_integral in E1; lra).
  assert (Cn : cos (PI * x) <> 0) by (pose proof (sin2_cos2 (PI * x)) as S; unfold Rsqr in S; rewrite S0 in S; nra).
  assert (Y : sinh (PI * y) = 0) by (apply Rmult_integral in E2; tauto).
  pose proof PI_RGT_0.
  assert (Y0 : y = 0).
  { unfold sinh in Y. assert (Ex : exp (PI * y) = exp (- (PI * y))) by lra. apply exp_inv in Ex. nra. }
  destruct (sin_eq_0_0 _ S0) as [k K]. assert (x = IZR k) by nra.
  destruct H as [H|H]; [lra | exact (H k H1)].
Qed.
Lemma csin_conj : forall z, csin (Cconj z) = Cconj (csin z).
Proof.
  intros [x y]. unfold csin, Cconj; cbn [fst snd]. apply C_ext; cbn [fst snd].
  - unfold cosh. rewrite Ropp_involutive. f_equal. lra.
  - unfold sinh. rewrite Ropp_involutive. lra.
Qed.

(** ** The sum in Lanczos' formula has no zero in the right half plane *)
Open Scope C_scope.
(** Polynomials with rational coefficients, lowest first.  Specification or proof only; nothing in the code. *)
Fixpoint peval (p : list Q) (z : C) : C := match p with [] => 0 | a :: r => qC a + z * peval r z end.
Fixpoint padd (p q : list Q) : list Q :=
  match p, q with [], _ => q | _, [] => p | a :: r, b :: s => Qred (a + b)%Q :: padd r s end.
Definition pscale (c : Q) (p : list Q) : list Q := map (fun a => Qred (c * a)%Q) p.
Definition pshift (p : list Q) : list Q := 0%Q :: p.
(** [p * (z + d)]  Specification or proof only; nothing in the code. *)
Definition plin (d : Q) (p : list Q) : list Q := padd (pshift p) (pscale d p).
Lemma qC_eq : forall a b, (a == b)%Q -> qC a = qC b.
Proof. intros a b H. unfold qC. rewrite (Qeq_eqR a b H). reflexivity. Qed.
Lemma qC_add : forall a b, qC (Qred (a + b)) = qC a + qC b.
Proof. intros. rewrite (qC_eq _ _ (Qred_correct _)). unfold qC. rewrite Q2R_plus, RtoC_plus. reflexivity. Qed.
Lemma qC_mul : forall a b, qC (Qred (a * b)) = qC a * qC b.
Proof. intros. rewrite (qC_eq _ _ (Qred_correct _)). unfold qC. rewrite Q2R_mult, RtoC_mult. reflexivity. Qed.
Lemma qC_0 : qC 0 = 0.
Proof. unfold qC. f_equal. unfold Q2R. cbn. lra. Qed.
Lemma peval_add : forall p q z, peval (padd p q) z = peval p z + peval q z.
Proof.
  induction p as [|a r IH]; intros q z; cbn [padd peval]; [ring|]. destruct q as [|b s]; cbn [padd peval]; [ring|]. rewrite qC_add, IH. ring.
Qed.
Lemma peval_scale : forall c p z, peval (pscale c p) z = qC c * peval p z.
Proof. induction p as [|a r IH]; intros z; cbn [pscale map peval]; [ring|]. rewrite qC_mul. unfold pscale in IH. rewrite IH. ring. Qed.
Lemma peval_shift : forall p z, peval (pshift p) z = z * peval p z.
Proof. intros. cbn [pshift peval]. rewrite qC_0. ring. Qed.
Lemma peval_lin : forall d p z, peval (plin d p) z = peval p z * (z + qC d).
Proof. intros. unfold plin. rewrite peval_add, peval_shift, peval_scale. ring. Qed.

(** Division in the style of Routh: the quotients [k z] of [p] by [q], of [q] by the rest, and
    so on, all with [k] positive, down to a constant.  Specification or proof only; nothing in the code. *)
Definition lead (p : list Q) : Q := List.last p 0%Q.
Fixpoint trim (p : list Q) : list Q :=
  match p with [] => [] | a :: r => match trim r with [] => if Qeq_bool a 0 then [] else [a] | t => a :: t end end.
Lemma peval_trim : forall p z, peval (trim p) z = peval p z.
Proof.
  induction p as [|a r IH]; intros z; cbn [trim peval]; [reflexivity|]. destruct (trim r) as [|b s] eqn:E.
  - rewrite <- IH. cbn [peval]. destruct (Qeq_bool a 0) eqn:A; cbn [peval]; [|ring]. apply Qeq_bool_iff in A. rewrite (qC_eq _ _ A), qC_0. ring.
  - rewrite <- IH. reflexivity.
Qed.
Fixpoint routh (fuel : nat) (p q : list Q) : bool :=
  match fuel with
  | O => false
  | S f =>
      let k := Qred (lead p / lead q)%Q in
      let r := trim (padd p (pscale (- k)%Q (pshift q))) in
      negb (Qle_bool k 0) &&
      match r with
      | [] => match q with [c] => negb (Qeq_bool c 0) | _ => false end
      | _ => routh f q r
      end
  end.
Lemma qC_opp : forall a, qC (- a) = - qC a.
Proof. intros. unfold qC. rewrite Q2R_opp, RtoC_opp. reflexivity. Qed.
Lemma qC_pos : forall k, Qle_bool k 0 = false -> (0 < Q2R k)%R.
Proof.
  intros k H. destruct (Rlt_le_dec 0 (Q2R k)) as [|L]; [assumption|]. exfalso.
  assert (k <= 0)%Q by (apply Rle_Qle; replace (Q2R 0) with 0%R; [exact L | unfold Q2R; cbn; lra]).
  apply Qle_bool_iff in H0. congruence.
Qed.
Lemma Re_inv_pos : forall w : C, (0 < fst w)%R -> (0 < fst (Cinv w))%R.
Proof. intros [x y] H. unfold Cinv; cbn [fst snd] in *. apply Rdiv_lt_0_compat; nra. Qed.
Lemma Re_pos_nz : forall w : C, (0 < fst w)%R -> w <> 0.
Proof. intros [x y] H E. injection E as -> ->. cbn in H. lra. Qed.
Lemma routh_ok : forall n p q z, routh n p q = true -> (0 < fst z)%R ->
  peval q z <> 0 /\ (0 < fst (Cdiv (peval p z) (peval q z)))%R.
Proof.
  induction n as [|n IH]; intros p q z H Hz; [discriminate|]. cbn [routh] in H.
  set (k := Qred (lead p / lead q)) in *.
  set (r := trim (padd p (pscale (- k) (pshift q)))) in *.
  assert (R : peval p z = qC k * z * peval q z + peval r z).
  { unfold r. rewrite peval_trim, peval_add, peval_scale, peval_shift, qC_opp. ring. }
  apply andb_prop in H. destruct H as [K H]. apply negb_true_iff in K. apply qC_pos in K.
  assert (Kz : (0 < fst (Cmult (qC k) z))%R).
  { destruct z as [x y]. unfold qC, Cmult, RtoC; cbn [fst snd] in *. nra. }
  destruct r as [|r0 rs] eqn:Er.
  - destruct q as [|c [|? ?]]; try discriminate H. apply negb_true_iff in H.
    assert (N : peval [c] z <> 0).
    { cbn. replace (qC c + z * 0) with (qC c) by ring. intros E. unfold qC in E. apply RtoC_inj in E.
      assert (c == 0)%Q by (apply eqR_Qeq; rewrite E; unfold Q2R; cbn; lra). apply Qeq_bool_iff in H0. congruence. }
    split; [exact N|]. rewrite R. cbn [peval]. cbn [peval] in N.
    set (d := qC c + z * 0) in *. replace ((qC k * z * d + 0) / d) with (qC k * z) by (field; exact N). exact Kz.
  - destruct (IH _ _ z H Hz) as [Nr P]. set (rz := peval (r0 :: rs) z) in *. set (qz := peval q z) in *.
    assert (Nq : qz <> 0).
    { intros E. rewrite E in P. replace (0 / rz) with (RtoC 0) in P by (field; exact Nr). cbn in P. lra. }
    split; [exact Nq|]. rewrite R.
    replace ((qC k * z * qz + rz) / qz) with (qC k * z + / (qz / rz)) by (field; split; assumption).
    pose proof (Re_inv_pos _ P). unfold Cplus; cbn [fst]. lra.
Qed.

Fixpoint evens (p : list Q) : list Q := match p with a :: _ :: r => a :: 0%Q :: evens r | [a] => [a] | [] => [] end.
Definition odds (p : list Q) : list Q := match p with [] => [] | _ :: r => 0%Q :: evens r end.
Lemma peval_parts : forall p z, peval p z = peval (evens p) z + peval (odds p) z.
Proof.
  fix IH 1. intros [|a [|b r]] z; cbn [evens odds peval]; [ring | rewrite qC_0; ring |].
  rewrite (IH r z), qC_0. destruct r as [|c r]; [cbn; ring|]. 
  change (evens (b :: c :: r)) with (b :: 0%Q :: evens r). cbn [odds peval]. rewrite qC_0. ring.
Qed.
Lemma stable : forall n p z, routh n (trim (evens p)) (trim (odds p)) = true -> (0 < fst z)%R -> peval p z <> 0.
Proof.
  intros n p z H Hz. destruct (routh_ok _ _ _ z H Hz) as [N P]. rewrite peval_trim in N. rewrite 2!peval_trim in P.
  rewrite peval_parts. set (o := peval (odds p) z) in *. set (e := peval (evens p) z) in *.
  replace (e + o) with (o * (e / o + 1)) by (field; exact N). apply Cmult_neq_0; [exact N|].
  apply Re_pos_nz. change (0 < fst (Cdiv e o) + 1)%R. lra.
Qed.

(** The sum as a quotient of two polynomials in the argument before it is lowered by one.
    Specification or proof only; nothing in the code. *)
Fixpoint fractions (d : Q) (cs : list Q) (nd : list Q * list Q) : list Q * list Q :=
  match cs with
  | [] => nd
  | c :: r => fractions (d + 1)%Q r (padd (plin d (fst nd)) (pscale c (snd nd)), plin d (snd nd))
  end.
Definition lanczos_fraction : list Q * list Q := fractions 0 lanczos_rest ([lanczos_first], [1%Q]).
Lemma lanczos_stable : forall z, (0 < fst z)%R -> peval (fst lanczos_fraction) z <> 0.
Proof. intros z. apply (stable 20). vm_compute. reflexivity. Qed.

Lemma cquot_some : forall x y : C, y <> 0 -> cquot x y = Some (x / y).
Proof. intros x y N. unfold cquot. destruct (Ceq_dec y 0); [contradiction|reflexivity]. Qed.
Lemma qC_nat : forall d, qC (d + 1) = qC d + 1.
Proof. intros. unfold qC. rewrite Q2R_plus, RtoC_plus. do 2 f_equal. unfold Q2R; cbn; lra. Qed.
Lemma qC_ge : forall d z, (0 <= d)%Q -> (0 < fst z)%R -> z + qC d <> 0.
Proof.
  intros d z Hd Hz. apply Re_pos_nz. change (0 < fst z + Q2R d)%R. apply Qle_Rle in Hd.
  replace (Q2R 0) with 0%R in Hd by (unfold Q2R; cbn; lra). lra.
Qed.
(** Both loops compute the sum. *)
Lemma twofast_loop_ok : forall cs i d n dn z, (0 <= d)%Q -> (0 < fst z)%R -> RtoC (INR i) = qC d -> peval dn z <> 0 ->
  twofast_loop (z - 1) i cs (peval n z / peval dn z)
  = Some (peval (fst (fractions d cs (n, dn))) z / peval (snd (fractions d cs (n, dn))) z)
  /\ peval (snd (fractions d cs (n, dn))) z <> 0.
Proof.
  induction cs as [|c r IH]; intros i d n dn z Hd Hz Ei Hn; cbn [twofast_loop fractions fst snd]; [split; [reflexivity|exact Hn]|].
  assert (E : z - 1 + RtoC (INR i) + 1 = z + qC d) by (rewrite Ei; ring). rewrite E.
  pose proof (qC_ge d z Hd Hz) as Nd. rewrite cquot_some by exact Nd.
  replace (peval n z / peval dn z + qC c / (z + qC d))
    with (peval (padd (plin d n) (pscale c dn)) z / peval (plin d dn) z).
  2:{ rewrite peval_add, peval_scale, !peval_lin. field. split; assumption. }
  apply IH; try assumption.
  - apply Qle_trans with d; [exact Hd|]. rewrite <- (Qplus_0_r d) at 1. apply Qplus_le_r. discriminate.
  - rewrite S_INR, RtoC_plus, Ei, qC_nat. reflexivity.
  - rewrite peval_lin. apply Cmult_neq_0; assumption.
Qed.
Lemma loops_agree : forall cs i z x, lanczos_loop z (S i) cs x = twofast_loop z i cs x.
Proof.
  induction cs as [|c r IH]; intros i z x; cbn [lanczos_loop twofast_loop]; [reflexivity|].
  replace (z + RtoC (INR (S i))) with (z + RtoC (INR i) + 1) by (rewrite S_INR, RtoC_plus; ring).
  destruct (cquot _ _); [apply IH | reflexivity].
Qed.
(** The value [x] of twofast.c:119. *)
Definition lanczos_sum (z : C) : C := peval (fst lanczos_fraction) z / peval (snd lanczos_fraction) z.
Lemma twofast_loop_sum : forall z, (0 < fst z)%R ->
  twofast_loop (z - 1) 0 lanczos_rest (qC lanczos_first) = Some (lanczos_sum z) /\ lanczos_sum z <> 0.
Proof.
  intros z Hz.
  assert (N1 : peval [1%Q] z <> 0).
  { cbn [peval]. replace (qC 1 + z * 0) with (RtoC 1); [intros E; apply RtoC_inj in E; lra|].
    unfold qC. replace (Q2R 1) with 1%R by (unfold Q2R; cbn; lra). ring. }
  assert (Ei : RtoC (INR 0) = qC 0) by (rewrite qC_0; reflexivity).
  destruct (twofast_loop_ok lanczos_rest 0 0 [lanczos_first] [1%Q] z ltac:(discriminate) Hz Ei N1) as [L D].
  fold lanczos_fraction in L, D. fold (lanczos_sum z) in L.
  replace (peval [lanczos_first] z / peval [1%Q] z) with (qC lanczos_first) in L.
  2:{ cbn [peval]. replace (qC 1) with (RtoC 1); [field; intros E; apply RtoC_inj in E; lra|]. unfold qC. f_equal. unfold Q2R; cbn; lra. }
  split; [exact L|]. unfold lanczos_sum. unfold Cdiv. apply Cmult_neq_0; [apply lanczos_stable; exact Hz|].
  intros E. apply (f_equal (fun u => peval (snd lanczos_fraction) z * u)) in E. rewrite Cinv_r in E by exact D.
  rewrite Cmult_0_r in E. apply RtoC_inj in E. lra.
Qed.

(** ** Values *)
Lemma length_rest : INR (List.length lanczos_rest) = 8%R.
Proof. cbn. lra. Qed.
(** The value of the branch on the right, exponentiated. *)
Lemma right_value : forall z, (0 < fst z)%R -> exists w lt, twofast_right z = Some w /\ clog (z + RtoC (13 / 2)) = Some lt
  /\ cexp w = RtoC (sqrt (2 * PI)) * cexp ((z - RtoC (1 / 2)) * lt) * / cexp (z + RtoC (13 / 2)) * lanczos_sum z.
Proof.
  intros z Hz. destruct (twofast_loop_sum z Hz) as [L N]. unfold twofast_right. rewrite L.
  replace (z - 1 + RtoC (INR (List.length lanczos_rest)) - RtoC (1 / 2)) with (z + RtoC (13 / 2)).
  2:{ rewrite length_rest. apply C_ext; destruct z; unfold Cminus, Cplus, Copp, RtoC; cbn [fst snd]; lra. }
  assert (Nt : z + RtoC (13 / 2) <> 0) by (apply Re_pos_nz; change (0 < fst z + 13 / 2)%R; lra).
  destruct (clog_some _ Nt) as [lt Elt]. destruct (clog_some _ N) as [lx Elx]. rewrite Elt, Elx.
  eexists; exists lt. split; [reflexivity|]. split; [reflexivity|].
  rewrite cexp_add, cexp_sub, cexp_add, (cexp_clog _ _ Elx), cexp_R. unfold Cdiv.
  replace (z - 1 + RtoC (1 / 2)) with (z - RtoC (1 / 2)).
  2:{ apply C_ext; destruct z; unfold Cminus, Cplus, Copp, RtoC; cbn [fst snd]; lra. }
  do 4 f_equal. rewrite <- (sqrt_pow2 (exp (ln (2 * PI) / 2))) by (left; apply exp_pos). f_equal.
  cbn [pow]. rewrite Rmult_1_r, <- exp_plus. replace (ln (2 * PI) / 2 + ln (2 * PI) / 2)%R with (ln (2 * PI)) by field.
  apply exp_ln. pose proof PI_RGT_0. lra.
Qed.
Lemma gamma_right_value : forall z w, (0 < fst z)%R -> twofast_right z = Some w -> twofast_gamma_right z = Some (cexp w).
Proof.
  intros z w Hz E. destruct (right_value z Hz) as [w' [lt [Ew [El V]]]]. rewrite E in Ew; injection Ew as <-.
  destruct (twofast_loop_sum z Hz) as [L N]. unfold twofast_gamma_right. rewrite L.
  replace (z - 1 + RtoC (INR (List.length lanczos_rest)) - RtoC (1 / 2)) with (z + RtoC (13 / 2)).
  2:{ rewrite length_rest. apply C_ext; destruct z; unfold Cminus, Cplus, Copp, RtoC; cbn [fst snd]; lra. }
  rewrite El, V. f_equal.
  replace (z - 1 + RtoC (1 / 2)) with (z - RtoC (1 / 2)); [reflexivity|].
  apply C_ext; destruct z; unfold Cminus, Cplus, Copp, RtoC; cbn [fst snd]; lra.
Qed.
Lemma lngamma_right_eq : forall z, lngamma_right z = twofast_right z.
Proof.
  intros z. unfold lngamma_right, twofast_right. rewrite loops_agree. destruct (twofast_loop _ _ _ _); [|reflexivity].
  replace (z - 1 + RtoC (15 / 2)) with (z - 1 + RtoC (INR (List.length lanczos_rest)) - RtoC (1 / 2)); [reflexivity|].
  rewrite length_rest. apply C_ext; destruct z; unfold Cminus, Cplus, Copp, RtoC; cbn [fst snd]; lra.
Qed.

(** A pole of the gamma function: a non-positive integer.  Specification or proof only; nothing in the code. *)
Definition pole (z : C) : Prop := exists k : nat, z = RtoC (- INR k).

Lemma not_pole_sin : forall z, ~ pole z -> (fst z < 1 / 2)%R -> csin (RtoC PI * z) <> 0.
Proof.
  intros [x y] H Hx. cbn [fst] in Hx. apply csin_nz. cbn [fst snd].
  destruct (Req_dec y 0) as [->|Hy]; [right|left; exact Hy]. intros k E. apply H.
  assert (k < 1)%Z by (apply lt_IZR; lra). exists (Z.to_nat (- k)). unfold RtoC. f_equal.
  rewrite INR_IZR_INZ, Z2Nat.id by lia. rewrite opp_IZR. lra.
Qed.

Lemma lgamma_right_half : forall n z, (1 / 2 <= fst z)%R -> exists w,
  twofast_right z = Some w /\ twofast_lgamma_ (S n) z = Done w /\ lngamma_ (S n) z = Done w /\ twofast_gamma_ (S n) z = Done (cexp w).
Proof.
  intros n z Hz. destruct (right_value z ltac:(lra)) as [w [lt [Ew _]]]. exists w.
  cbn [twofast_lgamma_ lngamma_ twofast_gamma_]. rewrite (proj2 (rlt_not (fst z) (1 / 2)) Hz).
  rewrite lngamma_right_eq, Ew, (gamma_right_value z w ltac:(lra) Ew). auto.
Qed.
Lemma lgamma_defined : forall n z, ~ pole z -> exists w,
  twofast_lgamma_ (S (S n)) z = Done w /\ lngamma_ (S (S n)) z = Done w /\ twofast_gamma_ (S (S n)) z = Done (cexp w).
Proof.
  intros n z Hp. destruct (Rlt_le_dec (fst z) (1 / 2)) as [Hz|Hz].
  - pose proof (not_pole_sin z Hp Hz) as Ns. destruct (clog_some _ Ns) as [ls Els].
    destruct (lgamma_right_half n (1 - z)) as [w [_ [E1 [E2 E3]]]]; [change (1 / 2 <= 1 + - fst z)%R; lra|].
    exists (RtoC (ln PI) - ls - w).
    change (twofast_lgamma_ (S (S n)) z) with (if rlt (fst z) (1 / 2) then
        let! s := of_opt (clog (csin (RtoC PI * z))) in let! g := twofast_lgamma_ (S n) (1 - z) in
        Done (RtoC (ln PI) - s - g) else or_exit (twofast_right z)).
    change (lngamma_ (S (S n)) z) with (if rlt (fst z) (1 / 2) then
        let! s := of_opt (clog (csin (RtoC PI * z))) in let! g := lngamma_ (S n) (1 - z) in
        Done (RtoC (ln PI) - s - g) else of_opt (lngamma_right z)).
    change (twofast_gamma_ (S (S n)) z) with (if rlt (fst z) (1 / 2) then
        let! g := twofast_gamma_ (S n) (1 - z) in
        let! u := of_opt (cquot (RtoC PI) (csin (RtoC PI * z))) in of_opt (cquot u g)
      else or_exit (twofast_gamma_right z)).
    rewrite (proj2 (rlt_iff (fst z) (1 / 2)) Hz), Els, E1, E2, E3. cbn [rbind of_opt].
    split; [reflexivity|]. split; [reflexivity|].
    rewrite cquot_some by exact Ns. cbn [rbind of_opt]. rewrite cquot_some by apply cexp_nz. cbn [of_opt]. f_equal.
    rewrite !cexp_sub, (cexp_clog _ _ Els), cexp_R, exp_ln by apply PI_RGT_0. reflexivity.
  - destruct (lgamma_right_half (S n) z Hz) as [w [_ H]]. exists w. exact H.
Qed.

(** *** Conjugation *)
Lemma conj_add : forall a b, Cconj (a + b) = Cconj a + Cconj b.
Proof. intros [a b] [c d]. apply C_ext; unfold Cconj, Cplus; cbn [fst snd]; ring. Qed.
Lemma conj_mul : forall a b, Cconj (a * b) = Cconj a * Cconj b.
Proof. intros [a b] [c d]. apply C_ext; unfold Cconj, Cmult; cbn [fst snd]; ring. Qed.
Lemma conj_sub : forall a b, Cconj (a - b) = Cconj a - Cconj b.
Proof. intros [a b] [c d]. apply C_ext; unfold Cconj, Cminus, Cplus, Copp; cbn [fst snd]; ring. Qed.
Lemma conj_inv : forall a, Cconj (/ a) = / Cconj a.
Proof.
  intros [a b]. apply C_ext; unfold Cconj, Cinv; cbn [fst snd]; replace ((- b) ^ 2)%R with (b ^ 2)%R by ring; [reflexivity|].
  unfold Rdiv. ring.
Qed.
Lemma conj_R : forall x, Cconj (RtoC x) = RtoC x.
Proof. intros. apply C_ext; unfold Cconj, RtoC; cbn [fst snd]; ring. Qed.
Lemma conj_conj : forall z, Cconj (Cconj z) = z.
Proof. intros [a b]. apply C_ext; unfold Cconj; cbn [fst snd]; ring. Qed.
Lemma peval_conj : forall p z, peval p (Cconj z) = Cconj (peval p z).
Proof.
  induction p as [|a r IH]; intros z; cbn [peval]; [rewrite conj_R; reflexivity|].
  rewrite conj_add, conj_mul, IH. unfold qC. rewrite conj_R. reflexivity.
Qed.
Lemma right_conj : forall z w w', (0 < fst z)%R -> twofast_right z = Some w -> twofast_right (Cconj z) = Some w' ->
  cexp w' = Cconj (cexp w).
Proof.
  intros z w w' Hz E E'. destruct (right_value z Hz) as [u [lt [Ew [El V]]]]. rewrite E in Ew; injection Ew as <-.
  destruct (right_value (Cconj z) Hz) as [u' [lt' [Ew' [El' V']]]]. rewrite E' in Ew'; injection Ew' as <-.
  assert (Et : Cconj z + RtoC (13 / 2) = Cconj (z + RtoC (13 / 2))) by (rewrite conj_add, conj_R; reflexivity).
  rewrite Et in El', V'.
  rewrite (clog_conj (z + RtoC (13 / 2)) lt) in El'; [|change (0 < fst z + 13 / 2)%R; lra|exact El]. injection El' as <-.
  rewrite V, V', !conj_mul, conj_R, conj_inv, <- !cexp_conj, conj_mul, conj_sub, conj_R. unfold lanczos_sum, Cdiv.
  rewrite !peval_conj, conj_mul, conj_inv. reflexivity.
Qed.
Lemma gamma_conj_ : forall n z a, twofast_gamma_ (S (S n)) z = Done a -> ~ pole z -> twofast_gamma_ (S (S n)) (Cconj z) = Done (Cconj a).
Proof.
  intros n z a E Hp. destruct (Rlt_le_dec (fst z) (1 / 2)) as [Hz|Hz].
  - assert (Hz' : (fst (Cconj z) < 1 / 2)%R) by exact Hz.
    assert (Un : forall z0, (fst z0 < 1 / 2)%R -> twofast_gamma_ (S (S n)) z0 =
        let! g := twofast_gamma_ (S n) (1 - z0) in
        let! u := of_opt (cquot (RtoC PI) (csin (RtoC PI * z0))) in of_opt (cquot u g)).
    { intros z0 H0. change (twofast_gamma_ (S (S n)) z0) with (if rlt (fst z0) (1 / 2) then
        let! g := twofast_gamma_ (S n) (1 - z0) in
        let! u := of_opt (cquot (RtoC PI) (csin (RtoC PI * z0))) in of_opt (cquot u g)
      else or_exit (twofast_gamma_right z0)). rewrite (proj2 (rlt_iff (fst z0) (1 / 2)) H0). reflexivity. }
    rewrite (Un z Hz) in E. rewrite (Un (Cconj z) Hz').
    pose proof (not_pole_sin z Hp Hz) as Ns.
    destruct (lgamma_right_half n (1 - z)) as [w [E0 [_ [_ E3]]]]; [change (1 / 2 <= 1 + - fst z)%R; lra|].
    destruct (lgamma_right_half n (1 - Cconj z)) as [w' [E0' [_ [_ E3']]]]; [change (1 / 2 <= 1 + - fst z)%R; lra|].
    assert (Ez : 1 - Cconj z = Cconj (1 - z)) by (rewrite conj_sub, conj_R; reflexivity).
    assert (W : cexp w' = Cconj (cexp w)).
    { rewrite Ez in E0'. refine (right_conj (1 - z) w w' _ E0 E0'). change (0 < 1 + - fst z)%R. lra. }
    assert (Ss : csin (RtoC PI * Cconj z) = Cconj (csin (RtoC PI * z))).
    { rewrite <- csin_conj, conj_mul, conj_R. reflexivity. }
    assert (Nc : Cconj (csin (RtoC PI * z)) <> 0).
    { intros A. apply Ns. rewrite <- (conj_conj (csin (RtoC PI * z))), A. apply conj_R. }
    rewrite E3 in E. rewrite E3'. cbn [rbind] in E |- *. rewrite cquot_some in E by exact Ns. rewrite Ss, cquot_some by exact Nc.
    cbn [rbind of_opt] in E |- *. rewrite cquot_some in E by apply cexp_nz. rewrite cquot_some by apply cexp_nz.
    cbn [of_opt] in E |- *. injection E as <-. rewrite W. unfold Cdiv. rewrite !conj_mul, !conj_inv, conj_R. reflexivity.
  - destruct (lgamma_right_half (S n) z Hz) as [w [E0 [_ [_ E3]]]]. destruct (lgamma_right_half (S n) (Cconj z) Hz) as [w' [E0' [_ [_ E3']]]].
    rewrite E3 in E. injection E as <-. rewrite E3'. f_equal. refine (right_conj z w w' _ E0 E0'). lra.
Qed.
