(* Products of factors 1 + eps. *)
From Coq Require Import Reals Lra Qreals.
From Verif Require Import Base ProgModel UIntModel UIntSpec FloatModel FloatSpec FloatProofs RealModel UniProofs RDiscProofs BinModel BinSpec BinProofs Bin2Proofs Bin4Proofs Bin6Proofs
  PoisRSpec RExpProofs StirProofs Pois3Proofs.
Ltac Zify.zify_post_hook ::= idtac.
Open Scope R_scope.

Lemma exp_mono : forall x y, x <= y -> exp x <= exp y.
Proof. intros x y [H|H]; [left; apply exp_increasing; exact H|right; rewrite H; reflexivity]. Qed.
Lemma exp_hi : forall x, 0 <= x <= 1 / 2 -> exp x <= 1 + 2 * x.
Proof.
  intros x X. assert (A: 1 - x <= exp (- x)) by (pose proof (exp_ineq1_le (- x)); lra).
  rewrite exp_Ropp in A. pose proof (exp_pos x). assert (B: (1 - x) * exp x <= 1). { replace 1 with (/ exp x * exp x) at 2 by (field; lra). apply Rmult_le_compat_r; lra. }
  assert (X2: x * x <= 1 / 2 * x) by (apply Rmult_le_compat_r; lra).
  apply Rmult_le_reg_l with (1 - x); lra.
Qed.

Section U.
Variable u : R.
Hypothesis U0 : 0 < u.
Hypothesis U1 : u <= 1 / 400000.
(* x and X differ by a factor between exp (-2nu) and exp (2nu) *)
Definition rl (n x X : R) : Prop := 0 < X /\ exp (- (n * (2 * u))) * X <= x <= exp (n * (2 * u)) * X.
Lemma rl_pos : forall n x X, rl n x X -> 0 < x.
Proof. intros n x X (P & L & _). pose proof (Rmult_lt_0_compat _ _ (exp_pos (- (n * (2 * u)))) P). lra. Qed.
Lemma rl_0 : forall x, 0 < x -> rl 0 x x.
Proof. intros x X. split; [exact X|]. rewrite Rmult_0_l, Ropp_0, exp_0. lra. Qed.
Lemma rl_w : forall n k x X, n <= k -> rl n x X -> rl k x X.
Proof.
  intros n k x X H (P & L & M). assert (N: n * (2 * u) <= k * (2 * u)) by (apply Rmult_le_compat_r; lra). split; [exact P|].
  pose proof (exp_mono (- (k * (2 * u))) (- (n * (2 * u))) ltac:(lra)) as E1. pose proof (exp_mono _ _ N) as E2.
  split; eapply Rle_trans; [|exact L|exact M|]; apply Rmult_le_compat_r; lra.
Qed.
Lemma rl_mul : forall n k x X y Y, rl n x X -> rl k y Y -> rl (n + k) (x * y) (X * Y).
Proof.
  intros n k x X y Y (P & L & M) (P' & L' & M'). split; [apply Rmult_lt_0_compat; assumption|].
  pose proof (exp_pos (- (n * (2 * u)))). pose proof (exp_pos (- (k * (2 * u)))).
  pose proof (Rmult_lt_0_compat _ _ H P). pose proof (Rmult_lt_0_compat _ _ H0 P').
  replace (- ((n + k) * (2 * u))) with (- (n * (2 * u)) + - (k * (2 * u))) by ring. replace ((n + k) * (2 * u)) with (n * (2 * u) + k * (2 * u)) by ring. rewrite !exp_plus. split.
  - replace (exp (- (n * (2 * u))) * exp (- (k * (2 * u))) * (X * Y)) with ((exp (- (n * (2 * u))) * X) * (exp (- (k * (2 * u))) * Y)) by ring. apply Rmult_le_compat; lra.
  - replace (exp (n * (2 * u)) * exp (k * (2 * u)) * (X * Y)) with ((exp (n * (2 * u)) * X) * (exp (k * (2 * u)) * Y)) by ring. apply Rmult_le_compat; lra.
Qed.
Lemma rl_inv : forall n x X, rl n x X -> rl n (/ x) (/ X).
Proof.
  intros n x X H. pose proof (rl_pos _ _ _ H) as XP. destruct H as (P & L & M). split; [apply Rinv_0_lt_compat; exact P|].
  pose proof (exp_pos (n * (2 * u))). rewrite exp_Ropp in *. split.
  - replace (/ exp (n * (2 * u)) * / X) with (/ (exp (n * (2 * u)) * X)) by (field; lra). apply Rinv_le_contravar; assumption.
  - replace (exp (n * (2 * u)) * / X) with (/ (/ exp (n * (2 * u)) * X)) by (field; lra). apply Rinv_le_contravar; [|exact L]. apply Rmult_lt_0_compat; [apply Rinv_0_lt_compat; exact H|exact P].
Qed.
Lemma rl_div : forall n k x X y Y, rl n x X -> rl k y Y -> rl (n + k) (x / y) (X / Y).
Proof. intros. unfold Rdiv. apply rl_mul; [assumption|apply rl_inv; assumption]. Qed.
Lemma rl_add : forall n x X y Y, rl n x X -> rl n y Y -> rl n (x + y) (X + Y).
Proof. intros n x X y Y (P & L & M) (P' & L' & M'). split; [lra|]. lra. Qed.
Lemma rl_num : forall n x X, 0 <= n <= 100 -> rl n x X -> (1 - 2 * n * u) * X <= x <= (1 + 4 * n * u) * X.
Proof.
  intros n x X N (P & L & M). assert (S: 0 <= n * (2 * u) <= 1 / 2).
  { split; [apply Rmult_le_pos; lra|]. apply Rle_trans with (100 * (2 * u)); [apply Rmult_le_compat_r; lra|lra]. }
  pose proof (exp_hi _ S) as E1. pose proof (exp_ineq1_le (- (n * (2 * u)))) as E2.
  split; eapply Rle_trans; [|exact L|exact M|]; apply Rmult_le_compat_r; lra.
Qed.
Lemma rl_half : forall n x X, 0 <= n <= 100 -> rl n x X -> X / 2 <= x <= 2 * X.
Proof.
  intros n x X N H. pose proof (rl_num n x X N H) as [A B]. destruct H as (P & _).
  assert (S: 0 <= n * u <= 1 / 4). { split; [apply Rmult_le_pos; lra|]. apply Rle_trans with (100 * u); [apply Rmult_le_compat_r; lra|lra]. }
  assert (C: 1 / 2 * X <= (1 - 2 * n * u) * X) by (apply Rmult_le_compat_r; lra). assert (D: (1 + 4 * n * u) * X <= 2 * X) by (apply Rmult_le_compat_r; lra). lra.
Qed.
Lemma rl_ln : forall n x X, rl n x X -> Rabs (ln x - ln X) <= n * (2 * u).
Proof.
  intros n x X H. pose proof (rl_pos _ _ _ H) as XP. destruct H as (P & L & M). rewrite <- ln_div by assumption. 
  assert (E: x = x / X * X) by (field; lra). assert (Q0: 0 < x / X) by (apply Rmult_lt_0_compat; [exact XP|apply Rinv_0_lt_compat; exact P]).
  apply Rabs_le. split.
  - apply ln_ge_of. apply Rmult_le_reg_r with X; [exact P|]. rewrite <- E. exact L.
  - apply ln_le_of; [exact Q0|]. apply Rmult_le_reg_r with X; [exact P|]. rewrite <- E. exact M.
Qed.
(* one more error *)
Lemma rl_err : forall n x X y, rl n x X -> Rabs (y - x) <= u * x -> rl (n + 1) y X.
Proof.
  intros n x X y H E. pose proof (rl_pos _ _ _ H) as XP. apply Rabs_le_inv in E. destruct H as (P & L & M). split; [exact P|].
  replace (- ((n + 1) * (2 * u))) with (- (2 * u) + - (n * (2 * u))) by ring. replace ((n + 1) * (2 * u)) with (2 * u + n * (2 * u)) by ring. rewrite !exp_plus.
  assert (A: exp (- (2 * u)) <= 1 - u).
  { rewrite exp_Ropp. pose proof (exp_ineq1_le (2 * u)) as G. apply Rle_trans with (/ (1 + 2 * u)); [apply Rinv_le_contravar; lra|].
    apply Rmult_le_reg_l with (1 + 2 * u); [lra|]. rewrite Rinv_r by lra. assert (u * u <= 1 / 400000 * u) by (apply Rmult_le_compat_r; lra). lra. }
  assert (B: 1 + u <= exp (2 * u)) by (pose proof (exp_ineq1_le (2 * u)); lra).
  assert (C: exp (- (2 * u)) * (exp (- (n * (2 * u))) * X) <= (1 - u) * x) by (apply Rmult_le_compat; try lra; [apply Rlt_le, exp_pos|apply Rmult_le_pos; [apply Rlt_le, exp_pos|lra]]).
  assert (D: (1 + u) * x <= exp (2 * u) * (exp (n * (2 * u)) * X)) by (apply Rmult_le_compat; lra). lra.
Qed.
End U.

(* relative errors of rounding, for either sign *)
Lemma fexp_abs : forall h x, fexp h x = fexp h (Qabs x).
Proof.
  intros h x. unfold fexp. assert (AA: Qabs (Qabs x) = Qabs x) by (destruct x as [[|n|n] d]; reflexivity). rewrite AA.
  assert (QB: Qeq_bool (Qabs x) 0 = Qeq_bool x 0) by (destruct x as [[|n|n] d]; reflexivity). rewrite QB. reflexivity.
Qed.
Lemma Q2R_abs : forall x, Q2R (Qabs x) = Rabs (Q2R x).
Proof.
  intro x. destruct (Qlt_le_dec x 0) as [L|L].
  - assert (E: (Qabs x == - x)%Q) by (apply Qabs_neg; apply Qlt_le_weak; exact L). apply Qeq_eqR in E. rewrite E, Q2R_opp. apply Qlt_Rlt in L. rewrite Q2R_0 in L. rewrite Rabs_left; lra.
  - assert (E: (Qabs x == x)%Q) by (apply Qabs_pos; exact L). apply Qeq_eqR in E. rewrite E. apply Q2R_le in L. rewrite Q2R_0 in L. rewrite Rabs_right; lra.
Qed.
Section R.
Variables (f h : fmt) (md : rmode).
Hypothesis HP : (prec f <= prec h)%Z.
Hypothesis H3 : (emin h + 3 * prec h <= 0)%Z.
Local Notation e := (eps f).
Lemma mu_le : Q2R (p2 (emin h + prec h - 1)) <= e * e / 8.
Proof.
  assert (E: Q2R (p2 (2 * (1 - prec f) - 3)) = e * e / 8).
  { unfold eps. rewrite <- Q2R_mult. replace (2 * (1 - prec f) - 3)%Z with ((1 - prec f) + (1 - prec f) + -3)%Z by lia.
    assert (Q: (p2 (1 - prec f + (1 - prec f) + -3) == p2 (1 - prec f) * p2 (1 - prec f) * (1 # 8))%Q) by (rewrite !p2_add; reflexivity). apply Qeq_eqR in Q. rewrite Q, !Q2R_mult. unfold Q2R at 3. cbn [Qnum Qden]. field. }
  rewrite <- E. apply Q2R_le. apply p2_le. lia.
Qed.
Lemma rrela : forall x, e * e / 8 <= Rabs (Q2R x) -> Rabs (Q2R (fround h md x) - Q2R x) <= e * Rabs (Q2R x).
Proof.
  intros x X. assert (XQ: (p2 (emin h + prec h - 1) <= Qabs x)%Q). { apply Rle_Qle. rewrite Q2R_abs. pose proof mu_le. lra. }
  pose proof (ulp_rel h (Qabs x) XQ) as U. rewrite <- fexp_abs in U. apply Q2R_le in U. rewrite Q2R_mult, Q2R_abs in U.
  assert (P1: Q2R (p2 (1 - prec h)) <= e) by (unfold eps; apply Q2R_le, p2_le; lia).
  pose proof (rnd_err h md x) as [A C]. apply Qlt_Rlt in A, C. rewrite Q2R_minus in A. rewrite Q2R_plus in C. 
  assert (Rabs (Q2R x) * Q2R (p2 (1 - prec h)) <= Rabs (Q2R x) * e) by (apply Rmult_le_compat_l; [apply Rabs_pos|exact P1]). apply Rabs_le. lra.
Qed.
Variable u : R.
Hypothesis EU : e <= u.
Hypothesis U1 : u <= 1 / 400000.
Lemma rl_rnd : forall n x X, 0 <= n <= 100 -> rl u n (Q2R x) X -> e * e / 4 <= X -> rl u (n + 1) (Q2R (fround h md x)) X.
Proof.
  intros n x X N H L. pose proof (e_pos f). pose proof (rl_half u ltac:(lra) U1 _ _ _ N H) as [A _]. pose proof (rl_pos u _ _ _ H) as P.
  eapply rl_err; [lra|exact U1|exact H|]. eapply Rle_trans; [apply rrela; rewrite Rabs_pos_eq; lra|]. rewrite Rabs_pos_eq by lra. apply Rmult_le_compat_r; lra.
Qed.
Lemma rl_rnd_neg : forall n x X, 0 <= n <= 100 -> rl u n (- Q2R x) X -> e * e / 4 <= X -> rl u (n + 1) (- Q2R (fround h md x)) X.
Proof.
  intros n x X N H L. pose proof (e_pos f). pose proof (rl_half u ltac:(lra) U1 _ _ _ N H) as [A _]. pose proof (rl_pos u _ _ _ H) as P.
  eapply rl_err; [lra|exact U1|exact H|]. replace (- Q2R (fround h md x) - - Q2R x) with (- (Q2R (fround h md x) - Q2R x)) by ring. rewrite Rabs_Ropp.
  eapply Rle_trans; [apply rrela; rewrite Rabs_left; lra|]. rewrite Rabs_left by lra. apply Rmult_le_compat_r; lra.
Qed.
End R.
