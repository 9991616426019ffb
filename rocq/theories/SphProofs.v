(* Lemmas for SphProps.v: relative errors *)
From Coq Require Import Lqa Reals Lra Qreals.
From Verif Require Import Base ProgModel ProgSpec ProgProofs FloatModel FloatSpec FloatProofs RealModel RealSpec RealProofs PoisRSpec Pois3Proofs InvSpec Bin9Proofs SphModel SphSpec.
Ltac Zify.zify_post_hook ::= idtac.
Open Scope R_scope.

Section U.
Variable u : R.
Hypothesis U0 : 0 < u.
(* as rl of Bin9Proofs, zero allowed *)
Definition rn (n x X : R) : Prop := 0 <= X /\ exp (- (n * (2 * u))) * X <= x <= exp (n * (2 * u)) * X.
Lemma rn_pos : forall n x X, rn n x X -> 0 <= x.
Proof. intros n x X (P & L & _). pose proof (Rmult_le_pos _ _ (Rlt_le _ _ (exp_pos (- (n * (2 * u))))) P). lra. Qed.
Lemma rn_0 : forall x, 0 <= x -> rn 0 x x.
Proof. intros x X. split; [exact X|]. rewrite Rmult_0_l, Ropp_0, exp_0. lra. Qed.
Lemma rn_w : forall n k x X, n <= k -> rn n x X -> rn k x X.
Proof.
  intros n k x X H (P & L & M). assert (N: n * (2 * u) <= k * (2 * u)) by (apply Rmult_le_compat_r; lra). split; [exact P|].
  split; [eapply Rle_trans; [|exact L]|eapply Rle_trans; [exact M|]]; apply Rmult_le_compat_r; try exact P; apply exp_mono; lra.
Qed.
Lemma rn_mul : forall n k x X y Y, rn n x X -> rn k y Y -> rn (n + k) (x * y) (X * Y).
Proof.
  intros n k x X y Y H H'. pose proof (rn_pos _ _ _ H) as PX. pose proof (rn_pos _ _ _ H') as PY. destruct H as (P & L & M), H' as (P' & L' & M'). split; [apply Rmult_le_pos; assumption|].
  replace ((n + k) * (2 * u)) with (n * (2 * u) + k * (2 * u)) by ring. rewrite Ropp_plus_distr, !exp_plus.
  split.
  - replace (exp (- (n * (2 * u))) * exp (- (k * (2 * u))) * (X * Y)) with ((exp (- (n * (2 * u))) * X) * (exp (- (k * (2 * u))) * Y)) by ring.
    apply Rmult_le_compat; try assumption; apply Rmult_le_pos; try assumption; left; apply exp_pos.
  - replace (exp (n * (2 * u)) * exp (k * (2 * u)) * (X * Y)) with ((exp (n * (2 * u)) * X) * (exp (k * (2 * u)) * Y)) by ring.
    apply Rmult_le_compat; assumption.
Qed.
Lemma rn_sym : forall n x X, rn n x X -> rn n X x.
Proof.
  intros n x X H. pose proof (rn_pos _ _ _ H) as PX. destruct H as (P & L & M). split; [exact PX|].
  assert (E: exp (- (n * (2 * u))) * exp (n * (2 * u)) = 1) by (rewrite <- exp_plus, Rplus_opp_l, exp_0; reflexivity).
  pose proof (exp_pos (n * (2 * u))) as A. pose proof (exp_pos (- (n * (2 * u)))) as B. set (p := exp (n * (2 * u))) in *. set (q := exp (- (n * (2 * u)))) in *. clearbody p q.
  split.
  - apply Rmult_le_compat_l with (r := q) in M; [|lra]. rewrite <- Rmult_assoc, E, Rmult_1_l in M. exact M.
  - apply Rmult_le_compat_l with (r := p) in L; [|lra]. rewrite <- Rmult_assoc, (Rmult_comm p), E, Rmult_1_l in L. exact L.
Qed.
Lemma rn_trans : forall n k x X Y, rn n x X -> rn k X Y -> rn (n + k) x Y.
Proof.
  intros n k x X Y (P & L & M) (P' & L' & M'). split; [exact P'|].
  replace ((n + k) * (2 * u)) with (n * (2 * u) + k * (2 * u)) by ring. rewrite Ropp_plus_distr, !exp_plus, (Rmult_assoc (exp (- (n * (2 * u))))), (Rmult_assoc (exp (n * (2 * u)))).
  split; [eapply Rle_trans; [|exact L]|eapply Rle_trans; [exact M|]]; apply Rmult_le_compat_l; try assumption; left; apply exp_pos.
Qed.
Lemma rn_inv : forall n x X, 0 < X -> rn n x X -> rn n (/ x) (/ X).
Proof. intros n x X P (_ & H). assert (R: rl u n x X) by (split; assumption). destruct (rl_inv u n x X R) as (A & B). split; [lra|exact B]. Qed.
Lemma rn_add : forall n x X y Y, rn n x X -> rn n y Y -> rn n (x + y) (X + Y).
Proof. intros n x X y Y (P & L & M) (P' & L' & M'). split; lra. Qed.
Lemma rn_err : forall K n x X y, 0 <= K -> K * u <= 1 / 2 -> rn n x X -> Rabs (y - x) <= K * u * x -> rn (n + K) y X.
Proof.
  intros K n x X y K0 K1 H E. pose proof (rn_pos _ _ _ H) as PX. apply Rabs_le_inv in E. rewrite Rplus_comm. apply rn_trans with x; [|exact H]. split; [exact PX|].
  assert (KU: 0 <= K * u) by (apply Rmult_le_pos; lra).
  replace (K * (2 * u)) with (2 * (K * u)) by ring. set (k := K * u) in *. clearbody k.
  assert (A: 1 + 2 * k <= exp (2 * k)) by apply exp_ineq1_le.
  assert (B: exp (- (2 * k)) <= 1 - k).
  { rewrite exp_Ropp. rewrite <- (Rinv_inv (1 - k)). apply Rinv_le_contravar; [apply Rinv_0_lt_compat; lra|]. eapply Rle_trans; [|exact A].
    apply Rmult_le_reg_l with (1 - k); [lra|]. rewrite Rinv_r by lra. replace ((1 - k) * (1 + 2 * k)) with (1 + k * (1 - 2 * k)) by ring.
    assert (0 <= k * (1 - 2 * k)) by (apply Rmult_le_pos; lra). lra. }
  split.
  - apply Rle_trans with ((1 - k) * x); [apply Rmult_le_compat_r; assumption|lra].
  - apply Rle_trans with ((1 + 2 * k) * x); [|apply Rmult_le_compat_r; assumption]. assert (0 <= k * x) by (apply Rmult_le_pos; assumption). lra.
Qed.
Lemma exp_half : forall x, sqrt (exp x) = exp (x / 2).
Proof. intro x. replace x with (x / 2 + x / 2) at 1 by field. rewrite exp_plus. apply sqrt_square. left. apply exp_pos. Qed.
Lemma rn_sqrt : forall n x X, rn n x X -> rn (n / 2) (sqrt x) (sqrt X).
Proof.
  intros n x X H. pose proof (rn_pos _ _ _ H) as PX. destruct H as (P & L & M). split; [apply sqrt_pos|].
  replace (n / 2 * (2 * u)) with (n * (2 * u) / 2) by field. replace (- (n * (2 * u) / 2)) with (- (n * (2 * u)) / 2) by field. rewrite <- !exp_half.
  rewrite <- !sqrt_mult_alt by (left; apply exp_pos). split; apply sqrt_le_1_alt; assumption.
Qed.
Lemma rn_one : forall n x, 0 <= n -> n * (2 * u) <= 1 / 2 -> rn n x 1 -> Rabs (x - 1) <= 4 * n * u.
Proof.
  intros n x N0 N1 (_ & L & M). assert (Q: 0 <= n * (2 * u)) by (apply Rmult_le_pos; lra). pose proof (exp_hi (n * (2 * u)) ltac:(lra)). pose proof (exp_ineq1_le (- (n * (2 * u)))). apply Rabs_le. lra.
Qed.
Lemma rn_dist : forall n x X, 0 <= n -> n * (2 * u) <= 1 / 2 -> rn n x X -> Rabs (x - X) <= 4 * n * u * X.
Proof.
  intros n x X N0 N1 (P & L & M). assert (Q: 0 <= n * (2 * u)) by (apply Rmult_le_pos; lra). pose proof (exp_hi (n * (2 * u)) ltac:(lra)) as A. pose proof (exp_ineq1_le (- (n * (2 * u)))) as B.
  assert (A': exp (n * (2 * u)) * X <= (1 + 2 * (n * (2 * u))) * X) by (apply Rmult_le_compat_r; assumption).
  assert (B': (1 + - (n * (2 * u))) * X <= exp (- (n * (2 * u))) * X) by (apply Rmult_le_compat_r; assumption).
  assert (0 <= n * (2 * u) * X) by (apply Rmult_le_pos; assumption). apply Rabs_le. lra.
Qed.
Lemma rn_half : forall n x X, 0 <= n -> n * (2 * u) <= 1 / 2 -> rn n x X -> X / 2 <= x <= 2 * X.
Proof.
  intros n x X N0 N1 (P & L & M). assert (Q: 0 <= n * (2 * u)) by (apply Rmult_le_pos; lra). pose proof (exp_hi (n * (2 * u)) ltac:(lra)) as A. pose proof (exp_ineq1_le (- (n * (2 * u)))) as B.
  assert (A': exp (n * (2 * u)) * X <= 2 * X) by (apply Rmult_le_compat_r; lra).
  assert (B': (1 / 2) * X <= exp (- (n * (2 * u))) * X) by (apply Rmult_le_compat_r; lra). lra.
Qed.
End U.

Section F.
Variables (f : fmt) (md : rmode).
Hypothesis Hf : fmt_ok f.
Hypothesis Hd : fmt_deep f.
Local Notation e := (eps f).
Local Notation rnd := (fround f md).
Local Notation D := (prec f).

Lemma e_pos' : 0 < e.
Proof. unfold eps. rewrite <- RMicromega.Q2R_0. apply Qlt_Rlt, p2_pos. Qed.
Lemma e_small : e <= 1 / 400000.
Proof. destruct Hd as [H _]. unfold eps. apply Rle_trans with (Q2R (p2 (-19))); [apply Qle_Rle, p2_le; lia|]. unfold Q2R, p2. cbn. lra. Qed.
Lemma two_e : forall n, n * 2 * e = n * (2 * e).
Proof. intro. ring. Qed.

(* rounding of 0 and of numbers that are not too small *)
Definition big (x : Q) : Prop := (x == 0)%Q \/ (p2 (emin f + D) <= Qabs x)%Q.
Lemma rnd_rel : forall x, big x -> Rabs (Q2R (rnd x) - Q2R x) <= e * Rabs (Q2R x).
Proof.
  intros x [Z|X].
  - assert (E: (rnd x == 0)%Q). { rewrite (rnd_compat f md Hf x 0%Q Z). apply rnd_fix; [exact Hf|apply repr_0; exact Hf]. }
    apply Qeq_eqR in E, Z. rewrite E, Z, RMicromega.Q2R_0. rewrite Rminus_0_r, Rabs_R0. lra.
  - assert (XQ: (p2 (emin f + D - 1) <= Qabs x)%Q) by (eapply Qle_trans; [|exact X]; apply p2_le; lia).
    pose proof (ulp_rel f (Qabs x) XQ) as U. rewrite <- fexp_abs in U. apply Qle_Rle in U. rewrite Q2R_mult, Q2R_abs in U.
    pose proof (rnd_err f md x) as [A C]. apply Qlt_Rlt in A, C. rewrite Q2R_minus in A. rewrite Q2R_plus in C. unfold eps. apply Rabs_le. lra.
Qed.
Lemma rn_rnd : forall n x X, big x -> rn e n (Q2R x) X -> rn e (n + 1) (Q2R (rnd x)) X.
Proof.
  intros n x X B H. pose proof (rn_pos e _ _ _ H) as P. pose proof e_pos'. pose proof e_small. apply (rn_err e e_pos' 1 n (Q2R x)); [lra|lra|exact H|].
  rewrite Rmult_1_l. eapply Rle_trans; [apply rnd_rel; exact B|]. rewrite Rabs_pos_eq by exact P. lra.
Qed.
Lemma rn_rnd_abs : forall n x X, big x -> rn e n (Rabs (Q2R x)) X -> rn e (n + 1) (Rabs (Q2R (rnd x))) X.
Proof.
  intros n x X B H. pose proof e_pos'. pose proof e_small. apply (rn_err e e_pos' 1 n (Rabs (Q2R x))); [lra|lra|exact H|].
  rewrite Rmult_1_l. eapply Rle_trans; [apply Rabs_triang_inv2|]. apply rnd_rel; exact B.
Qed.
End F.
