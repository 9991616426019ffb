(* Bounds for exp and ln of rational numbers, computed in integers. *)
From Coq Require Import Reals Lra Lia ZArith QArith Qreals.
Open Scope R_scope.

(* terms and partial sums of the series of exp *)
Fixpoint rterm (x : R) (n : nat) : R := match n with O => 1 | S k => rterm x k * x / INR n end.
Fixpoint rsum (x : R) (n : nat) : R := match n with O => 0 | S k => rsum x k + rterm x k end.

Lemma INR_S_pos : forall n, 0 < INR (S n).
Proof. intro n. apply lt_0_INR. lia. Qed.
Lemma rterm_S : forall x n, rterm x (S n) = rterm x n * x / INR (S n).
Proof. reflexivity. Qed.
Lemma rterm_eq : forall x n, rterm x n = / INR (fact n) * x ^ n.
Proof.
  intros x. induction n as [|n IH]; [cbn; field|]. rewrite rterm_S, IH. rewrite fact_simpl, mult_INR. cbn [pow].
  pose proof (INR_S_pos n). pose proof (INR_fact_neq_0 n). field. split; [assumption|lra].
Qed.
Lemma rsum_eq : forall x n, rsum x (S n) = sum_f_R0 (fun i => / INR (fact i) * x ^ i) n.
Proof.
  intros x. induction n as [|n IH]; [cbn; field|]. change (rsum x (S (S n))) with (rsum x (S n) + rterm x (S n)).
  rewrite IH, rterm_eq. reflexivity.
Qed.
Lemma rterm_nonneg : forall x n, 0 <= x -> 0 <= rterm x n.
Proof.
  intros x n H. induction n as [|n IH]; [cbn; lra|]. rewrite rterm_S. pose proof (INR_S_pos n).
  apply Rmult_le_pos; [apply Rmult_le_pos; assumption|]. apply Rlt_le, Rinv_0_lt_compat. assumption.
Qed.
Lemma exp_series : forall x, Un_cv (sum_f_R0 (fun i => / INR (fact i) * x ^ i)) (exp x).
Proof.
  intro x. unfold exp. destruct (exist_exp x) as [l Hl]. cbn [proj1_sig]. exact Hl.
Qed.

Lemma rsum_le : forall x n, 0 <= x -> rsum x n <= exp x.
Proof.
  intros x n H. apply Rle_trans with (rsum x (S n)); [cbn; pose proof (rterm_nonneg x n H); lra|]. rewrite rsum_eq.
  apply sum_incr; [apply exp_series|]. intro i. rewrite <- rterm_eq. apply rterm_nonneg. exact H.
Qed.
Lemma rsum_tail : forall x n j, 0 <= x -> 2 * x <= INR n + 1 -> rsum x (n + j) + 2 * rterm x (n + j) <= rsum x n + 2 * rterm x n.
Proof.
  intros x n j H0 H1. induction j as [|j IH]; [rewrite Nat.add_0_r; lra|]. rewrite Nat.add_succ_r. cbn [rsum]. rewrite rterm_S.
  pose proof (rterm_nonneg x (n + j) H0) as T. pose proof (INR_S_pos (n + j)) as P.
  assert (rterm x (n + j) * x / INR (S (n + j)) <= rterm x (n + j) / 2); [|lra].
  apply Rmult_le_reg_r with (INR (S (n + j))); [exact P|]. unfold Rdiv at 1. rewrite Rmult_assoc, Rinv_l, Rmult_1_r by lra.
  assert (2 * x <= INR (S (n + j))). { rewrite S_INR, plus_INR. pose proof (pos_INR j). lra. }
  assert (rterm x (n + j) * (2 * x) <= rterm x (n + j) * INR (S (n + j))) by (apply Rmult_le_compat_l; assumption). lra.
Qed.
Lemma rsum_mono : forall x k n, 0 <= x -> rsum x k <= rsum x (k + n).
Proof.
  intros x k n H. induction n as [|n IH]; [rewrite Nat.add_0_r; lra|]. rewrite Nat.add_succ_r. cbn [rsum]. pose proof (rterm_nonneg x (k + n) H). lra.
Qed.
Lemma exp_le_sum : forall x n, 0 <= x -> 2 * x <= INR n + 1 -> exp x <= rsum x n + 2 * rterm x n.
Proof.
  intros x n H0 H1. set (A := rsum x n + 2 * rterm x n).
  assert (B: forall N, sum_f_R0 (fun i => / INR (fact i) * x ^ i) N <= A).
  { intro N. rewrite <- rsum_eq. apply Rle_trans with (rsum x (n + S N)).
    - rewrite Nat.add_comm. apply rsum_mono. exact H0.
    - pose proof (rsum_tail x n (S N) H0 H1). pose proof (rterm_nonneg x (n + S N) H0). unfold A. lra. }
  destruct (Rle_or_lt (exp x) A) as [L|L]; [exact L|]. exfalso.
  destruct (exp_series x ((exp x - A) / 2) ltac:(lra)) as [N HN]. specialize (HN N (le_n N)). specialize (B N).
  unfold R_dist in HN. apply Rabs_def2 in HN. lra.
Qed.

(* Horner's scheme in fixed point, numbers in units of 1/one *)
Definition cdiv (a b : Z) : Z := (- ((- a) / b))%Z.
Fixpoint hlo (one x : Z) (n : nat) (h : Z) : Z :=
  match n with O => h | S m => hlo one x m (one + x * h / (Z.of_nat n * one))%Z end.
Fixpoint hhi (one x : Z) (n : nat) (h : Z) : Z :=
  match n with O => h | S m => hhi one x m (one + cdiv (x * h) (Z.of_nat n * one))%Z end.
Fixpoint slo (one : Z) (j : nat) (h : Z) : Z := match j with O => h | S i => slo one i (h * h / one)%Z end.
Fixpoint shi (one : Z) (j : nat) (h : Z) : Z := match j with O => h | S i => shi one i (cdiv (h * h) one) end.
(* bounds of one * exp (2^j * x / one) *)
Definition elo (one : Z) (n j : nat) (x : Z) : Z := slo one j (hlo one x n one).
Definition ehi (one : Z) (n j : nat) (x : Z) : Z := shi one j (hhi one x n (2 * one)).

Lemma div_le_R : forall a b, (0 < b)%Z -> IZR (a / b) * IZR b <= IZR a.
Proof. intros a b H. rewrite <- mult_IZR. apply IZR_le. pose proof (Z.mul_div_le a b H). lia. Qed.
Lemma cdiv_ge_R : forall a b, (0 < b)%Z -> IZR a <= IZR (cdiv a b) * IZR b.
Proof. intros a b H. rewrite <- mult_IZR. apply IZR_le. unfold cdiv. pose proof (Z.mul_div_le (- a) b H). lia. Qed.

Section E.
Variables (one x : Z).
Hypothesis O0 : (0 < one)%Z.
Hypothesis X0 : (0 <= x)%Z.
Let U := IZR one.
Let X := IZR x / U.
Lemma U_pos : 0 < U.
Proof. apply IZR_lt. exact O0. Qed.
Lemma X_nonneg : 0 <= X.
Proof. apply Rmult_le_pos; [apply IZR_le; exact X0|]. apply Rlt_le, Rinv_0_lt_compat, U_pos. Qed.
Lemma XU : X * U = IZR x.
Proof. unfold X. field. pose proof U_pos. lra. Qed.

Lemma hlo_ok : forall n h, (0 <= h)%Z -> rsum X n * U + rterm X n * IZR h <= exp X * U -> IZR (hlo one x n h) <= exp X * U /\ (0 <= hlo one x n h)%Z.
Proof.
  pose proof U_pos as UP. pose proof X_nonneg as XP. pose proof XU as EX.
  induction n as [|n IH]; intros h H0 H; [cbn in *; split; [lra|exact H0]|]. cbn [hlo].
  set (m := Z.of_nat (S n)). assert (M: (0 < m * one)%Z) by (unfold m; lia). pose proof (div_le_R (x * h) (m * one) M) as D.
  assert (Q0: (0 <= x * h / (m * one))%Z) by (apply Z.div_pos; lia). set (q := (x * h / (m * one))%Z) in *. apply IH; [lia|].
  rewrite plus_IZR. fold U. cbn [rsum] in H. rewrite rterm_S in H. rewrite !mult_IZR in D. fold U in D.
  assert (IM: INR (S n) = IZR m) by (unfold m; apply INR_IZR_INZ). rewrite IM in H. pose proof (rterm_nonneg X n XP) as T.
  assert (MP: 0 < IZR m) by (rewrite <- IM; apply INR_S_pos). pose proof (IZR_le _ _ H0) as HP.
  assert (D2: IZR q <= X / IZR m * IZR h).
  { apply Rmult_le_reg_r with (IZR m * U); [apply Rmult_lt_0_compat; assumption|]. rewrite <- EX in D.
    replace (X / IZR m * IZR h * (IZR m * U)) with (X * U * IZR h) by (field; lra). lra. }
  assert (rterm X n * IZR q <= rterm X n * (X / IZR m * IZR h)) by (apply Rmult_le_compat_l; assumption).
  replace (rterm X n * X / IZR m * IZR h) with (rterm X n * (X / IZR m * IZR h)) in H by (field; lra). lra.
Qed.
Lemma hhi_ok : forall n h, (0 <= h)%Z -> exp X * U <= rsum X n * U + rterm X n * IZR h -> exp X * U <= IZR (hhi one x n h).
Proof.
  pose proof U_pos as UP. pose proof X_nonneg as XP. pose proof XU as EX.
  induction n as [|n IH]; intros h H0 H; [cbn in *; lra|]. cbn [hhi].
  set (m := Z.of_nat (S n)). assert (M: (0 < m * one)%Z) by (unfold m; lia). pose proof (cdiv_ge_R (x * h) (m * one) M) as D.
  assert (Q0: (0 <= cdiv (x * h) (m * one))%Z). { unfold cdiv. assert (- (x * h) / (m * one) <= 0)%Z; [|lia]. apply Z.div_le_upper_bound; lia. }
  set (q := cdiv (x * h) (m * one)) in *. apply IH; [lia|].
  rewrite plus_IZR. fold U. cbn [rsum] in H. rewrite rterm_S in H. rewrite !mult_IZR in D. fold U in D.
  assert (IM: INR (S n) = IZR m) by (unfold m; apply INR_IZR_INZ). rewrite IM in H. pose proof (rterm_nonneg X n XP) as T.
  assert (MP: 0 < IZR m) by (rewrite <- IM; apply INR_S_pos). pose proof (IZR_le _ _ H0) as HP.
  assert (D2: X / IZR m * IZR h <= IZR q).
  { apply Rmult_le_reg_r with (IZR m * U); [apply Rmult_lt_0_compat; assumption|]. rewrite <- EX in D.
    replace (X / IZR m * IZR h * (IZR m * U)) with (X * U * IZR h) by (field; lra). lra. }
  assert (rterm X n * (X / IZR m * IZR h) <= rterm X n * IZR q) by (apply Rmult_le_compat_l; assumption).
  replace (rterm X n * X / IZR m * IZR h) with (rterm X n * (X / IZR m * IZR h)) in H by (field; lra). lra.
Qed.
Lemma exp_double : forall y, exp (2 * y) = exp y * exp y.
Proof. intro y. rewrite <- exp_plus. f_equal. ring. Qed.
Lemma slo_ok : forall j h y, (0 <= h)%Z -> IZR h <= exp y * U -> IZR (slo one j h) <= exp (2 ^ j * y) * U.
Proof.
  pose proof U_pos as UP. induction j as [|j IH]; intros h y H0 H; [cbn; rewrite Rmult_1_l; exact H|]. cbn [slo].
  replace (2 ^ S j * y) with (2 ^ j * (2 * y)) by (cbn; ring). apply IH; [apply Z.div_pos; nia|].
  pose proof (div_le_R (h * h) one O0) as D. fold U in D. rewrite mult_IZR in D. rewrite exp_double. pose proof (IZR_le _ _ H0) as HP.
  assert (IZR h * IZR h <= (exp y * U) * (exp y * U)) by (apply Rmult_le_compat; assumption).
  apply Rmult_le_reg_r with U; [exact UP|]. lra.
Qed.
Lemma shi_ok : forall j h y, exp y * U <= IZR h -> exp (2 ^ j * y) * U <= IZR (shi one j h).
Proof.
  pose proof U_pos as UP. induction j as [|j IH]; intros h y H; [cbn; rewrite Rmult_1_l; exact H|]. cbn [shi].
  replace (2 ^ S j * y) with (2 ^ j * (2 * y)) by (cbn; ring). apply IH.
  pose proof (cdiv_ge_R (h * h) one O0) as D. fold U in D. rewrite mult_IZR in D. rewrite exp_double. pose proof (exp_pos y) as EP.
  assert (0 <= exp y * U) by (apply Rmult_le_pos; lra).
  assert ((exp y * U) * (exp y * U) <= IZR h * IZR h) by (apply Rmult_le_compat; assumption).
  apply Rmult_le_reg_r with U; [exact UP|]. lra.
Qed.
Lemma elo_ok : forall n j, IZR (elo one n j x) <= exp (2 ^ j * X) * U.
Proof.
  intros n j. pose proof U_pos as UP. destruct (hlo_ok n one) as [A B]; [lia| |].
  - fold U. pose proof (rsum_le X (S n) X_nonneg) as L. cbn [rsum] in L. apply Rmult_le_compat_r with (r := U) in L; lra.
  - apply slo_ok; assumption.
Qed.
Lemma ehi_ok : forall n j, (2 * x <= Z.of_nat (S n) * one)%Z -> exp (2 ^ j * X) * U <= IZR (ehi one n j x).
Proof.
  intros n j H. pose proof U_pos as UP. apply shi_ok. apply hhi_ok; [lia|]. rewrite mult_IZR. fold U.
  assert (L: exp X <= rsum X n + 2 * rterm X n).
  { apply exp_le_sum; [exact X_nonneg|]. apply IZR_le in H. rewrite !mult_IZR, <- INR_IZR_INZ, S_INR in H. fold U in H. rewrite <- XU in H.
    apply Rmult_le_reg_r with U; [exact UP|]. lra. }
  apply Rmult_le_compat_r with (r := U) in L; lra.
Qed.
End E.

(* ln y for a rational y >= 1 between 2^j * lo / one and 2^j * hi / one *)
Definition ln_chk (one : Z) (n j : nat) (y : Q) (lo hi : Z) : bool :=
  ((0 <? one) && (0 <=? lo) && (0 <=? hi) && (0 <? Qnum y) && (2 * lo <=? Z.of_nat (S n) * one) &&
   (ehi one n j lo * QDen y <=? Qnum y * one) && (Qnum y * one <=? elo one n j hi * QDen y))%Z.

Lemma ln_le_of : forall y q, 0 < y -> y <= exp q -> ln y <= q.
Proof.
  intros y q H0 H. destruct H as [H|H].
  - left. rewrite <- (ln_exp q). apply ln_increasing; assumption.
  - right. rewrite H. apply ln_exp.
Qed.
Lemma ln_ge_of : forall y q, exp q <= y -> q <= ln y.
Proof.
  intros y q H. destruct H as [H|H].
  - left. rewrite <- (ln_exp q) at 1. apply ln_increasing; [apply exp_pos|exact H].
  - right. rewrite <- H. symmetry. apply ln_exp.
Qed.
Lemma ln_chk_ok : forall one n j y lo hi, ln_chk one n j y lo hi = true ->
  2 ^ j * (IZR lo / IZR one) <= ln (Q2R y) /\ ln (Q2R y) <= 2 ^ j * (IZR hi / IZR one).
Proof.
  intros one n j y lo hi H. unfold ln_chk in H. rewrite !andb_true_iff, !Z.leb_le, !Z.ltb_lt in H.
  destruct H as [[[[[[O0 L0] H0] Y0] L1] L2] H2].
  pose proof (IZR_lt _ _ O0) as UP. pose proof (IZR_lt 0 _ Y0) as YP. assert (DP: 0 < IZR (QDen y)) by (apply IZR_lt; lia).
  apply IZR_le in L2, H2. rewrite !mult_IZR in L2, H2.
  assert (YD: Q2R y * IZR (QDen y) = IZR (Qnum y)) by (unfold Q2R; field; lra).
  assert (QP: 0 < Q2R y). { unfold Q2R. apply Rmult_lt_0_compat; [exact YP|apply Rinv_0_lt_compat; exact DP]. }
  pose proof (elo_ok one hi O0 H0 n j) as E1. pose proof (ehi_ok one lo O0 L0 n j L1) as E2. cbv zeta in E1, E2.
  assert (P: 0 < IZR one * IZR (QDen y)) by (apply Rmult_lt_0_compat; assumption).
  split.
  - apply ln_ge_of. apply Rmult_le_reg_r with (IZR one * IZR (QDen y)); [exact P|].
    apply Rmult_le_compat_r with (r := IZR (QDen y)) in E2; [|lra]. rewrite <- YD in L2. lra.
  - apply ln_le_of; [exact QP|]. apply Rmult_le_reg_r with (IZR one * IZR (QDen y)); [exact P|].
    apply Rmult_le_compat_r with (r := IZR (QDen y)) in E1; [|lra]. rewrite <- YD in H2. lra.
Qed.
