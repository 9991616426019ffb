(* Accuracy of the inversion loop of binomial_distribution. *)
From Coq Require Import Lqa.
From Verif Require Import Base ProgModel ProgSpec ProgProofs UIntModel FloatModel FloatSpec FloatProofs RealModel UniProofs RDiscProofs RDisc5Proofs Piece2Proofs BinModel BinSpec BinProofs Bin2Proofs.
Ltac Zify.zify_post_hook ::= idtac.
Open Scope Q_scope.

(* the sum of the probabilities from x on, when they decrease from x+1 on *)
Lemma tail_sum : forall p t x rho, 0 <= p -> p <= 1 -> 0 <= rho -> 2 * (qn x + 1) * (1 - rho) >= 1 ->
  (forall j, (x <= j)%nat -> bpmf t p (S j) <= rho * bpmf t p j) ->
  1 - bcdf t p x <= 2 * (qn x + 1) * bpmf t p x.
Proof.
  intros p t x rho P0 P1 R0 HR H. set (c := 2 * (qn x + 1)) in *. pose proof (qn_nonneg x) as X0.
  assert (G: forall n, bcdf t p (x + n) - bcdf t p x + c * bpmf t p (x + n) <= c * bpmf t p x).
  { induction n as [|n IH]; [rewrite Nat.add_0_r; lra|]. rewrite Nat.add_succ_r, bcdf_S.
    specialize (H (x + n)%nat ltac:(lia)). pose proof (bpmf_nonneg p P0 P1 t (x + n)) as B0.
    assert (A: c * bpmf t p (S (x + n)) <= c * (rho * bpmf t p (x + n))).
    { rewrite !(Qmult_comm c). apply Qmult_le_compat_r; [exact H|]. unfold c. lra. }
    assert (C: 1 * bpmf t p (x + n) <= c * (1 - rho) * bpmf t p (x + n)) by (apply Qmult_le_compat_r; lra). lra. }
  specialize (G (S t)). rewrite (bcdf_all p t (x + S t)), (bpmf_over p t (x + S t)) in G by lia. lra.
Qed.

Lemma zero_div : forall a b, a == 0 -> a / b == 0.
Proof. intros a b H. unfold Qdiv. rewrite H. ring. Qed.

Section A.
Variable f : fmt.
Hypothesis Hf : fmt_ok f.
Hypothesis Hw : fmt_wide f.
Local Notation rnd := (fround f RNE).
Local Notation P := (prec f).
Local Notation e := (p2 (1 - P)).
Local Notation nu := (p2 (emin f + P)).

(* a bound of the absolute error gives one of the relative error *)
Lemma near_abs : forall k x y, 0 <= x -> 0 <= k -> k * e <= 1 -> Qabs (y - x) <= k * e * x -> near f k x y.
Proof.
  intros k x y X0 K0 K1 H. apply abs_le_inv in H. destruct H as [H1 H2]. pose proof (p2_pos (1 - P)) as E0.
  set (w := k * e) in *. assert (W0: 0 <= w) by (apply Qmult_le_0_compat; lra).
  assert (0 <= (1 - w) * x) by (apply Qmult_le_0_compat; lra).
  unfold near. fold w. repeat split; try lra.
  assert ((1 - w) * y <= (1 - w) * ((1 + w) * x)). { rewrite !(Qmult_comm (1 - w)). apply Qmult_le_compat_r; lra. }
  assert (0 <= w * w * x) by (apply Qmult_le_0_compat; [apply Qmult_le_0_compat|]; lra). lra.
Qed.
Lemma abs_near : forall k x y, 0 <= k -> k * e <= 1 # 2 -> near f k x y -> Qabs (y - x) <= 2 * k * e * x.
Proof.
  intros k x y K0 K1 (X0 & Y0 & A & B). pose proof (p2_pos (1 - P)) as E0. set (w := k * e) in *.
  assert (W0: 0 <= w) by (apply Qmult_le_0_compat; lra).
  assert (E: 2 * k * e * x == 2 * w * x) by (unfold w; ring). rewrite E.
  assert (0 <= w * x) by (apply Qmult_le_0_compat; lra).
  assert (y <= (1 + 2 * w) * x).
  { assert (M: (1 - w) * y <= (1 - w) * ((1 + 2 * w) * x)).
    { assert (0 <= w * (1 - 2 * w) * x) by (apply Qmult_le_0_compat; [apply Qmult_le_0_compat|]; lra). lra. }
    rewrite !(Qmult_comm (1 - w)) in M. apply Qmult_lt_0_le_reg_r in M; lra. }
  apply abs_le; lra.
Qed.
Lemma near_prod : forall j k x y a b, 0 <= j -> 0 <= k -> j * e <= 1 -> k * e <= 1 ->
  near f j x y -> near f k a b -> near f (j + k) (x * a) (y * b).
Proof.
  intros j k x y a b J0 K0 J1 K1 A B. apply near_trans with (y * a); try assumption.
  - apply near_mul; [apply B|exact A].
  - apply near_compat with (a * y) (b * y); [ring|ring|]. apply near_mul; [apply A|exact B].
Qed.
Lemma near_rnd0 : forall x, x == 0 \/ p2 (emin f + P - 1) <= x -> near f 1 x (rnd x).
Proof.
  intros x [H|H]; [|apply near_rnd; [exact Hf|exact H]].
  apply near_compat with 0 0; [symmetry; exact H| |apply near_refl; lra].
  rewrite (rnd_compat f RNE Hf _ _ H). symmetry. apply rnd_fix; [exact Hf|apply repr_0; exact Hf].
Qed.
Lemma rnd_0 : forall x, x == 0 -> rnd x == 0.
Proof. intros x H. rewrite (rnd_compat f RNE Hf _ _ H). apply rnd_fix; [exact Hf|apply repr_0; exact Hf]. Qed.

Lemma q_ok0 : forall p, 0 <= p -> p <= 1 # 2 ->
  representable f (rnd (1 - p)) /\ 1 # 2 <= rnd (1 - p) /\ rnd (1 - p) <= 1 /\ near f 1 (1 - p) (rnd (1 - p)).
Proof.
  intros p P0 P12.
  split; [apply rnd_repr; exact Hf|]. split; [|split].
  - apply repr_rnd_ge; [exact Hf| |lra]. change (1 # 2) with (p2 (-1)). apply repr_p2; [exact Hf|]. destruct Hw. lia.
  - apply repr_rnd_le; [exact Hf|apply repr_1; exact Hf|lra].
  - apply near_rnd; [exact Hf|]. apply Qle_trans with (1 # 2); [|lra]. change (1 # 2) with (p2 (-1)). apply p2_le. destruct Hw. lia.
Qed.

Variables (p : Q) (t : nat) (ti : ity).
Hypothesis Rp : representable f p.
Hypothesis P0 : 0 <= p.
Hypothesis P12 : p <= 1 # 2.
Hypothesis Pn : p == 0 \/ nu <= p.
Local Notation T := (qn (S t)).
Hypothesis Hti : (32 <= bits ti)%Z.
Hypothesis T1 : (Z.of_nat t < imax ti)%Z.
Hypothesis TP : (Z.of_nat t + 1 <= 2 ^ P)%Z.

Local Notation q := (rnd (1 - p)).
Local Notation s := (rnd (p / q)).
Local Notation tz := (Z.of_nat t).
Local Notation a := (rnd (rnd (inject_Z (tz + 1)) * s)).
Local Notation SS := (p / (1 - p)).

Lemma T_eq : inject_Z (tz + 1) == T.
Proof. rewrite qn_S. unfold qn. rewrite inject_Z_plus. reflexivity. Qed.
Lemma T_ge : 1 <= T.
Proof. apply qn_pos. lia. Qed.
Lemma q_ok : representable f q /\ 1 # 2 <= q /\ q <= 1 /\ near f 1 (1 - p) q.
Proof. exact (q_ok0 p P0 P12). Qed.
Lemma pq_ge : p <= p / q.
Proof. destruct q_ok as (_ & Q1 & Q2 & _). apply Qle_shift_div_l; [lra|]. assert (p * q <= p * 1); [|lra]. rewrite !(Qmult_comm p). apply Qmult_le_compat_r; lra. Qed.
Lemma pq_or : p / q == 0 \/ nu <= p / q.
Proof.
  destruct Pn as [H|H]; [left; apply zero_div; exact H|right]. pose proof pq_ge. lra.
Qed.
Lemma s_ok : representable f s /\ p <= s /\ s <= 1 /\ near f 2 SS s /\ (s == 0 \/ nu <= s) /\ (p == 0 -> s == 0).
Proof.
  destruct q_ok as (Rq & Q1 & Q2 & NQ). destruct (e_small f Hw) as [E0 E8]. pose proof pq_ge as PG.
  split; [apply rnd_repr; exact Hf|]. split; [apply repr_rnd_ge; [exact Hf|exact Rp|exact PG]|]. split.
  { apply repr_rnd_le; [exact Hf|apply repr_1; exact Hf|]. apply Qle_shift_div_r; lra. }
  split; [|split].
  - apply near_mono with (1 + 1); [lra|]. apply near_trans with (p / q); try lra.
    + apply near_compat with (/ (1 - p) * p) (/ q * p); [unfold Qdiv; ring|unfold Qdiv; ring|].
      apply near_mul; [lra|]. apply near_inv; [lra|lra|exact NQ].
    + apply near_rnd0. pose proof (nu_half f). pose proof (p2_pos (emin f + P - 1)). destruct pq_or as [H1|H1]; [left; exact H1|right; lra].
  - destruct Pn as [H|H].
    + left. apply rnd_0. apply zero_div. exact H.
    + right. apply repr_rnd_ge; [exact Hf|apply repr_p2; [exact Hf|destruct Hf; lia]|lra].
  - intro H. apply rnd_0. apply zero_div. exact H.
Qed.
Lemma SS_ok : 0 <= SS /\ SS <= 1.
Proof. split; [apply Qle_shift_div_l; lra|apply Qle_shift_div_r; lra]. Qed.

Lemma a_ok : representable f a /\ near f 3 (T * SS) a.
Proof.
  split; [apply rnd_repr; exact Hf|]. destruct s_ok as (Rs & S1 & S2 & NS & SZ & _). destruct (e_small f Hw) as [E0 E8]. pose proof T_ge as TG.
  assert (X: rnd (inject_Z (tz + 1)) * s == s * T). { rewrite injZ_rnd by (assumption || lia). rewrite T_eq. ring. }
  apply near_compat with (SS * T) (rnd (s * T)); [ring|apply rnd_compat; [exact Hf|symmetry; exact X]|].
  apply near_mono with (2 + 1); [lra|]. apply near_trans with (s * T); try lra.
  - apply near_mul; [lra|exact NS].
  - apply near_rnd0. destruct SZ as [H|H]; [left; rewrite H; ring|right]. pose proof (nu_half f). pose proof (p2_pos (emin f + P - 1)).
    assert (s * 1 <= s * T). { rewrite !(Qmult_comm s). apply Qmult_le_compat_r; lra. } lra.
Qed.

(* the ratio of consecutive probabilities *)
Local Notation D x := (SS * (T - qn x) / qn x).
Local Notation G x := (T / (T - qn x)).

Lemma G_ge : forall x, (x <= t)%nat -> 1 <= G x /\ G x <= T /\ 1 <= T - qn x.
Proof.
  intros x H. pose proof (qn_nonneg x) as X0. assert (1 <= T - qn x). { rewrite qn_S. pose proof (qn_le x t H). lra. }
  split; [|split]; [| |assumption].
  - apply Qle_shift_div_l; lra.
  - apply Qle_shift_div_r; [lra|]. pose proof T_ge. assert (T * 1 <= T * (T - qn x)). { rewrite !(Qmult_comm T). apply Qmult_le_compat_r; lra. } lra.
Qed.

Local Notation AX x := (rnd (a / rnd (inject_Z x))).
Local Notation dd x := (rnd (AX x - s)).

Lemma ratio_gen : forall x, (1 <= x)%nat -> (x <= t)%nat -> G x * e <= 1 # 80 ->
  representable f (dd (Z.of_nat x)) /\ near f (9 * G x) (D x) (dd (Z.of_nat x)) /\ 9 * G x * e <= 1 # 8.
Proof.
  intros x H1 H2 Te. split; [apply rnd_repr; exact Hf|].
  destruct s_ok as (Rs & S1 & S2 & NS & SZ & SZ0). destruct a_ok as [Ra Na]. destruct (e_small f Hw) as [E0 E8]. pose proof T_ge as TG.
  destruct (G_ge x H2) as (G1 & G2 & GX). destruct SS_ok as [SS0 SS1].
  assert (X1: 1 <= qn x) by (apply qn_pos; lia).
  assert (XR: rnd (inject_Z (Z.of_nat x)) == qn x) by (apply injZ_rnd; [exact Hf|lia]).
  pose proof (Qinv_lt_0_compat (qn x) ltac:(lra)) as IX. assert (XI: qn x * / qn x == 1) by (field; lra).
  pose proof (p2_pos (emin f + P - 1)) as NP. pose proof (nu_half f) as NH.
  assert (RX1: 1 <= T * / qn x). { assert (qn x * / qn x <= T * / qn x) by (apply Qmult_le_compat_r; lra). lra. }
  (* a / x *)
  assert (NAx: near f 4 (T * SS / qn x) (AX (Z.of_nat x))).
  { apply near_compat with (T * SS * / qn x) (rnd (a * / qn x)).
    { reflexivity. } { apply rnd_compat; [exact Hf|]. unfold Qdiv. apply Qmult_comp; [reflexivity|]. rewrite XR. reflexivity. }
    apply near_mono with (3 + 1); [lra|]. apply near_trans with (a * / qn x); try lra.
    - apply near_mul; [lra|exact Na].
    - apply near_rnd0. destruct Pn as [H|H].
      + left. assert (Z: a == 0); [|rewrite Z; ring]. apply rnd_0. rewrite (SZ0 H). ring.
      + right. destruct Na as (N1 & N2 & N3 & N4).
        assert (A2: (5 # 8) * (T * SS) <= (1 - 3 * e) * (T * SS)) by (apply Qmult_le_compat_r; lra).
        assert (A3: (5 # 8) * (T * SS) * / qn x <= a * / qn x) by (apply Qmult_le_compat_r; lra).
        assert (A4: SS * 1 <= SS * (T * / qn x)). { rewrite !(Qmult_comm SS). apply Qmult_le_compat_r; lra. }
        assert (A5: p <= SS). { apply Qle_shift_div_l; [lra|]. assert (p * (1 - p) <= p * 1). { rewrite !(Qmult_comm p). apply Qmult_le_compat_r; lra. } lra. }
        lra. }
  set (A := T * SS / qn x) in *. set (ax := AX (Z.of_nat x)) in *.
  assert (AE: A == SS * (T * / qn x)) by (unfold A; unfold Qdiv; ring).
  assert (DE: D x == A - SS) by (unfold A; field; lra).
  assert (SA: SS <= A). { rewrite AE. assert (SS * 1 <= SS * (T * / qn x)); [|lra]. rewrite !(Qmult_comm SS). apply Qmult_le_compat_r; lra. }
  assert (AD: A == G x * D x). { unfold A. field. split; [lra|split; lra]. }
  pose proof (abs_near 4 A ax ltac:(lra) ltac:(lra) NAx) as B1. pose proof (abs_near 2 SS s ltac:(lra) ltac:(lra) NS) as B2.
  assert (D0: 0 <= D x) by lra.
  assert (e * SS <= e * A). { rewrite !(Qmult_comm e). apply Qmult_le_compat_r; lra. }
  (* sharper bounds from the definition of near *)
  assert (C1: Qabs (ax - s - D x) <= 8 * G x * e * D x).
  { assert (Y: 8 * G x * e * D x == 8 * (e * A)) by (rewrite AD; ring). rewrite Y.
    destruct NAx as (N1 & N2 & N3 & N4). destruct NS as (M1 & M2 & M3 & M4).
    apply abs_le_inv in B1. apply abs_le_inv in B2.
    assert (E80: e <= 1 # 80). { assert (1 * e <= G x * e) by (apply Qmult_le_compat_r; lra). lra. }
    assert (U1: e * ax <= (20 # 19) * (e * A)).
    { assert (ax * e <= ((20 # 19) * A) * e); [|lra]. apply Qmult_le_compat_r; [|lra].
      assert ((19 # 20) * ax <= (1 - 4 * e) * ax) by (apply Qmult_le_compat_r; lra). lra. }
    assert (V1: e * s <= (4 # 3) * (e * SS)).
    { assert (s * e <= ((4 # 3) * SS) * e); [|lra]. apply Qmult_le_compat_r; [|lra].
      assert ((3 # 4) * s <= (1 - 2 * e) * s) by (apply Qmult_le_compat_r; lra). lra. }
    apply abs_le; lra. }
  assert (GG: 8 * G x * e <= 1 # 8) by lra.
  assert (N8: near f (8 * G x) (D x) (ax - s)). { apply near_abs; try lra; try exact C1. }
  split; [|lra]. apply near_mono with (8 * G x + 1); [lra|]. apply near_trans with (ax - s); try lra; [exact N8|].
  apply near_diff; [exact Hf|exact Rs|apply rnd_repr; exact Hf|]. destruct N8 as (_ & N & _). lra.
Qed.

(* ---- the invariant of the loop ---- *)
Variable K : Q.
Hypothesis K0 : 0 <= K.
Local Notation KK := (K + qn t).
Hypothesis HK : (KK + 10 * (T * T)) * e <= 1 # 8.

Lemma TTe : T * T * e <= 1 # 80 /\ T * e <= 1 # 80 /\ KK * e <= 1 # 8 /\ 0 <= KK.
Proof.
  pose proof T_ge as H. pose proof (p2_pos (1 - P)) as E0. pose proof (qn_nonneg t).
  assert (0 <= KK * e) by (apply Qmult_le_0_compat; lra).
  assert (T * e <= T * T * e). { apply Qmult_le_compat_r; [|lra]. assert (T * 1 <= T * T) by (rewrite !(Qmult_comm T); apply Qmult_le_compat_r; lra). lra. }
  assert (0 <= T * T * e) by (apply Qmult_le_0_compat; [apply Qmult_le_0_compat|]; lra). repeat split; lra.
Qed.

Lemma ratio_ok : forall x, (1 <= x)%nat -> (x <= t)%nat ->
  representable f (dd (Z.of_nat x)) /\ near f (9 * G x) (D x) (dd (Z.of_nat x)) /\ 9 * G x * e <= 1 # 8.
Proof.
  intros x H1 H2. apply ratio_gen; try assumption. destruct (G_ge x H2) as (G1 & G2 & GX). destruct TTe as (TT & Te & _).
  pose proof (p2_pos (1 - P)). assert (GE: G x * e <= T * e) by (apply Qmult_le_compat_r; lra). lra.
Qed.

Local Notation B j := (bpmf t p j).
Local Notation F j := (bcdf t p j).
Local Notation W j := (wsum p t j).
Definition kap (j : nat) : Q := KK + 10 * (qn j * T / (T - qn j)).
Definition Err (j : nat) : Q := e * (2 * KK * F j + 20 * W j + (3 # 2) * qn j).

Lemma kap_ok : forall j, (j <= t)%nat -> 0 <= kap j /\ kap j * e <= 1 # 8 /\ (kap j + 10 * G j) * e <= 1 # 4.
Proof.
  intros j Hj. destruct (G_ge j Hj) as (G1 & G2 & G3). destruct TTe as (A & B' & C & C'). pose proof (p2_pos (1 - P)) as E0. pose proof (qn_nonneg j) as J0.
  pose proof (qn_le j (S t) ltac:(lia)) as JT. unfold kap.
  assert (X: qn j * T / (T - qn j) == qn j * G j) by (field; lra). rewrite X.
  assert (0 <= qn j * G j) by (apply Qmult_le_0_compat; lra).
  assert (qn j * G j <= T * T). { apply Qmult_le_compat_nonneg; split; lra. }
  assert ((KK + 10 * (qn j * G j)) * e <= (KK + 10 * (T * T)) * e) by (apply Qmult_le_compat_r; lra).
  assert (G j * e <= T * e) by (apply Qmult_le_compat_r; lra). repeat split; lra.
Qed.
Lemma kap_step : forall j, (S j <= t)%nat -> kap j + 10 * G (S j) <= kap (S j).
Proof.
  intros j Hj. destruct (G_ge (S j) Hj) as (G1 & G2 & G3). destruct (G_ge j ltac:(lia)) as (H1 & H2 & H3). unfold kap.
  pose proof (qn_nonneg j) as J0.
  assert (X: forall i, 1 <= T - qn i -> qn i * T / (T - qn i) == qn i * G i) by (intros i Hi; field; lra).
  rewrite !X by assumption. rewrite (qn_S j) at 2.
  assert (GM: G j <= G (S j)).
  { apply Qle_shift_div_l; [lra|]. assert (Y: G j * (T - qn (S j)) == T - G j). { rewrite (qn_S j). field. lra. } rewrite Y. lra. }
  assert (qn j * G j <= qn j * G (S j)). { rewrite !(Qmult_comm (qn j)). apply Qmult_le_compat_r; lra. } lra.
Qed.
Lemma Err_step : forall j, (j <= t)%nat -> Err j + (2 * kap j * e * B j + (3 # 2) * e) == Err (S j).
Proof.
  intros j Hj. destruct (G_ge j Hj) as (G1 & G2 & G3). unfold Err, kap. rewrite bcdf_S. cbn [wsum]. rewrite (qn_S j). field. lra.
Qed.
Lemma F_le : forall j, 0 <= F j /\ F j <= 1.
Proof. intro j. split; [apply bcdf_nonneg; lra|apply bcdf_le_1; lra]. Qed.
Lemma Err_le : forall j, (j <= S t)%nat -> Err j <= (2 * KK + 40 * T * p + (3 # 2) * qn j) * e.
Proof.
  intros j Hj. unfold Err. pose proof (p2_pos (1 - P)) as E0. destruct (F_le j) as [F0 F1]. destruct TTe as (_ & _ & _ & KK0).
  pose proof (wsum_le p P0 ltac:(lra) P12 t j Hj) as WL. rewrite Qmult_comm. apply Qmult_le_compat_r; [|lra].
  assert (KK * F j <= KK * 1). { rewrite !(Qmult_comm KK). apply Qmult_le_compat_r; lra. } lra.
Qed.

Lemma B_ratio : forall j, (j < t)%nat -> B (S j) == D (S j) * B j.
Proof.
  intros j Hj. pose proof (bpmf_ratio p t j) as R. pose proof (qn_pos (S j) ltac:(lia)) as J1.
  assert (X: T - qn (S j) == qn t - qn j) by (rewrite !qn_S; ring).
  apply (Qmult_inj_r _ _ (qn (S j) * (1 - p))). { intro C. assert (0 < qn (S j) * (1 - p)) by (apply Qmult_lt_0_compat; lra). lra. }
  assert (Y: D (S j) * B j * (qn (S j) * (1 - p)) == (T - qn (S j)) * p * B j) by (field; split; lra).
  rewrite Y, X, <- R. ring.
Qed.

(* the result j is the one for u *)
Definition fits (u0 : Q) (j : nat) : Prop :=
  F j - (2 * KK + 40 * T * p + 6 * (qn j + 1)) * e <= u0 /\
  u0 <= F (S j) + (2 * KK + 40 * T * p + 6 * (qn j + 1)) * e.

Lemma loop_acc : forall n fuel r u j u0, (n < fuel)%nat -> n = (S t - j)%nat -> (j <= t)%nat ->
  representable f r -> nu <= r -> near f (kap j) (B j) r ->
  0 <= u -> u <= 1 -> u0 <= 1 -> Qabs (u + F j - u0) <= Err j ->
  exists y, bn_loop f RNE ti fuel s a r u (Z.of_nat j) = PRet (Z.of_nat y) /\ (y <= S t)%nat /\ fits u0 y.
Proof.
  pose proof (nu_e f Hw) as NE. pose proof (nu_half f) as NH. pose proof (p2_pos (emin f + P - 1)) as NP.
  pose proof (imin_le_0 ti Hti) as I0. destruct (e_small f Hw) as [E0 E8].
  destruct s_ok as (Rs & S1 & S2 & NS & SZ & SZ0). destruct TTe as (TT & Te & KKe & KK0). pose proof T_ge as TG.
  destruct SS_ok as [SS0 SS1].
  assert (TPE: 0 <= T * p) by (apply Qmult_le_0_compat; lra).
  induction n as [|n IH]; intros fuel r u j u0 HF HN HJ Rr R0 NR U0 U1 UU HI; [lia|].
  destruct fuel as [|fuel]; [lia|]. cbn [bn_loop]. pose proof (qlt_spec r u) as C.
  destruct (kap_ok j HJ) as (k0 & k8 & k4). pose proof (abs_near (kap j) (B j) r k0 ltac:(lra) NR) as RB.
  pose proof (Err_step j HJ) as ES. pose proof (Err_le j ltac:(lia)) as EL. pose proof (Err_le (S j) ltac:(lia)) as ELS. rewrite (qn_S j) in ELS.
  apply abs_le_inv in RB. apply abs_le_inv in HI. pose proof (qn_nonneg j) as J0.
  assert (JE: 0 <= qn j * e) by (apply Qmult_le_0_compat; lra).
  assert (BN: forall i, 0 <= B i) by (intro i; apply bpmf_nonneg; lra).
  pose proof (BN j) as Bj. assert (KB: 0 <= kap j * e * B j) by (apply Qmult_le_0_compat; [apply Qmult_le_0_compat|]; lra).
  destruct (qlt r u).
  2:{ exists j. split; [reflexivity|]. split; [lia|]. unfold fits. rewrite bcdf_S. split; lra. }
  rewrite addT_in, plift_some by lia. cbn [pbind].
  rewrite fdiv_ok by (apply (xdiv_ok f Hf tz TP); lia). rewrite plift_some. cbn [pbind].
  replace (Z.of_nat j + 1)%Z with (Z.of_nat (S j)) by lia.
  set (r1 := rnd (rnd (AX (Z.of_nat (S j)) - s) * r)).
  pose proof (qlt_spec r1 e) as C1. pose proof (qlt_spec r1 r) as C2.
  set (u' := rnd (u - r)). destruct (rnd_abs f RNE Hf (u - r) ltac:(lra)) as [A1 A2]. fold u' in A1, A2.
  assert (UE: (u - r) * e <= 1 * e) by (apply Qmult_le_compat_r; lra).
  assert (EH: e / 2 + e / 2 == e) by field.
  assert (U0': 0 <= u') by (apply rnd_nonneg; lra).
  assert (U1': u' <= 1) by (apply repr_rnd_le; [exact Hf|apply repr_1; exact Hf|lra]).
  assert (HI': Qabs (u' + F (S j) - u0) <= Err (S j)). { rewrite bcdf_S. apply abs_le; lra. }
  destruct (Nat.eq_dec j t) as [EJ|NJ].
  - (* x = t+1 *)
    assert (LB: r1 < e /\ r1 < r).
    { unfold r1. replace (Z.of_nat (S j)) with (tz + 1)%Z by lia. apply (last_break_t f Hf Hw tz s); try assumption; try lia; lra. }
    destruct LB as [L1 L2]. destruct (qlt r1 e); [|lra]. destruct (qlt r1 r); [|lra]. cbn [andb].
    exists (S j). split; [reflexivity|]. split; [lia|]. apply abs_le_inv in HI'. unfold fits. rewrite (qn_S j).
    assert (F1: F (S (S j)) == 1) by (apply bcdf_all; lia). rewrite F1. split; lra.
  - assert (HJ': (S j <= t)%nat) by lia. destruct (ratio_ok (S j) ltac:(lia) HJ') as (RD & ND & GE8).
    destruct (G_ge (S j) HJ') as (G1 & G2 & G3).
    set (d := rnd (AX (Z.of_nat (S j)) - s)) in *.
    assert (GTe: G (S j) * e <= T * e) by (apply Qmult_le_compat_r; lra).
    assert (NY: near f (9 * G (S j) + kap j) (B (S j)) (d * r)).
    { apply near_compat with (D (S j) * B j) (d * r); [symmetry; apply B_ratio; lia|reflexivity|].
      apply near_prod; try lra; assumption. }
    assert (NB: e <= r1 \/ r <= r1 ->
      exists y, bn_loop f RNE ti fuel s a r1 u' (Z.of_nat (S j)) = PRet (Z.of_nat y) /\ (y <= S t)%nat /\ fits u0 y).
    { intro CC. assert (R1: nu <= r1) by (destruct CC; lra).
      apply IH; try assumption; try lia.
      - apply rnd_repr. exact Hf.
      - apply near_mono with (9 * G (S j) + kap j + 1); [pose proof (kap_step j HJ'); lra|].
        apply near_trans with (d * r); try lra; [exact NY|]. apply near_rnd; [exact Hf|].
        apply Qnot_lt_le. intro LT. assert (r1 <= p2 (emin f + P - 1)); [|lra].
        apply repr_rnd_le; [exact Hf|apply repr_p2; [exact Hf|destruct Hf; lia]|lra]. }
    destruct (qlt r1 e); [destruct (qlt r1 r)|]; cbn [andb]; [|apply NB; right; exact C2|apply NB; left; exact C1].
    exists (S j). split; [reflexivity|]. split; [lia|]. apply abs_le_inv in HI'.
    destruct ND as (D0 & Dd & D1 & D2). destruct NY as (Y0 & Y1 & Y2 & Y3). clear NB IH.
    assert (DL: d < 1).
    { apply Qnot_le_lt. intro CC. assert (r <= r1); [|lra]. apply repr_rnd_ge; [exact Hf|exact Rr|].
      assert (1 * r <= d * r) by (apply Qmult_le_compat_r; lra). lra. }
    assert (YE: d * r < e).
    { apply Qnot_le_lt. intro CC. assert (e <= r1); [|lra]. apply repr_rnd_ge; [exact Hf|apply repr_e; assumption|exact CC]. }
    assert (B2: B (S j) <= 2 * e).
    { assert ((1 # 2) * B (S j) <= (1 - (9 * G (S j) + kap j) * e) * B (S j)) by (apply Qmult_le_compat_r; [lra|apply BN]). lra. }
    assert (DX: D (S j) <= 1 + 18 * (T * e)).
    { assert (M: (1 - 9 * (T * e)) * D (S j) <= 1).
      { assert ((1 - 9 * (T * e)) * D (S j) <= (1 - 9 * G (S j) * e) * D (S j)) by (apply Qmult_le_compat_r; lra). lra. }
      set (w := T * e) in *. assert (w0: 0 <= w) by (apply Qmult_le_0_compat; lra).
      apply Qnot_lt_le. intro CC.
      assert ((1 - 9 * w) * (1 + 18 * w) < (1 - 9 * w) * D (S j)) by (apply Qmult_lt_l; lra).
      assert (0 <= w * (1 - 18 * w)) by (apply Qmult_le_0_compat; lra). lra. }
    pose proof (qn_pos (S j) ltac:(lia)) as X1. set (x := S j) in *.
    assert (XT: qn x <= T) by (apply qn_le; unfold x; lia).
    assert (XTe: qn x * (T * e) <= 1 # 80). { assert (qn x * (T * e) <= T * (T * e)) by (apply Qmult_le_compat_r; [lra|apply Qmult_le_0_compat; lra]). lra. }
    assert (DXx: D x * qn x <= qn x + (1 # 2)).
    { assert (D x * qn x <= (1 + 18 * (T * e)) * qn x) by (apply Qmult_le_compat_r; lra). lra. }
    assert (TL: 1 - F x <= 2 * (qn x + 1) * B x).
    { apply tail_sum with ((qn x + (1 # 2)) / (qn x + 1)); try lra.
      - apply Qle_shift_div_l; lra.
      - assert (Z: 2 * (qn x + 1) * (1 - (qn x + (1 # 2)) / (qn x + 1)) == 1) by (field; lra). rewrite Z. lra.
      - intros i Hi. destruct (le_lt_dec t i) as [LT|LT].
        { rewrite bpmf_over by lia. apply Qmult_le_0_compat; [apply Qle_shift_div_l; lra|apply BN]. }
        rewrite (B_ratio i LT). apply Qmult_le_compat_r; [|apply BN].
        pose proof (qn_le x i Hi) as XI. pose proof (qn_S i) as QI. pose proof (qn_le (S i) (S t) ltac:(lia)) as IT.
        set (y := qn (S i)) in *. set (TT' := qn (S t)) in *.
        apply Qle_trans with (D x * qn x / (qn x + 1)).
        + assert (Z1: D x * qn x == SS * (TT' - qn x)) by (unfold TT'; field; split; lra). rewrite Z1.
          apply Qle_shift_div_l; [lra|].
          assert (Z2: SS * (TT' - y) / y * (qn x + 1) == SS * (TT' - y) * ((qn x + 1) / y)) by (field; split; lra).
          rewrite Z2. assert (Q1: (qn x + 1) / y <= 1) by (apply Qle_shift_div_r; lra).
          assert (V0: 0 <= SS * (TT' - y)) by (apply Qmult_le_0_compat; [exact SS0|lra]).
          assert (V1: SS * (TT' - y) * ((qn x + 1) / y) <= SS * (TT' - y) * 1).
          { rewrite !(Qmult_comm (SS * (TT' - y))). apply Qmult_le_compat_r; assumption. }
          assert (V2: SS * (TT' - y) <= SS * (TT' - qn x)). { rewrite !(Qmult_comm SS). apply Qmult_le_compat_r; lra. }
          lra.
        + unfold Qdiv at 1 3. apply Qmult_le_compat_r; [exact DXx|]. apply Qlt_le_weak, Qinv_lt_0_compat. lra. }
    unfold fits. rewrite bcdf_S. fold x. pose proof (BN x) as Bx. unfold x in *. rewrite (qn_S j) in *.
    assert (TB: (qn j + 1 + 1) * B (S j) <= (qn j + 1 + 1) * (2 * e)). { rewrite !(Qmult_comm (qn j + 1 + 1)). apply Qmult_le_compat_r; lra. }
    split; lra.
Qed.
End A.
