(* Recurrences of the binomial probabilities. *)
From Coq Require Import Lqa.
From Verif Require Import Base ProgModel FloatModel FloatSpec FloatProofs RealModel RDiscProofs BinModel BinSpec.
Ltac Zify.zify_post_hook ::= idtac.
Open Scope Q_scope.

Definition qn (n : nat) : Q := inject_Z (Z.of_nat n).
Lemma qn_S : forall n, qn (S n) == qn n + 1.
Proof. intro n. unfold qn. rewrite Nat2Z.inj_succ. unfold Z.succ. rewrite inject_Z_plus. reflexivity. Qed.
Lemma qn_nonneg : forall n, 0 <= qn n.
Proof. intro n. unfold qn. change 0 with (inject_Z 0). apply injZ_le. lia. Qed.
Lemma qn_le : forall a b, (a <= b)%nat -> qn a <= qn b.
Proof. intros. apply injZ_le. lia. Qed.
Lemma qn_pos : forall n, (0 < n)%nat -> 1 <= qn n.
Proof. intros n H. change 1 with (qn 1). apply qn_le. lia. Qed.

Section P.
Variable p : Q.
Local Notation B t k := (bpmf t p k).

Lemma bpmf_S0 : forall t, B (S t) 0 == (1 - p) * B t 0.
Proof. reflexivity. Qed.
Lemma bpmf_SS : forall t k, B (S t) (S k) == (1 - p) * B t (S k) + p * B t k.
Proof. reflexivity. Qed.
Lemma bpmf_over : forall t k, (t < k)%nat -> B t k == 0.
Proof.
  induction t as [|t IH]; intros [|k] H; try lia; [reflexivity|].
  rewrite bpmf_SS, (IH (S k)), (IH k) by lia. ring.
Qed.
Lemma bpmf_0 : forall t, B t 0 == Qpower (1 - p) (Z.of_nat t) \/ 1 - p == 0.
Proof.
  intro t. destruct (Qeq_dec (1 - p) 0) as [E|E]; [right; exact E|left]. induction t as [|t IH]; [reflexivity|].
  rewrite bpmf_S0, IH, Nat2Z.inj_succ. unfold Z.succ. rewrite Qpower_plus by exact E. change (Qpower (1 - p) 1) with (1 - p). ring.
Qed.

(* k q B(t,k) = (t+1-k) p B(t,k-1) *)
Lemma bpmf_ratio : forall t k, qn (S k) * (1 - p) * B t (S k) == (qn t - qn k) * p * B t k.
Proof.
  induction t as [|t IH]; intros k.
  - cbn [bpmf]. destruct k; [change (qn 0) with 0; ring|]. ring.
  - destruct k as [|k].
    + rewrite bpmf_SS, bpmf_S0. specialize (IH 0%nat). rewrite !qn_S in *. change (qn 0) with 0 in *.
      assert (X: (0 + 1) * (1 - p) * ((1 - p) * B t 1 + p * B t 0) == (1 - p) * ((0 + 1) * (1 - p) * B t 1) + (1 - p) * p * B t 0) by ring.
      rewrite X, IH. ring.
    + rewrite !bpmf_SS. pose proof (IH (S k)) as I1. pose proof (IH k) as I2. rewrite !qn_S in *.
      assert (X: (qn k + 1 + 1) * (1 - p) * ((1 - p) * B t (S (S k)) + p * B t (S k))
        == (1 - p) * ((qn k + 1 + 1) * (1 - p) * B t (S (S k))) + p * ((qn k + 1) * (1 - p) * B t (S k)) + p * (1 - p) * B t (S k)) by ring.
      rewrite X, I1, I2. ring.
Qed.
(* k B(t+1,k) = (t+1) p B(t,k-1) *)
Lemma bpmf_first : forall t k, qn (S k) * B (S t) (S k) == qn (S t) * p * B t k.
Proof.
  intros t k. rewrite bpmf_SS. pose proof (bpmf_ratio t k) as R. rewrite !qn_S in *.
  assert (X: (qn k + 1) * ((1 - p) * B t (S k) + p * B t k) == (qn k + 1) * (1 - p) * B t (S k) + (qn k + 1) * p * B t k) by ring.
  rewrite X, R. ring.
Qed.
(* (t+1-k) B(t+1,k) = (t+1) q B(t,k) *)
Lemma bpmf_second : forall t k, (qn (S t) - qn k) * B (S t) k == qn (S t) * (1 - p) * B t k.
Proof.
  intros t [|k].
  - rewrite bpmf_S0. change (qn 0) with 0. ring.
  - rewrite bpmf_SS. pose proof (bpmf_ratio t k) as R. rewrite !qn_S in *.
    assert (X: (qn t + 1 - (qn k + 1)) * ((1 - p) * B t (S k) + p * B t k) == (qn t - qn k) * (1 - p) * B t (S k) + (1) * ((qn t - qn k) * p * B t k)) by ring.
    rewrite X, <- R. ring.
Qed.

Lemma bcdf_S : forall t n, bcdf t p (S n) == bcdf t p n + B t n.
Proof. reflexivity. Qed.
Lemma bcdf_step : forall t n, bcdf (S t) p (S n) == (1 - p) * bcdf t p (S n) + p * bcdf t p n.
Proof.
  intros t n. induction n as [|n IH].
  - rewrite !bcdf_S, bpmf_S0. cbn [bcdf]. ring.
  - rewrite (bcdf_S (S t) (S n)), IH, bpmf_SS, (bcdf_S t (S n)), (bcdf_S t n). ring.
Qed.
Lemma bcdf_all : forall t n, (t < n)%nat -> bcdf t p n == 1.
Proof.
  induction t as [|t IH]; intros [|n] H; try lia.
  - clear H. induction n as [|n IH]; [cbn; ring|]. rewrite bcdf_S, IH, bpmf_over by lia. ring.
  - rewrite bcdf_step. destruct n as [|n]; [lia|]. rewrite (IH (S (S n))), (IH (S n)) by lia. ring.
Qed.

Hypothesis P0 : 0 <= p.
Hypothesis P1 : p <= 1.
Lemma bpmf_nonneg : forall t k, 0 <= B t k.
Proof using P0 P1.
  induction t as [|t IH]; intros [|k]; cbn [bpmf]; try lra.
  - apply Qmult_le_0_compat; [lra|apply IH].
  - assert (0 <= (1 - p) * B t (S k)) by (apply Qmult_le_0_compat; [lra|apply IH]).
    assert (0 <= p * B t k) by (apply Qmult_le_0_compat; [lra|apply IH]). lra.
Qed.
Lemma bcdf_mono : forall t a b, (a <= b)%nat -> bcdf t p a <= bcdf t p b.
Proof using P0 P1.
  intros t a b H. induction H as [|b H IH]; [lra|]. rewrite bcdf_S. pose proof (bpmf_nonneg t b). lra.
Qed.
Lemma bcdf_nonneg : forall t a, 0 <= bcdf t p a.
Proof using P0 P1. intros t a. apply (bcdf_mono t 0 a). lia. Qed.
Lemma bcdf_le_1 : forall t a, bcdf t p a <= 1.
Proof using P0 P1.
  intros t a. rewrite <- (bcdf_all t (S (t + a))) by lia. apply bcdf_mono. lia.
Qed.

(* the weights of the rounding errors: sum of j (t+1)/(t+1-j) B(t,j) *)
Fixpoint wsum (t n : nat) : Q :=
  match n with O => 0 | S j => wsum t j + qn j * qn (S t) / (qn (S t) - qn j) * B t j end.
Hypothesis P12 : p <= 1 # 2.
Lemma wsum_le : forall t n, (n <= S t)%nat -> wsum t n <= 2 * qn (S t) * p.
Proof using P0 P1 P12.
  intros t n Hn. pose proof (qn_pos (S t) ltac:(lia)) as T1.
  assert (K: (1 - p) * wsum t n <= qn (S t) * p * bcdf t p (pred n)).
  { induction n as [|j IH]; [cbn [wsum bcdf pred]; rewrite !Qmult_0_r; lra|]. specialize (IH ltac:(lia)).
    cbn [wsum pred]. assert (D: 0 < qn (S t) - qn j).
    { pose proof (qn_le (S j) (S t) Hn). rewrite qn_S in H at 1. lra. }
    assert (X: (1 - p) * (qn j * qn (S t) / (qn (S t) - qn j) * B t j) == qn j * B (S t) j).
    { rewrite <- (Qmult_1_l (qn j * B (S t) j)). pose proof (bpmf_second t j) as S2.
      apply (Qmult_inj_r _ _ (qn (S t) - qn j)); [lra|].
      assert (L: (1 - p) * (qn j * qn (S t) / (qn (S t) - qn j) * B t j) * (qn (S t) - qn j) == qn j * (qn (S t) * (1 - p) * B t j)) by (field; lra).
      rewrite L, <- S2. ring. }
    rewrite Qmult_plus_distr_r, X. destruct j as [|j].
    - change (qn 0) with 0. cbn [pred bcdf] in *. lra.
    - rewrite bpmf_first. cbn [pred] in *. rewrite (bcdf_S t j). lra. }
  pose proof (bcdf_le_1 t (pred n)) as C1.
  assert (U: qn (S t) * p * bcdf t p (pred n) <= qn (S t) * p * 1).
  { rewrite !(Qmult_comm (qn (S t) * p)). apply Qmult_le_compat_r; [exact C1|]. apply Qmult_le_0_compat; lra. }
  destruct (Qlt_le_dec (wsum t n) 0) as [N|N].
  - assert (0 <= qn (S t) * p) by (apply Qmult_le_0_compat; lra). lra.
  - assert ((1 # 2) * wsum t n <= (1 - p) * wsum t n) by (apply Qmult_le_compat_r; lra). lra.
Qed.
End P.

(* (1-p)^t is not tiny when t p is moderate *)
Lemma bernoulli_ineq : forall p n, 0 <= p -> p <= 1 -> 1 - qn n * p <= Qpower (1 - p) (Z.of_nat n) /\ 0 <= Qpower (1 - p) (Z.of_nat n).
Proof.
  intros p n H0 H1. induction n as [|n [IH IH0]].
  - change (qn 0) with 0. change (Qpower (1 - p) (Z.of_nat 0)) with 1. lra.
  - rewrite Nat2Z.inj_succ. unfold Z.succ. rewrite Qpower_plus' by lia. change (Qpower (1 - p) 1) with (1 - p). rewrite qn_S.
    assert (A: (1 - qn n * p) * (1 - p) <= Qpower (1 - p) (Z.of_nat n) * (1 - p)) by (apply Qmult_le_compat_r; lra).
    assert (0 <= qn n * p * p) by (apply Qmult_le_0_compat; [apply Qmult_le_0_compat; [apply qn_nonneg|]|]; lra).
    split; [lra|]. apply Qmult_le_0_compat; lra.
Qed.
Lemma pow_le_1 : forall b n, 0 <= b -> b <= 1 -> 0 <= Qpower b (Z.of_nat n) /\ Qpower b (Z.of_nat n) <= 1.
Proof.
  intros b n H0 H1. induction n as [|n [IH1 IH2]]; [change (Qpower b (Z.of_nat 0)) with 1; lra|].
  rewrite Nat2Z.inj_succ. unfold Z.succ. rewrite Qpower_plus' by lia. change (Qpower b 1) with b.
  split; [apply Qmult_le_0_compat; lra|]. assert (Qpower b (Z.of_nat n) * b <= 1 * b) by (apply Qmult_le_compat_r; lra). lra.
Qed.
Lemma pow_mono_base : forall a b n, 0 <= a -> a <= b -> Qpower a (Z.of_nat n) <= Qpower b (Z.of_nat n).
Proof.
  intros a b n H0 H1. induction n as [|n IH]; [change (Qpower a (Z.of_nat 0)) with 1; change (Qpower b (Z.of_nat 0)) with 1; lra|].
  rewrite Nat2Z.inj_succ. unfold Z.succ. rewrite !Qpower_plus' by lia. change (Qpower a 1) with a. change (Qpower b 1) with b.
  assert (0 <= Qpower a (Z.of_nat n)). { clear IH H1. induction n as [|n IH]; [change (Qpower a (Z.of_nat 0)) with 1; lra|].
    rewrite Nat2Z.inj_succ. unfold Z.succ. rewrite Qpower_plus' by lia. apply Qmult_le_0_compat; [exact IH|exact H0]. }
  apply Qmult_le_compat_nonneg; split; assumption.
Qed.
Lemma pow_anti : forall b n m, 0 <= b -> b <= 1 -> (n <= m)%nat -> Qpower b (Z.of_nat m) <= Qpower b (Z.of_nat n).
Proof.
  intros b n m H0 H1 H. induction H as [|m H IH]; [lra|].
  rewrite Nat2Z.inj_succ. unfold Z.succ. rewrite Qpower_plus' by lia. change (Qpower b 1) with b.
  destruct (pow_le_1 b m H0 H1) as [A _]. assert (Qpower b (Z.of_nat m) * b <= Qpower b (Z.of_nat m) * 1).
  { rewrite !(Qmult_comm (Qpower b (Z.of_nat m))). apply Qmult_le_compat_r; lra. } lra.
Qed.
Lemma half_pow : forall n, Qpower (1 # 2) (Z.of_nat n) == p2 (- Z.of_nat n).
Proof.
  induction n as [|n IH]; [reflexivity|]. rewrite Nat2Z.inj_succ. unfold Z.succ. rewrite Qpower_plus' by lia. rewrite IH.
  replace (- (Z.of_nat n + 1))%Z with (- Z.of_nat n + -1)%Z by lia. rewrite p2_add. reflexivity.
Qed.

Lemma pow_lower : forall p t, 0 <= p -> p <= 1 # 2 -> qn t * p <= 11 -> p2 (-45) <= Qpower (1 - p) (Z.of_nat t).
Proof.
  intros p t H0 H1 HT. destruct (Qlt_le_dec (1 # 4) p) as [L|L].
  - assert (TT: (t <= 44)%nat).
    { apply Nat2Z.inj_le. rewrite Zle_Qle. fold (qn t). change (inject_Z (Z.of_nat 44)) with 44.
      apply Qnot_lt_le. intro C. assert (44 * (1 # 4) < qn t * p) by nra. lra. }
    apply Qle_trans with (Qpower (1 # 2) (Z.of_nat t)); [|apply pow_mono_base; lra].
    rewrite half_pow. apply p2_le. lia.
  - destruct (Qlt_le_dec 0 p) as [LP|LP].
    2:{ assert (E: p == 0) by lra. assert (X: 1 <= Qpower (1 - p) (Z.of_nat t)).
        { destruct (bernoulli_ineq p t) as [A _]; [lra|lra|]. rewrite E in A at 1. lra. }
        apply Qle_trans with 1; [|exact X]. change 1 with (p2 0). apply p2_le. lia. }
    set (kz := Qfloor (1 / (2 * p))). pose proof (floor_bounds (1 / (2 * p))) as [F1 F2]. fold kz in F1, F2.
    assert (Y: 1 / (2 * p) * p == 1 # 2) by (field; lra).
    assert (KP1: inject_Z kz * p <= 1 # 2). { apply (Qmult_le_compat_r _ _ p) in F1; lra. }
    assert (KP2: 1 # 2 < (inject_Z kz + 1) * p). { apply (Qmult_lt_r _ _ p) in F2; lra. }
    assert (K0: (1 <= kz)%Z).
    { rewrite Zle_Qle. change (inject_Z 1) with 1. apply Qnot_lt_le. intro C.
      assert (kz <= 0)%Z. { assert (kz < 1)%Z; [rewrite Zlt_Qlt; exact C|lia]. }
      rewrite Zle_Qle in H. change (inject_Z 0) with 0 in H. nra. }
    set (k := Z.to_nat kz). assert (EK: inject_Z kz = qn k). { unfold qn, k. rewrite Z2Nat.id by lia. reflexivity. }
    rewrite EK in *. assert (KP3: 1 # 4 < qn k * p) by lra.
    set (n := S (t / k)). assert (Hk: (1 <= k)%nat) by (unfold k; lia).
    assert (TN: (t <= n * k)%nat). { unfold n. pose proof (Nat.div_mod t k ltac:(lia)). pose proof (Nat.mod_upper_bound t k ltac:(lia)). lia. }
    assert (N45: (n <= 45)%nat).
    { unfold n. assert (t / k <= 44)%nat; [|lia]. assert (Z.of_nat (t / k) <= 44)%Z; [|lia].
      rewrite Zle_Qle. fold (qn (t / k)). change (inject_Z 44) with 44. apply Qnot_lt_le. intro C.
      assert (M: qn (t / k) * qn k <= qn t).
      { unfold qn. rewrite <- inject_Z_mult. apply injZ_le. pose proof (Nat.div_mod t k ltac:(lia)). nia. }
      assert (A: qn (t / k) * qn k * p <= qn t * p) by (apply Qmult_le_compat_r; lra).
      assert (AA: qn (t / k) * qn k * p == qn (t / k) * (qn k * p)) by ring.
      assert (44 * (1 # 4) < qn (t / k) * (qn k * p)) by nra. lra. }
    apply Qle_trans with (Qpower (1 - p) (Z.of_nat (n * k))); [|apply pow_anti; lra || exact TN].
    rewrite Nat2Z.inj_mul, Z.mul_comm, Qpower_mult.
    destruct (bernoulli_ineq p k) as [A _]; [lra|lra|].
    apply Qle_trans with (Qpower (1 # 2) (Z.of_nat n)); [rewrite half_pow; apply p2_le; lia|].
    apply pow_mono_base; lra.
Qed.
