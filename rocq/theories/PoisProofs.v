(* poisson_distribution by inversion. *)
From Coq Require Import Lqa.
From Verif Require Import Base ProgModel ProgSpec ProgProofs UIntModel UIntSpec FloatModel FloatSpec FloatProofs RealModel UniProofs Disc4Proofs RDiscProofs RDisc5Proofs Piece2Proofs BinModel BinSpec BinProofs Bin2Proofs Bin3Proofs Bin4Proofs PoisModel PoisSpec.
Ltac Zify.zify_post_hook ::= idtac.
Open Scope Q_scope.

(* ---- the series ---- *)
Section T.
Variable m : Q.
Hypothesis M0 : 0 <= m.
Local Notation t i := (pterm m i).
Local Notation s n := (psum m n).

Lemma t_S : forall i, t (S i) * qn (S i) == t i * m.
Proof. intro i. cbn [pterm]. change (qZ (Z.of_nat (S i))) with (qn (S i)). pose proof (qn_pos (S i) ltac:(lia)). field. lra. Qed.
Lemma t_nonneg : forall i, 0 <= t i.
Proof.
  induction i as [|i IH]; [cbn [pterm]; lra|]. cbn [pterm]. change (qZ (Z.of_nat (S i))) with (qn (S i)). pose proof (qn_pos (S i) ltac:(lia)).
  apply Qle_shift_div_l; [lra|]. rewrite Qmult_0_l. apply Qmult_le_0_compat; assumption.
Qed.
Lemma s_mono : forall a b, (a <= b)%nat -> s a <= s b.
Proof. intros a b H. induction H as [|b H IH]; [lra|]. cbn [psum]. pose proof (t_nonneg b). lra. Qed.
Lemma s_nonneg : forall a, 0 <= s a.
Proof. intro a. exact (s_mono 0 a ltac:(lia)). Qed.
Lemma s_ge_1 : forall a, (0 < a)%nat -> 1 <= s a.
Proof. intros a H. pose proof (s_mono 1 a H) as X. cbn [psum pterm] in X. lra. Qed.
Lemma t_half : forall i, 2 * m <= qn (S i) -> 2 * t (S i) <= t i.
Proof.
  intros i H. pose proof (t_S i) as E. pose proof (qn_pos (S i) ltac:(lia)) as Q1. pose proof (t_nonneg i) as T0. pose proof (t_nonneg (S i)).
  apply (Qmult_lt_0_le_reg_r _ _ (qn (S i))); [lra|].
  assert (t i * (2 * m) <= t i * qn (S i)). { rewrite !(Qmult_comm (t i)). apply Qmult_le_compat_r; assumption. } lra.
Qed.
Lemma s_tail : forall J n, 2 * m <= qn (S J) -> s (J + n) + 2 * t (J + n) <= s J + 2 * t J.
Proof.
  intros J n H. induction n as [|n IH]; [rewrite Nat.add_0_r; lra|]. rewrite Nat.add_succ_r. cbn [psum].
  assert (2 * t (S (J + n)) <= t (J + n)). { apply t_half. pose proof (qn_le (S J) (S (J + n)) ltac:(lia)). lra. } lra.
Qed.
Lemma s_tail_all : forall J N, 2 * m <= qn (S J) -> s N <= s J + 2 * t J.
Proof.
  intros J N H. pose proof (t_nonneg J). destruct (le_lt_dec N J) as [L|L]; [pose proof (s_mono N J L); lra|].
  pose proof (s_tail J (N - J) H) as X. replace (J + (N - J))%nat with N in X by lia. pose proof (t_nonneg N). lra.
Qed.
Lemma t_geo : forall J n, 2 * m <= qn (S J) -> t (J + n) <= p2 (- Z.of_nat n) * t J.
Proof.
  intros J n H. induction n as [|n IH]. { rewrite Nat.add_0_r. change (p2 (- Z.of_nat 0)) with 1. lra. }
  rewrite Nat.add_succ_r.
  assert (2 * t (S (J + n)) <= t (J + n)). { apply t_half. pose proof (qn_le (S J) (S (J + n)) ltac:(lia)). lra. }
  assert (E: p2 (- Z.of_nat n) == 2 * p2 (- Z.of_nat (S n))).
  { rewrite Nat2Z.inj_succ. change 2 with (p2 1). rewrite <- p2_add. replace (1 + - Z.succ (Z.of_nat n))%Z with (- Z.of_nat n)%Z by lia. reflexivity. }
  rewrite E in IH. lra.
Qed.
(* the mean of the first terms *)
Fixpoint pw1 (n : nat) : Q := match n with O => 0 | S k => pw1 k + qn k * t k end.
Lemma pw1_le : forall n, pw1 n <= m * s n /\ 0 <= pw1 n.
Proof.
  assert (X: forall n, pw1 (S n) == m * s n).
  { induction n as [|n IH]; [cbn [pw1 psum pterm]; change (qn 0) with 0; ring|]. change (pw1 (S (S n))) with (pw1 (S n) + qn (S n) * t (S n)). rewrite IH.
    pose proof (t_S n) as E. cbn [psum]. rewrite Qmult_plus_distr_r, (Qmult_comm m (t n)), <- E. ring. }
  assert (Y: forall n, 0 <= pw1 n).
  { induction n as [|n IH]; [cbn [pw1]; lra|]. cbn [pw1]. assert (0 <= qn n * t n) by (apply Qmult_le_0_compat; [apply qn_nonneg|apply t_nonneg]). lra. }
  intros n. split; [|apply Y]. destruct n as [|n]; [cbn [pw1 psum]; lra|]. rewrite X. cbn [psum].
  assert (0 <= m * t n) by (apply Qmult_le_0_compat; [assumption|apply t_nonneg]). lra.
Qed.
End T.

Lemma t_mono : forall a b i, 0 <= a -> a <= b -> pterm a i <= pterm b i.
Proof.
  intros a b i A0 AB. induction i as [|i IH]; [cbn [pterm]; lra|]. cbn [pterm]. change (qZ (Z.of_nat (S i))) with (qn (S i)).
  pose proof (qn_pos (S i) ltac:(lia)). unfold Qdiv. apply Qmult_le_compat_r; [|apply Qlt_le_weak, Qinv_lt_0_compat; lra].
  apply Qmult_le_compat_nonneg; split; try assumption. apply t_nonneg. exact A0.
Qed.
Lemma s_mono_m : forall a b n, 0 <= a -> a <= b -> psum a n <= psum b n.
Proof. intros a b n A0 AB. induction n as [|n IH]; cbn [psum]; [lra|]. pose proof (t_mono a b n A0 AB). lra. Qed.
(* e^10 < 2^15 *)
Lemma s_bound : forall m N, 0 <= m -> m <= 10 -> psum m N <= p2 15.
Proof.
  intros m N M0 M1. apply Qle_trans with (psum 10 N); [apply s_mono_m; assumption|].
  apply Qle_trans with (psum 10 20 + 2 * pterm 10 20); [|vm_compute; discriminate]. apply s_tail_all; [lra|vm_compute; discriminate].
Qed.
Lemma t_small : forall m n, 0 <= m -> m <= 10 -> 2 * pterm m (30 + n) <= p2 (- 1 - Z.of_nat n).
Proof.
  intros m n M0 M1. assert (E: p2 (- 1 - Z.of_nat n) == 2 * (p2 (- Z.of_nat n) * (1 # 4))).
  { change (1 # 4) with (p2 (-2)). change 2 with (p2 1) at 1. rewrite <- !p2_add. replace (1 + (- Z.of_nat n + -2))%Z with (- 1 - Z.of_nat n)%Z by lia. reflexivity. }
  rewrite E. assert (X: pterm m (30 + n) <= p2 (- Z.of_nat n) * (1 # 4)); [|lra].
  apply Qle_trans with (pterm 10 (30 + n)); [apply t_mono; assumption|].
  apply Qle_trans with (p2 (- Z.of_nat n) * pterm 10 30); [apply t_geo; [lra|vm_compute; discriminate]|].
  rewrite !(Qmult_comm (p2 _)). apply Qmult_le_compat_r; [vm_compute; discriminate|apply Qlt_le_weak, p2_pos].
Qed.

Section A.
Variable f : fmt.
Hypothesis Hf : fmt_ok f.
Hypothesis Hw : fmt_wide f.
Local Notation rnd := (fround f RNE).
Local Notation P := (prec f).
Local Notation e := (p2 (1 - P)).
Local Notation nu := (p2 (emin f + P)).
Variables (m : Q) (ti : ity) (J : nat).
Hypothesis M0 : 0 < m.
Hypothesis M10 : m < 10.
Hypothesis Hti : (32 <= bits ti)%Z.
Hypothesis JP : (Z.of_nat J <= 2 ^ P)%Z.
Hypothesis JI : (Z.of_nat J <= imax ti)%Z.
Hypothesis JE : qn J * e <= 1 # 16.
Variable y0 : Q.
Hypothesis Ry : representable f y0.
Variable K : Q.
Hypothesis K0 : 0 <= K.
Hypothesis KE : K * e <= 1 # 8.
Hypothesis HY : exp_neg m (K * e) y0.

Local Notation t i := (pterm m i).
Local Notation s n := (psum m n).

Lemma y0_lo : nu <= y0.
Proof.
  destruct HY as (_ & N & H). destruct (e_small f Hw) as [E0 E8]. pose proof (s_bound m N ltac:(lra) ltac:(lra)) as SB.
  pose proof (s_nonneg m ltac:(lra) N) as S0.
  assert (Y: 0 < y0).
  { apply Qnot_le_lt. intro C. assert (0 <= (- y0) * s N) by (apply Qmult_le_0_compat; lra).
    assert (0 <= K * e * (- y0 * s N)) by (apply Qmult_le_0_compat; [apply Qmult_le_0_compat; lra|lra]). lra. }
  assert (A: (1 + K * e) * (y0 * s N) <= 2 * (y0 * p2 15)).
  { assert (y0 * s N <= y0 * p2 15). { rewrite !(Qmult_comm y0). apply Qmult_le_compat_r; lra. }
    assert (0 <= y0 * s N) by (apply Qmult_le_0_compat; lra).
    assert ((1 + K * e) * (y0 * s N) <= 2 * (y0 * s N)) by (apply Qmult_le_compat_r; lra). lra. }
  assert (B: p2 (-16) <= y0). { apply (Qmult_lt_0_le_reg_r _ _ (p2 16)); [reflexivity|]. change (p2 (-16) * p2 16) with (65536 # 65536). change (p2 15) with 32768 in A. change (p2 16) with 65536. lra. }
  apply Qle_trans with (p2 (-16)); [apply p2_le; destruct Hw; lia|exact B].
Qed.
Lemma ys_hi : forall N, 0 <= y0 * s N /\ y0 * s N <= 8 # 7.
Proof.
  intro N. destruct HY as (H & _). specialize (H N). pose proof y0_lo. pose proof (p2_pos (emin f + P)). pose proof (s_nonneg m ltac:(lra) N).
  assert (0 <= y0 * s N) by (apply Qmult_le_0_compat; lra). split; [assumption|].
  assert ((7 # 8) * (y0 * s N) <= (1 - K * e) * (y0 * s N)) by (apply Qmult_le_compat_r; lra). lra.
Qed.

(* the value of p in turn k, and the exact one *)
Definition okp (k : nat) (p : Q) : Prop :=
  representable f p /\ 0 <= p /\
  ((near f (2 * qn k) (y0 * t k) p /\ nu <= y0 * t k) \/ (p <= 4 * nu /\ y0 * t k <= 4 * nu /\ m <= qn (S k))).

Lemma okp_0 : okp 0 y0.
Proof.
  pose proof y0_lo. pose proof (p2_pos (emin f + P)). split; [exact Ry|]. split; [lra|]. left. cbn [pterm]. split; [|lra].
  apply near_compat with y0 y0; [ring|reflexivity|]. apply near_refl; [change (qn 0) with 0; lra|lra].
Qed.
Lemma okp_abs : forall k p, (k <= J)%nat -> okp k p -> Qabs (p - y0 * t k) <= 4 * (qn k * e) * (y0 * t k) + 4 * nu.
Proof.
  intros k p Hk (_ & P0 & H). pose proof (p2_pos (emin f + P)) as N0. pose proof y0_lo as Y0. destruct (e_small f Hw) as [E0 E8].
  pose proof (t_nonneg m ltac:(lra) k) as T0. assert (YT: 0 <= y0 * t k) by (apply Qmult_le_0_compat; lra).
  pose proof (qn_nonneg k) as Q0. pose proof (qn_le k J Hk) as QJ.
  assert (QE: 0 <= qn k * e /\ qn k * e <= 1 # 16). { split; [apply Qmult_le_0_compat; lra|]. assert (qn k * e <= qn J * e) by (apply Qmult_le_compat_r; lra). lra. }
  assert (Z: 0 <= 4 * (qn k * e) * (y0 * t k)) by (apply Qmult_le_0_compat; lra).
  destruct H as [[H _]|(A & B & _)].
  - pose proof (abs_near f (2 * qn k) (y0 * t k) p ltac:(lra) ltac:(lra) H) as X.
    assert (2 * (2 * qn k) * e * (y0 * t k) == 4 * (qn k * e) * (y0 * t k)) by ring. lra.
  - apply abs_le; lra.
Qed.

Lemma okp_step : forall k p, (S k <= J)%nat -> okp k p -> okp (S k) (rnd (rnd (m * p) / rnd (inject_Z (Z.of_nat (S k))))).
Proof.
  intros k p Hk (Rp & P0 & H). pose proof (p2_pos (emin f + P)) as N0. pose proof y0_lo as Y0. destruct (e_small f Hw) as [E0 E8].
  pose proof (t_nonneg m ltac:(lra) k) as T0. assert (YT: 0 <= y0 * t k) by (apply Qmult_le_0_compat; lra).
  rewrite injZ_eq by (assumption || lia). change (inject_Z (Z.of_nat (S k))) with (qn (S k)).
  pose proof (qn_pos (S k) ltac:(lia)) as X1. pose proof (qn_nonneg k) as Q0. pose proof (qn_S k) as QS. pose proof (qn_le (S k) J Hk) as QJ.
  assert (QE: 0 <= qn (S k) * e /\ qn (S k) * e <= 1 # 16). { split; [apply Qmult_le_0_compat; lra|]. assert (qn (S k) * e <= qn J * e) by (apply Qmult_le_compat_r; lra). lra. }
  assert (EE: 0 <= qn k * e /\ qn k * e + e == qn (S k) * e). { split; [apply Qmult_le_0_compat; lra|rewrite QS; ring]. }
  assert (TS: y0 * t (S k) == m * (y0 * t k) / qn (S k)). { pose proof (t_S m k) as E. apply (Qmult_inj_r _ _ (qn (S k))); [lra|]. rewrite <- Qmult_assoc, E. field. lra. }
  set (x := qn (S k)) in *. set (a := rnd (m * p)). set (b := rnd (a / x)). set (w := y0 * t k) in *.
  assert (MP: 0 <= m * p) by (apply Qmult_le_0_compat; lra).
  assert (A0: 0 <= a) by (apply rnd_nonneg; exact MP).
  assert (AX: 0 <= a / x) by (apply Qle_shift_div_l; lra).
  assert (B0: 0 <= b) by (apply rnd_nonneg; exact AX).
  pose proof (nu_half f) as NH. pose proof (p2_pos (emin f + P - 1)) as NP.
  assert (RN: representable f (4 * nu)). { change 4 with (p2 2). apply repr_compat with (p2 (2 + (emin f + P))); [apply p2_add|]. apply repr_p2; [exact Hf|destruct Hf; lia]. }
  split; [apply rnd_repr; exact Hf|]. split; [exact B0|].
  assert (TSx: y0 * t (S k) * x == m * w) by (rewrite TS; field; lra).
  (* an upper bound of the computed value *)
  assert (UP: forall c z, representable f c -> representable f (x * c) -> m * p <= x * c -> z = b -> z <= c).
  { intros c z Rc Rxc HM ->. unfold b. apply repr_rnd_le; [exact Hf|exact Rc|]. apply Qle_shift_div_r; [lra|].
    rewrite (Qmult_comm c). unfold a. apply repr_rnd_le; [exact Hf|exact Rxc|exact HM]. }
  assert (R4: representable f (x * (4 * nu))).
  { change 4 with (p2 2). apply repr_compat with (inject_Z (Z.of_nat (S k)) * p2 (2 + (emin f + P))).
    - rewrite p2_add. unfold x, qn. reflexivity.
    - exists (Z.of_nat (S k)), (2 + (emin f + P))%Z. split; [destruct Hf; lia|]. split; [lia|reflexivity]. }
  destruct H as [[HN HW]|(A & B & C)].
  2:{ right. assert (MX: m <= x) by lra. split; [|split].
    - apply UP; [exact RN|exact R4| |reflexivity]. apply Qmult_le_compat_nonneg; split; lra.
    - rewrite TS. apply Qle_shift_div_r; [lra|]. rewrite (Qmult_comm (4 * nu)). apply Qmult_le_compat_nonneg; split; lra.
    - rewrite qn_S. fold x. lra. }
  assert (PW: (7 # 8) * w <= p /\ (7 # 8) * p <= w).
  { destruct HN as (_ & _ & U & V).
    assert ((7 # 8) * w <= (1 - 2 * qn k * e) * w) by (apply Qmult_le_compat_r; lra).
    assert ((7 # 8) * p <= (1 - 2 * qn k * e) * p) by (apply Qmult_le_compat_r; lra). lra. }
  destruct PW as [PW1 PW2].
  (* small ratio: everything is small *)
  destruct (Qlt_le_dec (y0 * t (S k)) nu) as [LT|GE].
  - right. assert (MX: m < x).
    { apply Qnot_le_lt. intro CC. assert (x * w <= m * w) by (apply Qmult_le_compat_r; lra).
      assert (x * nu <= x * w). { rewrite !(Qmult_comm x). apply Qmult_le_compat_r; lra. }
      assert (y0 * t (S k) * x < nu * x) by (apply Qmult_lt_r; lra). lra. }
    split; [|split].
    + apply UP; [exact RN|exact R4| |reflexivity].
      assert (y0 * t (S k) * x <= nu * x) by (apply Qmult_le_compat_r; lra).
      assert (m * ((7 # 8) * p) <= m * w). { rewrite !(Qmult_comm m). apply Qmult_le_compat_r; lra. } 
      assert (0 <= nu * x) by (apply Qmult_le_0_compat; lra). lra.
    + lra.
    + rewrite qn_S. fold x. lra.
  - left. split; [|exact GE].
    assert (NA: near f (2 * qn k) (m * w) (m * p)).
    { apply near_compat with (w * m) (p * m); [ring|ring|]. apply near_mul; [lra|exact HN]. }
    assert (MW: nu * x <= m * w). { rewrite <- TSx. apply Qmult_le_compat_r; lra. }
    assert (M7: (7 # 8) * (nu * x) <= m * p).
    { assert (m * ((7 # 8) * w) <= m * p). { rewrite !(Qmult_comm m). apply Qmult_le_compat_r; lra. } lra. }
    assert (NX: nu * 1 <= nu * x). { rewrite !(Qmult_comm nu). apply Qmult_le_compat_r; lra. }
    assert (NA1: near f 1 (m * p) a) by (apply near_rnd; [exact Hf|lra]).
    assert (A7: (3 # 4) * (nu * x) <= a).
    { destruct NA1 as (_ & _ & U & _). assert ((7 # 8) * (m * p) <= (1 - 1 * e) * (m * p)) by (apply Qmult_le_compat_r; lra). lra. }
    assert (NB: near f 1 (a / x) b).
    { apply near_rnd; [exact Hf|]. apply Qle_shift_div_l; [lra|]. assert (p2 (emin f + P - 1) * x == (1 # 2) * (nu * x)) by (rewrite NH; ring). 
      assert (0 <= nu * x) by (apply Qmult_le_0_compat; lra). lra. }
    apply near_mono with (2 * qn k + 1 + 1); [change (qn (S k)) with x; lra|].
    apply near_trans with (a / x); try lra; [|exact NB].
    apply near_compat with (m * w * / x) (a * / x); [rewrite TS; reflexivity|reflexivity|].
    apply near_mul; [apply Qlt_le_weak, Qinv_lt_0_compat; lra|]. apply near_trans with (m * p); try lra; assumption.
Qed.

Definition err (j : nat) : Q := e * (4 * (y0 * pw1 m j) + 2 * qn j).
Lemma err_le : forall j, 0 <= err j /\ err j <= (5 * m + 2 * qn j) * e.
Proof.
  intro j. destruct (e_small f Hw) as [E0 E8]. destruct (pw1_le m ltac:(lra) j) as [W1 W0]. destruct (ys_hi j) as [Y0 Y1]. pose proof y0_lo. pose proof (p2_pos (emin f + P)).
  pose proof (qn_nonneg j). assert (A: 0 <= y0 * pw1 m j) by (apply Qmult_le_0_compat; lra).
  assert (B: y0 * pw1 m j <= y0 * (m * s j)). { rewrite !(Qmult_comm y0). apply Qmult_le_compat_r; lra. }
  assert (C: y0 * (m * s j) <= m * (8 # 7)). { assert (Z: y0 * (m * s j) == m * (y0 * s j)) by ring. rewrite Z, !(Qmult_comm m). apply Qmult_le_compat_r; lra. }
  unfold err. split; [apply Qmult_le_0_compat; lra|]. rewrite (Qmult_comm e). apply Qmult_le_compat_r; lra.
Qed.

Hypothesis Hs : sgn ti = true.
Lemma loop_ge : forall n mean p u x ds k rest, exec (po_loop f RNE ti n mean p u x) ds = ORet k rest -> (x <= k)%Z.
Proof.
  induction n as [|n IH]; intros mean p u x ds k rest H; cbn [po_loop] in H; [discriminate|].
  destruct (qlt p u); [|injection H as <- <-; lia].
  destruct (addT ti x 1) as [z|] eqn:EA; [|discriminate]. rewrite plift_some in H. cbn [pbind] in H.
  destruct (fdiv f RNE _ _) as [q|]; [|discriminate]. rewrite plift_some in H. cbn [pbind] in H.
  apply IH in H. unfold addT, norm in EA. rewrite Hs in EA. destruct (_ && _)%bool in EA; [|discriminate]. injection EA as <-. lia.
Qed.

(* the result j is the one for u *)
Definition pfit (u0 : Q) (j : nat) : Prop := y0 * s j - err j <= u0 /\ u0 <= y0 * s (S j) + err (S j).

Lemma ploop : forall n fuel p u j u0, (n < fuel)%nat -> n = (J - j)%nat -> (j <= J)%nat -> okp j p ->
  0 <= u -> u <= 1 -> Qabs (u + y0 * s j - u0) <= err j ->
  (exists y, po_loop f RNE ti fuel m p u (Z.of_nat j) = PRet (Z.of_nat y) /\ (y <= J)%nat /\ pfit u0 y) \/
  (y0 * s J - err J < u0 /\ forall ds k rest, exec (po_loop f RNE ti fuel m p u (Z.of_nat j)) ds = ORet k rest -> (Z.of_nat J < k)%Z).
Proof.
  pose proof (nu_e f Hw) as NE. pose proof (p2_pos (emin f + P)) as NP. pose proof (imin_le_0 ti Hti) as I0. destruct (e_small f Hw) as [E0 E8].
  assert (N4: 8 * nu <= e). { change 8 with (p2 3). rewrite <- p2_add. apply p2_le. destruct Hw. lia. }
  induction n as [|n IH]; intros fuel p u j u0 HF HN HJ HP U0 U1 HI; (destruct fuel as [|fuel]; [lia|]); cbn [po_loop].
  - assert (j = J) by lia. subst j. pose proof (qlt_spec p u) as C. pose proof (okp_abs J p HJ HP) as OA. destruct HP as (_ & P0 & _).
    apply abs_le_inv in HI. apply abs_le_inv in OA. destruct (err_le J) as [ER0 _].
    assert (ES: err (S J) == err J + (4 * (qn J * e) * (y0 * t J) + 2 * e)). { unfold err. cbn [pw1]. rewrite qn_S. ring. }
    assert (SS: y0 * s (S J) == y0 * s J + y0 * t J) by (cbn [psum]; ring).
    destruct (qlt p u).
    + right. split; [lra|]. intros ds k rest H. destruct (addT ti (Z.of_nat J) 1) as [z|] eqn:EA; [|discriminate]. rewrite plift_some in H. cbn [pbind] in H.
      destruct (fdiv f RNE _ _) as [q|]; [|discriminate]. rewrite plift_some in H. cbn [pbind] in H.
      apply loop_ge in H. unfold addT, norm in EA. rewrite Hs in EA. destruct (_ && _)%bool in EA; [|discriminate]. injection EA as <-. lia.
    + left. exists J. split; [reflexivity|]. split; [lia|]. unfold pfit. rewrite SS, ES. split; lra.
  - pose proof (qlt_spec p u) as C. pose proof (okp_abs j p HJ HP) as OA. pose proof HP as (Rp & P0 & _).
    apply abs_le_inv in HI. apply abs_le_inv in OA. destruct (err_le j) as [ER0 _].
    assert (ES: err (S j) == err j + (4 * (qn j * e) * (y0 * t j) + 2 * e)). { unfold err. cbn [pw1]. rewrite qn_S. ring. }
    assert (SS: y0 * s (S j) == y0 * s j + y0 * t j) by (cbn [psum]; ring).
    destruct (qlt p u).
    2:{ left. exists j. split; [reflexivity|]. split; [lia|]. unfold pfit. rewrite SS, ES. split; lra. }
    rewrite addT_in, plift_some by lia. cbn [pbind]. replace (Z.of_nat j + 1)%Z with (Z.of_nat (S j)) by lia.
    rewrite fdiv_ok. 2:{ rewrite injZ_eq by (assumption || lia). change (inject_Z (Z.of_nat (S j))) with (qn (S j)). pose proof (qn_pos (S j) ltac:(lia)). lra. }
    rewrite plift_some. cbn [pbind].
    set (u' := rnd (u - p)). destruct (rnd_abs f RNE Hf (u - p) ltac:(lra)) as [A1 A2]. fold u' in A1, A2.
    assert (UE: (u - p) * e <= 1 * e) by (apply Qmult_le_compat_r; lra).
    assert (EH: e / 2 + e / 2 == e) by field.
    apply IH; try lia.
    + apply okp_step; [lia|exact HP].
    + apply rnd_nonneg. lra.
    + apply repr_rnd_le; [exact Hf|apply repr_1; exact Hf|lra].
    + rewrite SS, ES. apply abs_le; lra.
Qed.

Hypothesis JT : forall N, (1 - e) * s N <= s J.
Lemma last_sum : 1 - (K + 1) * e <= y0 * s J.
Proof.
  destruct (e_small f Hw) as [E0 E8]. destruct HY as (_ & N & H). specialize (JT N). pose proof y0_lo. pose proof (p2_pos (emin f + P)).
  destruct (ys_hi N) as [Y0 Y1]. assert (A: y0 * ((1 - e) * s N) <= y0 * s J). { rewrite !(Qmult_comm y0). apply Qmult_le_compat_r; lra. }
  set (z := y0 * s N) in *. assert (Z: y0 * ((1 - e) * s N) == (1 - e) * z) by (unfold z; ring).
  set (w := K * e) in *. assert (W0: 0 <= w) by (apply Qmult_le_0_compat; lra).
  assert (B: 1 - w <= z). { assert ((1 - w) * 1 <= (1 - w) * ((1 + w) * z)). { rewrite !(Qmult_comm (1 - w)). apply Qmult_le_compat_r; lra. }
    assert (0 <= w * w * z) by (apply Qmult_le_0_compat; [apply Qmult_le_0_compat|]; lra). lra. }
  assert (D: (1 - e) * (1 - w) <= (1 - e) * z). { rewrite !(Qmult_comm (1 - e)). apply Qmult_le_compat_r; lra. }
  assert (0 <= e * w) by (apply Qmult_le_0_compat; lra). assert ((K + 1) * e == w + e) by (unfold w; ring). lra.
Qed.

Hypothesis CE : (5 * m + 2 * (qn J + 1)) * e <= 1.
Lemma pfit_ok : forall u j, 0 <= u -> u <= 1 -> (j <= J)%nat -> pfit u j ->
  pinverts m ((2 * K + 5 * m + 2 * (qn j + 1)) * e) u j.
Proof.
  intros u j U0 U1 HJ [F1 F2]. destruct (e_small f Hw) as [E0 E8]. destruct (err_le j) as [A0 A1]. destruct (err_le (S j)) as [B0 B1]. rewrite qn_S in B1.
  pose proof y0_lo as Y0. pose proof (p2_pos (emin f + P)). pose proof (qn_le j J HJ) as QJ. pose proof (qn_nonneg j).
  assert (BE: (5 * m + 2 * (qn j + 1)) * e <= 1). { assert ((5 * m + 2 * (qn j + 1)) * e <= (5 * m + 2 * (qn J + 1)) * e) by (apply Qmult_le_compat_r; lra). lra. }
  assert (EQ: (2 * K + 5 * m + 2 * (qn j + 1)) * e == 2 * (K * e) + (5 * m + 2 * (qn j + 1)) * e) by ring.
  set (D := (5 * m + 2 * (qn j + 1)) * e) in *. set (E := (2 * K + 5 * m + 2 * (qn j + 1)) * e) in *.
  assert (ED: (5 * m + 2 * qn j) * e <= D) by (apply Qmult_le_compat_r; lra).
  assert (F1': y0 * s j <= u + D) by lra. assert (F2': u - D <= y0 * s (S j)) by lra. clear F1 F2 A0 A1 B0 B1.
  destruct HY as (HE & N & HN). set (w := K * e) in *. assert (W0: 0 <= w) by (apply Qmult_le_0_compat; lra). split.
  - exists N. pose proof (s_nonneg m ltac:(lra) N) as SN. pose proof (s_nonneg m ltac:(lra) j) as SJ.
    apply Qle_trans with (s j * ((1 + w) * (y0 * s N))).
    + assert (s j * 1 <= s j * ((1 + w) * (y0 * s N))). { rewrite !(Qmult_comm (s j)). apply Qmult_le_compat_r; lra. } lra.
    + assert (X: s j * ((1 + w) * (y0 * s N)) == (1 + w) * (y0 * s j) * s N) by ring. rewrite X. apply Qmult_le_compat_r; [|exact SN].
      assert ((1 + w) * (y0 * s j) <= (1 + w) * (u + D)). { rewrite !(Qmult_comm (1 + w)). apply Qmult_le_compat_r; lra. }
      assert (w * (u + D) <= w * 2). { rewrite !(Qmult_comm w). apply Qmult_le_compat_r; lra. } lra.
  - intro n. pose proof (s_nonneg m ltac:(lra) n) as SN. pose proof (s_nonneg m ltac:(lra) (S j)) as SJ. specialize (HE n).
    apply Qle_trans with ((1 - w) * (y0 * s (S j)) * s n).
    + apply Qmult_le_compat_r; [|exact SN]. assert ((1 - w) * (u - D) <= (1 - w) * (y0 * s (S j))). { rewrite !(Qmult_comm (1 - w)). apply Qmult_le_compat_r; lra. }
      assert (w * (u - D) <= w * 1). { rewrite !(Qmult_comm w). apply Qmult_le_compat_r; [|lra]. subst D. 
        assert (0 <= (5 * m + 2 * (qn j + 1)) * e) by (apply Qmult_le_0_compat; lra). lra. } lra.
    + assert (X: (1 - w) * (y0 * s (S j)) * s n == s (S j) * ((1 - w) * (y0 * s n))) by ring. rewrite X.
      assert (s (S j) * ((1 - w) * (y0 * s n)) <= s (S j) * 1). { rewrite !(Qmult_comm (s (S j))). apply Qmult_le_compat_r; lra. } lra.
Qed.
End A.

Lemma po_invert_ok : forall f g ti ex sq lg K mean d tb bmin bmax F ds,
  fmt_ok f -> fmt_wide f -> 0 <= K -> exp_ok f K ex ->
  (32 <= bits ti)%Z -> sgn ti = true -> (prec f + 30 <= imax ti)%Z -> eng_wf tb bmin bmax -> (bmax - bmin <= imax tb)%Z ->
  representable f mean -> 0 < mean -> mean < 10 ->
  (8 * K + 16 * (qZ (prec f) + 60)) * p2 (1 - prec f) <= 1 ->
  po_init f g RNE ex sq mean = Some d ->
  valid_draws bmin bmax ds -> (length ds < F)%nat -> (Z.to_nat (prec f) + 30 < F)%nat ->
  let u01 := uniform_01 f RNE F tb bmin bmax in
  exec u01 ds = OMore /\ exec (po_op f g RNE ti lg F u01 d) ds = OMore \/
  exists u rest, exec u01 ds = ORet u rest /\
    ((exists k, exec (po_op f g RNE ti lg F u01 d) ds = ORet k rest /\ (0 <= k <= prec f + 30)%Z /\
        pinverts mean ((2 * K + 5 * mean + 2 * (qZ k + 1)) * p2 (1 - prec f)) u (Z.to_nat k)) \/
     (1 - (K + 5 * mean + 2 * (qZ (prec f) + 31)) * p2 (1 - prec f) < u /\
      forall k rest', exec (po_op f g RNE ti lg F u01 d) ds = ORet k rest' -> (prec f + 30 < k)%Z)).
Proof.
  intros f g ti ex sq lg K m d tb bmin bmax F ds Hf Hw K0 Hex Hti Hs HJI He HR Rm M0 M10 HC HI Hv HF HF2. cbv zeta.
  destruct (e_small f Hw) as [E0 E8]. unfold qZ in *. set (J := (30 + Z.to_nat (prec f))%nat).
  assert (P4: (4 <= prec f)%Z) by (destruct Hw; assumption).
  assert (JZ: Z.of_nat J = (prec f + 30)%Z) by (unfold J; lia).
  assert (QJ: qn J == inject_Z (prec f) + 30). { unfold qn. rewrite JZ, inject_Z_plus. reflexivity. }
  assert (PQ: 0 <= inject_Z (prec f)) by (change 0 with (inject_Z 0); apply injZ_le; lia).
  assert (KE0: 0 <= K * p2 (1 - prec f)) by (apply Qmult_le_0_compat; lra).
  assert (PE0: 0 <= inject_Z (prec f) * p2 (1 - prec f)) by (apply Qmult_le_0_compat; lra).
  assert (JE: qn J * p2 (1 - prec f) <= 1 # 16) by (rewrite QJ; lra).
  assert (KE: K * p2 (1 - prec f) <= 1 # 8) by lra.
  assert (ME: m * p2 (1 - prec f) <= 10 * p2 (1 - prec f)) by (apply Qmult_le_compat_r; lra).
  assert (CE: (5 * m + 2 * (qn J + 1)) * p2 (1 - prec f) <= 1) by (rewrite QJ; lra).
  assert (JP: (Z.of_nat J <= 2 ^ prec f)%Z).
  { rewrite Zle_Qle. rewrite <- p2_Z by lia. apply (Qmult_lt_0_le_reg_r _ _ (p2 (1 - prec f)) E0). rewrite <- p2_add.
    replace (prec f + (1 - prec f))%Z with 1%Z by lia. change (inject_Z (Z.of_nat J)) with (qn J). change (p2 1) with 2. lra. }
  assert (JT: forall N, (1 - p2 (1 - prec f)) * psum m N <= psum m J).
  { intros [|N]. { cbn [psum]. pose proof (s_nonneg m ltac:(lra) J). lra. }
    pose proof (s_ge_1 m ltac:(lra) (S N) ltac:(lia)) as S1. assert (M2: 2 * m <= qn (S J)) by (rewrite qn_S, QJ; lra).
    pose proof (s_tail_all m ltac:(lra) J (S N) M2) as ST. pose proof (t_small m (Z.to_nat (prec f)) ltac:(lra) ltac:(lra)) as TS. fold J in TS.
    assert (p2 (-1 - Z.of_nat (Z.to_nat (prec f))) <= p2 (1 - prec f)) by (apply p2_le; lia).
    assert (p2 (1 - prec f) * 1 <= p2 (1 - prec f) * psum m (S N)). { rewrite !(Qmult_comm (p2 _)). apply Qmult_le_compat_r; lra. } lra. }
  destruct (Hex m M0 M10 Rm) as [Ry HY]. set (y0 := ex (- m)) in *.
  unfold po_init in HI. pose proof (qlt_spec m 10) as C. unfold po_inversion in HI. destruct (qlt m 10); [|lra]. injection HI as <-.
  unfold po_op. cbn [po_u po_mean]. fold y0. unfold po_invert. rewrite exec_bind_eq.
  destruct (u01_run f RNE tb bmin bmax F ds Hf He HR Hv HF) as [E|(u & rest & E & U0 & U1)]; rewrite E; [left; split; reflexivity|right].
  exists u, rest. split; [reflexivity|].
  pose proof (ploop f Hf Hw m ti J M0 M10 Hti JP ltac:(lia) JE y0 K K0 KE HY Hs J F y0 u 0%nat u) as L.
  destruct L as [(y & Y1 & Y2 & Y3)|[L1 L2]]; try lra; try lia.
  - apply (okp_0 f Hw m J M0 M10 y0 Ry K K0 KE HY).
  - assert (Z: u + y0 * psum m 0 - u == 0) by (cbn [psum]; ring). rewrite Z. change (Qabs 0) with 0. apply (err_le f Hw m J M0 M10 y0 K K0 KE HY).
  - left. exists (Z.of_nat y). change (Z.of_nat 0) with 0%Z in Y1. rewrite Y1. split; [reflexivity|]. split; [lia|]. rewrite Nat2Z.id.
    apply (pfit_ok f Hw m J M0 M10 y0 K K0 KE HY CE); try assumption; lra.
  - right. change (Z.of_nat 0) with 0%Z in L2. split.
    + pose proof (last_sum f Hw m J M0 M10 y0 K K0 KE HY JT) as LS. destruct (err_le f Hw m J M0 M10 y0 K K0 KE HY J) as [_ EL]. rewrite QJ in EL. lra.
    + intros k rest' H. apply L2 in H. lia.
Qed.

(* ---- a p that has become too small to change u ---- *)
Section S.
Variable f : fmt.
Hypothesis Hf : fmt_ok f.
Local Notation rnd := (fround f RNE).

Lemma sub_tiny : forall u p c, representable f u -> 0 <= p -> 0 < c -> c <= u - p -> 2 * p < p2 (fexp f c) -> rnd (u - p) == u.
Proof.
  intros u p c Ru P0 C0 CU PT. set (x := u - p) in *.
  pose proof (fexp_mono_pos f c x C0 CU) as F1. pose proof (fexp_mono_pos f x u ltac:(lra) ltac:(unfold x; lra)) as F2.
  pose proof (rnd_fix f RNE Hf u Ru) as RF. unfold fround in RF. rewrite Qred_correct in RF.
  set (n := rint RNE (u / p2 (fexp f u))) in *. 
  assert (U: u == inject_Z (n * 2 ^ (fexp f u - fexp f x)) * p2 (fexp f x)).
  { rewrite inject_Z_mult, <- p2_Z by lia. rewrite <- Qmult_assoc, <- p2_add. replace (fexp f u - fexp f x + fexp f x)%Z with (fexp f u) by lia. symmetry. exact RF. }
  assert (X: rnd x == inject_Z (rint RNE (x / p2 (fexp f x))) * p2 (fexp f x)) by (unfold fround; rewrite Qred_correct; reflexivity).
  pose proof (rnd_err_half f x) as [H1 H2]. pose proof (p2_le (fexp f c) (fexp f x) F1) as G. pose proof (p2_pos (fexp f x)) as GP.
  set (g := p2 (fexp f x)) in *. set (a := (n * 2 ^ (fexp f u - fexp f x))%Z) in *. set (b := rint RNE (x / g)) in *.
  assert (XE: x == u - p) by reflexivity. assert (GH: g / 2 + g / 2 == g) by field. clearbody x g a b.
  rewrite X in *. rewrite U. assert (E: b = a); [|rewrite E; reflexivity].
  assert (L1: inject_Z b * g < inject_Z (a + 1) * g) by (rewrite inject_Z_plus; change (inject_Z 1) with 1; lra).
  assert (L2: inject_Z (a - 1) * g < inject_Z b * g) by (unfold Z.sub; rewrite inject_Z_plus; change (inject_Z (- (1))) with (- (1)); lra).
  apply Qmult_lt_r in L1; [|exact GP]. apply Qmult_lt_r in L2; [|exact GP]. rewrite <- Zlt_Qlt in L1, L2. lia.
Qed.

Lemma stuck : forall ti c k m, sgn ti = true -> 0 < c -> 2 * p2 k < p2 (fexp f c) -> (emin f <= k)%Z -> (4 < prec f)%Z -> 0 <= m -> m <= 16 ->
  forall n p u x ds r rest, representable f u -> c + p2 k <= u -> p2 k < u -> 0 <= p -> p <= p2 k -> (15 <= x)%Z ->
  exec (po_loop f RNE ti n m p u x) ds <> ORet r rest.
Proof.
  intros ti c k m Hs C0 HC Hk HP M0 M1. induction n as [|n IH]; intros p u x ds r rest Ru U0 U1 P0 P1 HX H; cbn [po_loop] in H; [discriminate|].
  pose proof (qlt_spec p u) as C. destruct (qlt p u); [|lra].
  destruct (addT ti x 1) as [z|] eqn:EA; [|discriminate]. rewrite plift_some in H. cbn [pbind] in H.
  unfold addT, norm in EA. rewrite Hs in EA. destruct (_ && _)%bool in EA; [|discriminate]. injection EA as <-.
  assert (X16: 16 <= rnd (inject_Z (x + 1))).
  { apply repr_rnd_ge; [exact Hf|change 16 with (inject_Z 16); apply repr_Z; [exact Hf|]|change 16 with (inject_Z 16); apply injZ_le; lia].
    pose proof (Z.pow_le_mono_r 2 5 (prec f) ltac:(lia) ltac:(lia)). change (2 ^ 5)%Z with 32%Z in H0. lia. }
  rewrite fdiv_ok, plift_some in H by lra. cbn [pbind] in H.
  pose proof (sub_tiny u p c Ru P0 C0 ltac:(lra) ltac:(lra)) as UE.
  assert (MP: m * p <= 16 * p2 k) by (apply Qmult_le_compat_nonneg; split; lra).
  assert (MP0: 0 <= m * p) by (apply Qmult_le_0_compat; lra).
  assert (R16: rnd (m * p) <= 16 * p2 k).
  { apply repr_rnd_le; [exact Hf| |exact MP]. change 16 with (p2 4). apply repr_compat with (p2 (4 + k)); [apply p2_add|apply repr_p2; [exact Hf|lia]]. }
  assert (R0: 0 <= rnd (m * p)) by (apply rnd_nonneg; exact MP0). pose proof (p2_pos k) as KP.
  revert H. apply IH.
  - apply repr_compat with u; [symmetry; exact UE|exact Ru].
  - lra.
  - lra.
  - apply rnd_nonneg. apply Qle_shift_div_l; lra.
  - apply repr_rnd_le; [exact Hf|apply repr_p2; [exact Hf|lia]|]. apply Qle_shift_div_r; [lra|].
    assert (p2 k * 16 <= p2 k * rnd (inject_Z (x + 1))). { rewrite !(Qmult_comm (p2 k)). apply Qmult_le_compat_r; lra. } lra.
  - lia.
Qed.

(* n turns of the loop *)
Fixpoint turns (ti : ity) (n : nat) (m p u : Q) (x : Z) : option (Q * Q * Z) :=
  match n with
  | O => Some (p, u, x)
  | S k => if qlt p u then
             z <- addT ti x 1;; q <- fdiv f RNE (rnd (m * p)) (rnd (inject_Z z));; turns ti k m q (rnd (u - p)) z
           else None
  end.
Lemma turns_ok : forall ti n F m p u x p' u' x', turns ti n m p u x = Some (p', u', x') ->
  po_loop f RNE ti (n + F) m p u x = po_loop f RNE ti F m p' u' x' /\ forall G, (G <= n)%nat -> po_loop f RNE ti G m p u x = PFuel.
Proof.
  intros ti. induction n as [|n IH]; intros F m p u x p' u' x' H; cbn [turns] in H.
  - injection H as <- <- <-. split; [reflexivity|]. intros G HG. replace G with 0%nat by lia. reflexivity.
  - cbn [Nat.add po_loop]. destruct (qlt p u) eqn:EQ; [|discriminate]. destruct (addT ti x 1) as [z|] eqn:EA; [|discriminate]. cbn [bind] in H.
    destruct (fdiv f RNE _ _) as [q|] eqn:ED; [|discriminate]. cbn [bind] in H. rewrite plift_some. cbn [pbind]. rewrite ED, plift_some. cbn [pbind].
    destruct (IH F _ _ _ _ _ _ _ H) as [A B]. split; [exact A|]. intros [|G] HG; cbn [po_loop]; [reflexivity|].
    rewrite EQ, EA, plift_some. cbn [pbind]. rewrite ED, plift_some. cbn [pbind]. apply B. lia.
Qed.
Lemma hang : forall ti c k m n p u x p' u' x', sgn ti = true -> 0 < c -> 2 * p2 k < p2 (fexp f c) -> (emin f <= k)%Z -> (4 < prec f)%Z -> 0 <= m -> m <= 16 ->
  turns ti n m p u x = Some (p', u', x') -> representable f u' -> c + p2 k <= u' -> p2 k < u' -> 0 <= p' -> p' <= p2 k -> (15 <= x')%Z ->
  forall F ds r rest, exec (po_loop f RNE ti F m p u x) ds <> ORet r rest.
Proof.
  intros ti c k m n p u x p' u' x' Hs C0 HC Hk HP M0 M1 HT Ru U0 U1 P0 P1 HX F ds r rest H.
  destruct (turns_ok ti n (F - n) _ _ _ _ _ _ _ HT) as [A B].
  destruct (le_lt_dec F n) as [L|L]; [rewrite (B F L) in H; discriminate|].
  replace F with (n + (F - n))%nat in H by lia. rewrite A in H. revert H. apply stuck with c k; assumption.
Qed.
End S.
