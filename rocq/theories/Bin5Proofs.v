(* The acceptance test of the rejection algorithm near the mode. *)
From Coq Require Import Lqa.
From Verif Require Import Base ProgModel ProgSpec ProgProofs UIntModel FloatModel FloatSpec FloatProofs RealModel UniProofs RDiscProofs RDisc5Proofs Piece2Proofs BinModel BinSpec BinProofs Bin2Proofs Bin3Proofs Bin4Proofs.
Ltac Zify.zify_post_hook ::= idtac.
Open Scope Q_scope.

Lemma bpmf_pos : forall p t k, 0 < p -> p < 1 -> (k <= t)%nat -> 0 < bpmf t p k.
Proof.
  intros p t. induction t as [|t IH]; intros [|k] P0 P1 H; cbn [bpmf]; try lia; try reflexivity.
  - apply Qmult_lt_0_compat; [lra|apply IH; lra || lia].
  - pose proof (bpmf_nonneg p ltac:(lra) ltac:(lra) t (S k)) as N. assert (0 <= (1 - p) * bpmf t p (S k)) by (apply Qmult_le_0_compat; lra).
    assert (0 < p * bpmf t p k) by (apply Qmult_lt_0_compat; [lra|apply IH; lra || lia]). lra.
Qed.

Section A.
Variable f : fmt.
Hypothesis Hf : fmt_ok f.
Hypothesis Hw : fmt_wide f.
Local Notation rnd := (fround f RNE).
Local Notation P := (prec f).
Local Notation e := (p2 (1 - P)).
Local Notation nu := (p2 (emin f + P)).
Variables (p : Q) (t : nat) (ti : ity).
Hypothesis Rp : representable f p.
Hypothesis P0 : 0 <= p.
Hypothesis P12 : p <= 1 # 2.
Hypothesis Pn : p == 0 \/ nu <= p.
Local Notation T := (qn (S t)).
Hypothesis Hti : (32 <= bits ti)%Z.
Hypothesis T1 : (Z.of_nat t < imax ti)%Z.
Hypothesis TP : (Z.of_nat t + 1 <= 2 ^ P)%Z.
Local Notation q := (rnd (1 - p)).
Local Notation r := (rnd (p / q)).
Local Notation tz := (Z.of_nat t).
Local Notation nr := (rnd (rnd (inject_Z (tz + 1)) * r)).
Local Notation G x := (T / (T - qn x)).
Local Notation B j := (bpmf t p j).

Lemma G_mono : forall x y, (x <= y)%nat -> (y <= t)%nat -> G x <= G y.
Proof.
  intros x y H1 H2. assert (A: 1 <= T - qn y). { rewrite qn_S. pose proof (qn_le y t H2). lra. }
  pose proof (qn_le x y H1). apply Qle_shift_div_l; [lra|]. pose proof (qn_pos (S t) ltac:(lia)).
  assert (X: T / (T - qn x) * (T - qn y) == T * ((T - qn y) / (T - qn x))) by (field; lra). rewrite X.
  assert (Y: (T - qn y) / (T - qn x) <= 1) by (apply Qle_shift_div_r; lra).
  assert (T * ((T - qn y) / (T - qn x)) <= T * 1). { rewrite !(Qmult_comm T). apply Qmult_le_compat_r; lra. } lra.
Qed.

Local Notation dd x := (rnd (rnd (nr / rnd (inject_Z (Z.of_nat x))) - r)).
Lemma step_ok : forall kp i c acc g, (i < t)%nat -> 0 <= kp -> 0 <= c -> G (S i) <= g -> g * e <= 1 # 80 ->
  (kp + (9 * g + 1)) * e <= 1 # 2 -> near f kp (c * B i) acc -> c * B (S i) == 0 \/ nu <= c * B (S i) ->
  near f (kp + (9 * g + 1)) (c * B (S i)) (rnd (acc * dd (S i))).
Proof.
  intros kp i c acc g Hi K0 C0 HG Hg KE NA HU. destruct (e_small f Hw) as [E0 E8].
  assert (GS: G (S i) * e <= 1 # 80). { assert (G (S i) * e <= g * e) by (apply Qmult_le_compat_r; lra). lra. }
  destruct (ratio_gen f Hf Hw p t Rp P0 P12 Pn TP (S i) ltac:(lia) ltac:(lia) GS) as (RD & ND & _).
  destruct (G_ge f t (S i) ltac:(lia)) as (G1 & _ & _). set (d := dd (S i)) in *.
  assert (W1: 0 <= kp * e) by (apply Qmult_le_0_compat; lra). assert (W2: 0 <= g * e) by (apply Qmult_le_0_compat; lra).
  assert (NM: near f (kp + 9 * g) (c * B (S i)) (acc * d)).
  { apply near_compat with (c * B i * (p / (1 - p) * (T - qn (S i)) / qn (S i))) (acc * d).
    - rewrite (B_ratio f p t P12 i Hi). ring.
    - reflexivity.
    - apply near_prod; try lra; [exact NA|]. apply near_mono with (9 * G (S i)); [lra|exact ND]. }
  apply near_mono with (kp + 9 * g + 1); [lra|]. apply near_trans with (acc * d); try lra; [exact NM|].
  apply near_rnd0; [exact Hf|]. destruct NM as (A & B' & C & D). destruct HU as [H|H].
  - left. assert ((1 # 2) * (acc * d) <= (1 - (kp + 9 * g) * e) * (acc * d)) by (apply Qmult_le_compat_r; lra). lra.
  - right. pose proof (nu_half f). pose proof (p2_pos (emin f + P - 1)).
    assert ((1 # 2) * (c * B (S i)) <= (1 - (kp + 9 * g) * e) * (c * B (S i))) by (apply Qmult_le_compat_r; lra). lra.
Qed.

Lemma prod_ok : forall n kp i c acc fuel g, (n < fuel)%nat -> (i + S n <= t)%nat -> G (i + S n) <= g -> 0 <= kp -> 0 <= c ->
  (kp + qn (S n) * (9 * g + 1)) * e <= 1 # 2 -> g * e <= 1 # 80 ->
  near f kp (c * B i) acc ->
  (forall j, (i <= j)%nat -> (j <= i + S n)%nat -> c * B j == 0 \/ nu <= c * B j) ->
  exists y, bn_prod f RNE ti fuel nr r acc (Z.of_nat i) (Z.of_nat (i + S n)) = PRet y /\
    near f (kp + qn (S n) * (9 * g + 1)) (c * B (i + S n)) y.
Proof.
  destruct (e_small f Hw) as [E0 E8]. pose proof (imin_le_0 ti Hti) as I0.
  induction n as [|n IH]; intros kp i c acc fuel g HF HI HG K0 C0 HS Hg NA HU.
  all: destruct fuel as [|fuel]; [lia|]; cbn [bn_prod]; rewrite addT_in, plift_some by lia; cbn [pbind].
  all: assert (XR: rnd (inject_Z (Z.of_nat i + 1)) == qn (S i)) by (rewrite injZ_rnd by (assumption || lia); replace (Z.of_nat i + 1)%Z with (Z.of_nat (S i)) by lia; reflexivity).
  all: pose proof (qn_pos (S i) ltac:(lia)) as SI;
    rewrite fdiv_ok by (rewrite XR; lra); rewrite plift_some; cbn [pbind];
    replace (Z.of_nat i + 1)%Z with (Z.of_nat (S i)) by lia.
  all: destruct (G_ge f t (S i) ltac:(lia)) as (G1 & _ & _); pose proof (fun H => G_mono (S i) _ H HI) as GM; specialize (GM ltac:(lia));
    assert (W2: 0 <= g * e) by (apply Qmult_le_0_compat; lra); assert (W3: 0 <= (9 * g + 1) * e) by (apply Qmult_le_0_compat; lra);
    assert (W4: 0 <= kp * e) by (apply Qmult_le_0_compat; lra).
  - change (qn 1) with 1 in *. replace (i + 1)%nat with (S i) in * by lia. rewrite Z.eqb_refl. eexists. split; [reflexivity|].
    apply near_mono with (kp + (9 * g + 1)); [lra|]. apply step_ok; try assumption; try lra; try lia. apply HU; lia.
  - rewrite (qn_S (S n)) in *. assert (N0: 0 <= qn (S n)) by apply qn_nonneg. 
    assert (W5: 0 <= qn (S n) * ((9 * g + 1) * e)) by (apply Qmult_le_0_compat; lra).
    assert (ST: near f (kp + (9 * g + 1)) (c * B (S i)) (rnd (acc * dd (S i)))).
    { apply step_ok; try assumption; try lra; try lia. apply HU; lia. }
    destruct (Z.eqb_spec (Z.of_nat (S i)) (Z.of_nat (i + S (S n)))) as [X|_]; [lia|].
    replace (i + S (S n))%nat with (S i + S n)%nat in * by lia.
    destruct (IH (kp + (9 * g + 1)) (S i) c (rnd (acc * dd (S i))) fuel g) as (y & Y1 & Y2); try assumption; try lia; try lra.
    + intros j J1 J2. apply HU; lia.
    + exists y. split; [exact Y1|]. apply near_mono with (kp + (9 * g + 1) + qn (S n) * (9 * g + 1)); [rewrite (qn_S (S n)); lra|exact Y2].
Qed.

Lemma accept_ok : forall m k v, 0 < p -> (m <= t)%nat -> (k <= t)%nat -> (m <= k + 15)%nat -> (k <= m + 15)%nat -> 0 <= v ->
  300 * G (Nat.max m k) * e <= 1 ->
  (forall j, (Nat.min m k <= j <= Nat.max m k)%nat -> if (m <=? k)%nat then nu * B m <= B j else v == 0 \/ nu * B k <= v * B j) ->
  exists ok, bn_accept_near f RNE ti r nr (Z.of_nat m) (Z.of_nat k) v = PRet ok /\
    if ok then (1 - 150 * G (Nat.max m k) * e) * (v * B m) <= B k else (1 - 150 * G (Nat.max m k) * e) * B k <= v * B m.
Proof.
  intros m k v PP Hm Hk H1 H2 V0 HG HU. destruct (e_small f Hw) as [E0 E8].
  pose proof (bpmf_pos p t m PP ltac:(lra) Hm) as BM. pose proof (bpmf_pos p t k PP ltac:(lra) Hk) as BK.
  set (g := G (Nat.max m k)) in *. assert (G1: 1 <= g) by (apply (G_ge f t); lia).
  assert (GE: 0 <= g * e) by (apply Qmult_le_0_compat; lra). set (w := 150 * g * e) in *. assert (W0: 0 <= w) by (unfold w; lra). assert (W1: w <= 1 # 2) by (unfold w; lra).
  assert (BUD: forall n, (n < 15)%nat -> (0 + qn (S n) * (9 * g + 1)) * e <= 1 # 2 /\ 0 + qn (S n) * (9 * g + 1) <= 150 * g).
  { intros n Hn. pose proof (qn_le (S n) 15 ltac:(lia)) as X. change (qn 15) with 15 in X.
    assert (Y: qn (S n) * (9 * g + 1) <= 15 * (9 * g + 1)) by (apply Qmult_le_compat_r; lra). split; [|lra].
    assert ((0 + qn (S n) * (9 * g + 1)) * e <= 150 * g * e) by (apply Qmult_le_compat_r; lra). unfold w in W1. lra. }
  unfold bn_accept_near. destruct (Z.ltb_spec (Z.of_nat m) (Z.of_nat k)) as [L|L]; [|destruct (Z.ltb_spec (Z.of_nat k) (Z.of_nat m)) as [L2|L2]].
  - destruct (Nat.leb_spec m k) as [_|]; [|lia]. assert (IB: 0 < / B m) by (apply Qinv_lt_0_compat; exact BM).
    assert (IE: / B m * B m == 1) by (field; lra).
    destruct (BUD (k - m - 1)%nat ltac:(lia)) as [B1 B2].
    destruct (prod_ok (k - m - 1) 0 m (/ B m) 1 16 g) as (y & Y1 & Y2); try lra; try lia.
    + replace (m + S (k - m - 1))%nat with (Nat.max m k) by lia. unfold g. lra.
    + apply near_compat with 1 1; [lra|reflexivity|apply near_refl; lra].
    + intros j J1 J2. right. specialize (HU j ltac:(lia)). assert (nu * B m * / B m <= B j * / B m) by (apply Qmult_le_compat_r; lra).
      assert (X: nu * B m * / B m == nu) by (field; lra). lra.
    + replace (m + S (k - m - 1))%nat with k in * by lia. rewrite Y1. cbn [pbind]. eexists. split; [reflexivity|].
      apply (near_mono f _ (150 * g)) in Y2; [|exact B2]. destruct Y2 as (A & B' & C & D). fold w in C, D.
      assert (X: / B m * B k * B m == B k) by (field; lra).
      destruct (Qle_bool v y) eqn:EV.
      * apply Qle_bool_iff in EV. assert (Z1: (1 - w) * v <= (1 - w) * y). { rewrite !(Qmult_comm (1 - w)). apply Qmult_le_compat_r; lra. }
        assert (Z2: (1 - w) * v * B m <= / B m * B k * B m) by (apply Qmult_le_compat_r; lra). lra.
      * assert (EL: y < v). { apply Qnot_le_lt. intro Z. apply Qle_bool_iff in Z. congruence. }
        assert (Z2: (1 - w) * (/ B m * B k) * B m <= v * B m) by (apply Qmult_le_compat_r; lra).
        assert (X2: (1 - w) * (/ B m * B k) * B m == (1 - w) * B k) by (field; lra). lra.
  - destruct (Nat.leb_spec m k) as [|_]; [lia|]. assert (IB: 0 < / B k) by (apply Qinv_lt_0_compat; exact BK).
    assert (IE: / B k * B k == 1) by (field; lra).
    destruct (BUD (m - k - 1)%nat ltac:(lia)) as [B1 B2]. assert (C0: 0 <= v * / B k) by (apply Qmult_le_0_compat; lra).
    destruct (prod_ok (m - k - 1) 0 k (v * / B k) v 16 g) as (y & Y1 & Y2); try lra; try lia.
    + replace (k + S (m - k - 1))%nat with (Nat.max m k) by lia. unfold g. lra.
    + apply near_compat with v v; [|reflexivity|apply near_refl; lra]. field; lra.
    + intros j J1 J2. specialize (HU j ltac:(lia)). destruct HU as [Z|Z]; [left; rewrite Z; ring|right].
      assert (nu * B k * / B k <= v * B j * / B k) by (apply Qmult_le_compat_r; lra).
      assert (X: nu * B k * / B k == nu) by (field; lra). lra.
    + replace (k + S (m - k - 1))%nat with m in * by lia. rewrite Y1. cbn [pbind]. eexists. split; [reflexivity|].
      apply (near_mono f _ (150 * g)) in Y2; [|exact B2]. destruct Y2 as (A & B' & C & D). fold w in C, D.
      assert (X: v * / B k * B m * B k == v * B m) by (field; lra).
      destruct (Qle_bool y 1) eqn:EV.
      * apply Qle_bool_iff in EV.
        assert (Z2: (1 - w) * (v * / B k * B m) * B k <= 1 * B k) by (apply Qmult_le_compat_r; lra).
        assert (X2: (1 - w) * (v * / B k * B m) * B k == (1 - w) * (v * B m)) by (field; lra). lra.
      * assert (EL: 1 < y). { apply Qnot_le_lt. intro Z. apply Qle_bool_iff in Z. congruence. }
        assert (Z1: (1 - w) * 1 <= (1 - w) * y). { rewrite !(Qmult_comm (1 - w)). apply Qmult_le_compat_r; lra. }
        assert (Z2: (1 - w) * 1 * B k <= v * / B k * B m * B k) by (apply Qmult_le_compat_r; lra). lra.
  - assert (m = k) by lia. subst k. eexists. split; [reflexivity|]. assert (0 <= w * B m) by (apply Qmult_le_0_compat; lra).
    assert (0 <= v * B m) by (apply Qmult_le_0_compat; lra). assert (0 <= w * (v * B m)) by (apply Qmult_le_0_compat; lra).
    destruct (Qle_bool v 1) eqn:EV.
    + apply Qle_bool_iff in EV. assert (v * B m <= 1 * B m) by (apply Qmult_le_compat_r; lra). lra.
    + assert (EL: 1 < v). { apply Qnot_le_lt. intro Z. apply Qle_bool_iff in Z. congruence. }
      assert (1 * B m <= v * B m) by (apply Qmult_le_compat_r; lra). lra.
Qed.
End A.
