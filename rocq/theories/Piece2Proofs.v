(* The boundaries computed by the constructor from a function. *)
From Coq Require Import Lqa.
From Verif Require Import Base ProgModel FloatModel FloatSpec FloatProofs RealModel RealSpec RDiscModel RDiscSpec RDiscProofs RDisc5Proofs
  PieceModel PieceSpec.
Ltac Zify.zify_post_hook ::= idtac.
Open Scope Q_scope.

Lemma nth_map_seq : forall (g : nat -> Q) n k, (k < n)%nat -> nth k (map g (seq 0 n)) 0 = g k.
Proof.
  intros g n k Hk. rewrite (nth_indep _ 0 (g 0%nat)) by (rewrite map_length, seq_length; exact Hk).
  rewrite map_nth, seq_nth by exact Hk. reflexivity.
Qed.

Section Bnd.
Variables (f : fmt) (md : rmode).
Hypothesis Hf : fmt_ok f.
Local Notation P := (prec f).
Local Notation e := (p2 (1 - prec f)).
Local Notation rnd := (fround f md).

Lemma repr_neg : forall x, representable f x -> representable f (- x).
Proof using. intros x (m & k & H1 & H2 & H3). exists (- m)%Z, k. split; [exact H1|]. split; [lia|]. rewrite H3, inject_Z_opp. ring. Qed.

Lemma sum_err : forall a b, representable f a -> representable f b -> Qabs (rnd (a + b) - (a + b)) <= e * Qabs (a + b).
Proof using Hf.
  intros a b Ra Rb. destruct (e_pos f Hf) as [E0 _]. pose proof (Qabs_nonneg (a + b)) as A0.
  destruct (Qlt_le_dec (Qabs (a + b)) (p2 (emin f + P))) as [L|L].
  - pose proof (repr_sum_small f Hf a b Ra Rb L) as R. pose proof (rnd_fix f md Hf (a + b) R) as X.
    assert (0 <= e * Qabs (a + b)) by (apply Qmult_le_0_compat; lra). apply abs_le; lra.
  - set (x := a + b) in *. pose proof (rnd_err f md x) as [R1 R2].
    assert (FE: fexp f x <> emin f). { intro C. pose proof (fexp_upper f x) as U. rewrite C in U. lra. }
    pose proof (fexp_lower f x FE) as FL.
    assert (X: p2 (fexp f x) == e * p2 (fexp f x + P - 1)). { rewrite <- p2_add. replace (1 - P + (fexp f x + P - 1))%Z with (fexp f x) by lia. reflexivity. }
    assert (e * p2 (fexp f x + P - 1) <= e * Qabs x). { rewrite !(Qmult_comm e). apply Qmult_le_compat_r; lra. }
    apply abs_le; lra.
Qed.

Lemma near_diff : forall a b, representable f a -> representable f b -> a <= b -> near f 1 (b - a) (rnd (b - a)).
Proof using Hf.
  intros a b Ra Rb H. destruct (Qlt_le_dec (b - a) (p2 (emin f + P - 1))) as [L|L].
  - assert (R: representable f (b - a)).
    { apply (repr_sum_small f Hf b (- a) Rb (repr_neg a Ra)). rewrite Qabs_pos by lra.
      assert (p2 (emin f + P - 1) <= p2 (emin f + P)) by (apply p2_le; lia). lra. }
    apply near_compat with (b - a) (b - a); [reflexivity|symmetry; apply rnd_fix; assumption|].
    apply near_refl; lra.
  - apply near_rnd; [exact Hf|exact L].
Qed.

Variables (xmin xmax M : Q) (n : nat).
Hypothesis Hn : (1 <= n)%nat.
Hypothesis Ra : representable f xmin.
Hypothesis Rb : representable f xmax.
Hypothesis Hab : xmin < xmax.
Hypothesis Ma : Qabs xmin <= M.
Hypothesis Mb : Qabs xmax <= M.
Local Notation N := (inject_Z (Z.of_nat n)).
Local Notation D := ((xmax - xmin) / N).
Hypothesis HD1 : p2 (emin f + P) <= D.
Hypothesis HD2 : 32 * e * M <= D.

Lemma fun_delta : N * e <= 1 # 16 /\ fround f md N == N /\
  exists delta, fdiv f md (rnd (xmax - xmin)) (rnd N) = Some delta /\ near f 2 D delta.
Proof using Hf Hn Ra Rb Hab Ma Mb HD1 HD2.
  destruct (e_pos f Hf) as [E0 _]. apply abs_le_inv in Ma. apply abs_le_inv in Mb.
  assert (N1: 1 <= N) by (change 1 with (inject_Z 1); apply injZ_le; lia).
  assert (M0: 0 < M) by lra.
  assert (ND: N * D == xmax - xmin) by (field; lra).
  assert (NE: N * e <= 1 # 16).
  { apply Qnot_lt_le. intro C. assert (X: N * (32 * e * M) <= N * D). { rewrite !(Qmult_comm N). apply Qmult_le_compat_r; lra. }
    assert (Y: (1 # 16) * M < N * e * M). { apply Qmult_lt_compat_r; lra. } lra. }
  split; [exact NE|].
  assert (RN: representable f N).
  { apply repr_Z; [exact Hf|]. rewrite Zle_Qle. rewrite <- p2_Z by (destruct Hf; lia). 
    replace (Z.abs (Z.of_nat n)) with (Z.of_nat n) by lia.
    apply Qnot_lt_le. intro C. assert (X: p2 P * e < N * e) by (apply Qmult_lt_compat_r; lra).
    assert (Y: p2 P * e == 2). { rewrite <- p2_add. replace (P + (1 - P))%Z with 1%Z by lia. reflexivity. } lra. }
  pose proof (rnd_fix f md Hf N RN) as NF. split; [exact NF|].
  unfold fdiv. destruct (Qeq_bool (rnd N) 0) eqn:E; [apply Qeq_bool_iff in E; lra|].
  eexists. split; [reflexivity|].
  assert (N0: 0 < N) by lra. pose proof (Qinv_lt_0_compat N N0) as I0.
  pose proof (near_diff xmin xmax Ra Rb ltac:(lra)) as W.
  assert (EQ: rnd (xmax - xmin) / rnd N == rnd (xmax - xmin) * / N). { unfold Qdiv. apply Qmult_comp; [reflexivity|]. rewrite NF. reflexivity. }
  assert (E8: e <= 1 # 16). { assert (1 * e <= N * e) by (apply Qmult_le_compat_r; lra). lra. }
  assert (W1: near f 1 D (rnd (xmax - xmin) * / N)). { apply near_compat with ((xmax - xmin) * / N) (rnd (xmax - xmin) * / N); [reflexivity|reflexivity|]. apply near_mul; [lra|exact W]. }
  assert (W2: near f 1 (rnd (xmax - xmin) * / N) (rnd (rnd (xmax - xmin) * / N))).
  { apply near_rnd; [exact Hf|]. destruct W1 as (D0 & _ & L & _).
    assert (X: p2 (emin f + P) == 2 * p2 (emin f + P - 1)). { replace (emin f + P)%Z with (1 + (emin f + P - 1))%Z at 1 by lia. rewrite p2_add, p2_1. reflexivity. }
    pose proof (p2_pos (emin f + P - 1)) as PP.
    assert ((1 # 2) * D <= (1 - 1 * e) * D) by (apply Qmult_le_compat_r; lra). lra. }
  apply near_compat with D (rnd (rnd (xmax - xmin) * / N)); [reflexivity|apply rnd_compat; [exact Hf|symmetry; exact EQ]|].
  apply near_mono with (1 + 1); [lra|]. eapply near_trans; [| | | |exact W1|exact W2]; lra.
Qed.

Lemma steps_err : forall delta k, near f 2 D delta -> (k < n)%nat ->
  representable f (nth k (steps rnd n xmin delta) 0) /\
  Qabs (nth k (steps rnd n xmin delta) 0 - (xmin + inject_Z (Z.of_nat k) * D)) <= (25 # 2) * e * M.
Proof using Hf Hn Ra Rb Hab Ma Mb HD1 HD2.
  intros delta k HN Hk. destruct (e_pos f Hf) as [E0 _]. destruct fun_delta as (NE & _ & _). apply abs_le_inv in Ma. apply abs_le_inv in Mb.
  assert (N1: 1 <= N) by (change 1 with (inject_Z 1); apply injZ_le; lia).
  assert (E8: e <= 1 # 16). { assert (1 * e <= N * e) by (apply Qmult_le_compat_r; lra). lra. }
  assert (M0: 0 < M) by lra.
  assert (ND: N * D == xmax - xmin) by (field; lra).
  unfold steps. rewrite nth_map_seq by exact Hk.
  set (K := inject_Z (Z.of_nat k)). set (s := rnd (rnd K * delta)).
  assert (K0: 0 <= K) by (change 0 with (inject_Z 0); apply injZ_le; lia).
  assert (KN: K <= N) by (apply injZ_le; lia).
  assert (KF: rnd K == K).
  { apply rnd_fix; [exact Hf|]. apply repr_Z; [exact Hf|]. rewrite Zle_Qle, <- p2_Z by (destruct Hf; lia).
    replace (Z.abs (Z.of_nat k)) with (Z.of_nat k) by lia. fold K.
    apply Qnot_lt_le. intro C. assert (X: p2 P * e < K * e) by (apply Qmult_lt_compat_r; lra).
    assert (K * e <= N * e) by (apply Qmult_le_compat_r; lra).
    assert (Y: p2 P * e == 2). { rewrite <- p2_add. replace (P + (1 - P))%Z with 1%Z by lia. reflexivity. } lra. }
  split; [apply rnd_repr; exact Hf|].
  pose proof HN as (D0 & DD0 & DL & DU).
  assert (SN: near f 3 (K * D) s).
  { assert (W1: near f 2 (K * D) (rnd K * delta)).
    { apply near_compat with (D * K) (delta * K); [ring|rewrite KF; ring|]. apply near_mul; [exact K0|exact HN]. }
    destruct k as [|k'].
    - change K with 0. assert (Z0: s == 0). { unfold s. rewrite <- (rnd_fix f md Hf 0 (repr_0 f Hf)). apply rnd_compat; [exact Hf|]. rewrite KF. unfold K. cbn. ring. }
      unfold near. rewrite Z0. assert (X: 0 * D == 0) by ring. rewrite X. repeat split; lra.
    - apply near_mono with (2 + 1); [lra|]. eapply near_trans; [| | | |exact W1|]; try lra. apply near_rnd; [exact Hf|].
      assert (K1: 1 <= K) by (change 1 with (inject_Z 1); apply injZ_le; lia).
      assert (X: p2 (emin f + P) == 2 * p2 (emin f + P - 1)). { replace (emin f + P)%Z with (1 + (emin f + P - 1))%Z at 1 by lia. rewrite p2_add, p2_1. reflexivity. }
      pose proof (p2_pos (emin f + P - 1)) as PP.
      assert ((1 # 2) * D <= (1 - 2 * e) * D) by (apply Qmult_le_compat_r; lra).
      assert (1 * delta <= K * delta) by (apply Qmult_le_compat_r; lra).
      assert (Y: rnd K * delta == K * delta) by (rewrite KF; reflexivity). lra. }
  assert (KD: 0 <= K * D) by (apply Qmult_le_0_compat; lra).
  assert (KD2: K * D <= 2 * M). { assert (K * D <= N * D) by (apply Qmult_le_compat_r; lra). lra. }
  assert (KD3: K * D <= xmax - xmin). { assert (K * D <= N * D) by (apply Qmult_le_compat_r; lra). lra. }
  destruct SN as (_ & S0 & SL & SU).
  set (x := K * D) in *.
  assert (EX: e * x <= e * (2 * M)). { rewrite !(Qmult_comm e). apply Qmult_le_compat_r; lra. }
  assert (S1: s <= x * (16 # 13)). { assert ((13 # 16) * s <= (1 - 3 * e) * s) by (apply Qmult_le_compat_r; lra). lra. }
  assert (ES: e * s <= e * (x * (16 # 13))). { rewrite !(Qmult_comm e). apply Qmult_le_compat_r; lra. }
  assert (SB: - (8 * e * M) <= s - x /\ s - x <= 8 * e * M) by lra.
  assert (Rs: representable f s) by (apply rnd_repr; exact Hf).
  pose proof (sum_err xmin s Ra Rs) as SE.
  assert (AB: Qabs (xmin + s) <= M + 8 * e * M). { apply abs_le; lra. }
  assert (EA: e * Qabs (xmin + s) <= e * (M + 8 * e * M)). { rewrite !(Qmult_comm e). apply Qmult_le_compat_r; lra. }
  assert (EM: 0 <= e * M) by (apply Qmult_le_0_compat; lra).
  assert (EEM: e * (e * M) <= (1 # 16) * (e * M)) by (apply Qmult_le_compat_r; lra).
  apply abs_le_inv in SE. apply abs_le; lra.
Qed.

Lemma fun_ivals : forall fmax, - fmax <= xmin -> xmax <= fmax ->
  exists delta, fdiv f md (rnd (xmax - xmin)) (rnd N) = Some delta /\
    ivals_ok f fmax (steps rnd n xmin delta ++ [xmax]) /\ length (steps rnd n xmin delta ++ [xmax]) = S n /\
    nth 0 (steps rnd n xmin delta ++ [xmax]) 0 == xmin /\
    forall k, (k <= n)%nat -> Qabs (nth k (steps rnd n xmin delta ++ [xmax]) 0 - (xmin + inject_Z (Z.of_nat k) * D)) <= (25 # 2) * e * M.
Proof using Hf Hn Ra Rb Hab Ma Mb HD1 HD2.
  intros fmax Fa Fb. destruct fun_delta as (NE & NF & delta & ED & ND). exists delta. split; [exact ED|].
  pose proof (steps_err delta) as SE. set (xs := steps rnd n xmin delta) in *.
  destruct (e_pos f Hf) as [E0 _].
  assert (LX: length xs = n) by (unfold xs, steps; rewrite map_length, seq_length; reflexivity).
  assert (M0: 0 < M) by (apply abs_le_inv in Ma; apply abs_le_inv in Mb; lra).
  assert (EM: 0 < e * M) by (apply Qmult_lt_0_compat; lra).
  assert (N1: 1 <= N) by (change 1 with (inject_Z 1); apply injZ_le; lia).
  assert (ER: forall k, (k <= n)%nat -> representable f (nth k (xs ++ [xmax]) 0) /\ Qabs (nth k (xs ++ [xmax]) 0 - (xmin + inject_Z (Z.of_nat k) * D)) <= (25 # 2) * e * M).
  { intros k Hk. destruct (Nat.eq_dec k n) as [->|Hk2].
    - rewrite app_nth2 by lia. rewrite LX, Nat.sub_diag. cbn [nth]. split; [exact Rb|].
      assert (X: N * D == xmax - xmin) by (field; lra). apply abs_le; lra.
    - rewrite app_nth1 by lia. apply SE; [exact ND|lia]. }
  assert (INC: forall i, (S i < length (xs ++ [xmax]))%nat -> nth i (xs ++ [xmax]) 0 < nth (S i) (xs ++ [xmax]) 0).
  { intros i Hi. rewrite app_length, LX in Hi. cbn [length] in Hi. destruct (ER i ltac:(lia)) as [_ A1]. destruct (ER (S i) ltac:(lia)) as [_ A2].
    apply abs_le_inv in A1. apply abs_le_inv in A2.
    assert (SI: inject_Z (Z.of_nat (S i)) * D == inject_Z (Z.of_nat i) * D + D). { rewrite Nat2Z.inj_succ. unfold Z.succ. rewrite inject_Z_plus. change (inject_Z 1) with 1. ring. }
    lra. }
  assert (FST: nth 0 (xs ++ [xmax]) 0 == xmin).
  { rewrite app_nth1 by lia. unfold xs, steps. destruct n as [|m]; [lia|]. cbn [seq map nth]. change (inject_Z (Z.of_nat 0)) with 0.
    assert (Z0: rnd 0 == 0) by (apply rnd_fix; [exact Hf|apply repr_0; exact Hf]).
    assert (Z1: rnd (rnd 0 * delta) == 0). { assert (X: rnd 0 * delta == 0) by (rewrite Z0; ring). rewrite (rnd_compat f md Hf _ _ X). exact Z0. }
    assert (Z2: xmin + rnd (rnd 0 * delta) == xmin) by lra. rewrite (rnd_compat f md Hf _ _ Z2). apply rnd_fix; assumption. }
  split; [|split; [rewrite app_length, LX; cbn [length]; lia|split; [exact FST|intros k Hk; apply ER; exact Hk]]].
  split; [rewrite app_length, LX; cbn [length]; lia|]. split; [|exact INC].
  assert (G: forall k j, (j + k <= n)%nat -> nth j (xs ++ [xmax]) 0 <= nth (j + k) (xs ++ [xmax]) 0).
  { induction k as [|k IH]; intros j H; [rewrite Nat.add_0_r; lra|]. specialize (IH j ltac:(lia)).
    specialize (INC (j + k)%nat). rewrite app_length, LX in INC. cbn [length] in INC. specialize (INC ltac:(lia)). replace (j + S k)%nat with (S (j + k)) by lia. lra. }
  assert (LST: nth n (xs ++ [xmax]) 0 = xmax) by (rewrite app_nth2, LX, Nat.sub_diag by lia; reflexivity).
  apply Forall_forall. intros x Hx. apply (In_nth _ _ 0) in Hx. destruct Hx as (k & Hk & <-). rewrite app_length, LX in Hk. cbn [length] in Hk.
  destruct (ER k ltac:(lia)) as [R _]. split; [exact R|].
  pose proof (G k 0%nat ltac:(lia)) as G0. cbn [plus] in G0. pose proof (G (n - k)%nat k ltac:(lia)) as G1.
  replace (k + (n - k))%nat with n in G1 by lia. rewrite LST in G1. lra.
Qed.
End Bnd.

(* the midpoints lie in their intervals *)
Lemma midpoint_in : forall f md a b, fmt_ok f -> representable f a -> representable f b -> a <= b ->
  a <= fround f md (fround f md (a + b) / 2) /\ fround f md (fround f md (a + b) / 2) <= b.
Proof.
  intros f md a b Hf Ra Rb H.
  assert (R2: forall x, representable f x -> representable f (2 * x)).
  { intros x Hx. apply (repr_compat f (x * p2 1)); [rewrite p2_1; ring|]. apply repr_scale; [exact Hx|lia]. }
  pose proof (repr_rnd_ge f md Hf (2 * a) (a + b) (R2 a Ra) ltac:(lra)) as L.
  pose proof (repr_rnd_le f md Hf (a + b) (2 * b) (R2 b Rb) ltac:(lra)) as U.
  set (s := fround f md (a + b)) in *.
  split; [apply repr_rnd_ge; try assumption; apply Qle_shift_div_l; lra|apply repr_rnd_le; try assumption; apply Qle_shift_div_r; lra].
Qed.

Lemma midpoints_len : forall f md iv, length (midpoints f md iv) = (length iv - 1)%nat.
Proof.
  intros f md. induction iv as [|a iv IH]; [reflexivity|]. destruct iv as [|b iv]; [reflexivity|].
  cbn [midpoints length] in *. rewrite IH. lia.
Qed.

Lemma midpoints_nth : forall f md iv i, (S i < length iv)%nat ->
  nth i (midpoints f md iv) 0 = fround f md (fround f md (nth i iv 0 + nth (S i) iv 0) / 2).
Proof.
  intros f md. induction iv as [|a iv IH]; intros i Hi; [cbn in Hi; lia|]. destruct iv as [|b iv]; [cbn in Hi; lia|].
  destruct i as [|i]; [reflexivity|]. change (midpoints f md (a :: b :: iv)) with (fround f md (fround f md (a + b) / 2) :: midpoints f md (b :: iv)).
  cbn [nth]. rewrite IH by (cbn [length] in *; lia). reflexivity.
Qed.
