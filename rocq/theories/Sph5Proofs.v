(* A square root for the examples of SphProps.v: rounded to double *)
From Coq Require Import Lqa Reals Lra Qreals Qround.
From Verif Require Import Base ProgModel FloatModel FloatSpec FloatProofs RealModel RealSpec RealProofs PoisRSpec Pois3Proofs InvModel InvSpec Bin9Proofs SphModel SphSpec SphProofs Sph2Proofs Sph3Proofs.
Ltac Zify.zify_post_hook ::= idtac.
Open Scope R_scope.

(* the integer part of 2^700 times the root *)
Definition zroot (y : Q) : Q := (inject_Z (Z.sqrt (Qfloor (y * p2 1400))) * p2 (-700))%Q.
Lemma zroot_ok : forall y, (0 <= y)%Q -> sqrt (Q2R y) - P (-700) <= Q2R (zroot y) <= sqrt (Q2R y).
Proof.
  intros y Y. set (N := Qfloor (y * p2 1400)). set (m := Z.sqrt N). assert (M0: (0 <= m)%Z) by apply Z.sqrt_nonneg.
  assert (E: Q2R (zroot y) = IZR m * P (-700)) by (unfold zroot; fold N m; rewrite Q2R_mult; unfold P, Q2R at 1, inject_Z; cbn [Qnum Qden]; rewrite Rinv_1, Rmult_1_r; reflexivity). rewrite E.
  assert (N0: (0 <= N)%Z). { change 0%Z with (Qfloor 0). apply Qfloor_resp_le. apply Qmult_le_0_compat; [exact Y|apply Qlt_le_weak, p2_pos]. }
  destruct (Z.sqrt_spec N N0) as [S1 S2]. fold m in S1, S2. pose proof (Qfloor_le (y * p2 1400)) as F1. pose proof (Qlt_floor (y * p2 1400)) as F2. fold N in F1, F2.
  apply Qle_Rle in F1. apply Qlt_Rlt in F2. rewrite Q2R_mult in F1, F2. fold (P 1400) in F1, F2.
  assert (IQ: forall z, Q2R (inject_Z z) = IZR z) by (intro z; unfold Q2R, inject_Z; cbn [Qnum Qden]; rewrite Rinv_1; ring). rewrite IQ in F1, F2.
  apply Qle_Rle in Y. rewrite RMicromega.Q2R_0 in Y. set (Y' := Q2R y) in *. replace (P 1400) with (P 700 * P 700) in F1, F2 by (rewrite <- P_add; reflexivity).
  assert (PP: P 700 * P (-700) = 1) by (rewrite <- P_add, <- P_0; reflexivity). pose proof (P_pos 700) as P7. pose proof (P_pos (-700)) as P8.
  assert (A1: IZR m <= sqrt Y' * P 700).
  { rewrite <- (sqrt_square (IZR m)) by (apply IZR_le; exact M0). rewrite <- (sqrt_square (P 700)) by lra. rewrite <- sqrt_mult_alt by exact Y. apply sqrt_le_1_alt. rewrite <- mult_IZR. eapply Rle_trans; [apply IZR_le; exact S1|exact F1]. }
  assert (A2: sqrt Y' * P 700 <= IZR m + 1).
  { rewrite <- plus_IZR. rewrite <- (sqrt_square (IZR (m + 1))) by (apply IZR_le; lia). rewrite <- (sqrt_square (P 700)) by lra. rewrite <- sqrt_mult_alt by exact Y. apply sqrt_le_1_alt. rewrite <- mult_IZR.
    eapply Rle_trans; [left; exact F2|]. apply IZR_le. lia. }
  apply Rmult_le_compat_r with (r := P (-700)) in A1; [|lra]. apply Rmult_le_compat_r with (r := P (-700)) in A2; [|lra]. rewrite Rmult_assoc, PP, Rmult_1_r in A1, A2. lra.
Qed.
(* std::sqrt for double *)
Definition zsqrt (y : Q) : Q := fround ieee_double RNE (zroot y).
Lemma repr_min : forall y, representable ieee_double y -> (0 < y)%Q -> (p2 (-1074) <= y)%Q.
Proof.
  intros y (m & k & K & M & E) Y. assert (M1: (1 <= m)%Z). { destruct (Z_lt_le_dec 0 m) as [L|L]; [lia|]. exfalso. pose proof (p2_pos k). rewrite E in Y.
    assert (inject_Z m * p2 k <= 0 * p2 k)%Q by (apply Qmult_le_compat_r; [change 0%Q with (inject_Z 0); rewrite <- Zle_Qle; exact L|ql]). ql. }
  rewrite E. apply Qle_trans with (p2 k); [apply p2_le; exact K|]. rewrite <- (Qmult_1_l (p2 k)) at 1. apply Qmult_le_compat_r; [change 1%Q with (inject_Z 1); rewrite <- Zle_Qle; exact M1|apply Qlt_le_weak, p2_pos].
Qed.
Lemma zsqrt_ok : sqrt_all ieee_double 2 zsqrt.
Proof.
  intros y Y0 RY. unfold zsqrt. pose proof (zroot_ok y Y0) as [Z1 Z2]. destruct (Qlt_le_dec 0 y) as [L|L].
  - assert (YR: P (-538) <= sqrt (Q2R y)).
    { rewrite <- (sqrt_square (P (-538))) by (left; apply P_pos). apply sqrt_le_1_alt. rewrite <- P_add. apply Qle_Rle. eapply Qle_trans; [|apply repr_min; [exact RY|exact L]]. apply p2_le. lia. }
    assert (E: eps ieee_double = P (-52)) by reflexivity. set (s := sqrt (Q2R y)) in *.
    assert (SM: P (-700) <= P (-52) * s). { apply Rle_trans with (P (-52) * P (-538)); [rewrite <- P_add; apply P_le; lia|]. apply Rmult_le_compat_l; [left; apply P_pos|exact YR]. }
    assert (S2: P (-52) * s <= (1 / 2) * s). { apply Rmult_le_compat_r; [pose proof (P_pos (-538)); lra|]. rewrite <- P_m1. apply P_le. lia. }
    assert (B: big ieee_double (zroot y)).
    { right. apply Rle_Qle. rewrite Q2R_abs. rewrite Rabs_pos_eq; [|pose proof (P_pos (-538)); lra]. apply Rle_trans with (P (-539)); [apply P_le; cbn; lia|].
      change (-539)%Z with (-538 + -1)%Z. rewrite P_add, P_m1. lra. }
    pose proof (rnd_rel ieee_double RNE ltac:(split; cbn; lia) _ B) as Q. rewrite E in *. rewrite (Rabs_pos_eq (Q2R (zroot y))) in Q by (pose proof (P_pos (-538)); lra).
    assert (P (-52) * Q2R (zroot y) <= P (-52) * s) by (apply Rmult_le_compat_l; [left; apply P_pos|exact Z2]). apply Rabs_le_inv in Q. apply Rabs_le. lra.
  - assert (E: (y == 0)%Q) by ql. assert (Z: (fround ieee_double RNE (zroot y) == 0)%Q).
    { rewrite (rnd_compat ieee_double RNE ltac:(split; cbn; lia) (zroot y) 0%Q); [apply rnd_fix; [split; cbn; lia|apply repr_0; split; cbn; lia]|].
      assert (F: Qfloor (y * p2 1400) = 0%Z) by (rewrite (Qfloor_comp _ 0%Q); [reflexivity|rewrite E; ring]). unfold zroot. rewrite F. change (Z.sqrt 0) with 0%Z. ring. }
    apply Qeq_eqR in Z, E. rewrite Z, E, RMicromega.Q2R_0, sqrt_0, Rminus_0_r, Rabs_R0. lra.
Qed.
