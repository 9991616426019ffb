(* geometric_distribution *)
From Coq Require Import Reals Lqa Lra Qreals Rpower.
From Verif Require Import Base ProgModel ProgSpec ProgProofs UIntSpec FloatModel FloatSpec FloatProofs RealModel UniProofs BinModel BinSpec PoisRSpec Pois3Proofs InvModel Inv1Proofs.
Ltac Zify.zify_post_hook ::= idtac.
Open Scope R_scope.
Ltac ql := Lqa.lra.

Section Q.
Open Scope Q_scope.
Lemma upper_half : forall f x, fmt_ok f -> representable f x -> 1 # 2 <= x -> x <= 1 -> representable f (1 - x).
Proof.
  intros f u Hf (m & e & He & Hm & EQ) H0 H1. destruct Hf as [HP HE].
  destruct (Z_lt_le_dec e (- prec f)) as [H|H].
  - assert (u <= 1 # 2).
    { rewrite EQ. pose proof (p2_pos e) as E0.
      apply Qle_trans with (inject_Z (2 ^ prec f) * p2 e); [apply mul_le_compat; [exact E0|apply injZ_le; lia]|].
      rewrite <- p2_Z by lia. rewrite <- p2_add. apply (p2_le _ (-1)). lia. }
    apply repr_compat with (1 # 2); [ql|]. apply (repr_p2 f (conj HP HE) (-1)). lia.
  - assert (EQ2: u == inject_Z (m * 2 ^ (e + prec f)) * p2 (- prec f)).
    { rewrite EQ, inject_Z_mult, <- p2_Z by lia. rewrite <- Qmult_assoc, <- p2_add. replace (e + prec f + - prec f)%Z with e by lia. reflexivity. }
    assert (ONE: 1 == inject_Z (2 ^ prec f) * p2 (- prec f)) by (rewrite <- p2_Z by lia; rewrite <- p2_add; replace (prec f + - prec f)%Z with 0%Z by lia; reflexivity).
    set (M := (m * 2 ^ (e + prec f))%Z) in *. pose proof (p2_pos (- prec f)) as D0.
    assert (M <= 2 ^ prec f)%Z.
    { destruct (Z_le_gt_dec M (2 ^ prec f)) as [G|G]; [exact G|exfalso]. assert (G': (2 ^ prec f + 1 <= M)%Z) by lia. apply injZ_le in G'. pose proof (mul_le_compat _ _ _ D0 G') as G2. rewrite <- EQ2 in G2.
      rewrite inject_Z_plus, Qmult_plus_distr_l, <- ONE in G2. change (inject_Z 1) with 1 in G2. ql. }
    assert (0 <= M)%Z.
    { destruct (Z_le_gt_dec 0 M) as [G|G]; [exact G|exfalso]. assert (G': (M <= 0)%Z) by lia. apply injZ_le in G'. pose proof (mul_le_compat _ _ _ D0 G') as G2. rewrite <- EQ2 in G2. change (inject_Z 0) with 0 in G2. ql. }
    exists (2 ^ prec f - M)%Z, (- prec f)%Z. split; [lia|]. split; [lia|].
    unfold Z.sub. rewrite inject_Z_plus, inject_Z_opp, Qmult_plus_distr_l, <- ONE, EQ2. ring.
Qed.
Lemma geo_old_rt : forall f md p, fmt_ok f -> representable f p -> 0 <= p -> p <= 1 ->
  let ip := geo_old_init f md p in geo_old_init f md (geo_old_p f md ip) == ip.
Proof.
  intros f md p Hf Hp H0 H1 ip. unfold ip, geo_old_init, geo_old_p. set (P := fround f md (1 - p)).
  assert (RP: representable f P) by (apply rnd_repr; exact Hf).
  assert (P0: 0 <= P) by (apply rnd_nonneg; ql).
  assert (P1: P <= 1) by (apply repr_rnd_le; [exact Hf|apply repr_1; exact Hf|ql]).
  assert (EX: representable f (1 - P)).
  { destruct (Qlt_le_dec p (1 # 2)) as [L|L].
    - apply upper_half; try assumption. apply repr_rnd_ge; [exact Hf|apply (repr_p2 f Hf (-1)); destruct Hf; lia|ql].
    - assert (E: P == 1 - p) by (apply rnd_fix; [exact Hf|apply upper_half; assumption]).
      apply repr_compat with p; [rewrite E; ring|exact Hp]. }
  pose proof (rnd_fix f md Hf _ EX) as E1. rewrite (rnd_compat f md Hf (1 - fround f md (1 - P)) P); [apply rnd_fix; assumption|rewrite E1; ring].
Qed.
End Q.

Section G.
Variables (f : fmt) (md : rmode) (lg : Q -> Q) (K : R).
Hypothesis Hf : fmt_ok f.
Hypothesis Hp : (4 <= prec f)%Z.
Hypothesis HK : 0 <= K.
Hypothesis HKe : K * eps f <= 1 / 8.
Hypothesis HL : log_ok f K lg.
Local Notation e := (eps f).
Local Notation kp := (K * eps f).
Local Notation rnd := (fround f md).

Lemma ge_le : e <= 1 / 8.
Proof. unfold eps. replace (1 / 8) with (Q2R (p2 (-3))) by (unfold p2, Q2R; cbn; field). apply Q2R_le, p2_le. lia. Qed.
Lemma ln_le0 : forall x, 0 < x -> x <= 1 -> ln x <= 0.
Proof. intros x H0 [H|H]; [rewrite <- ln_1; left; apply ln_increasing; assumption|rewrite H, ln_1; lra]. Qed.
Lemma lg_b : forall x, (0 < x)%Q -> (x <= 1)%Q -> representable f x ->
  (1 + kp) * ln (Q2R x) <= Q2R (lg x) /\ Q2R (lg x) <= (1 - kp) * ln (Q2R x).
Proof.
  intros x H0 H1 HR. pose proof (HL x H0 HR) as A. apply Qlt_Rlt in H0. apply Q2R_le in H1. rewrite Q2R_0 in H0. rewrite Q2R_1 in H1.
  pose proof (ln_le0 _ H0 H1) as L. rewrite (Rabs_left1 (ln (Q2R x))) in A by exact L. apply Rabs_le_inv in A. lra.
Qed.
Lemma geo_core : forall x q, (0 < x)%Q -> (x <= 1)%Q -> representable f x -> (0 < q)%Q -> (q < 1)%Q -> representable f q ->
  exists r, fdiv f md (lg x) (lg q) = Some r /\ (0 <= Qfloor r)%Z /\
  IZR (Qfloor r) * (1 - (4 * K + 2) * e) <= ln (Q2R x) / ln (Q2R q) /\ ln (Q2R x) / ln (Q2R q) <= (IZR (Qfloor r) + 1) * (1 + (4 * K + 2) * e).
Proof.
  intros x q X0 X1 RX Q0 Q1 RQ. destruct (lg_b x X0 X1 RX) as [A1 A2]. destruct (lg_b q Q0 ltac:(ql) RQ) as [B1 B2].
  assert (XR: 0 < Q2R x) by (rewrite <- Q2R_0; apply Qlt_Rlt; exact X0). assert (QR: 0 < Q2R q) by (rewrite <- Q2R_0; apply Qlt_Rlt; exact Q0).
  assert (X1R: Q2R x <= 1) by (rewrite <- Q2R_1; apply Q2R_le; exact X1). assert (Q1R: Q2R q < 1) by (rewrite <- Q2R_1; apply Qlt_Rlt; exact Q1).
  pose proof (ln_le0 _ XR X1R) as LX. assert (LQ: ln (Q2R q) < 0) by (rewrite <- ln_1; apply ln_increasing; assumption).
  pose proof (e_pos f) as E0. pose proof ge_le as E1. assert (K0: 0 <= kp) by (apply Rmult_le_pos; lra).
  set (kp := K * e) in *.
  assert (LGQ: Q2R (lg q) < 0) by (pose proof (Rmult_le_compat_r (- ln (Q2R q)) kp (1 / 8) ltac:(lra) HKe); lra).
  assert (LGX: Q2R (lg x) <= 0) by (pose proof (Rmult_le_compat_r (- ln (Q2R x)) kp (1 / 8) ltac:(lra) HKe); lra).
  assert (NZ: ~ (lg q == 0)%Q) by (intro H; apply Qeq_eqR in H; rewrite Q2R_0 in H; lra).
  unfold fdiv. destruct (Qeq_bool (lg q) 0) eqn:EZ; [apply Qeq_bool_iff in EZ; contradiction|]. eexists. split; [reflexivity|].
  set (w := (lg x / lg q)%Q). assert (WR: Q2R w = Q2R (lg x) / Q2R (lg q)) by (unfold w; apply Q2R_div; exact NZ).
  set (rho := ln (Q2R x) / ln (Q2R q)). assert (RHO: ln (Q2R x) = rho * ln (Q2R q)) by (unfold rho; field; lra).
  assert (RP: 0 <= rho) by (unfold rho; apply Rmult_le_reg_r with (- ln (Q2R q)); [lra|]; replace (ln (Q2R x) / ln (Q2R q) * - ln (Q2R q)) with (- ln (Q2R x)) by (field; lra); lra).
  assert (WE: Q2R (lg x) = Q2R w * Q2R (lg q)) by (rewrite WR; field; lra).
  assert (W0: 0 <= Q2R w) by (apply Rmult_le_reg_r with (- Q2R (lg q)); [lra|]; rewrite Rmult_0_l; replace (Q2R w * - Q2R (lg q)) with (- Q2R (lg x)) by (rewrite WE; ring); lra).
  rewrite RHO in A1, A2. rewrite WE in A1, A2. set (l := - ln (Q2R q)) in *. set (g := - Q2R (lg q)) in *.
  replace (ln (Q2R q)) with (- l) in * by (unfold l; ring). replace (Q2R (lg q)) with (- g) in * by (unfold g; ring).
  assert (U1: Q2R w * g <= (1 + kp) * (rho * l)) by lra. assert (U2: (1 - kp) * (rho * l) <= Q2R w * g) by lra.
  assert (G1: (1 - kp) * l <= g) by lra. assert (G2: g <= (1 + kp) * l) by lra. assert (L0: 0 < l) by lra.
  assert (V1: Q2R w * (1 - kp) <= (1 + kp) * rho).
  { apply Rmult_le_reg_r with l; [exact L0|]. apply Rle_trans with (Q2R w * g); [|lra]. rewrite Rmult_assoc. apply Rmult_le_compat_l; assumption. }
  assert (V2: (1 - kp) * rho <= Q2R w * (1 + kp)).
  { apply Rmult_le_reg_r with l; [exact L0|]. apply Rle_trans with (Q2R w * g); [lra|]. rewrite Rmult_assoc. apply Rmult_le_compat_l; assumption. }
  clear U1 U2 G1 G2 A1 A2 B1 B2 WE WR RHO LX LQ LGQ LGX L0. clearbody rho. clear l g.
  assert (WQ: (0 <= w)%Q) by (apply Rle_Qle; rewrite Q2R_0; exact W0).
  pose proof (rnd_nonneg f md w WQ) as R0. pose proof (floor_bounds (rnd w)) as [F1 F2]. set (k := Qfloor (rnd w)) in *.
  assert (KZ: (0 <= k)%Z) by (unfold k; apply (Qfloor_resp_le 0); exact R0). split; [exact KZ|].
  pose proof (IZR_le _ _ KZ) as KR. apply Q2R_le in F1. apply Qlt_Rlt in F2. rewrite Q2R_plus, Q2R_1, Q2R_Z in F2. rewrite Q2R_Z in F1.
  replace ((4 * K + 2) * e) with (4 * kp + 2 * e) by (unfold kp; ring). set (d := 4 * kp + 2 * e) in *.
  destruct (Qlt_le_dec w (1 # 2)) as [WL|WL].
  - assert (RH: (rnd w <= 1 # 2)%Q) by (apply repr_rnd_le; [exact Hf|apply (repr_p2 f Hf (-1)); destruct Hf; lia|ql]).
    apply Q2R_le in RH. replace (Q2R (1 # 2)) with (1 / 2) in RH by (unfold Q2R; cbn; field). apply Qlt_Rlt in WL. replace (Q2R (1 # 2)) with (1 / 2) in WL by (unfold Q2R; cbn; field).
    assert (IZR k < 1) by lra. assert (k = 0)%Z by (apply lt_IZR in H; lia). subst k. rewrite H0 in *. split; [lra|]. pose proof (Rmult_le_compat_l rho kp (1 / 8) RP HKe). pose proof (Rmult_le_compat_l (Q2R w) kp (1 / 8) W0 HKe). unfold d. lra.
  - assert (WN: (p2 (emin f + prec f - 1) <= w)%Q) by (apply Qle_trans with (2 := WL); apply (p2_le _ (-1)); destruct Hf; lia).
    destruct (rrel f f md w ltac:(lia) WN) as [C1 C2]. set (wr := Q2R w) in *. set (kk := IZR k) in *. set (y := Q2R (rnd w)) in *. set (ee := eps f) in *.
    assert (D1: d = 4 * kp + 2 * ee) by reflexivity. clearbody d kp wr kk y ee. clear - V1 V2 C1 C2 F1 F2 K0 HKe E0 E1 KR W0 RP D1. split.
    + assert (A: kk * (1 - kp) <= (1 + ee) * ((1 + kp) * rho)).
      { apply Rle_trans with ((1 + ee) * wr * (1 - kp)); [apply Rmult_le_compat_r; lra|]. rewrite Rmult_assoc. apply Rmult_le_compat_l; lra. }
      assert (B: (1 - d) * ((1 + ee) * (1 + kp)) <= 1 - kp).
      { subst d. pose proof (Rmult_le_pos _ _ K0 (Rlt_le _ _ E0)) as KE. pose proof (Rmult_le_pos _ _ K0 K0) as KK. pose proof (Rmult_le_pos _ _ (Rlt_le _ _ E0) (Rlt_le _ _ E0)) as EE.
        pose proof (Rmult_le_pos _ _ K0 KE). pose proof (Rmult_le_pos _ _ KE (Rlt_le _ _ E0)). pose proof (Rmult_le_compat_l ee kp (1 / 8) ltac:(lra) HKe). lra. }
      assert (C: 0 < (1 + ee) * (1 + kp)) by (apply Rmult_lt_0_compat; lra).
      apply Rmult_le_reg_r with (1 := C). apply Rle_trans with (kk * (1 - kp)); [|lra]. rewrite Rmult_assoc. apply Rmult_le_compat_l; lra.
    + assert (A: (1 - ee) * ((1 - kp) * rho) <= (kk + 1) * (1 + kp)).
      { apply Rle_trans with ((1 - ee) * (wr * (1 + kp))); [apply Rmult_le_compat_l; lra|]. rewrite <- Rmult_assoc. apply Rmult_le_compat_r; lra. }
      assert (B: 1 + kp <= (1 + d) * ((1 - ee) * (1 - kp))).
      { subst d. pose proof (Rmult_le_pos _ _ K0 (Rlt_le _ _ E0)) as KE. pose proof (Rmult_le_compat_l kp kp (1 / 8) K0 HKe). pose proof (Rmult_le_compat_l ee ee (1 / 8) ltac:(lra) E1).
        pose proof (Rmult_le_compat_l kp ee (1 / 8) K0 E1). pose proof (Rmult_le_pos _ _ K0 KE). pose proof (Rmult_le_pos _ _ KE (Rlt_le _ _ E0)). lra. }
      assert (C: 0 < (1 - ee) * (1 - kp)) by (apply Rmult_lt_0_compat; lra).
      apply Rmult_le_reg_r with (1 := C). apply Rle_trans with ((kk + 1) * (1 + kp)); [lra|]. rewrite Rmult_assoc. apply Rmult_le_compat_l; lra.
Qed.
Lemma rpow_ge : forall x q r y, 0 < x -> 0 < q -> q < 1 -> r = ln x / ln q -> r <= y -> Rpower q y <= x.
Proof.
  intros x q r y X0 Q0 Q1 E H. assert (LQ: ln q < 0) by (rewrite <- ln_1; apply ln_increasing; assumption).
  unfold Rpower. rewrite <- (exp_ln x X0) at 1. assert (L: y * ln q <= ln x); [|destruct L as [L|L]; [left; apply exp_increasing; exact L|rewrite L; right; reflexivity]].
  replace (ln x) with (r * ln q) by (rewrite E; field; lra). pose proof (Rmult_le_compat_r (- ln q) r y ltac:(lra) H). lra.
Qed.
Lemma rpow_le : forall x q r y, 0 < x -> 0 < q -> q < 1 -> r = ln x / ln q -> y <= r -> x <= Rpower q y.
Proof.
  intros x q r y X0 Q0 Q1 E H. assert (LQ: ln q < 0) by (rewrite <- ln_1; apply ln_increasing; assumption).
  unfold Rpower. rewrite <- (exp_ln x X0) at 1. assert (L: ln x <= y * ln q); [|destruct L as [L|L]; [left; apply exp_increasing; exact L|rewrite L; right; reflexivity]].
  replace (ln x) with (r * ln q) by (rewrite E; field; lra). pose proof (Rmult_le_compat_r (- ln q) y r ltac:(lra) H). lra.
Qed.
Lemma geo_val_ok : forall it p u, representable f u -> (0 <= u)%Q -> (u < 1)%Q -> (p < 1)%Q -> representable f p -> (0 < p)%Q -> (rnd (1 - p) < 1)%Q ->
  exists k, (0 <= k)%Z /\
    Rpower (Q2R (rnd (1 - p))) ((IZR k + 1) * (1 + (4 * K + 2) * e)) <= Q2R (rnd (1 - u)) /\
    Q2R (rnd (1 - u)) <= Rpower (Q2R (rnd (1 - p))) (IZR k * (1 - (4 * K + 2) * e)) /\
    geo_val f md lg it (geo_init f md lg p) u = if ((imin it <=? k) && (k <=? imax it))%Z then Some k else None.
Proof.
  intros it p u RU U0 U1 P1 RP P0 Q1. destruct (one_minus f md u Hf RU U0 U1) as (X0 & X1 & RX). destruct (one_minus f md p Hf RP ltac:(ql) P1) as (Q0 & _ & RQ).
  pose proof (p2_pos (- prec f)) as PP. set (x := rnd (1 - u)) in *. set (q := rnd (1 - p)) in *.
  destruct (geo_core x q ltac:(ql) X1 RX ltac:(ql) Q1 RQ) as (r & E & K0 & A & B).
  assert (XR: 0 < Q2R x) by (rewrite <- Q2R_0; apply Qlt_Rlt; ql). assert (QR: 0 < Q2R q) by (rewrite <- Q2R_0; apply Qlt_Rlt; ql).
  assert (Q1R: Q2R q < 1) by (rewrite <- Q2R_1; apply Qlt_Rlt; exact Q1).
  exists (Qfloor r). split; [exact K0|]. split; [exact (rpow_ge _ _ _ _ XR QR Q1R eq_refl B)|]. split; [exact (rpow_le _ _ _ _ XR QR Q1R eq_refl A)|].
  unfold geo_val, geo_init. fold x. fold q. destruct (Qle_bool x 0) eqn:EX; [apply Qle_bool_iff in EX; ql|].
  rewrite E. reflexivity.
Qed.
End G.
