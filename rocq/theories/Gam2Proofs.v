(* gamma_distribution for alpha > 1: the candidate and the acceptance test. *)
From Coq Require Import Reals Lqa Lra Qreals Rpower.
From Verif Require Import Base ProgModel FloatModel FloatSpec FloatProofs RealModel BinModel BinSpec PoisRSpec Pois3Proofs InvModel InvSpec Inv1Proofs Inv3Proofs Inv4Proofs InvProps GamModel GamSpec Gam1Proofs.
Ltac Zify.zify_post_hook ::= idtac.
Ltac ql := Lqa.lra.
Open Scope R_scope.

Lemma rabs_tri2 : forall a b x y, Rabs a <= x -> Rabs b <= y -> Rabs (a + b) <= x + y.
Proof. intros a b x y HA HB. apply Rle_trans with (1 := Rabs_triang _ _). lra. Qed.
Lemma ln_dev : forall r d, 0 <= d -> d <= 1 / 4 -> 1 - d <= r -> r <= 1 + d -> Rabs (ln r) <= 2 * d.
Proof. intros r d D0 D1 A B. destruct (ln_1p d r D0 ltac:(lra) A B). apply Rabs_le. lra. Qed.
(* rounding, relative: the value times 1 +- d *)
Lemma rel_abs : forall x y d, 0 <= y -> (1 - d) * y <= x -> x <= (1 + d) * y -> Rabs (x - y) <= d * y.
Proof. intros x y d Y A B. apply Rabs_le. lra. Qed.

Section G.
Variables (f : fmt) (md : rmode) (K : R) (sq ex lg : Q -> Q).
Hypothesis Hf : fmt_ok f.
Hypothesis Hp : (7 <= prec f)%Z.
Hypothesis HK : 0 <= K.
Hypothesis HKe : K * eps f <= 1 / 16.
Hypothesis HS : sqrt_all f K sq.
Hypothesis HE : exp_all f K ex.
Hypothesis HL : log_ok f K lg.
Local Notation e := (eps f).
Local Notation t := (tiny f).
Local Notation rnd := (fround f md).
Local Notation kp := (K * eps f).
Variable al : Q.
Hypothesis RA : representable f al.
Hypothesis A1 : (1 < al)%Q.
Hypothesis AB : (al <= p2 (- (emin f + 2 * prec f)))%Q.
Let A := Q2R al - 1.
Let s := sqrt (2 * Q2R al - 1).
Let A' := rnd (al - 1).

Lemma g_e : 0 < e /\ e <= 1 / 64.
Proof. split; [apply e_pos|]. unfold eps. replace (1 / 64) with (Q2R (p2 (-6))) by (unfold p2, Q2R; cbn; field). apply Q2R_le, p2_le. lia. Qed.
Lemma g_kp : 0 <= kp.
Proof. destruct g_e. apply Rmult_le_pos; lra. Qed.
Lemma em : (emin f + 2 * prec f <= -1)%Z.
Proof.
  destruct (Z_le_gt_dec (emin f + 2 * prec f) (-1)) as [G|G]; [exact G|exfalso].
  assert (L: (p2 (- (emin f + 2 * prec f)) <= p2 0)%Q) by (apply p2_le; lia). change (p2 0) with 1%Q in L. ql.
Qed.
Lemma g_t : 0 < t /\ t <= e / 64.
Proof.
  split; [apply tiny_pos|]. unfold tiny, eps. replace (Q2R (p2 (1 - prec f)) / 64) with (Q2R (p2 (1 - prec f) * p2 (-6))) by (rewrite Q2R_mult; unfold p2 at 2; unfold Q2R at 2; cbn; field).
  rewrite <- (Qeq_eqR _ _ (p2_add (1 - prec f) (-6))). apply Q2R_le, p2_le. pose proof em. lia.
Qed.
Lemma A_ge : e <= A.
Proof. pose proof (above_1 f al Hf RA A1) as H. apply Q2R_le in H. rewrite Q2R_plus, Q2R_1 in H. unfold A, eps. lra. Qed.
Lemma A'_ok : (0 < A')%Q /\ (1 - e) * A <= Q2R A' /\ Q2R A' <= (1 + e) * A.
Proof.
  destruct (sub_rel f md 1 al Hf (repr_1 f Hf) RA ltac:(ql)) as [P Q]. rewrite Q2R_1 in P, Q.
  split; [apply sub_pos; [exact Hf|apply repr_1; exact Hf|exact RA|exact A1]|]. split; assumption.
Qed.
Lemma s_ok : 0 < s /\ s * s = 2 * A + 1.
Proof.
  pose proof A_ge. destruct g_e. assert (P: 0 < 2 * Q2R al - 1) by (unfold A in *; lra). split; [apply sqrt_lt_R0; exact P|].
  unfold s. rewrite sqrt_sqrt by lra. unfold A. ring.
Qed.
Lemma s_err : exists S, gm_s f md sq al = Some S /\ Rabs (Q2R S - s) <= (4 * e + 2 * kp) * s.
Proof.
  destruct g_e as [E0 E1]. pose proof g_kp as K0. destruct s_ok as [S0 S1]. pose proof A_ge as AG.
  assert (N2: (p2 (emin f + prec f - 1) <= 2 * al)%Q). { apply Qle_trans with (p2 0); [apply p2_le; pose proof em; lia|change (p2 0) with 1%Q; ql]. }
  destruct (rrel f f md (2 * al)%Q ltac:(lia) N2) as [P Q]. rewrite Q2R_mult in P, Q. replace (Q2R 2) with 2 in P, Q by (unfold Q2R; cbn; field).
  assert (W1: (1 <= rnd (2 * al))%Q) by (apply repr_rnd_ge; [exact Hf|apply repr_1; exact Hf|ql]).
  destruct (sub_rel f md 1 (rnd (2 * al)) Hf (repr_1 f Hf) (rnd_repr f md Hf _) W1) as [P2 Q2]. rewrite Q2R_1 in P2, Q2.
  assert (W0: (0 <= rnd (rnd (2 * al) - 1))%Q) by (apply rnd_nonneg; ql).
  unfold gm_s. rewrite fsqrt_ok by exact W0. eexists. split; [reflexivity|]. set (w := rnd (rnd (2 * al) - 1)) in *. assert (RW: representable f w) by (apply rnd_repr; exact Hf).
  pose proof (HS w W0 RW) as SQ. set (v := 2 * Q2R al - 1) in *. assert (V1: 1 <= v) by (unfold v, A in *; lra). set (b := Q2R (rnd (2 * al))) in *.
  assert (B1: Rabs (b - 1 - v) <= 2 * e * v). { apply Rabs_le. unfold v in *. pose proof (Rmult_le_compat_l e 1 v ltac:(lra) V1). unfold v in *. lra. }
  assert (W: Rabs (Q2R w - v) <= 4 * e * v + 0).
  { apply Rabs_le_inv in B1. pose proof (Rmult_le_pos e v ltac:(lra) ltac:(lra)) as EV. pose proof (Rmult_le_compat_r (e * v) e (1 / 64) EV E1) as EEV.
    pose proof (Rmult_le_compat_l e (b - 1) (v + 2 * e * v) ltac:(lra) ltac:(lra)) as M. apply Rabs_le. lra. }
  apply Q2R_le in W0. rewrite Q2R_0 in W0. pose proof (sqrt_pert (Q2R w) v (4 * e) 0 W0 ltac:(lra) ltac:(lra) ltac:(lra) ltac:(lra) W) as SP. rewrite sqrt_0 in SP. fold s in SP.
  apply Rabs_le_inv in SP. apply Rabs_le_inv in SQ. pose proof (Rmult_le_compat_l kp (sqrt (Q2R w)) (2 * s) K0) as M. pose proof (Rmult_le_compat_r s e (1 / 64) ltac:(lra) E1) as M2. specialize (M ltac:(lra)).
  pose proof (Rmult_le_pos e s ltac:(lra) ltac:(lra)). apply Rabs_le. lra.
Qed.
Section Y.
Variables (S y : Q).
Hypothesis ES : gm_s f md sq al = Some S.
Let Y := s * Rabs (Q2R y).
Let N := Y + Q2R al.
Let T2 := rnd (S * y).
Let x := gm_x f md al S y.
Lemma Y_nn : 0 <= Y.
Proof. destruct s_ok. apply Rmult_le_pos; [lra|apply Rabs_pos]. Qed.
Lemma T2_err : Rabs (Q2R T2 - s * Q2R y) <= (6 * e + 2 * kp) * Y + t.
Proof.
  destruct g_e as [E0 E1]. pose proof g_kp as K0. destruct s_err as (S' & E & SE). rewrite ES in E. injection E as <-. destruct s_ok as [S0 _]. pose proof Y_nn as Y0.
  pose proof (rt f md (S * y)) as R. fold T2 in R. rewrite Q2R_mult, Rabs_mult in R.
  assert (D: Rabs (Q2R S * Q2R y - s * Q2R y) <= (4 * e + 2 * kp) * Y).
  { replace (Q2R S * Q2R y - s * Q2R y) with ((Q2R S - s) * Q2R y) by ring. rewrite Rabs_mult. pose proof (Rmult_le_compat_r (Rabs (Q2R y)) _ _ (Rabs_pos _) SE). unfold Y. lra. }
  assert (AS: Rabs (Q2R S) <= 2 * s).
  { apply Rabs_le_inv in SE. pose proof (Rmult_le_compat_r s e (1 / 64) ltac:(lra) E1) as M1. pose proof (Rmult_le_compat_r s kp (1 / 16) ltac:(lra) HKe) as M2. apply Rabs_le. lra. }
  pose proof (Rmult_le_compat_r (Rabs (Q2R y)) _ _ (Rabs_pos _) AS) as AS2. pose proof (Rmult_le_compat_l e _ _ ltac:(lra) AS2) as AS3.
  replace (Q2R T2 - s * Q2R y) with ((Q2R T2 - Q2R S * Q2R y) + (Q2R S * Q2R y - s * Q2R y)) by ring.
  apply Rle_trans with (e * (Rabs (Q2R S) * Rabs (Q2R y)) + t + (4 * e + 2 * kp) * Y); [apply rabs_tri2; assumption|]. unfold Y in *. lra.
Qed.
Lemma x_err : Rabs (Q2R x - (s * Q2R y + A)) <= (10 * e + 2 * kp) * N.
Proof.
  destruct g_e as [E0 E1]. pose proof g_kp as K0. destruct g_t as [T0 T1]. pose proof T2_err as TE. pose proof Y_nn as Y0. pose proof A_ge as AG. assert (N1: 1 <= N) by (unfold N, A in *; lra).
  set (w := rnd (T2 + al)). assert (EX: x = rnd (w - 1)) by reflexivity.
  pose proof (rt f md (T2 + al)) as W. fold w in W. rewrite Q2R_plus in W.
  assert (SY: Rabs (s * Q2R y) = Y) by (unfold Y; rewrite Rabs_mult, (Rabs_pos_eq s); [reflexivity|destruct s_ok; lra]).
  assert (TA: Rabs (Q2R T2 + Q2R al) <= (1 + 6 * e + 2 * kp) * N + t).
  { replace (Q2R T2 + Q2R al) with ((Q2R T2 - s * Q2R y) + (s * Q2R y + Q2R al)) by ring.
    apply Rle_trans with ((6 * e + 2 * kp) * Y + t + N).
    - apply rabs_tri2; [exact TE|]. apply Rle_trans with (1 := Rabs_triang _ _). rewrite SY, (Rabs_pos_eq (Q2R al)) by (unfold A in *; lra). unfold N. lra.
    - pose proof (Rmult_le_compat_l (6 * e + 2 * kp) Y N ltac:(lra) ltac:(unfold N, A in *; lra)). lra. }
  pose proof (Rmult_le_compat_r N e (1 / 64) ltac:(lra) E1) as M1. pose proof (Rmult_le_compat_r N kp (1 / 16) ltac:(lra) HKe) as M2.
  pose proof (Rmult_le_compat_l e 1 N ltac:(lra) N1) as M3. assert (TN: t <= e * N / 64) by lra.
  assert (TA2: Rabs (Q2R T2 + Q2R al) <= 5 / 4 * N) by lra. pose proof (Rmult_le_compat_l e _ _ ltac:(lra) TA2) as TA3.
  pose proof (rt f md (w - 1)) as X. rewrite <- EX, Q2R_minus, Q2R_1 in X.
  assert (W1: Rabs (Q2R w - 1) <= 5 / 2 * N). { apply Rabs_le_inv in W. apply Rabs_le_inv in TA2. apply Rabs_le. lra. }
  pose proof (Rmult_le_compat_l e _ _ ltac:(lra) W1) as W2.
  apply Rabs_le_inv in X. apply Rabs_le_inv in W. apply Rabs_le_inv in TE. pose proof (Rmult_le_compat_l (6 * e + 2 * kp) Y N ltac:(lra) ltac:(unfold N, A in *; lra)) as M4.
  apply Rabs_le. unfold A. lra.
Qed.
Section P.
Hypothesis X0 : (0 < x)%Q.
Let L := ln (Q2R x / A).
Lemma x_ge : e <= Q2R x.
Proof.
  set (w := rnd (T2 + al)). assert (EX: x = rnd (w - 1)) by reflexivity. assert (RW: representable f w) by (apply rnd_repr; exact Hf).
  assert (W1: (1 < w)%Q).
  { destruct (Qlt_le_dec 1 w) as [G|G]; [exact G|exfalso]. assert (H: (rnd (w - 1) <= 0)%Q) by (apply repr_rnd_le; [exact Hf|apply repr_0; exact Hf|ql]). rewrite <- EX in H. ql. }
  pose proof (above_1 f w Hf RW W1) as G. unfold eps. apply Q2R_le. rewrite EX. apply repr_rnd_ge; [exact Hf|apply repr_p2; [exact Hf|pose proof em; lia]|ql].
Qed.
Lemma z_err : exists z, fdiv f md x A' = Some z /\ (0 < z)%Q /\ representable f z /\ Rabs (ln (Q2R z) - L) <= 6 * e.
Proof.
  destruct g_e as [E0 E1]. pose proof A_ge as AG. destruct A'_ok as (P0 & P1 & P2). pose proof x_ge as XG. apply Qlt_Rlt in P0 as P0R. rewrite Q2R_0 in P0R.
  unfold fdiv. destruct (Qeq_bool A' 0) eqn:EQ; [apply Qeq_bool_iff in EQ; ql|]. eexists. split; [reflexivity|].
  assert (QD: Q2R (x / A') = Q2R x / Q2R A') by (apply Q2R_div; intro H; ql).
  assert (NB: (p2 (emin f + prec f - 1) <= x / A')%Q).
  { apply Rle_Qle. rewrite QD. apply Rmult_le_reg_r with (Q2R A'); [exact P0R|]. replace (Q2R x / Q2R A' * Q2R A') with (Q2R x) by (field; lra).
    apply Rle_trans with e; [|exact XG]. apply Q2R_le in AB. 
    apply Rle_trans with (Q2R (p2 (emin f + prec f - 1)) * Q2R (p2 (1 + - (emin f + 2 * prec f)))).
    - apply Rmult_le_compat_l; [rewrite <- Q2R_0; apply Q2R_le; apply Qlt_le_weak, p2_pos|]. rewrite (Qeq_eqR _ _ (p2_add 1 _)), Q2R_mult. replace (Q2R (p2 1)) with 2 by (unfold p2, Q2R; cbn; field).
      pose proof (Rmult_le_compat_r A e 1 ltac:(lra) ltac:(lra)). unfold A in *. lra.
    - rewrite <- Q2R_mult. apply Q2R_le. rewrite <- p2_add. apply p2_le. lia. }
  destruct (rrel f f md (x / A')%Q ltac:(lia) NB) as [Z1 Z2]. rewrite QD in Z1, Z2. set (z := rnd (x / A')) in *.
  assert (XR: 0 < Q2R x) by lra. assert (XA: 0 < Q2R x / A) by (apply Rmult_lt_0_compat; [exact XR|apply Rinv_0_lt_compat; lra]).
  assert (XE: Q2R x / Q2R A' = Q2R x / A * (A / Q2R A')) by (field; lra).
  assert (AR: 0 < A / Q2R A') by (apply Rmult_lt_0_compat; [lra|apply Rinv_0_lt_compat; lra]).
  assert (ER: Q2R z = Q2R x / A * (A / Q2R A' * (Q2R z / (Q2R x / Q2R A')))) by (field; lra).
  set (r1 := A / Q2R A') in *. set (r2 := Q2R z / (Q2R x / Q2R A')) in *.
  assert (B1: 1 - e <= r1 <= 1 + 5 / 4 * e).
  { split; apply Rmult_le_reg_r with (Q2R A'); try exact P0R; unfold r1; replace (A / Q2R A' * Q2R A') with A by (field; lra).
    - pose proof (Rmult_le_compat_l (1 - e) _ _ ltac:(lra) P2). pose proof (Rmult_le_pos e (e * A) ltac:(lra) ltac:(apply Rmult_le_pos; lra)). lra.
    - pose proof (Rmult_le_compat_l (1 + 5 / 4 * e) _ _ ltac:(lra) P1). pose proof (Rmult_le_compat_r (e * A) e (1 / 64) ltac:(apply Rmult_le_pos; lra) E1). pose proof (Rmult_le_pos e A ltac:(lra) ltac:(lra)). lra. }
  assert (QP: 0 < Q2R x / Q2R A') by (apply Rmult_lt_0_compat; [exact XR|apply Rinv_0_lt_compat; lra]).
  assert (B2: 1 - e <= r2 <= 1 + e).
  { split; apply Rmult_le_reg_r with (Q2R x / Q2R A'); try exact QP; unfold r2; replace (Q2R z / (Q2R x / Q2R A') * (Q2R x / Q2R A')) with (Q2R z) by (field; lra); assumption. }
  assert (B3: 1 - 3 * e <= r1 * r2 <= 1 + 3 * e).
  { pose proof (Rmult_le_compat (1 - e) r1 (1 - e) r2 ltac:(lra) ltac:(lra) (proj1 B1) (proj1 B2)). pose proof (Rmult_le_compat r1 (1 + 5 / 4 * e) r2 (1 + e) ltac:(lra) ltac:(lra) (proj2 B1) (proj2 B2)). pose proof (Rmult_le_compat_r e e (1 / 64) ltac:(lra) E1). pose proof (Rmult_le_pos e e ltac:(lra) ltac:(lra)); split; lra. }
  assert (ZR: 0 < Q2R z) by (pose proof (Rmult_lt_0_compat (1 - e) _ ltac:(lra) QP); lra).
  split; [apply Rlt_Qlt; rewrite Q2R_0; exact ZR|]. split; [apply rnd_repr; exact Hf|]. rewrite ER, ln_mult by lra. fold L. replace (L + ln (r1 * r2) - L) with (ln (r1 * r2)) by ring.
  apply Rle_trans with (2 * (3 * e)); [apply ln_dev; lra|lra].
Qed.
Let M := A * (Rabs L + 1) + Y.
Lemma t1_err : forall z, (0 < z)%Q -> representable f z -> Rabs (ln (Q2R z) - L) <= 6 * e -> Rabs (Q2R (rnd (A' * lg z)) - A * L) <= A * ((4 * e + 2 * kp) * Rabs L + 12 * e) + t.
Proof.
  intros z Z0 RZ ZE. destruct g_e as [E0 E1]. pose proof g_kp as K0. pose proof A_ge as AG. destruct A'_ok as (P0 & P1 & P2).
  pose proof (HL z Z0 RZ) as LE. set (lz := ln (Q2R z)) in *. pose proof (Rabs_pos L) as L0. set (aL := Rabs L) in *.
  assert (LZ: Rabs lz <= aL + 6 * e). { replace lz with (L + (lz - L)) by ring. apply rabs_tri2; [unfold aL; lra|exact ZE]. }
  assert (D: Rabs (Q2R (lg z) - L) <= kp * aL + 7 * e).
  { replace (Q2R (lg z) - L) with ((Q2R (lg z) - lz) + (lz - L)) by ring. apply Rle_trans with (kp * Rabs lz + 6 * e); [apply rabs_tri2; assumption|].
    pose proof (Rmult_le_compat_l kp _ _ K0 LZ). pose proof (Rmult_le_compat_r e kp (1 / 16) ltac:(lra) HKe). lra. }
  assert (KL: kp * aL <= aL / 16) by (pose proof (Rmult_le_compat_r aL kp (1 / 16) L0 HKe); lra).
  assert (LB: Rabs (Q2R (lg z)) <= 17 / 16 * aL + 7 * e). { replace (Q2R (lg z)) with (L + (Q2R (lg z) - L)) by ring. apply Rle_trans with (aL + (kp * aL + 7 * e)); [apply rabs_tri2; [unfold aL; lra|exact D]|lra]. }
  pose proof (rt f md (A' * lg z)) as R. rewrite Q2R_mult, Rabs_mult in R.
  apply Qlt_Rlt in P0 as P0R. rewrite Q2R_0 in P0R. rewrite (Rabs_pos_eq (Q2R A')) in R by lra.
  set (q := Q2R (lg z)) in *. set (a := Q2R A') in *. pose proof (Rabs_pos q) as Q0.
  assert (EA: Rabs (a - A) <= e * A) by (apply Rabs_le; lra).
  assert (D2: Rabs (a * q - A * L) <= e * A * Rabs q + A * (kp * aL + 7 * e)).
  { replace (a * q - A * L) with ((a - A) * q + A * (q - L)) by ring. apply rabs_tri2.
    - rewrite Rabs_mult. apply Rmult_le_compat_r; [exact Q0|exact EA].
    - rewrite Rabs_mult, (Rabs_pos_eq A) by lra. apply Rmult_le_compat_l; [lra|exact D]. }
  assert (R2: e * (a * Rabs q) <= 65 / 64 * (e * A * Rabs q)).
  { replace (65 / 64 * (e * A * Rabs q)) with (e * (65 / 64 * A * Rabs q)) by ring. apply Rmult_le_compat_l; [lra|]. apply Rmult_le_compat_r; [exact Q0|]. pose proof (Rmult_le_compat_r A e (1 / 64) ltac:(lra) E1). lra. }
  assert (EA0: 0 <= e * A) by (apply Rmult_le_pos; lra). pose proof (Rmult_le_compat_l (e * A) _ _ EA0 LB) as R3. pose proof (Rmult_le_compat_l (e * A) e (1 / 64) EA0 E1) as R4.
  pose proof (Rmult_le_pos (e * A) aL EA0 L0) as R5. pose proof (Rmult_le_pos A (kp * aL) ltac:(lra) ltac:(apply Rmult_le_pos; assumption)) as R6.
  set (V := Q2R (rnd (A' * lg z))) in *. replace (V - A * L) with ((V - a * q) + (a * q - A * L)) by ring.
  apply Rle_trans with (e * (a * Rabs q) + t + (e * A * Rabs q + A * (kp * aL + 7 * e))); [apply rabs_tri2; assumption|].
  replace (A * ((4 * e + 2 * kp) * aL + 12 * e)) with (4 * (e * A * aL) + 2 * (A * (kp * aL)) + 12 * (e * A)) by ring. replace (A * (kp * aL + 7 * e)) with (A * (kp * aL) + 7 * (e * A)) by ring.
  replace (e * A * (17 / 16 * aL + 7 * e)) with (17 / 16 * (e * A * aL) + 7 * (e * A * e)) in R3 by ring. lra.
Qed.
Lemma g_err : forall z, (0 < z)%Q -> representable f z -> Rabs (ln (Q2R z) - L) <= 6 * e ->
  Rabs (Q2R (rnd (rnd (A' * lg z) - T2)) - (A * L - s * Q2R y)) <= (14 * e + 3 * kp) * M + 4 * t.
Proof.
  intros z Z0 RZ ZE. destruct g_e as [E0 E1]. pose proof g_kp as K0. pose proof A_ge as AG. destruct g_t as [T0 _]. pose proof (t1_err z Z0 RZ ZE) as D1. pose proof T2_err as D2. pose proof Y_nn as Y0. pose proof (Rabs_pos L) as L0.
  set (T1 := rnd (A' * lg z)) in *. set (aL := Rabs L) in *.
  assert (M0: 0 <= M) by (unfold M; fold aL; pose proof (Rmult_le_pos A (aL + 1)); lra).
  assert (D: Rabs (Q2R (T1 - T2) - (A * L - s * Q2R y)) <= (12 * e + 2 * kp) * M + 2 * t).
  { rewrite Q2R_minus. replace (Q2R T1 - Q2R T2 - (A * L - s * Q2R y)) with ((Q2R T1 - A * L) + - (Q2R T2 - s * Q2R y)) by ring.
    apply Rle_trans with (A * ((4 * e + 2 * kp) * aL + 12 * e) + t + ((6 * e + 2 * kp) * Y + t)); [apply rabs_tri2; [exact D1|rewrite Rabs_Ropp; exact D2]|].
    assert (I1: A * ((4 * e + 2 * kp) * aL + 12 * e) <= (12 * e + 2 * kp) * (A * (aL + 1))).
    { replace ((12 * e + 2 * kp) * (A * (aL + 1))) with (A * ((12 * e + 2 * kp) * (aL + 1))) by ring. apply Rmult_le_compat_l; [lra|]. pose proof (Rmult_le_pos e aL ltac:(lra) L0). lra. }
    assert (I2: (6 * e + 2 * kp) * Y <= (12 * e + 2 * kp) * Y) by (apply Rmult_le_compat_r; lra).
    unfold M. fold aL. lra. }
  assert (MB: Rabs (A * L - s * Q2R y) <= M).
  { replace (A * L - s * Q2R y) with (A * L + - (s * Q2R y)) by ring. unfold M. apply rabs_tri2; [rewrite Rabs_mult, (Rabs_pos_eq A) by lra; apply Rmult_le_compat_l; [lra|fold aL; lra]|].
    rewrite Rabs_Ropp, Rabs_mult, (Rabs_pos_eq s); [unfold Y; lra|destruct s_ok; lra]. }
  pose proof (rt f md (T1 - T2)) as R. set (v := Q2R (T1 - T2)) in *.
  assert (VB: Rabs v <= 2 * M + 2 * t). { replace v with ((A * L - s * Q2R y) + (v - (A * L - s * Q2R y))) by ring. apply Rle_trans with (M + ((12 * e + 2 * kp) * M + 2 * t)); [apply rabs_tri2; assumption|].
    pose proof (Rmult_le_compat_r M (12 * e + 2 * kp) 1 M0 ltac:(lra)). lra. }
  set (W := Q2R (rnd (T1 - T2))) in *. replace (W - (A * L - s * Q2R y)) with ((W - v) + (v - (A * L - s * Q2R y))) by ring.
  apply Rle_trans with (e * Rabs v + t + ((12 * e + 2 * kp) * M + 2 * t)); [apply rabs_tri2; assumption|].
  pose proof (Rmult_le_compat_l e _ _ ltac:(lra) VB) as EV. pose proof (Rmult_le_compat_r t e (1 / 64) ltac:(lra) E1). pose proof (Rmult_le_pos kp M K0 M0). lra.
Qed.
Lemma exp_le : forall a b, a <= b -> exp a <= exp b.
Proof. intros a b [H|H]; [left; apply exp_increasing; exact H|rewrite H; right; reflexivity]. Qed.
Lemma exp_lo : forall d, 0 <= d -> d <= 1 / 4 -> exp (- (2 * d)) <= 1 - d.
Proof. intros d D0 D1. destruct (ln_1p d (1 - d) D0 ltac:(lra) ltac:(lra) ltac:(lra)) as [H _]. rewrite <- (exp_ln (1 - d)) by lra. apply exp_le. exact H. Qed.
Lemma exp_up : forall d, 1 + d <= exp d.
Proof. intros d. destruct (Req_dec d 0) as [->|H]; [rewrite exp_0; lra|]. left. apply exp_ineq1. exact H. Qed.
Let h := (1 + Q2R y * Q2R y) * (gdens (Q2R al) (Q2R x) / gdens (Q2R al) A).
Let E := (20 * e + 5 * kp) * (1 + A * (Rabs L + 2) + 2 * Y).
Lemma ratio_ok : exists r, gm_ratio f md ex lg al S x y = Some r /\
  h * exp (- E) - 3 * (1 + Q2R y * Q2R y) * t <= Q2R r /\ Q2R r <= h * exp E + 3 * (1 + Q2R y * Q2R y) * t.
Proof.
  destruct g_e as [E0 E1]. pose proof g_kp as K0. pose proof A_ge as AG. destruct g_t as [T0 TE]. destruct z_err as (z & EZ & Z0 & RZ & ZE). pose proof (g_err z Z0 RZ ZE) as GE. pose proof x_err as XE. pose proof x_ge as XG. pose proof Y_nn as Y0. pose proof (Rabs_pos L) as L0.
  unfold gm_ratio. fold A'. rewrite EZ. cbn [bind]. destruct (Qle_bool z 0) eqn:QZ; [apply Qle_bool_iff in QZ; ql|]. eexists. split; [reflexivity|]. fold T2.
  set (G := rnd (rnd (A' * lg z) - T2)) in *. assert (RG: representable f G) by (apply rnd_repr; exact Hf). destruct (HE G RG) as (X0' & _ & XX). set (EX := ex G) in *.
  set (y2 := Q2R y * Q2R y) in *. assert (Y2: 0 <= y2) by (pose proof (Rle_0_sqr (Q2R y)) as Q; exact Q).
  pose proof (rt f md (y * y)) as RA2. rewrite Q2R_mult in RA2. fold y2 in RA2. rewrite (Rabs_pos_eq y2) in RA2 by exact Y2. set (a := rnd (y * y)) in *.
  assert (A0: (0 <= a)%Q) by (apply rnd_nonneg; apply Rle_Qle; rewrite Q2R_mult, Q2R_0; exact Y2).
  assert (N1: (p2 (emin f + prec f - 1) <= 1 + a)%Q). { apply Qle_trans with (p2 0); [apply p2_le; pose proof em; lia|change (p2 0) with 1%Q; ql]. }
  destruct (rrel f f md (1 + a)%Q ltac:(lia) N1) as [B1 B2]. rewrite Q2R_plus, Q2R_1 in B1, B2. set (b := rnd (1 + a)) in *. apply Rabs_le_inv in RA2.
  assert (EY: 0 <= e * y2) by (apply Rmult_le_pos; lra). pose proof (Rmult_le_compat_r (e * y2) e (1 / 64) EY E1) as EEY.
  assert (BB: (1 - 3 * e) * (1 + y2) <= Q2R b <= (1 + 3 * e) * (1 + y2)).
  { pose proof (Rmult_le_compat_l (1 + e) _ _ ltac:(lra) (proj2 RA2)) as U. pose proof (Rmult_le_compat_l (1 - e) _ _ ltac:(lra) (proj1 RA2)) as V. pose proof (Rmult_le_compat_r t e (1 / 64) ltac:(lra) E1) as W. pose proof (Rmult_le_pos e t ltac:(lra) ltac:(lra)). pose proof (Rmult_le_pos e (e * y2) ltac:(lra) EY). split; lra. }
  apply Q2R_le in X0'. rewrite Q2R_0 in X0'. set (xv := Q2R EX) in *. set (bv := Q2R b) in *. apply Rabs_le_inv in XX. set (eg := exp (Q2R G)) in *. assert (EG: 0 < eg) by apply exp_pos.
  assert (C1: 0 < 1 + y2) by lra. set (c1 := 1 + y2) in *. assert (B0: 0 <= bv) by (pose proof (Rmult_le_pos (1 - 3 * e) c1 ltac:(lra) ltac:(lra)); lra).
  pose proof (rt f md (b * EX)) as RR. rewrite Q2R_mult in RR. fold bv xv in RR. rewrite (Rabs_pos_eq (bv * xv)) in RR by (apply Rmult_le_pos; assumption). apply Rabs_le_inv in RR. set (r := Q2R (rnd (b * EX))) in *.
  assert (BU: bv <= 17 / 16 * c1) by (pose proof (Rmult_le_compat_r c1 e (1 / 64) ltac:(lra) E1); lra).
  assert (ETC: c1 * t >= t) by (pose proof (Rmult_le_compat_r t 1 c1 ltac:(lra) ltac:(unfold c1; lra)); lra).
  assert (UP: r <= c1 * eg * ((1 + e) * ((1 + 3 * e) * (1 + kp))) + 3 * c1 * t).
  { pose proof (Rmult_le_compat_l bv _ _ B0 (proj2 XX)) as U1. assert (U2: bv * ((1 + kp) * eg) <= (1 + 3 * e) * c1 * ((1 + kp) * eg)) by (apply Rmult_le_compat_r; [apply Rmult_le_pos; lra|apply BB]).
    pose proof (Rmult_le_compat_r t _ _ ltac:(lra) BU) as U3. assert (U4: bv * xv <= (1 + 3 * e) * c1 * ((1 + kp) * eg) + 17 / 16 * c1 * t) by lra.
    pose proof (Rmult_le_compat_l (1 + e) _ _ ltac:(lra) U4) as U5. pose proof (Rmult_le_compat_r (c1 * t) e (1 / 64) ltac:(lra) E1). lra. }
  assert (LO: c1 * eg * ((1 - e) * ((1 - 3 * e) * (1 - kp))) - 3 * c1 * t <= r).
  { assert (V1: (1 - kp) * eg <= xv + t) by lra. assert (V2: (1 - 3 * e) * c1 * ((1 - kp) * eg) <= bv * (xv + t)) by (apply Rmult_le_compat; [apply Rmult_le_pos; lra|apply Rmult_le_pos; lra|apply BB|exact V1]).
    pose proof (Rmult_le_compat_r t _ _ ltac:(lra) BU) as V3. assert (V4: (1 - 3 * e) * c1 * ((1 - kp) * eg) - 17 / 16 * c1 * t <= bv * xv) by lra.
    pose proof (Rmult_le_compat_l (1 - e) _ _ ltac:(lra) V4) as V5. assert (V6: 0 <= e * (c1 * t)) by (apply Rmult_le_pos; lra). lra. }
  (* the exponents *)
  pose proof (gd_ratio A (Q2R x) ltac:(lra) ltac:(lra)) as GD. replace (A + 1) with (Q2R al) in GD by (unfold A; ring). assert (HH: h = c1 * exp (A * L - (Q2R x - A))) by (unfold h; fold y2; fold c1; rewrite GD; reflexivity).
  set (J := A * L - (Q2R x - A)) in *. set (c := 8 * e + 2 * kp).
  assert (GJ: Rabs (Q2R G - J) <= E - c).
  { replace (Q2R G - J) with ((Q2R G - (A * L - s * Q2R y)) + (Q2R x - (s * Q2R y + A))) by (unfold J; ring).
    apply Rle_trans with (((14 * e + 3 * kp) * M + 4 * t) + (10 * e + 2 * kp) * N); [apply rabs_tri2; assumption|].
    unfold E, M, N, c. set (aL := Rabs L) in *. replace (Q2R al) with (A + 1) by (unfold A; ring). set (P := A * aL). assert (P0: 0 <= P) by (apply Rmult_le_pos; lra).
    pose proof (Rmult_le_pos e P ltac:(lra) P0). pose proof (Rmult_le_pos kp P K0 P0). pose proof (Rmult_le_pos e A ltac:(lra) ltac:(lra)). pose proof (Rmult_le_pos kp A K0 ltac:(lra)). pose proof (Rmult_le_pos e Y ltac:(lra) Y0). pose proof (Rmult_le_pos kp Y K0 Y0).
    replace ((14 * e + 3 * kp) * (A * (aL + 1) + Y)) with (14 * (e * P) + 3 * (kp * P) + 14 * (e * A) + 3 * (kp * A) + 14 * (e * Y) + 3 * (kp * Y)) by (unfold P; ring).
    replace ((20 * e + 5 * kp) * (1 + A * (aL + 2) + 2 * Y)) with (20 * e + 5 * kp + 20 * (e * P) + 5 * (kp * P) + 40 * (e * A) + 10 * (kp * A) + 40 * (e * Y) + 10 * (kp * Y)) by (unfold P; ring). lra. }
  apply Rabs_le_inv in GJ. rewrite HH. split.
  - assert (LX: exp (- E) * exp J <= eg * ((1 - e) * ((1 - 3 * e) * (1 - kp)))).
    { apply Rle_trans with (eg * (exp (- (2 * e)) * (exp (- (2 * (3 * e))) * exp (- (2 * kp))))).
      - unfold eg. rewrite <- !exp_plus. apply exp_le. unfold c in GJ. lra.
      - apply Rmult_le_compat_l; [lra|]. pose proof (exp_pos (- (2 * e))). pose proof (exp_pos (- (2 * (3 * e)))). pose proof (exp_pos (- (2 * kp))).
        apply Rmult_le_compat; [lra|apply Rmult_le_pos; lra|apply exp_lo; lra|]. apply Rmult_le_compat; [lra|lra|apply exp_lo; lra|apply exp_lo; lra]. }
    pose proof (Rmult_le_compat_l c1 _ _ ltac:(lra) LX). lra.
  - assert (UX: eg * ((1 + e) * ((1 + 3 * e) * (1 + kp))) <= exp E * exp J).
    { apply Rle_trans with (eg * (exp e * (exp (3 * e) * exp kp))).
      - apply Rmult_le_compat_l; [lra|]. apply Rmult_le_compat; [lra|apply Rmult_le_pos; lra|apply exp_up|]. apply Rmult_le_compat; [lra|lra|apply exp_up|apply exp_up].
      - unfold eg. rewrite <- !exp_plus. apply exp_le. unfold c in GJ. lra. }
    pose proof (Rmult_le_compat_l c1 _ _ ltac:(lra) UX). lra.
Qed.
End P.
End Y.
End G.
