(* laplace_distribution and lognormal_distribution *)
From Coq Require Import Reals Lqa Lra Qreals Rpower.
From Verif Require Import Base ProgModel ProgSpec ProgProofs FloatModel FloatSpec FloatProofs RealModel Disc4Proofs BinModel BinSpec PoisRSpec Pois3Proofs InvModel InvSpec Inv1Proofs Inv3Proofs Inv4Proofs InvProps Zig4Proofs GamModel GamSpec Gam2Proofs Gam4Proofs.
Ltac Zify.zify_post_hook ::= idtac.
Open Scope R_scope.
Ltac ql := Lqa.lra.

Lemma lap_cdf_lo : forall m b x, 0 < b -> 0 <= x -> lap_cdf m b (m - b * x) = exp (- x) / 2.
Proof.
  intros m b x B X. unfold lap_cdf. destruct (Rlt_dec (m - b * x) m) as [G|G]; [f_equal; f_equal; field; lra|].
  assert (XZ: x = 0). { destruct X as [X|X]; [exfalso; apply G; pose proof (Rmult_lt_0_compat b x B X); lra|symmetry; exact X]. }
  subst x. replace (- ((m - b * 0 - m) / b)) with 0 by (field; lra). replace (- 0) with 0 by ring. rewrite exp_0. lra.
Qed.
Lemma lap_cdf_hi : forall m b x, 0 < b -> 0 <= x -> lap_cdf m b (m + b * x) = 1 - exp (- x) / 2.
Proof.
  intros m b x B X. unfold lap_cdf. pose proof (Rmult_le_pos b x ltac:(lra) X). destruct (Rlt_dec (m + b * x) m) as [G|G]; [lra|].
  replace (- ((m + b * x - m) / b)) with (- x) by (field; lra). reflexivity.
Qed.
(* logarithms of numbers with a relative error *)
Lemma ln_rel : forall x y d, 0 < y -> 0 <= d -> d <= 1 / 4 -> Rabs (x - y) <= d * y -> 0 < x /\ Rabs (ln x - ln y) <= 2 * d.
Proof.
  intros x y d Y D0 D1 H. apply Rabs_le_inv in H. pose proof (Rmult_le_compat_r y d (1 / 4) ltac:(lra) D1) as DY. assert (X: 0 < x) by lra. split; [exact X|].
  assert (E: ln x - ln y = ln (x / y)). { unfold Rdiv. rewrite ln_mult by (try apply Rinv_0_lt_compat; assumption). rewrite ln_Rinv by exact Y. ring. }
  rewrite E. apply ln_dev; [exact D0|exact D1| |]; (apply Rmult_le_reg_r with y; [exact Y|]; replace (x / y * y) with x by (field; lra); lra).
Qed.

Section L.
Variables (f : fmt) (md : rmode).
Hypothesis Hf : fmt_ok f.
Hypothesis Hp : (7 <= prec f)%Z.
Local Notation rnd := (fround f md).
Local Notation e := (eps f).
Local Notation t := (tiny f).

Lemma lp_ok : forall mean beta x u, (0 <= x)%Q -> (0 < beta)%Q ->
  let z := if qlt u (1 # 2) then Q2R mean - Q2R beta * Q2R x else Q2R mean + Q2R beta * Q2R x in
  lap_cdf (Q2R mean) (Q2R beta) z = (if qlt u (1 # 2) then exp (- Q2R x) / 2 else 1 - exp (- Q2R x) / 2) /\
  Rabs (Q2R (lp_val f md mean beta x u) - z) <= 3 * e * (Rabs (Q2R mean) + Q2R beta * Q2R x) + 3 * t.
Proof.
  intros mean beta x u X0 B0 z. apply Q2R_le in X0. apply Qlt_Rlt in B0. rewrite Q2R_0 in X0, B0. destruct (g_e f Hp) as [E0 E1]. pose proof (tiny_pos f) as T0.
  pose proof (Rmult_le_pos (Q2R beta) (Q2R x) ltac:(lra) X0) as BX.
  assert (G: forall y, Rabs (Q2R beta * Q2R y) = Q2R beta * Q2R x -> Rabs (Q2R (rnd (mean + rnd (beta * y))) - (Q2R mean + Q2R beta * Q2R y)) <= 3 * e * (Rabs (Q2R mean) + Q2R beta * Q2R x) + 3 * t).
  { intros y HY. pose proof (rt f md (beta * y)) as R. rewrite Q2R_mult, HY in R.
    pose proof (add_err f md (mean + rnd (beta * y)) (Q2R mean) (Q2R (rnd (beta * y))) (Q2R beta * Q2R y) _ ltac:(rewrite Q2R_plus; reflexivity) R) as A. rewrite HY in A.
    pose proof (Rabs_pos (Q2R mean)) as M0. pose proof (Rmult_le_pos e _ ltac:(lra) M0). pose proof (Rmult_le_pos e _ ltac:(lra) BX) as EB. pose proof (Rmult_le_compat_r _ _ _ EB E1). pose proof (Rmult_le_compat_r t _ _ ltac:(lra) E1).
    apply Rle_trans with (1 := A). lra. }
  unfold z, lp_val. destruct (qlt u (1 # 2)).
  - split; [apply lap_cdf_lo; assumption|]. specialize (G (- x)%Q). rewrite Q2R_opp in G. replace (Q2R mean - Q2R beta * Q2R x) with (Q2R mean + Q2R beta * - Q2R x) by ring. apply G.
    replace (Q2R beta * - Q2R x) with (- (Q2R beta * Q2R x)) by ring. rewrite Rabs_Ropp. apply Rabs_pos_eq. exact BX.
  - split; [apply lap_cdf_hi; assumption|]. apply G. apply Rabs_pos_eq. exact BX.
Qed.

Variables (K : R) (sq lg : Q -> Q).
Hypothesis HK : 0 <= K.
Hypothesis HKe : K * e <= 1 / 32.
Hypothesis HS : sqrt_all f K sq.
Hypothesis HL : log_ok f K lg.
Hypothesis HF : log_fl f lg.
Local Notation kp := (K * eps f).
Variables (mean sigma : Q).
Let M := Q2R mean.
Let S := Q2R sigma.
Hypothesis M0 : (0 < mean)%Q.
Hypothesis S0 : (0 <= sigma)%Q.
Hypothesis T1 : t <= e * (M * M).
Hypothesis T2 : t <= e * (M * M / sqrt (S * S + M * M)).
Hypothesis Te : t <= e.
Let A := rnd (mean * mean).
Let B := rnd (sigma * sigma).

Lemma ln_init_ok : exists nm ns, ln_old_init f md sq lg mean sigma = Some (nm, ns) /\
  Rabs (Q2R nm - ln_mu M S) <= kp * Rabs (ln_mu M S) + 25 * e + 5 * kp /\
  0 <= Q2R ns /\ Rabs (Q2R ns * Q2R ns - ln_var M S) <= 5 * kp * ln_var M S + 13 * e.
Proof.
  destruct (g_e f Hp) as [E0 E1]. assert (KP: 0 <= kp) by (apply Rmult_le_pos; lra).
  assert (MR: 0 < M) by (unfold M; rewrite <- Q2R_0; apply Qlt_Rlt; exact M0). assert (SR: 0 <= S) by (unfold S; rewrite <- Q2R_0; apply Q2R_le; exact S0).
  assert (MM: 0 < M * M) by (apply Rmult_lt_0_compat; exact MR). assert (SS: 0 <= S * S) by (apply Rmult_le_pos; exact SR).
  assert (EMM: 0 < e * (M * M)) by (apply Rmult_lt_0_compat; lra). assert (ESS: 0 <= e * (S * S)) by (apply Rmult_le_pos; lra).
  assert (EM: Q2R (mean * mean) = M * M) by apply Q2R_mult. assert (ES: Q2R (sigma * sigma) = S * S) by apply Q2R_mult.
  assert (MMq: (0 <= mean * mean)%Q) by (apply Qmult_le_0_compat; ql). assert (SSq: (0 <= sigma * sigma)%Q) by (apply Qmult_le_0_compat; ql).
  pose proof (mul_rel f md (mean * mean) MMq ltac:(rewrite EM; exact T1)) as HA. rewrite EM in HA. fold A in HA.
  pose proof (rt f md (sigma * sigma)) as HB. rewrite ES, (Rabs_pos_eq (S * S)) in HB by exact SS. fold B in HB. clear EM ES.
  assert (RA: representable f A) by (apply rnd_repr; exact Hf). assert (RB: representable f B) by (apply rnd_repr; exact Hf).
  assert (A0: (0 <= A)%Q) by (apply rnd_nonneg; exact MMq). assert (B0: (0 <= B)%Q) by (apply rnd_nonneg; exact SSq).
  apply Q2R_le in A0 as A0r, B0 as B0r. rewrite Q2R_0 in A0r, B0r.
  assert (CC: (rnd (sigma * sigma) + rnd (mean * mean) == A + B)%Q) by (unfold A, B; ring). pose proof (rnd_compat f md Hf _ _ CC) as CR.
  destruct (add_rel f md Hf A B RA RB A0 B0) as (P1 & P2 & _ & _). unfold ln_old_init. fold A. fold B. set (C := rnd (B + A)).
  assert (EC: Q2R C = Q2R (rnd (A + B))) by (apply Qeq_eqR, rnd_compat; [exact Hf|ring]). rewrite <- EC in P1, P2. clear CC CR EC.
  assert (C0: (0 <= C)%Q) by (apply rnd_nonneg; ql). assert (RC: representable f C) by (apply rnd_repr; exact Hf). unfold fsqrt at 1. destruct (qlt C 0) eqn:QC; [apply qlt_t in QC; ql|clear QC]. cbn [bind].
  set (D := S * S + M * M) in *. assert (D0: 0 < D) by (unfold D; lra). apply Rabs_le_inv in HA as HA', HB as HB'.
  assert (ED0: 0 <= e * D) by (apply Rmult_le_pos; lra). pose proof (Rmult_le_compat_r (e * D) e (1 / 64) ED0 E1) as EED. pose proof (Rmult_le_compat_r D e (1 / 64) ltac:(lra) E1) as ED64.
  assert (AB: Rabs (Q2R A + Q2R B - D) <= 3 * e * D) by (apply Rabs_le; unfold D in *; lra). apply Rabs_le_inv in AB as AB'.
  assert (ABn: Q2R A + Q2R B <= 2 * D) by lra. pose proof (Rmult_le_compat_l e (Q2R A + Q2R B) (D + 3 * e * D) ltac:(lra) ltac:(lra)) as EAB.
  assert (HC: Rabs (Q2R C - D) <= 5 * e * D + 0) by (apply Rabs_le; lra).
  apply Q2R_le in C0 as C0r. rewrite Q2R_0 in C0r.
  pose proof (sqrt_pert (Q2R C) D (5 * e) 0 C0r ltac:(lra) ltac:(lra) ltac:(lra) ltac:(lra) HC) as SC. rewrite sqrt_0, Rplus_0_r in SC.
  pose proof (HS C C0 RC) as SQ. pose proof (sqrt_lt_R0 D D0) as SD. set (s := sqrt D) in *. set (r := sq C) in *. set (s' := sqrt (Q2R C)) in *.
  pose proof (Rmult_le_compat_r s e (1 / 64) ltac:(lra) E1) as ES64. assert (SB: s' <= 9 / 8 * s) by (apply Rabs_le_inv in SC; lra). pose proof (Rmult_le_compat_l kp _ _ KP SB) as KS.
  assert (HR: Rabs (Q2R r - s) <= (5 * e + 9 / 8 * kp) * s) by (replace (Q2R r - s) with ((Q2R r - s') + (s' - s)) by ring; eapply Rle_trans; [apply rabs_tri2; [exact SQ|exact SC]|]; lra).
  destruct (quot_rel (Q2R A) (Q2R r) (M * M) s (2 * e) (5 * e + 9 / 8 * kp) ltac:(lra) SD ltac:(lra) ltac:(lra) ltac:(lra) ltac:(lra) HA HR) as [RP HQ].
  assert (RPq: (0 < r)%Q) by (apply Rlt_Qlt; rewrite Q2R_0; exact RP). rewrite (fdiv_pos f md A r RPq). cbn [bind]. set (m := rnd (A / r)).
  set (w := M * M / s) in *. assert (W0: 0 < w) by (apply Rmult_lt_0_compat; [exact MM|apply Rinv_0_lt_compat; exact SD]).
  pose proof (rt f md (A / r)) as RM. rewrite Q2R_div in RM by (intro H; rewrite H in RPq; ql). fold m in RM. set (v := Q2R A / Q2R r) in *.
  assert (V0: 0 <= v) by (apply Rmult_le_pos; [exact A0r|left; apply Rinv_0_lt_compat; exact RP]). rewrite (Rabs_pos_eq v) in RM by exact V0.
  pose proof (Rmult_le_pos e w ltac:(lra) ltac:(lra)) as EW. pose proof (Rmult_le_pos kp w KP ltac:(lra)) as KW. pose proof (Rmult_le_compat_r w e (1 / 64) ltac:(lra) E1) as EW2. pose proof (Rmult_le_compat_r w kp (1 / 32) ltac:(lra) HKe) as KW2.
  assert (VB: v <= 5 / 4 * w) by (apply Rabs_le_inv in HQ; lra). pose proof (Rmult_le_compat_l e _ _ ltac:(lra) VB) as EV.
  assert (HM: Rabs (Q2R m - w) <= (12 * e + 2 * kp) * w) by (replace (Q2R m - w) with ((Q2R m - v) + (v - w)) by ring; eapply Rle_trans; [apply rabs_tri2; [exact RM|exact HQ]|]; lra).
  destruct (ln_rel (Q2R m) w (12 * e + 2 * kp) W0 ltac:(lra) ltac:(lra) HM) as [MP LM].
  assert (MPq: (0 < m)%Q) by (apply Rlt_Qlt; rewrite Q2R_0; exact MP). assert (RMm: representable f m) by (apply rnd_repr; exact Hf).
  unfold flog at 1. destruct (Qle_bool m 0) eqn:QM; [apply Qle_bool_iff in QM; exfalso; ql|clear QM]. cbn [bind].
  rewrite (fdiv_pos f md B mean M0). cbn [bind]. set (a := rnd (B / mean)). rewrite (fdiv_pos f md a mean M0). cbn [bind]. set (b := rnd (a / mean)).
  assert (Mnz: ~ (mean == 0)%Q) by (intro H; rewrite H in M0; ql).
  pose proof (rt f md (B / mean)) as Ra. pose proof (rt f md (a / mean)) as Rb. rewrite Q2R_div in Ra by exact Mnz. rewrite Q2R_div in Rb by exact Mnz. fold a in Ra. fold b in Rb. fold M in Ra, Rb.
  assert (a0: (0 <= a)%Q) by (apply rnd_nonneg; apply Qle_shift_div_l; ql). assert (b0: (0 <= b)%Q) by (apply rnd_nonneg; apply Qle_shift_div_l; ql).
  apply Q2R_le in a0 as a0r, b0 as b0r. rewrite Q2R_0 in a0r, b0r. pose proof (Rinv_0_lt_compat M MR) as IM.
  assert (BM0: 0 <= Q2R B / M) by (apply Rmult_le_pos; lra). assert (aM0: 0 <= Q2R a / M) by (apply Rmult_le_pos; lra). rewrite (Rabs_pos_eq _ BM0) in Ra. rewrite (Rabs_pos_eq _ aM0) in Rb.
  set (q := S * S / (M * M)). set (b1 := Q2R B / M / M). set (b2 := Q2R a / M) in *. pose proof (Rinv_0_lt_compat _ MM) as IMM.
  assert (q0: 0 <= q) by (apply Rmult_le_pos; lra). assert (b10: 0 <= b1) by (apply Rmult_le_pos; lra).
  assert (TMM: t / (M * M) <= e) by (apply Rmult_le_reg_r with (M * M); [exact MM|]; replace (t / (M * M) * (M * M)) with t by (field; lra); exact T1).
  assert (TM: t / M <= e).
  { pose proof (tiny_pos f) as TP. destruct (Rle_or_lt 1 M) as [G|G].
    - apply Rle_trans with (2 := Te). apply Rmult_le_reg_r with M; [exact MR|]. replace (t / M * M) with t by (field; lra). pose proof (Rmult_le_compat_l t 1 M ltac:(lra) G). lra.
    - apply Rle_trans with (2 := TMM). apply Rmult_le_reg_r with (M * M); [exact MM|]. replace (t / (M * M) * (M * M)) with t by (field; lra). replace (t / M * (M * M)) with (t * M) by (field; lra). pose proof (Rmult_le_compat_l t M 1 ltac:(lra) ltac:(lra)). lra. }
  assert (D1: Rabs (b1 - q) <= e * (q + 1)).
  { replace (b1 - q) with ((Q2R B - S * S) * / (M * M)) by (unfold b1, q; field; lra). rewrite Rabs_mult, (Rabs_pos_eq (/ (M * M))) by lra.
    apply Rle_trans with ((e * (S * S) + t) * / (M * M)); [apply Rmult_le_compat_r; [lra|exact HB]|]. replace ((e * (S * S) + t) * / (M * M)) with (e * q + t / (M * M)) by (unfold q; field; lra). lra. }
  assert (D2: Rabs (b2 - b1) <= e * (b1 + 1)).
  { replace (b2 - b1) with ((Q2R a - Q2R B / M) * / M) by (unfold b1, b2; field; lra). rewrite Rabs_mult, (Rabs_pos_eq (/ M)) by lra.
    apply Rle_trans with ((e * (Q2R B / M) + t) * / M); [apply Rmult_le_compat_r; [lra|exact Ra]|]. replace ((e * (Q2R B / M) + t) * / M) with (e * b1 + t / M) by (unfold b1; field; lra). lra. }
  assert (D3: Rabs (Q2R b - b2) <= e * (b2 + 1)) by lra.
  assert (Qd: 1 + S * S / (M * M) = q + 1) by (unfold q; ring).
  clearbody b1 b2 q. clear Ra Rb BM0 TMM TM. apply Rabs_le_inv in D1, D2, D3.
  set (Q := q + 1) in *. assert (Q1: 1 <= Q) by (unfold Q; lra). pose proof (Rmult_le_compat_r Q e (1 / 64) ltac:(lra) E1) as EQ64. assert (EQ: 0 <= e * Q) by (apply Rmult_le_pos; lra). pose proof (Rmult_le_compat_r (e * Q) e (1 / 64) EQ E1) as EEQ.
  pose proof (Rmult_le_compat_l e (b1 + 1) (Q + e * Q) ltac:(lra) ltac:(unfold Q; unfold Q in D1; lra)) as X1. assert (X2: b2 + 1 <= Q + 3 * (e * Q)) by (unfold Q in *; lra).
  pose proof (Rmult_le_compat_l e (b2 + 1) _ ltac:(lra) X2) as X3.
  assert (HBq: Rabs (Q2R b + 1 - Q) <= (7 / 2) * e * Q) by (apply Rabs_le; unfold Q in *; lra). apply Rabs_le_inv in HBq.
  assert (Rbq: representable f b) by (apply rnd_repr; exact Hf). destruct (add_rel f md Hf b 1 Rbq (repr_1 f Hf) b0 ltac:(ql)) as (U1 & U2 & _ & _). rewrite Q2R_1 in U1, U2. set (c := rnd (b + 1)) in *.
  pose proof (Rmult_le_compat_l e (Q2R b + 1) (Q + 7 / 2 * e * Q) ltac:(lra) ltac:(lra)) as X4.
  assert (HCq: Rabs (Q2R c - Q) <= 5 * e * Q) by (apply Rabs_le; lra).
  assert (c1: (1 <= c)%Q) by (apply repr_rnd_ge; [exact Hf|apply repr_1; exact Hf|ql]). assert (Rc: representable f c) by (apply rnd_repr; exact Hf).
  unfold flog. destruct (Qle_bool c 0) eqn:QC; [apply Qle_bool_iff in QC; exfalso; ql|clear QC]. cbn [bind].
  destruct (ln_rel (Q2R c) Q (5 * e) ltac:(lra) ltac:(lra) ltac:(lra) HCq) as [CP LC]. pose proof (HL c ltac:(ql) Rc) as LGC. apply Q2R_le in c1 as c1r. rewrite Q2R_1 in c1r.
  assert (lc0: 0 <= ln (Q2R c)) by (rewrite <- ln_1; destruct c1r as [H|H]; [left; apply ln_increasing; lra|rewrite <- H; right; reflexivity]). rewrite (Rabs_pos_eq (ln (Q2R c))) in LGC by exact lc0.
  assert (LQ0: 0 <= ln Q) by (rewrite <- ln_1; destruct Q1 as [H|H]; [left; apply ln_increasing; lra|rewrite <- H; right; reflexivity]).
  set (lc := ln (Q2R c)) in *. set (g := lg c) in *. pose proof (Rmult_le_compat_r lc kp (1 / 32) lc0 HKe) as KLC. apply Rabs_le_inv in LGC, LC.
  assert (g0: 0 <= Q2R g) by lra. assert (g0q: (0 <= g)%Q) by (apply Rle_Qle; rewrite Q2R_0; exact g0). unfold fsqrt. destruct (qlt g 0) eqn:QG; [apply qlt_t in QG; ql|clear QG]. cbn [bind].
  do 2 eexists. split; [reflexivity|]. split; [|].
  - pose proof (HL m MPq RMm) as LGM. unfold ln_mu. fold D. fold s. fold w. set (lm := ln (Q2R m)) in *. set (lw := ln w) in *.
    assert (AL: Rabs lm <= Rabs lw + 2 * (12 * e + 2 * kp)) by (pose proof (Rabs_triang lw (lm - lw)) as TT; replace (lw + (lm - lw)) with lm in TT by ring; lra).
    pose proof (Rmult_le_compat_l kp _ _ KP AL) as KL. replace (Q2R (lg m) - lw) with ((Q2R (lg m) - lm) + (lm - lw)) by ring. eapply Rle_trans; [apply rabs_tri2; [exact LGM|exact LM]|].
    pose proof (Rmult_le_compat_r e kp (1 / 32) ltac:(lra) HKe). pose proof (Rmult_le_compat_r kp kp (1 / 32) KP HKe). lra.
  - pose proof (HS g g0q (HF c ltac:(ql) Rc)) as SG. pose proof (sqrt_pos (Q2R g)) as SG0. pose proof (sqrt_sqrt (Q2R g) g0) as SGG. set (h := sqrt (Q2R g)) in *. set (n := Q2R (sq g)) in *. apply Rabs_le_inv in SG.
    pose proof (Rmult_le_compat_r h kp (1 / 32) SG0 HKe) as KH. split; [lra|].
    assert (N1: n * n <= (h + kp * h) * (h + kp * h)) by (apply Rmult_le_compat; lra). assert (N2: (h - kp * h) * (h - kp * h) <= n * n) by (apply Rmult_le_compat; lra).
    assert (HH: 0 <= kp * (h * h)) by (apply Rmult_le_pos; [exact KP|rewrite SGG; exact g0]). pose proof (Rmult_le_compat_r (kp * (h * h)) kp (1 / 32) HH HKe) as KHH. pose proof (Rmult_le_pos kp (kp * (h * h)) KP HH) as KHH0.
    rewrite SGG in *. replace ((h + kp * h) * (h + kp * h)) with (h * h + 2 * (kp * (h * h)) + kp * (kp * (h * h))) in N1 by ring. replace ((h - kp * h) * (h - kp * h)) with (h * h - 2 * (kp * (h * h)) + kp * (kp * (h * h))) in N2 by ring. rewrite SGG in N1, N2.
    unfold ln_var. rewrite Qd. fold Q. set (lq := ln Q) in *. pose proof (Rmult_le_compat_l kp lc (lq + 2 * (5 * e)) KP ltac:(lra)) as KC. pose proof (Rmult_le_compat_r e kp (1 / 32) ltac:(lra) HKe) as KE. pose proof (Rmult_le_pos kp lq KP LQ0) as KQ0.
    assert (GB: Q2R g <= lq + kp * lq + 11 * e) by lra. pose proof (Rmult_le_compat_l kp _ _ KP GB) as KG. pose proof (Rmult_le_compat_r (kp * lq) kp (1 / 32) KQ0 HKe) as KKQ.
    apply Rabs_le. lra.
Qed.
End L.
