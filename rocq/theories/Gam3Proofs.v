(* gamma_distribution for alpha < 1. *)
From Coq Require Import Reals Lqa Lra Qreals Rpower.
From Verif Require Import Base ProgModel FloatModel FloatSpec FloatProofs RealModel BinModel BinSpec PoisRSpec Pois3Proofs InvModel InvSpec Inv1Proofs Inv4Proofs Zig4Proofs GamModel GamSpec Gam2Proofs.
Ltac Zify.zify_post_hook ::= idtac.
Ltac ql := Lqa.lra.
Open Scope R_scope.

(* the two parts of the hat, with the same factor *)
Lemma gs_part1 : forall al x, 0 < al -> 0 < x -> exp 1 / (al + exp 1) * (al * Rpower x (al - 1)) * exp (- x) = al * (exp 1 / (al + exp 1)) * gdens al x.
Proof. intros al x A X. unfold gdens. ring. Qed.
Lemma gs_part2 : forall al x, 0 < al -> 1 <= x -> (1 - exp 1 / (al + exp 1)) * exp (- (x - 1)) * Rpower x (al - 1) = al * (exp 1 / (al + exp 1)) * gdens al x.
Proof.
  intros al x A X. unfold gdens. pose proof (exp_pos 1) as E. replace (- (x - 1)) with (1 + - x) by ring. rewrite exp_plus.
  replace (1 - exp 1 / (al + exp 1)) with (al / (al + exp 1)) by (field; lra). field. lra.
Qed.

Section G.
Variables (f : fmt) (md : rmode) (K : R) (ex : Q -> Q) (pw : Q -> Q -> Q).
Hypothesis Hf : fmt_ok f.
Hypothesis Hp : (7 <= prec f)%Z.
Hypothesis Hw : (emin f + 2 * prec f <= -1)%Z.
Hypothesis HK : 0 <= K.
Hypothesis HKe : K * eps f <= 1 / 16.
Hypothesis HE : exp_all f K ex.
Hypothesis HP : pow_any f K pw.
Local Notation e := (eps f).
Local Notation t := (tiny f).
Local Notation rnd := (fround f md).
Local Notation kp := (K * eps f).
Variable al : Q.
Hypothesis RA : representable f al.
Hypothesis A0 : (0 < al)%Q.
Hypothesis A1 : (al < 1)%Q.
Let P := exp 1 / (Q2R al + exp 1).

Lemma s_e : 0 < e /\ e <= 1 / 64.
Proof. split; [apply e_pos|]. unfold eps. replace (1 / 64) with (Q2R (p2 (-6))) by (unfold p2, Q2R; cbn; field). apply Q2R_le, p2_le. lia. Qed.
Lemma s_kp : 0 <= kp.
Proof. destruct s_e. apply Rmult_le_pos; lra. Qed.
Lemma s_t : 0 < t /\ t <= e / 64.
Proof.
  split; [apply tiny_pos|]. unfold tiny, eps. replace (Q2R (p2 (1 - prec f)) / 64) with (Q2R (p2 (1 - prec f) * p2 (-6))) by (rewrite Q2R_mult; unfold p2 at 2; unfold Q2R at 2; cbn; field).
  rewrite <- (Qeq_eqR _ _ (p2_add (1 - prec f) (-6))). apply Q2R_le, p2_le. lia.
Qed.
Lemma exp1_2 : 2 <= exp 1.
Proof. pose proof (exp_ineq1 1 ltac:(lra)). lra. Qed.
Lemma p_ok : exists p, gm_p f md ex al = Some p /\ representable f p /\ (1 # 2 <= p)%Q /\ (p <= 1)%Q /\ Rabs (Q2R p - P) <= (3 * kp + 4 * e) * P.
Proof.
  destruct s_e as [E0 E1]. pose proof s_kp as K0. destruct s_t as [T0 T1]. pose proof exp1_2 as X2.
  destruct (HE 1%Q (repr_1 f Hf)) as (_ & RE & EE). rewrite Q2R_1 in EE. set (c := ex 1) in *. set (C := exp 1) in *. set (k1 := kp + e / 64).
  assert (K1: 0 <= k1 <= 1 / 15) by (unfold k1; lra).
  assert (CE: (1 - k1) * C <= Q2R c <= (1 + k1) * C). { apply Rabs_le_inv in EE. unfold k1. pose proof (Rmult_le_compat_l (e / 64) 1 C ltac:(lra) ltac:(lra)). split; lra. }
  apply Qlt_Rlt in A0 as A0R. apply Qlt_Rlt in A1 as A1R. rewrite Q2R_0 in A0R. rewrite Q2R_1 in A1R. set (A := Q2R al) in *.
  assert (C1: 0 <= k1 * C) by (apply Rmult_le_pos; lra). pose proof (Rmult_le_compat_r C k1 (1 / 15) ltac:(lra) (proj2 K1)) as C1'.
  assert (CQ: (1 <= c)%Q) by (apply Rle_Qle; rewrite Q2R_1; lra).
  assert (N1: (p2 (emin f + prec f - 1) <= al + c)%Q). { apply Qle_trans with (p2 0); [apply p2_le; lia|change (p2 0) with 1%Q; ql]. }
  destruct (rrel f f md (al + c)%Q ltac:(lia) N1) as [D1 D2]. rewrite Q2R_plus in D1, D2. fold A in D1, D2. set (d := rnd (al + c)) in *. assert (DC: (c <= d)%Q) by (apply repr_rnd_ge; [exact Hf|exact RE|ql]).
  unfold gm_p. fold c. unfold fdiv. fold d. destruct (Qeq_bool d 0) eqn:DZ; [apply Qeq_bool_iff in DZ; ql|]. eexists. split; [reflexivity|].
  assert (QD: Q2R (c / d) = Q2R c / Q2R d) by (apply Q2R_div; intro H; ql). apply Q2R_le in DC as DCR. apply Q2R_le in CQ as CQR. rewrite Q2R_1 in CQR.
  set (cv := Q2R c) in *. set (dv := Q2R d) in *.
  (* c/d in [P (1-k1)(1-e)..] *)
  assert (SP: 0 < A + C) by lra. assert (PP: P * (A + C) = C) by (unfold P; field; lra). assert (P0: 0 < P) by (unfold P; apply Rmult_lt_0_compat; [lra|apply Rinv_0_lt_compat; lra]).
  assert (P23: 2 / 3 <= P <= 1). { split; apply Rmult_le_reg_r with (A + C); try exact SP; rewrite PP; lra. }
  set (r := cv / dv) in *. assert (RD: r * dv = cv) by (unfold r; field; lra). assert (DV0: 0 < dv) by lra.
  assert (DL: (1 - e) * (1 - k1) * (A + C) <= dv).
  { apply Rle_trans with ((1 - e) * (A + cv)); [|exact D1]. rewrite Rmult_assoc. apply Rmult_le_compat_l; [lra|]. pose proof (Rmult_le_pos k1 A ltac:(lra) ltac:(lra)). lra. }
  assert (DU: dv <= (1 + e) * (1 + k1) * (A + C)).
  { apply Rle_trans with ((1 + e) * (A + cv)); [exact D2|]. rewrite Rmult_assoc. apply Rmult_le_compat_l; [lra|]. pose proof (Rmult_le_pos k1 A ltac:(lra) ltac:(lra)). lra. }
  assert (KE: 0 <= k1 * e) by (apply Rmult_le_pos; lra). pose proof (Rmult_le_compat_l k1 e (1 / 64) ltac:(lra) E1) as KE2. pose proof (Rmult_le_compat_r k1 k1 (1 / 15) ltac:(lra) (proj2 K1)) as KK. pose proof (Rmult_le_compat_r e e (1 / 64) ltac:(lra) E1) as EE2.
  assert (U: r <= (1 + 5 / 2 * k1 + 5 / 4 * e) * P).
  { apply Rmult_le_reg_r with dv; [exact DV0|]. rewrite RD. apply Rle_trans with ((1 + k1) * C); [apply CE|]. set (w := 1 + 5 / 2 * k1 + 5 / 4 * e).
    apply Rle_trans with (w * P * ((1 - e) * (1 - k1) * (A + C))); [|apply Rmult_le_compat_l; [apply Rmult_le_pos; unfold w; lra|exact DL]].
    replace (w * P * ((1 - e) * (1 - k1) * (A + C))) with (w * (1 - e) * (1 - k1) * (P * (A + C))) by ring. rewrite PP. apply Rmult_le_compat_r; [lra|].
    assert (W1: 1 + 5 / 2 * k1 + 1 / 5 * e - 5 / 2 * (k1 * e) <= w * (1 - e)) by (unfold w; lra). pose proof (Rmult_le_compat_r (1 - k1) _ _ ltac:(lra) W1) as W2.
    pose proof (Rmult_le_pos k1 (k1 * e) ltac:(lra) KE). lra. }
  assert (L: (1 - 2 * k1 - 2 * e) * P <= r).
  { apply Rmult_le_reg_r with dv; [exact DV0|]. rewrite RD. apply Rle_trans with ((1 - k1) * C); [|apply CE]. set (w := 1 - 2 * k1 - 2 * e).
    apply Rle_trans with (w * P * ((1 + e) * (1 + k1) * (A + C))); [apply Rmult_le_compat_l; [apply Rmult_le_pos; unfold w; lra|exact DU]|].
    replace (w * P * ((1 + e) * (1 + k1) * (A + C))) with (w * (1 + e) * (1 + k1) * (P * (A + C))) by ring. rewrite PP. apply Rmult_le_compat_r; [lra|].
    assert (W1: w * (1 + e) <= 1 - 2 * k1 - e) by (pose proof (Rmult_le_pos e e ltac:(lra) ltac:(lra)); unfold w; lra). pose proof (Rmult_le_compat_r (1 + k1) _ _ ltac:(lra) W1) as W2. pose proof (Rmult_le_pos k1 k1 ltac:(lra) ltac:(lra)). lra. }
  assert (KP: 0 <= k1 * P) by (apply Rmult_le_pos; lra). assert (EP: 0 <= e * P) by (apply Rmult_le_pos; lra). pose proof (Rmult_le_compat_r P k1 (1 / 15) ltac:(lra) (proj2 K1)) as KP2. pose proof (Rmult_le_compat_r P e (1 / 64) ltac:(lra) E1) as EP2.
  assert (N2: (p2 (emin f + prec f - 1) <= c / d)%Q).
  { apply Qle_trans with (p2 (-1)); [apply p2_le; lia|]. apply Rle_Qle. rewrite QD. fold cv dv. fold r. replace (Q2R (p2 (-1))) with (1 / 2) by (unfold p2, Q2R; cbn; field). lra. }
  destruct (rrel f f md (c / d)%Q ltac:(lia) N2) as [R1 R2]. rewrite QD in R1, R2. fold cv dv in R1, R2. fold r in R1, R2.
  split; [apply rnd_repr; exact Hf|]. split; [apply repr_rnd_ge; [exact Hf|apply (repr_p2 f Hf (-1)); lia|]|split; [apply repr_rnd_le; [exact Hf|apply repr_1; exact Hf|]|]].
  - apply Rle_Qle. rewrite QD. fold cv dv. fold r. replace (Q2R (1 # 2)) with (1 / 2) by (unfold Q2R; cbn; field). lra.
  - apply Rle_Qle. rewrite QD, Q2R_1. fold cv dv. apply Rmult_le_reg_r with dv; [exact DV0|]. fold r. rewrite RD. lra.
  - assert (ER: e * r <= 5 / 4 * (e * P)) by (replace (5 / 4 * (e * P)) with (e * (5 / 4 * P)) by ring; apply Rmult_le_compat_l; lra). apply Rabs_le. unfold k1 in *. lra.
Qed.

Section B.
Variables (p u y : Q).
Hypothesis Rp : representable f p.
Hypothesis P0 : (1 # 2 <= p)%Q.
Hypothesis P1 : (p <= 1)%Q.
Hypothesis Y0 : (0 <= y)%Q.
Lemma p_R : 1 / 2 <= Q2R p <= 1.
Proof. apply Q2R_le in P0, P1. rewrite Q2R_1 in P1. replace (Q2R (1 # 2)) with (1 / 2) in P0 by (unfold Q2R; cbn; field). lra. Qed.
Lemma xq1 : (u < p)%Q -> exists x q y', gm_xq f md ex pw al p u y = Some (x, q) /\ (0 <= x)%Q /\ representable f x /\
  Rabs (y' - Q2R y / Q2R al) <= e * (Q2R y / Q2R al) + t /\ Rabs (Q2R x - exp (- y')) <= kp * exp (- y') + t /\
  Rabs (Q2R q - Q2R p * exp (- Q2R x)) <= (kp + 2 * e) * (Q2R p * exp (- Q2R x)) + 3 * t.
Proof.
  intro U. destruct s_e as [E0 E1]. pose proof s_kp as K0. destruct s_t as [T0 T1]. destruct p_R as [PL PU].
  apply Qlt_Rlt in A0 as A0R. rewrite Q2R_0 in A0R. apply Q2R_le in Y0 as Y0R. rewrite Q2R_0 in Y0R.
  unfold gm_xq. destruct (qlt u p) eqn:QU; [|apply qlt_f in QU; ql]. unfold fdiv. destruct (Qeq_bool al 0) eqn:AZ; [apply Qeq_bool_iff in AZ; ql|]. cbn [bind].
  set (z := rnd (- y / al)). assert (RZ: representable f z) by (apply rnd_repr; exact Hf). destruct (HE z RZ) as (X0 & RX & XE). set (x := ex z) in *.
  assert (RNX: representable f (- x)) by (apply repr_opp; exact RX). destruct (HE (- x)%Q RNX) as (W0 & _ & WE). rewrite Q2R_opp in WE. set (w := ex (- x)) in *.
  exists x, (rnd (p * w)), (- Q2R z). split; [reflexivity|]. split; [exact X0|]. split; [exact RX|]. split.
  - pose proof (rt f md (- y / al)) as R. fold z in R. assert (QD: Q2R (- y / al) = - (Q2R y / Q2R al)) by (rewrite Q2R_div by (intro H; ql); rewrite Q2R_opp; field; lra). rewrite QD, Rabs_Ropp in R.
    rewrite (Rabs_pos_eq (Q2R y / Q2R al)) in R by (apply Rmult_le_pos; [exact Y0R|left; apply Rinv_0_lt_compat; exact A0R]). replace (- Q2R z - Q2R y / Q2R al) with (- (Q2R z - - (Q2R y / Q2R al))) by ring. rewrite Rabs_Ropp. exact R.
  - split; [rewrite Ropp_involutive; exact XE|]. pose proof (rt f md (p * w)) as R. rewrite Q2R_mult in R. apply Q2R_le in W0. rewrite Q2R_0 in W0. set (wv := Q2R w) in *. set (pv := Q2R p) in *. set (q := Q2R (rnd (p * w))) in *. pose proof (exp_pos (- Q2R x)) as EP. set (xe := exp (- Q2R x)) in *.
    rewrite (Rabs_pos_eq (pv * wv)) in R by (apply Rmult_le_pos; lra).
    assert (D: Rabs (pv * wv - pv * xe) <= kp * (pv * xe) + t).
    { replace (pv * wv - pv * xe) with (pv * (wv - xe)) by ring. rewrite Rabs_mult, (Rabs_pos_eq pv) by lra. pose proof (Rmult_le_compat_l pv _ _ ltac:(lra) WE). pose proof (Rmult_le_compat_r t pv 1 ltac:(lra) PU). lra. }
    assert (PX: 0 <= pv * xe) by (apply Rmult_le_pos; lra). assert (PW: pv * wv <= 17 / 16 * (pv * xe) + t) by (apply Rabs_le_inv in D; pose proof (Rmult_le_compat_r (pv * xe) kp (1 / 16) PX HKe); lra).
    pose proof (Rmult_le_compat_l e _ _ ltac:(lra) PW) as EW. pose proof (Rmult_le_compat_r t e (1 / 64) ltac:(lra) E1) as ET. pose proof (Rmult_le_pos e (pv * xe) ltac:(lra) PX) as EPX.
    replace (q - pv * xe) with ((q - pv * wv) + (pv * wv - pv * xe)) by ring. apply Rle_trans with (e * (pv * wv) + t + (kp * (pv * xe) + t)); [apply rabs_tri2; assumption|lra].
Qed.
Lemma xq2 : (p <= u)%Q -> exists x q a', gm_xq f md ex pw al p u y = Some (x, q) /\ (1 <= x)%Q /\ representable f x /\
  Rabs (Q2R x - (1 + Q2R y)) <= e * (1 + Q2R y) /\ Rabs (a' - (Q2R al - 1)) <= e * (1 - Q2R al) + t /\
  Rabs (Q2R q - (Q2R p + (1 - Q2R p) * Rpower (Q2R x) a')) <= kp + 4 * e.
Proof.
  intro U. destruct s_e as [E0 E1]. pose proof s_kp as K0. destruct s_t as [T0 T1]. destruct p_R as [PL PU]. apply Q2R_le in Y0 as Y0R. rewrite Q2R_0 in Y0R.
  apply Qlt_Rlt in A0 as A0R. apply Qlt_Rlt in A1 as A1R. rewrite Q2R_0 in A0R. rewrite Q2R_1 in A1R.
  unfold gm_xq. destruct (qlt u p) eqn:QU; [apply qlt_t in QU; ql|]. set (x := rnd (1 + y)). set (a := rnd (al - 1)).
  assert (X1: (1 <= x)%Q) by (apply repr_rnd_ge; [exact Hf|apply repr_1; exact Hf|ql]). assert (RX: representable f x) by (apply rnd_repr; exact Hf). assert (Ra: representable f a) by (apply rnd_repr; exact Hf).
  assert (AN: (a <= 0)%Q) by (apply repr_rnd_le; [exact Hf|apply repr_0; exact Hf|ql]).
  exists x, (rnd (p + rnd (rnd (1 - p) * pw x a))), (Q2R a). split; [reflexivity|]. split; [exact X1|]. split; [exact RX|].
  assert (N1: (p2 (emin f + prec f - 1) <= 1 + y)%Q). { apply Qle_trans with (p2 0); [apply p2_le; lia|change (p2 0) with 1%Q; ql]. }
  destruct (rrel f f md (1 + y)%Q ltac:(lia) N1) as [B1 B2]. fold x in B1, B2. rewrite Q2R_plus, Q2R_1 in B1, B2.
  split; [apply Rabs_le; lra|]. split.
  - pose proof (rt f md (al - 1)) as R. fold a in R. rewrite Q2R_minus, Q2R_1 in R. rewrite (Rabs_left1 (Q2R al - 1)) in R by lra. replace (- (Q2R al - 1)) with (1 - Q2R al) in R by ring. exact R.
  - pose proof (HP x a ltac:(ql) RX Ra) as PE. set (pv := Q2R p) in *. set (pp := Rpower (Q2R x) (Q2R a)) in *. set (wv := Q2R (pw x a)) in *.
    assert (PP: 0 < pp <= 1).
    { split; [apply exp_pos|]. unfold pp, Rpower. rewrite <- exp_0. apply exp_le. apply Q2R_le in AN, X1. rewrite Q2R_0 in AN. rewrite Q2R_1 in X1.
      assert (LX: 0 <= ln (Q2R x)) by (rewrite <- ln_1; destruct X1 as [H|H]; [left; apply ln_increasing; lra|rewrite H; right; reflexivity]). pose proof (Rmult_le_pos (- Q2R a) (ln (Q2R x)) ltac:(lra) LX). lra. }
    pose proof (rt f md (1 - p)) as RO. rewrite Q2R_minus, Q2R_1 in RO. fold pv in RO. rewrite (Rabs_pos_eq (1 - pv)) in RO by lra. set (o := rnd (1 - p)) in *. set (ov := Q2R o) in *. apply Rabs_le_inv in RO.
    pose proof (Rmult_le_compat_l e (1 - pv) (1 / 2) ltac:(lra) ltac:(lra)) as EO.
    assert (O0: (0 <= o)%Q) by (apply rnd_nonneg; ql). apply Q2R_le in O0. rewrite Q2R_0 in O0. fold ov in O0. assert (OU: ov <= 5 / 8) by lra.
    pose proof (rt f md (o * pw x a)) as RM. rewrite Q2R_mult in RM. fold ov wv in RM. set (m := rnd (o * pw x a)) in *. set (mv := Q2R m) in *.
    assert (KPP: kp * pp <= kp) by (pose proof (Rmult_le_compat_l kp pp 1 K0 ltac:(lra)); lra). assert (WB: Rabs wv <= 9 / 8). { apply Rabs_le_inv in PE. apply Rabs_le. split; lra. }
    assert (D1: Rabs (ov * wv - (1 - pv) * pp) <= 5 / 8 * (kp + t) + (e / 2 + t)).
    { replace (ov * wv - (1 - pv) * pp) with (ov * (wv - pp) + (ov - (1 - pv)) * pp) by ring. apply rabs_tri2.
      - rewrite Rabs_mult, (Rabs_pos_eq ov) by exact O0. apply Rmult_le_compat; [exact O0|apply Rabs_pos|exact OU|]. lra.
      - rewrite Rabs_mult, (Rabs_pos_eq pp) by lra. assert (OE: Rabs (ov - (1 - pv)) <= e / 2 + t) by (apply Rabs_le; lra). pose proof (Rmult_le_compat _ _ pp 1 (Rabs_pos (ov - (1 - pv))) ltac:(lra) OE ltac:(lra)). lra. }
    assert (OW: Rabs (ov * wv) <= 3 / 4). { rewrite Rabs_mult, (Rabs_pos_eq ov) by exact O0. pose proof (Rmult_le_compat ov (5 / 8) _ _ O0 (Rabs_pos wv) OU WB). lra. }
    pose proof (Rmult_le_compat_l e _ _ ltac:(lra) OW) as EOW.
    assert (D2: Rabs (mv - (1 - pv) * pp) <= 5 / 8 * (kp + t) + (e / 2 + t) + (e * (3 / 4) + t)).
    { replace (mv - (1 - pv) * pp) with ((ov * wv - (1 - pv) * pp) + (mv - ov * wv)) by ring. apply rabs_tri2; [exact D1|lra]. }
    pose proof (rt f md (p + m)) as RQ. rewrite Q2R_plus in RQ. fold pv mv in RQ. set (q := Q2R (rnd (p + m))) in *.
    assert (MB: Rabs (pv + mv) <= 9 / 8 + 1 / 2).
    { apply Rabs_le_inv in D2. assert (0 <= (1 - pv) * pp) by (apply Rmult_le_pos; lra). assert ((1 - pv) * pp <= 1 - pv) by (pose proof (Rmult_le_compat_l (1 - pv) pp 1 ltac:(lra) ltac:(lra)); lra). apply Rabs_le. lra. }
    pose proof (Rmult_le_compat_l e _ _ ltac:(lra) MB) as EM.
    replace (q - (pv + (1 - pv) * pp)) with ((q - (pv + mv)) + (mv - (1 - pv) * pp)) by ring.
    apply Rle_trans with (e * (9 / 8 + 1 / 2) + t + (5 / 8 * (kp + t) + (e / 2 + t) + (e * (3 / 4) + t))); [apply rabs_tri2; [lra|exact D2]|lra].
Qed.
End B.
End G.
