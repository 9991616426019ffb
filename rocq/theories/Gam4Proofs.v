(* The distributions derived from gamma, exponential and normal distributions. *)
From Coq Require Import Reals Lqa Lra Qreals Rpower.
From Verif Require Import Base ProgModel ProgSpec ProgProofs FloatModel FloatSpec FloatProofs RealModel Disc4Proofs BinModel BinSpec PoisRSpec Pois3Proofs InvModel InvSpec Inv1Proofs Inv3Proofs Inv4Proofs InvProps Zig4Proofs GamModel GamSpec Gam2Proofs.
Ltac Zify.zify_post_hook ::= idtac.
Open Scope R_scope.
Ltac ql := Lqa.lra.

Lemma fdiv_pos : forall f md x y, (0 < y)%Q -> fdiv f md x y = Some (fround f md (x / y)).
Proof. intros f md x y H. unfold fdiv. destruct (Qeq_bool y 0) eqn:E; [apply Qeq_bool_iff in E; ql|reflexivity]. Qed.
Lemma fdiv_zero : forall f md x y, (y == 0)%Q -> fdiv f md x y = None.
Proof. intros f md x y H. unfold fdiv. apply Qeq_bool_iff in H. rewrite H. reflexivity. Qed.

Section D.
Variables (f : fmt) (md : rmode).
Hypothesis Hf : fmt_ok f.
Hypothesis Hp : (7 <= prec f)%Z.
Local Notation rnd := (fround f md).
Local Notation e := (eps f).
Local Notation t := (tiny f).

Lemma add_rel : forall a b, representable f a -> representable f b -> (0 <= a)%Q -> (0 <= b)%Q ->
  (1 - e) * (Q2R a + Q2R b) <= Q2R (rnd (a + b)) /\ Q2R (rnd (a + b)) <= (1 + e) * (Q2R a + Q2R b) /\ (a <= rnd (a + b))%Q /\ ((0 < a + b)%Q -> (0 < rnd (a + b))%Q).
Proof.
  intros a b RA RB A0 B0. assert (C: (a - - b == a + b)%Q) by ring. pose proof (rnd_compat f md Hf _ _ C) as RC. apply Qeq_eqR in RC as RR.
  destruct (sub_rel f md (- b) a Hf (repr_opp f b RB) RA ltac:(ql)) as [P Q]. rewrite Q2R_opp in P, Q. rewrite RR in P, Q.
  replace (Q2R a - - Q2R b) with (Q2R a + Q2R b) in * by ring. split; [exact P|]. split; [exact Q|]. split; [apply repr_rnd_ge; [exact Hf|exact RA|ql]|].
  intro AB. rewrite <- RC. apply sub_pos; [exact Hf|apply repr_opp; exact RB|exact RA|ql].
Qed.
Lemma mul_rel : forall x, (0 <= x)%Q -> t <= e * Q2R x -> Rabs (Q2R (rnd x) - Q2R x) <= 2 * e * Q2R x.
Proof. intros x X T. apply Q2R_le in X. rewrite Q2R_0 in X. pose proof (rt f md x) as R. rewrite (Rabs_pos_eq (Q2R x)) in R by exact X. lra. Qed.
(* quotients of numbers with relative errors *)
Lemma quot_rel : forall X Y x y c d, 0 <= x -> 0 < y -> 0 <= c -> c <= 1 / 4 -> 0 <= d -> d <= 1 / 4 -> Rabs (X - x) <= c * x -> Rabs (Y - y) <= d * y ->
  0 < Y /\ Rabs (X / Y - x / y) <= (4 / 3 * (c + d)) * (x / y).
Proof.
  intros X Y x y c d X0 Y0 C0 C1 D0 D1 HX HY. apply Rabs_le_inv in HX, HY. pose proof (Rmult_le_compat_r y d (1 / 4) ltac:(lra) D1) as DY.
  assert (YP: 0 < Y) by lra. split; [exact YP|]. set (q := x / y). assert (Q0: 0 <= q) by (apply Rmult_le_pos; [exact X0|left; apply Rinv_0_lt_compat; exact Y0]).
  assert (XE: x = q * y) by (unfold q; field; lra). clearbody q. rewrite XE in HX.
  apply Rabs_le. pose proof (Rmult_le_pos q y Q0 ltac:(lra)) as QY. pose proof (Rmult_le_compat_l q _ _ Q0 (proj1 HY)) as M1. pose proof (Rmult_le_compat_l q _ _ Q0 (proj2 HY)) as M2.
  set (k := 4 / 3 * (c + d)) in *. assert (K0: 0 <= k) by (unfold k; lra).
  assert (KY: (c + d) * (q * y) <= k * (q * Y)).
  { unfold k. pose proof (Rmult_le_compat_l (c + d) (q * y) (4 / 3 * (q * Y)) ltac:(lra)) as M3. assert (G: q * y <= 4 / 3 * (q * Y)). { pose proof (Rmult_le_compat_l q (3 / 4 * y) Y Q0 ltac:(lra)). lra. } specialize (M3 G). lra. }
  split.
  - apply Rmult_le_reg_r with Y; [exact YP|]. replace ((X / Y - q) * Y) with (X - q * Y) by (field; lra). lra.
  - apply Rmult_le_reg_r with Y; [exact YP|]. replace ((X / Y - q) * Y) with (X - q * Y) by (field; lra). lra.
Qed.

(* ---- beta ---- *)
Lemma bt_ok : forall a b, representable f a -> representable f b -> (0 <= a)%Q -> (0 <= b)%Q -> (0 < a + b)%Q ->
  exists r, bt_val f md a b = Some r /\ (0 <= r)%Q /\ (r <= 1)%Q /\ Rabs (Q2R r - Q2R a / (Q2R a + Q2R b)) <= 3 * e * (Q2R a / (Q2R a + Q2R b)) + t.
Proof.
  intros a b RA RB A0 B0 AB. destruct (add_rel a b RA RB A0 B0) as (P & Q & LE & SP). specialize (SP AB). destruct (g_e f Hp) as [E0 E1].
  unfold bt_val. rewrite (fdiv_pos f md a _ SP). set (s := rnd (a + b)) in *. eexists. split; [reflexivity|].
  assert (SPR: 0 < Q2R s) by (rewrite <- Q2R_0; apply Qlt_Rlt; exact SP).
  split; [apply rnd_nonneg; apply Qle_shift_div_l; ql|]. split; [apply repr_rnd_le; [exact Hf|apply repr_1; exact Hf|apply Qle_shift_div_r; ql]|].
  apply Q2R_le in A0, B0. rewrite Q2R_0 in A0, B0. apply Qlt_Rlt in AB. rewrite Q2R_0, Q2R_plus in AB.
  destruct (quot_rel (Q2R a) (Q2R s) (Q2R a) (Q2R a + Q2R b) 0 e A0 AB ltac:(lra) ltac:(lra) ltac:(lra) ltac:(lra)) as [_ D]; [rewrite Rminus_diag_eq, Rabs_R0 by reflexivity; lra|apply rel_abs; lra|].
  pose proof (rt f md (a / s)) as R. rewrite Q2R_div in R by (intro H; rewrite H in SP; ql). set (q := Q2R a / (Q2R a + Q2R b)) in *. set (v := Q2R a / Q2R s) in *.
  assert (Q0: 0 <= q) by (apply Rmult_le_pos; [exact A0|left; apply Rinv_0_lt_compat; exact AB]). assert (V0: 0 <= v) by (apply Rmult_le_pos; [exact A0|left; apply Rinv_0_lt_compat; exact SPR]).
  rewrite (Rabs_pos_eq v) in R by exact V0. pose proof (Rmult_le_pos e q ltac:(lra) Q0) as EQ. pose proof (Rmult_le_compat_r q e (1 / 64) Q0 E1) as EQ2.
  assert (VB: v <= 5 / 4 * q) by (apply Rabs_le_inv in D; lra). pose proof (Rmult_le_compat_l e _ _ ltac:(lra) VB) as EV.
  replace (Q2R (rnd (a / s)) - q) with ((Q2R (rnd (a / s)) - v) + (v - q)) by ring. eapply Rle_trans; [apply rabs_tri2; [exact R|exact D]|]. lra.
Qed.

(* ---- chi squared ---- *)
Lemma half_repr : forall n, representable f n -> (p2 (emin f + prec f) <= n)%Q -> representable f (n / 2).
Proof.
  intros n (m & x & He & Hm & EQ) HN. assert (H2: (/ 2 == p2 (-1))%Q) by reflexivity.
  destruct (Z_le_gt_dec (emin f + 1) x) as [G|G].
  - exists m, (x - 1)%Z. split; [lia|]. split; [exact Hm|]. unfold Qdiv. rewrite EQ, H2, <- Qmult_assoc, <- p2_add. replace (x + -1)%Z with (x - 1)%Z by lia. reflexivity.
  - assert (x = emin f) by lia. subst x. exists (2 ^ (prec f - 1))%Z, (emin f). split; [lia|].
    assert (PP: (2 ^ prec f = 2 * 2 ^ (prec f - 1))%Z) by (rewrite <- Z.pow_succ_r by lia; f_equal; lia). pose proof (Z.pow_pos_nonneg 2 (prec f - 1)). split; [rewrite Z.abs_eq by lia; lia|].
    assert (M: (m = 2 ^ prec f)%Z).
    { rewrite EQ in HN. assert (L: (p2 (prec f) * p2 (emin f) <= inject_Z m * p2 (emin f))%Q) by (rewrite <- p2_add; replace (prec f + emin f)%Z with (emin f + prec f)%Z by lia; exact HN).
      apply Qmult_lt_0_le_reg_r in L; [|apply p2_pos]. rewrite p2_Z in L by lia. rewrite <- Zle_Qle in L. lia. }
    rewrite EQ, M, PP, inject_Z_mult. change (inject_Z 2) with 2%Q. field.
Qed.
Lemma ch_ok : forall n, representable f n -> (p2 (emin f + prec f) <= n)%Q -> (ch_alpha f md n == n / 2)%Q /\ (ch_n f md (ch_alpha f md n) == n)%Q.
Proof.
  intros n RN HN. assert (A: (ch_alpha f md n == n / 2)%Q) by (apply rnd_fix; [exact Hf|apply half_repr; assumption]). split; [exact A|].
  unfold ch_n. rewrite (rnd_compat f md Hf _ n); [apply rnd_fix; assumption|]. rewrite A. field.
Qed.
Lemma ch_two : forall x, representable f x -> (rnd (2 * x) == 2 * x)%Q.
Proof. intros x RX. apply rnd_fix; [exact Hf|]. apply (repr_compat f) with (x * p2 1)%Q; [change (p2 1) with 2%Q; ring|]. apply repr_scale; [exact RX|lia]. Qed.

(* ---- fisher f ---- *)
Lemma ff_ok : forall x y m n, (0 <= x)%Q -> (0 < y)%Q -> (0 < m)%Q -> (0 < n)%Q ->
  t <= e * Q2R (x * n) -> t <= e * Q2R (y * m) -> t <= e * (Q2R x / Q2R m / (Q2R y / Q2R n)) ->
  exists r, ff_val f md x y m n = Some r /\ (0 <= r)%Q /\ Rabs (Q2R r - Q2R x / Q2R m / (Q2R y / Q2R n)) <= 8 * e * (Q2R x / Q2R m / (Q2R y / Q2R n)).
Proof.
  intros x y m n X0 Y0 M0 N0 H1 H2 H3. destruct (g_e f Hp) as [E0 E1].
  assert (XN: (0 <= x * n)%Q) by (apply Qmult_le_0_compat; ql). assert (YM: (0 < y * m)%Q) by (apply Qmult_lt_0_compat; ql).
  pose proof (mul_rel _ XN H1) as R1. pose proof (mul_rel _ (Qlt_le_weak _ _ YM) H2) as R2. rewrite !Q2R_mult in R1, R2.
  apply Qlt_Rlt in Y0 as YR. apply Qlt_Rlt in M0 as MR. apply Qlt_Rlt in N0 as NR. rewrite Q2R_0 in YR, MR, NR. apply Q2R_le in X0 as XR. rewrite Q2R_0 in XR.
  pose proof (Rmult_lt_0_compat _ _ YR MR) as YMR. pose proof (Rmult_le_pos _ _ XR (Rlt_le _ _ NR)) as XNR.
  destruct (quot_rel _ _ _ _ (2 * e) (2 * e) XNR YMR ltac:(lra) ltac:(lra) ltac:(lra) ltac:(lra) R1 R2) as [YP D]. replace (Q2R x * Q2R n / (Q2R y * Q2R m)) with (Q2R x / Q2R m / (Q2R y / Q2R n)) in D by (field; lra).
  set (q := Q2R x / Q2R m / (Q2R y / Q2R n)) in *. assert (SP: (0 < rnd (y * m))%Q) by (apply Rlt_Qlt; rewrite Q2R_0; exact YP).
  unfold ff_val. rewrite fdiv_pos by exact SP. eexists. split; [reflexivity|]. assert (XX: (0 <= rnd (x * n))%Q) by (apply rnd_nonneg; exact XN).
  split; [apply rnd_nonneg; apply Qle_shift_div_l; ql|].
  pose proof (rt f md (rnd (x * n) / rnd (y * m))) as R. rewrite Q2R_div in R by (intro H; rewrite H in SP; ql). set (v := Q2R (rnd (x * n)) / Q2R (rnd (y * m))) in *.
  assert (V0: 0 <= v) by (apply Rmult_le_pos; [apply Q2R_le in XX; rewrite Q2R_0 in XX; exact XX|left; apply Rinv_0_lt_compat; exact YP]). rewrite (Rabs_pos_eq v) in R by exact V0.
  assert (Q0: 0 <= q) by (pose proof (tiny_pos f); apply Rmult_le_reg_l with e; lra).
  pose proof (Rmult_le_pos e q ltac:(lra) Q0) as EQ. pose proof (Rmult_le_compat_r q e (1 / 64) Q0 E1) as EQ2.
  assert (VB: v <= 5 / 4 * q) by (apply Rabs_le_inv in D; lra). pose proof (Rmult_le_compat_l e _ _ ltac:(lra) VB) as EV.
  match goal with |- Rabs (?r - _) <= _ => replace (r - q) with ((r - v) + (v - q)) by ring end. eapply Rle_trans; [apply rabs_tri2; [exact R|exact D]|]. lra.
Qed.

(* ---- student t ---- *)
Variables (K : R) (sq : Q -> Q).
Hypothesis HK : 0 <= K.
Hypothesis HKe : K * e <= 1 / 16.
Hypothesis HS : sqrt_all f K sq.
Lemma st_ok : forall z c n, (0 < c)%Q -> (0 < n)%Q -> t <= e * (Q2R c / Q2R n) ->
  exists r, st_val f md sq z c n = Some r /\ Rabs (Q2R r - Q2R z / sqrt (Q2R c / Q2R n)) <= (5 * e + 2 * (K * e)) * Rabs (Q2R z / sqrt (Q2R c / Q2R n)) + t.
Proof.
  intros z c n C0 N0 HT. destruct (g_e f Hp) as [E0 E1]. assert (KP: 0 <= K * e) by (apply Rmult_le_pos; lra). set (kp := K * e) in *.
  apply Qlt_Rlt in C0 as CR. apply Qlt_Rlt in N0 as NR. rewrite Q2R_0 in CR, NR. assert (W0: 0 < Q2R c / Q2R n) by (apply Rmult_lt_0_compat; [exact CR|apply Rinv_0_lt_compat; exact NR]). set (w := Q2R c / Q2R n) in *.
  assert (CN: (0 < c / n)%Q) by (apply Qlt_shift_div_l; ql). assert (EW: Q2R (c / n) = w) by (apply Q2R_div; intro H; rewrite H in N0; ql).
  pose proof (mul_rel (c / n) (Qlt_le_weak _ _ CN) ltac:(rewrite EW; exact HT)) as R1. rewrite EW in R1.
  unfold st_val. rewrite fdiv_pos by exact N0. cbn [bind]. set (W := rnd (c / n)) in *. assert (W0q: (0 <= W)%Q) by (apply rnd_nonneg; ql).
  unfold fsqrt. destruct (qlt W 0) eqn:QW; [apply qlt_t in QW; ql|]. cbn [bind]. apply Q2R_le in W0q as W0r. rewrite Q2R_0 in W0r.
  pose proof (sqrt_pert (Q2R W) w (2 * e) 0 W0r ltac:(lra) ltac:(lra) ltac:(lra) ltac:(lra) ltac:(lra)) as SE. rewrite sqrt_0, Rplus_0_r in SE.
  pose proof (HS W W0q (rnd_repr f md Hf _)) as HQ. fold kp in HQ. pose proof (sqrt_lt_R0 w W0) as SW. set (s := sqrt w) in *. set (S := sqrt (Q2R W)) in *.
  pose proof (Rmult_le_compat_r s e (1 / 64) ltac:(lra) E1) as ES. assert (SB: S <= 33 / 32 * s) by (apply Rabs_le_inv in SE; lra). pose proof (Rmult_le_compat_l kp _ _ KP SB) as KS.
  assert (SQ: Rabs (Q2R (sq W) - s) <= (2 * e + 33 / 32 * kp) * s) by (replace (Q2R (sq W) - s) with ((Q2R (sq W) - S) + (S - s)) by ring; eapply Rle_trans; [apply rabs_tri2; [exact HQ|exact SE]|]; lra).
  destruct (quot_rel (Rabs (Q2R z)) (Q2R (sq W)) (Rabs (Q2R z)) s 0 (2 * e + 33 / 32 * kp) (Rabs_pos _) SW ltac:(lra) ltac:(lra) ltac:(lra) ltac:(lra)) as [SP D]; [rewrite Rminus_diag_eq, Rabs_R0 by reflexivity; lra|exact SQ|].
  assert (SPq: (0 < sq W)%Q) by (apply Rlt_Qlt; rewrite Q2R_0; exact SP). rewrite fdiv_pos by exact SPq. eexists. split; [reflexivity|].
  pose proof (rt f md (z / sq W)) as R. rewrite Q2R_div in R by (intro H; rewrite H in SPq; ql). set (v := Q2R z / Q2R (sq W)) in *. set (q := Q2R z / s).
  assert (AV: Rabs v = Rabs (Q2R z) / Q2R (sq W)) by (unfold v, Rdiv; rewrite Rabs_mult; f_equal; apply Rabs_pos_eq; left; apply Rinv_0_lt_compat; exact SP).
  assert (AQ: Rabs q = Rabs (Q2R z) / s) by (unfold q, Rdiv; rewrite Rabs_mult; f_equal; apply Rabs_pos_eq; left; apply Rinv_0_lt_compat; exact SW).
  rewrite <- AV, <- AQ in D. pose proof (Rabs_pos q) as Q0.
  assert (DV: Rabs (v - q) = Rabs (Rabs v - Rabs q)).
  { unfold v, q. destruct (Rle_or_lt 0 (Q2R z)) as [Z|Z].
    - rewrite (Rabs_pos_eq (Q2R z / Q2R (sq W))), (Rabs_pos_eq (Q2R z / s)); [reflexivity| |]; apply Rmult_le_pos; try exact Z; left; apply Rinv_0_lt_compat; assumption.
    - assert (forall a, 0 < a -> Rabs (Q2R z / a) = - (Q2R z / a)) as HA. { intros a A. apply Rabs_left1. unfold Rdiv. apply Rlt_le. rewrite <- (Rmult_0_l (/ a)). apply Rmult_lt_compat_r; [apply Rinv_0_lt_compat; exact A|exact Z]. }
      rewrite (HA _ SP), (HA _ SW). replace (- (Q2R z / Q2R (sq W)) - - (Q2R z / s)) with (- (Q2R z / Q2R (sq W) - Q2R z / s)) by ring. rewrite Rabs_Ropp. reflexivity. }
  rewrite <- DV in D. pose proof (Rmult_le_pos e (Rabs q) ltac:(lra) Q0) as EQ. pose proof (Rmult_le_compat_r (Rabs q) e (1 / 64) Q0 E1) as EQ2. pose proof (Rmult_le_pos kp (Rabs q) KP Q0) as KQ. pose proof (Rmult_le_compat_r (Rabs q) kp (1 / 16) Q0 HKe) as KQ2.
  assert (VB: Rabs v <= 5 / 4 * Rabs q) by (pose proof (Rabs_triang q (v - q)) as TT; replace (q + (v - q)) with v in TT by ring; lra).
  pose proof (Rmult_le_compat_l e _ _ ltac:(lra) VB) as EV.
  replace (Q2R (rnd (z / sq W)) - q) with ((Q2R (rnd (z / sq W)) - v) + (v - q)) by ring. eapply Rle_trans; [apply rabs_tri2; [exact R|exact D]|]. lra.
Qed.

(* ---- negative binomial ---- *)
Hypothesis Hw : (emin f + 2 * prec f <= -1)%Z.
Lemma nb_ok : forall k p, (1 <= k)%Z -> representable f p -> (0 < p)%Q -> (p < 1)%Q ->
  exists a b, nb_gamma f md k p = Some (a, b) /\ gm_ctor a b = true /\ a = rnd (inject_Z k) /\ (p2 (- prec f) <= b)%Q /\ Rabs (Q2R b - (1 - Q2R p) / Q2R p) <= 4 * e * ((1 - Q2R p) / Q2R p).
Proof.
  intros k p HK1 RP P0 P1. destruct (g_e f Hp) as [E0 E1]. destruct (one_minus f md p Hf RP ltac:(ql) P1) as (Q0 & Q1 & _). set (q := rnd (1 - p)) in *. pose proof (p2_pos (- prec f)) as PP.
  assert (KA: (1 <= rnd (inject_Z k))%Q) by (apply repr_rnd_ge; [exact Hf|apply repr_1; exact Hf|rewrite (Zle_Qle 1 k) in HK1; exact HK1]).
  assert (B: (p2 (- prec f) <= rnd (q / p))%Q). { apply repr_rnd_ge; [exact Hf|apply repr_p2; [exact Hf|lia]|]. apply Qle_shift_div_l; [exact P0|]. apply Qle_trans with (p2 (- prec f)); [|exact Q0]. rewrite <- (Qmult_1_r (p2 (- prec f))) at 2. apply Qmult_le_l; ql. }
  unfold nb_gamma. rewrite fdiv_pos by exact P0. cbn [bind]. fold q.
  assert (G: gm_ctor (rnd (inject_Z k)) (rnd (q / p)) = true) by (unfold gm_ctor, qlt; apply Bool.andb_true_iff; split; apply Bool.negb_true_iff; match goal with |- Qle_bool ?a 0 = false => destruct (Qle_bool a 0) eqn:C; [apply Qle_bool_iff in C; exfalso; ql|reflexivity] end).
  rewrite G. do 2 eexists. split; [reflexivity|]. split; [exact G|]. split; [reflexivity|]. split; [exact B|].
  destruct (sub_rel f md p 1 Hf RP (repr_1 f Hf) ltac:(ql)) as [S1 S2]. rewrite Q2R_1 in S1, S2. fold q in S1, S2.
  apply Qlt_Rlt in P0 as PR, P1 as PR1. rewrite Q2R_0 in PR. rewrite Q2R_1 in PR1.
  destruct (quot_rel (Q2R q) (Q2R p) (1 - Q2R p) (Q2R p) e 0 ltac:(lra) PR ltac:(lra) ltac:(lra) ltac:(lra) ltac:(lra)) as [_ D]; [apply rel_abs; lra|rewrite Rminus_diag_eq, Rabs_R0 by reflexivity; lra|].
  set (w := (1 - Q2R p) / Q2R p) in *. pose proof (rt f md (q / p)) as R. rewrite Q2R_div in R by (intro H; rewrite H in P0; ql). set (v := Q2R q / Q2R p) in *.
  assert (W0: 0 <= w) by (apply Rmult_le_pos; [lra|left; apply Rinv_0_lt_compat; exact PR]).
  pose proof (Rmult_le_pos e w ltac:(lra) W0) as EW. pose proof (Rmult_le_compat_r w e (1 / 64) W0 E1) as EW2. apply Rabs_le_inv in D as D'.
  assert (TW: t <= e * w).
  { assert (PB: Q2R (p2 (- prec f)) <= w). { pose proof (below_1 f p Hf RP P1) as BB. apply Q2R_le in BB. rewrite Q2R_minus, Q2R_1 in BB. assert (X: Q2R (p2 (- prec f)) <= 1 - Q2R p) by lra. apply Rle_trans with (1 := X). unfold w. apply Rmult_le_reg_r with (Q2R p); [exact PR|]. replace ((1 - Q2R p) / Q2R p * Q2R p) with (1 - Q2R p) by (field; lra). pose proof (Rmult_le_compat_l (1 - Q2R p) (Q2R p) 1 ltac:(lra) ltac:(lra)). lra. }
    apply Rle_trans with (e * Q2R (p2 (- prec f))); [|apply Rmult_le_compat_l; lra]. unfold tiny, eps. rewrite <- Q2R_mult, <- (Qeq_eqR _ _ (p2_add _ _)). apply Q2R_le, p2_le. lia. }
  assert (V0: 0 <= v) by lra. rewrite (Rabs_pos_eq v) in R by exact V0. pose proof (Rmult_le_compat_l e v (5 / 4 * w) ltac:(lra) ltac:(lra)).
  replace (Q2R (rnd (q / p)) - w) with ((Q2R (rnd (q / p)) - v) + (v - w)) by ring. eapply Rle_trans; [apply rabs_tri2; [exact R|exact D]|]. lra.
Qed.
End D.
