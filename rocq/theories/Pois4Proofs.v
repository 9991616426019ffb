(* poisson_distribution by rejection: the test with Stirling's series. *)
From Coq Require Import Reals Lra Qreals.
From Verif Require Import Base ProgModel UIntModel UIntSpec FloatModel FloatSpec FloatProofs RealModel UniProofs RDiscProofs BinModel BinSpec BinProofs Bin2Proofs Bin4Proofs Bin6Proofs
  PoisModel PoisRSpec RExpProofs StirProofs Pois3Proofs.
Ltac Zify.zify_post_hook ::= idtac.
Open Scope R_scope.

Lemma div_near : forall a b b' d, 0 <= d -> d <= 1 / 2 -> 1 <= b -> - 1 <= a -> a <= 1 -> (1 - d) * b <= b' -> b' <= (1 + d) * b ->
  - (2 * d) <= a / b' - a / b /\ a / b' - a / b <= 2 * d.
Proof.
  intros a b b' d D0 D1 B A0 A1 B1 B2. assert (B': 0 < b') by nra.
  assert (E: a / b' - a / b = a * ((b - b') / (b * b'))) by (field; lra). rewrite E.
  assert (Q: Rabs ((b - b') / (b * b')) <= 2 * d).
  { unfold Rdiv. rewrite Rabs_mult. assert (P: 0 < b * b') by nra. rewrite (Rabs_right (/ (b * b'))) by (apply Rle_ge, Rlt_le, Rinv_0_lt_compat, P).
    apply Rmult_le_reg_r with (b * b'); [exact P|]. rewrite Rmult_assoc, Rinv_l, Rmult_1_r by lra.
    assert (Rabs (b - b') <= d * b) by (apply Rabs_le; lra). assert (1 / 2 * b <= b') by nra. assert (d * b * 1 <= d * b * b) by (apply Rmult_le_compat_l; [apply Rmult_le_pos; lra|exact B]).
    assert (d * b * (1 / 2 * b) <= d * b * b') by (apply Rmult_le_compat_l; [apply Rmult_le_pos; lra|assumption]). lra. }
  apply Rabs_le_inv. rewrite Rabs_mult. assert (A: Rabs a <= 1) by (apply Rabs_le; lra).
  assert (Rabs a * Rabs ((b - b') / (b * b')) <= 1 * (2 * d)) by (apply Rmult_le_compat; try assumption; apply Rabs_pos). lra.
Qed.
Lemma div_ge1 : forall a c x d, 1 <= x -> 0 <= d -> - d <= a - c -> a - c <= d -> - d <= a / x - c / x /\ a / x - c / x <= d.
Proof.
  intros a c x d X D H0 H1. replace (a / x - c / x) with ((a - c) * / x) by (field; lra).
  assert (I0: 0 < / x) by (apply Rinv_0_lt_compat; lra). assert (I1: / x <= 1) by (rewrite <- Rinv_1; apply Rinv_le_contravar; lra).
  apply Rabs_le_inv. rewrite Rabs_mult. rewrite (Rabs_right (/ x)) by lra. assert (A: Rabs (a - c) <= d) by (apply Rabs_le; lra).
  assert (Rabs (a - c) * / x <= d * 1) by (apply Rmult_le_compat; try assumption; [apply Rabs_pos|lra]). lra.
Qed.
Lemma div_1 : forall a x, 1 <= x -> - 1 <= a -> a <= 1 -> - 1 <= a / x /\ a / x <= 1.
Proof. intros a x X A B. pose proof (div_ge1 a 0 x 1 X ltac:(lra) ltac:(lra) ltac:(lra)) as D. unfold Rdiv at 2 4 in D. rewrite Rmult_0_l in D. lra. Qed.

Section B.
Variables (f g : fmt) (md : rmode) (lg sq : Q -> Q) (K : R) (M : Q).
Hypothesis Hf : fmt_ok f.
Hypothesis Hg : fmt_ok g.
Hypothesis Hw : fmt_wide f.
Hypothesis Pf : (20 <= prec f)%Z.
Hypothesis Pg : (prec f <= prec g)%Z.
Hypothesis Eg : (emin g <= emin f)%Z.
Hypothesis Ng : (emin g + prec g <= 0)%Z.
Hypothesis K0 : 0 <= K.
Hypothesis K1 : K * eps f <= 1 / 8.
Hypothesis HL : log_ok f K lg.
Hypothesis HS : sqrt_acc f K sq.
Hypothesis RM : representable f M.
Hypothesis M0 : (10 <= M)%Q.
Local Notation rnd := (fround f md).
Local Notation rg := (fround g md).
Local Notation e := (eps f).
Local Notation m := (Q2R M).

Let F : forall x B, - B <= Q2R x -> Q2R x <= B -> Q2R x - e * (B + 1) <= Q2R (rnd x) /\ Q2R (rnd x) <= Q2R x + e * (B + 1).
Proof. intros. apply rr; try assumption; lia. Qed.
Let G : forall x B, - B <= Q2R x -> Q2R x <= B -> Q2R x - e * (B + 1) <= Q2R (rg x) /\ Q2R (rg x) <= Q2R x + e * (B + 1).
Proof. intros. apply rr; try assumption; lia. Qed.
Let EP : 0 < e := e_pos f.
Let E1 : e <= 1 / 524288 := e_le f Pf.
Let MG : 10 <= m := m_ge M M0.

Variable k : Z.
Hypothesis Hk : (10 <= k)%Z.
Hypothesis Nk : (inject_Z k * p2 (emin f + prec f) <= 1)%Q.
Local Notation x := (IZR k).
Let X : 10 <= x.
Proof. apply (IZR_le 10). exact Hk. Qed.
Local Notation kq := (inject_Z k).
Let KQ : (10 <= kq)%Q.
Proof. apply (injZ_le 10 k). exact Hk. Qed.

(* the last terms of Stirling's series *)
Lemma st_ok : exists q1 q2 q3,
  fdiv g md 1 (rg (rg (1260 * kq) * kq)) = Some q1 /\ fdiv g md (rg (dlit (1 / 360) - q1)) (rnd (kq * kq)) = Some q2 /\
  fdiv g md (rg (dlit (1 / 12) - q2)) kq = Some q3 /\
  st x - 18 * e - / 2 ^ 55 <= Q2R q3 /\ Q2R q3 <= st x + 18 * e + / 2 ^ 55 /\ - 1 <= Q2R q3 <= 1.
Proof.
  assert (N1: (p2 (emin g + prec g - 1) <= 1)%Q). { change 1%Q with (p2 0). apply p2_le. lia. }
  assert (N2: (p2 (emin f + prec f - 1) <= 1)%Q). { change 1%Q with (p2 0). apply p2_le. destruct Hw. lia. }
  assert (Q1: (1 <= 1260 * kq)%Q). { apply Qle_trans with (1260 * 10)%Q; [discriminate|]. rewrite !(Qmult_comm 1260). apply Qmult_le_compat_r; [exact KQ|discriminate]. }
  destruct (rrel f g md (1260 * kq)%Q Pg (Qle_trans _ _ _ N1 Q1)) as [A1 A2]. rewrite Q2R_mult, Q2R_Z in A1, A2.
  replace (Q2R 1260) with 1260 in A1, A2 by (unfold Q2R; cbn; field). set (b1 := rg (1260 * kq)) in *.
  assert (B1: (1 <= b1)%Q) by (apply repr_rnd_ge; [exact Hg|apply repr_1; exact Hg|exact Q1]).
  assert (Q2: (1 <= b1 * kq)%Q). { apply Qle_trans with (1 * kq)%Q; [rewrite Qmult_1_l; apply Qle_trans with 10%Q; [discriminate|exact KQ]|]. apply Qmult_le_compat_r; [exact B1|]. apply Qle_trans with 10%Q; [discriminate|exact KQ]. }
  destruct (rrel f g md (b1 * kq)%Q Pg (Qle_trans _ _ _ N1 Q2)) as [A3 A4]. rewrite Q2R_mult, Q2R_Z in A3, A4. set (b2 := rg (b1 * kq)) in *.
  assert (B2: (1 <= b2)%Q) by (apply repr_rnd_ge; [exact Hg|apply repr_1; exact Hg|exact Q2]).
  assert (Q3: (1 <= kq * kq)%Q). { apply Qle_trans with (1 * kq)%Q; [rewrite Qmult_1_l; apply Qle_trans with 10%Q; [discriminate|exact KQ]|]. apply Qmult_le_compat_r; apply Qle_trans with 10%Q; try exact KQ; discriminate. }
  destruct (rrel f f md (kq * kq)%Q ltac:(lia) (Qle_trans _ _ _ N2 Q3)) as [A5 A6]. rewrite Q2R_mult, Q2R_Z in A5, A6. set (kk := rnd (kq * kq)) in *.
  assert (B3: (1 <= kk)%Q) by (apply repr_rnd_ge; [exact Hf|apply repr_1; exact Hf|exact Q3]).
  assert (Z: forall q, (1 <= q)%Q -> ~ (q == 0)%Q). { intros q H E. rewrite E in H. apply H. reflexivity. }
  assert (Zk: ~ (kq == 0)%Q). { apply Z. apply Qle_trans with 10%Q; [discriminate|exact KQ]. }
  rewrite fdiv_ok by (apply Z; exact B2). eexists _, _, _. split; [reflexivity|]. rewrite fdiv_ok by (apply Z; exact B3). split; [reflexivity|].
  rewrite fdiv_ok by exact Zk. split; [reflexivity|].
  (* q1 *)
  assert (XQ: 100 <= x * x) by (apply Rle_trans with (10 * 10); [lra|apply Rmult_le_compat; lra]).
  set (y := 1260 * (x * x)). assert (Y: 126000 <= y) by (unfold y; lra).
  assert (Y1: (1 - 3 * e) * y <= Q2R b2 /\ Q2R b2 <= (1 + 3 * e) * y).
  { assert (C1: (1 - e) * (1260 * x) * x <= Q2R b1 * x) by (apply Rmult_le_compat_r; lra). assert (C2: Q2R b1 * x <= (1 + e) * (1260 * x) * x) by (apply Rmult_le_compat_r; lra).
    assert (C3: (1 - e) * ((1 - e) * (1260 * x) * x) <= (1 - e) * (Q2R b1 * x)) by (apply Rmult_le_compat_l; lra).
    assert (C4: (1 + e) * (Q2R b1 * x) <= (1 + e) * ((1 + e) * (1260 * x) * x)) by (apply Rmult_le_compat_l; lra).
    assert (C5: (1 - 3 * e) * y <= ((1 - e) * (1 - e)) * y) by (apply Rmult_le_compat_r; [lra|nra]).
    assert (C6: ((1 + e) * (1 + e)) * y <= (1 + 3 * e) * y) by (apply Rmult_le_compat_r; [lra|nra]).
    unfold y in *. split; lra. }
  destruct (div_near 1 y (Q2R b2) (3 * e) ltac:(lra) ltac:(lra) ltac:(lra) ltac:(lra) ltac:(lra) ltac:(lra) ltac:(lra)) as [D1 D2].
  assert (B2R: 1 <= Q2R b2) by (rewrite <- Q2R_1; apply Q2R_le; exact B2). destruct (div_1 1 (Q2R b2) B2R ltac:(lra) ltac:(lra)) as [D3 D4].
  destruct (div_1 1 y ltac:(lra) ltac:(lra) ltac:(lra)) as [D5 D6]. assert (D7: 1 / y <= 1 / 126000). { unfold Rdiv. rewrite !Rmult_1_l. apply Rinv_le_contravar; [lra|]. exact Y. }
  assert (D8: 0 <= 1 / y) by (unfold Rdiv; rewrite Rmult_1_l; apply Rlt_le, Rinv_0_lt_compat; lra).
  destruct (G (1 / b2)%Q 1) as [H1 H2]; [rewrite Q2R_div, Q2R_1 by (apply Z; exact B2); lra|rewrite Q2R_div, Q2R_1 by (apply Z; exact B2); lra|].
  rewrite Q2R_div, Q2R_1 in H1, H2 by (apply Z; exact B2). set (q1 := rg (1 / b2)) in *.
  (* q2 *)
  set (c36 := dlit (1 / 360)). assert (C36: 1 / 360 - / 2 ^ 57 <= Q2R c36 /\ Q2R c36 <= 1 / 360 + / 2 ^ 57).
  { replace (1 / 360 - / 2 ^ 57) with (Q2R ((1 # 360) - (1 # 144115188075855872))) by (rewrite Q2R_minus; unfold Q2R; cbn [Qnum Qden pow]; field).
    replace (1 / 360 + / 2 ^ 57) with (Q2R ((1 # 360) + (1 # 144115188075855872))) by (rewrite Q2R_plus; unfold Q2R; cbn [Qnum Qden pow]; field).
    split; apply Q2R_le; vm_compute; discriminate. }
  set (c12 := dlit (1 / 12)). assert (C12: 1 / 12 - / 2 ^ 57 <= Q2R c12 /\ Q2R c12 <= 1 / 12 + / 2 ^ 57).
  { replace (1 / 12 - / 2 ^ 57) with (Q2R ((1 # 12) - (1 # 144115188075855872))) by (rewrite Q2R_minus; unfold Q2R; cbn [Qnum Qden pow]; field).
    replace (1 / 12 + / 2 ^ 57) with (Q2R ((1 # 12) + (1 # 144115188075855872))) by (rewrite Q2R_plus; unfold Q2R; cbn [Qnum Qden pow]; field).
    split; apply Q2R_le; vm_compute; discriminate. }
  clearbody c36 c12. assert (T57: / 2 ^ 57 = / 2 ^ 55 / 4) by (cbn [pow]; field). assert (T55: 0 < / 2 ^ 55 <= 1 / 1000).
  { split; [apply Rinv_0_lt_compat, pow_lt; lra|]. cbn [pow]. lra. }
  rewrite T57 in C36, C12. set (dl := / 2 ^ 55) in *. clearbody dl.
  destruct (G (c36 - q1)%Q 1) as [H3 H4]; [rewrite Q2R_minus; lra|rewrite Q2R_minus; lra|]. rewrite Q2R_minus in H3, H4. set (s1 := rg (c36 - q1)) in *.
  assert (XX: 1 <= x * x) by lra.
  destruct (div_near (Q2R s1) (x * x) (Q2R kk) e ltac:(lra) ltac:(lra) XX ltac:(lra) ltac:(lra) ltac:(lra) ltac:(lra)) as [J1 J2].
  destruct (div_ge1 (Q2R s1) (1 / 360 - 1 / y) (x * x) (10 * e + dl / 4) XX ltac:(lra) ltac:(lra) ltac:(lra)) as [J3 J4].
  assert (B3R: 1 <= Q2R kk) by (rewrite <- Q2R_1; apply Q2R_le; exact B3).
  destruct (div_1 (Q2R s1) (Q2R kk) B3R ltac:(lra) ltac:(lra)) as [J5 J6].
  destruct (G (s1 / kk)%Q 1) as [H5 H6]; [rewrite Q2R_div by (apply Z; exact B3); lra|rewrite Q2R_div by (apply Z; exact B3); lra|].
  rewrite Q2R_div in H5, H6 by (apply Z; exact B3). set (q2 := rg (s1 / kk)) in *.
  assert (W2: 0 <= (1 / 360 - 1 / y) / (x * x) /\ (1 / 360 - 1 / y) / (x * x) <= 1 / 360).
  { split; [apply Rmult_le_pos; [lra|apply Rlt_le, Rinv_0_lt_compat; lra]|]. apply Rmult_le_reg_r with (x * x); [lra|]. unfold Rdiv at 1. rewrite Rmult_assoc, Rinv_l by lra. lra. }
  set (w2 := (1 / 360 - 1 / y) / (x * x)) in *.
  (* q3 *)
  destruct (G (c12 - q2)%Q 1) as [H7 H8]; [rewrite Q2R_minus; lra|rewrite Q2R_minus; lra|]. rewrite Q2R_minus in H7, H8. set (s2 := rg (c12 - q2)) in *.
  destruct (div_ge1 (Q2R s2) (1 / 12 - w2) x (16 * e + dl) ltac:(lra) ltac:(lra) ltac:(lra) ltac:(lra)) as [J7 J8].
  destruct (div_1 (Q2R s2) x ltac:(lra) ltac:(lra) ltac:(lra)) as [J9 J10].
  destruct (G (s2 / kq)%Q 1) as [H9 H10]; [rewrite Q2R_div, Q2R_Z by exact Zk; lra|rewrite Q2R_div, Q2R_Z by exact Zk; lra|].
  rewrite Q2R_div, Q2R_Z in H9, H10 by exact Zk.
  assert (ST: (1 / 12 - w2) / x = st x) by (unfold w2, y, st; field; lra). rewrite ST in J7, J8.
  assert (S0: 0 <= st x <= 1 / 120).
  { rewrite <- ST. split; [apply Rmult_le_pos; [lra|apply Rlt_le, Rinv_0_lt_compat; lra]|]. apply Rmult_le_reg_r with x; [lra|]. unfold Rdiv at 1. rewrite Rmult_assoc, Rinv_l by lra. lra. }
  split; [lra|]. split; [lra|]. split; lra.
Qed.

Lemma c2pi_ok : Q2R c2pi - / 2 ^ 53 <= Q2R (dlit c2pi) /\ Q2R (dlit c2pi) <= Q2R c2pi + / 2 ^ 53 /\ 0 <= Q2R c2pi <= 1.
Proof.
  replace (/ 2 ^ 53) with (Q2R (1 # 9007199254740992)) by (unfold Q2R; cbn [Qnum Qden pow]; field). rewrite <- Q2R_minus, <- Q2R_plus.
  split; [apply Q2R_le; vm_compute; discriminate|]. split; [apply Q2R_le; vm_compute; discriminate|]. rewrite <- Q2R_0, <- Q2R_1. split; apply Q2R_le; discriminate.
Qed.
Lemma ln_sqrt_half : ln (sqrt m) = ln m / 2.
Proof.
  assert (P: 0 < sqrt m) by (apply sqrt_lt_R0; lra). rewrite <- (sqrt_sqrt m) at 2 by lra. rewrite ln_mult by exact P. field.
Qed.
(* the left hand side of the comparison *)
Lemma vs_ok : forall v, (p2 (emin f + prec f) <= v)%Q ->
  let vs := rnd (v * sq M) in let V := ln (Q2R v) + ln m / 2 in
  (0 < vs)%Q /\ V - e * (K * (Rabs V + 1) + 2 * (K + 2)) <= Q2R (lg vs) /\ Q2R (lg vs) <= V + e * (K * (Rabs V + 1) + 2 * (K + 2)).
Proof.
  intros v V0 vs V. pose proof (p2_pos (emin f + prec f)) as PP. assert (VP: 0 < Q2R v) by (rewrite <- Q2R_0; apply Qlt_Rlt; eapply Qlt_le_trans; eassumption).
  pose proof (HS M ltac:(apply Qle_trans with 10%Q; [discriminate|exact M0]) RM) as S. apply Rabs_le_inv in S.
  assert (S3: 3 <= sqrt m). { rewrite <- (sqrt_square 3) by lra. apply sqrt_le_1_alt. lra. } set (s := sqrt m) in *.
  assert (KS: K * e * s <= 1 / 8 * s) by (apply Rmult_le_compat_r; lra).
  assert (SQ: (1 <= sq M)%Q). { apply Rle_Qle. rewrite Q2R_1. lra. }
  assert (VQ: (p2 (emin f + prec f - 1) <= v * sq M)%Q).
  { apply Qle_trans with (v * 1)%Q.
    - rewrite Qmult_1_r. apply Qle_trans with (p2 (emin f + prec f)); [apply p2_le; lia|exact V0].
    - rewrite !(Qmult_comm v). apply Qmult_le_compat_r; [exact SQ|]. apply Qle_trans with (p2 (emin f + prec f)); [apply Qlt_le_weak; exact PP|exact V0]. }
  destruct (rrel f f md (v * sq M)%Q ltac:(lia) VQ) as [A B]. fold vs in A, B. rewrite Q2R_mult in A, B.
  assert (VS: 0 < Q2R v * s) by (apply Rmult_lt_0_compat; lra).
  assert (C1: Q2R v * (s - K * e * s) <= Q2R v * Q2R (sq M)) by (apply Rmult_le_compat_l; lra).
  assert (C2: Q2R v * Q2R (sq M) <= Q2R v * (s + K * e * s)) by (apply Rmult_le_compat_l; lra).
  assert (D1: (1 - e) * (Q2R v * (s - K * e * s)) <= (1 - e) * (Q2R v * Q2R (sq M))) by (apply Rmult_le_compat_l; lra).
  assert (D2: (1 + e) * (Q2R v * Q2R (sq M)) <= (1 + e) * (Q2R v * (s + K * e * s))) by (apply Rmult_le_compat_l; lra).
  set (a := K * e) in *. assert (A0: 0 <= a) by (apply Rmult_le_pos; lra).
  set (d := a + 2 * e). assert (L1: (1 - d) * (Q2R v * s) <= Q2R vs).
  { assert ((1 - d) * (Q2R v * s) <= ((1 - e) * (1 - a)) * (Q2R v * s)); [|lra]. apply Rmult_le_compat_r; [lra|]. unfold d. assert (0 <= e * a) by (apply Rmult_le_pos; lra). lra. }
  assert (L2: Q2R vs <= (1 + d) * (Q2R v * s)).
  { assert (((1 + e) * (1 + a)) * (Q2R v * s) <= (1 + d) * (Q2R v * s)); [|lra]. apply Rmult_le_compat_r; [lra|]. unfold d. assert (e * a <= e * 1) by (apply Rmult_le_compat_l; lra). lra. }
  assert (VV: ln (Q2R v * s) = V). { rewrite ln_mult by lra. unfold s. rewrite ln_sqrt_half. reflexivity. }
  destruct (ln_rel d (Q2R vs) (Q2R v * s) ltac:(unfold d; lra) ltac:(unfold d; lra) VS L1 L2) as [R1 R2]. rewrite VV in R1, R2.
  assert (VSP: (0 < vs)%Q). { apply Rlt_Qlt. rewrite Q2R_0. assert (0 < (1 - d) * (Q2R v * s)) by (apply Rmult_lt_0_compat; [unfold d; lra|lra]). lra. }
  pose proof (HL vs VSP ltac:(apply rnd_repr; exact Hf)) as H. fold a in H. apply Rabs_le_inv in H.
  assert (AV: Rabs (ln (Q2R vs)) <= Rabs V + 1). { pose proof (Rle_abs V). pose proof (Rle_abs (- V)). rewrite Rabs_Ropp in *. apply Rabs_le. unfold d in *. lra. }
  assert (AA: a * Rabs (ln (Q2R vs)) <= a * (Rabs V + 1)) by (apply Rmult_le_compat_l; lra).
  assert (EE: e * (K * (Rabs V + 1) + 2 * (K + 2)) = a * (Rabs V + 1) + 2 * d) by (unfold d, a; ring). rewrite EE.
  split; [exact VSP|]. split; lra.
Qed.

Lemma big_ok : forall v, (p2 (emin f + prec f) <= v)%Q ->
  exists ok, po_accept_big f g md lg M (sq M) v kq = Some ok /\
  let W := (x + 3 / 2) * (Rabs (ln (m / x)) + 1) in
  let E := e * (K * Rabs (ln (Q2R v) + ln m / 2) + (2 * K + 27) * (W + m)) + / 2 ^ 33 in
  if ok then Q2R v <= ppmf m (Z.to_nat k) * exp E else ppmf m (Z.to_nat k) <= Q2R v * exp E.
Proof.
  intros v V0. unfold po_accept_big. destruct st_ok as (q1 & q2 & q3 & -> & QE2 & QE3 & S1 & S2 & S3).
  assert (Zk: ~ (kq == 0)%Q). { intro E. rewrite E in KQ. apply KQ. reflexivity. }
  rewrite fdiv_ok by exact Zk. cbn [bind]. rewrite QE2. cbn [bind]. rewrite QE3. cbn [bind]. eexists. split; [reflexivity|].
  destruct (vs_ok v V0) as (VSP & LV1 & LV2). cbv zeta in VSP, LV1, LV2. cbv zeta.
  assert (NV: Qle_bool (rnd (v * sq M)) 0 = false). { destruct (Qle_bool (rnd (v * sq M)) 0) eqn:Q; [|reflexivity]. apply Qle_bool_iff in Q. exfalso. apply (Qlt_not_le _ _ VSP Q). }
  rewrite NV. clear NV VSP. set (lv := lg (rnd (v * sq M))) in *. set (V := ln (Q2R v) + ln m / 2) in *.
  (* mean / k *)
  assert (MQ: (p2 (emin f + prec f - 1) <= M / kq)%Q).
  { apply Qle_trans with (p2 (emin f + prec f)); [apply p2_le; lia|]. apply Qle_shift_div_l; [apply Qlt_le_trans with 10%Q; [reflexivity|exact KQ]|].
    rewrite Qmult_comm. apply Qle_trans with (1 := Nk). apply Qle_trans with 10%Q; [discriminate|exact M0]. }
  destruct (rrel f f md (M / kq)%Q ltac:(lia) MQ) as [A1 A2]. rewrite Q2R_div, Q2R_Z in A1, A2 by exact Zk. set (mk := rnd (M / kq)) in *.
  assert (MX: 0 < m / x) by (apply Rmult_lt_0_compat; [lra|apply Rinv_0_lt_compat; lra]).
  destruct (ln_rel e (Q2R mk) (m / x) ltac:(lra) ltac:(lra) MX A1 A2) as [B1 B2].
  assert (MKP: (0 < mk)%Q). { apply Rlt_Qlt. rewrite Q2R_0. assert (0 < (1 - e) * (m / x)) by (apply Rmult_lt_0_compat; lra). lra. }
  pose proof (HL mk MKP ltac:(apply rnd_repr; exact Hf)) as H. apply Rabs_le_inv in H.
  set (la := ln (m / x)) in *. set (L := Rabs la) in *. assert (L0: 0 <= L) by apply Rabs_pos.
  assert (LA: - L <= la /\ la <= L). { unfold L. pose proof (Rle_abs la). pose proof (Rle_abs (- la)). rewrite Rabs_Ropp in *. lra. }
  set (a := K * e) in *. assert (A0: 0 <= a) by (apply Rmult_le_pos; lra).
  assert (AV: Rabs (ln (Q2R mk)) <= L + 1) by (apply Rabs_le; lra).
  assert (AA: a * Rabs (ln (Q2R mk)) <= a * (L + 1)) by (apply Rmult_le_compat_l; lra).
  set (l := Q2R (lg mk)) in *. assert (D1: Rabs (l - la) <= 2 * e + a * (L + 1)) by (apply Rabs_le; lra).
  assert (D2: a * (L + 1) <= 1 / 8 * (L + 1)) by (apply Rmult_le_compat_r; lra).
  assert (D3: Rabs l <= 2 * (L + 1)). { apply Rabs_le_inv in D1. apply Rabs_le. lra. }
  (* (k + 1/2) * log *)
  assert (HH: Q2R (kq + (1 # 2)) = x + 1 / 2) by (rewrite Q2R_plus, Q2R_Z; unfold Q2R; cbn; field).
  destruct (G (kq + (1 # 2))%Q (x + 1 / 2)) as [E2 E3]; [rewrite HH; lra|rewrite HH; lra|]. rewrite HH in E2, E3. set (kp := rg (kq + (1 # 2))) in *.
  set (W := (x + 3 / 2) * (L + 1)).
  assert (WX: x + 3 / 2 <= W). { assert ((x + 3 / 2) * 1 <= W); [|lra]. apply Rmult_le_compat_l; lra. }
  assert (D4: Rabs (Q2R (kp * lg mk) - (x + 1 / 2) * la) <= a * W + 4 * (e * W)).
  { rewrite Q2R_mult. fold l. replace (Q2R kp * l - (x + 1 / 2) * la) with ((Q2R kp - (x + 1 / 2)) * l + (x + 1 / 2) * (l - la)) by ring.
    apply Rle_trans with (1 := Rabs_triang _ _). rewrite !Rabs_mult. rewrite (Rabs_right (x + 1 / 2)) by lra.
    assert (P1: Rabs (Q2R kp - (x + 1 / 2)) * Rabs l <= (e * (x + 3 / 2)) * (2 * (L + 1))) by (apply Rmult_le_compat; try apply Rabs_pos; [apply Rabs_le; lra|exact D3]).
    assert (P2: (x + 1 / 2) * Rabs (l - la) <= (x + 1 / 2) * (2 * e + a * (L + 1))) by (apply Rmult_le_compat_l; lra).
    assert (P3: (x + 1 / 2) * (2 * e + a * (L + 1)) <= (x + 3 / 2) * (2 * e + a * (L + 1))) by (apply Rmult_le_compat_r; [assert (0 <= a * (L + 1)) by (apply Rmult_le_pos; lra); lra|lra]).
    assert (P4: e * (x + 3 / 2) <= e * W) by (apply Rmult_le_compat_l; lra).
    assert (P5: (x + 3 / 2) * (2 * e + a * (L + 1)) = 2 * (e * (x + 3 / 2)) + a * W) by (unfold W; ring).
    assert (P6: e * (x + 3 / 2) * (2 * (L + 1)) = 2 * (e * W)) by (unfold W; ring). lra. }
  apply Rabs_le_inv in D4. assert (AW: a * W <= 1 / 8 * W) by (apply Rmult_le_compat_r; lra). assert (EW: e * W <= 1 / 524288 * W) by (apply Rmult_le_compat_r; lra).
  assert (EW0: 0 <= e * W) by (apply Rmult_le_pos; lra). assert (AW0: 0 <= a * W) by (apply Rmult_le_pos; lra).
  assert (EM: e * m <= 1 / 524288 * m) by (apply Rmult_le_compat_r; lra). assert (EM0: e * 10 <= e * m) by (apply Rmult_le_compat_l; lra).
  assert (EX: e * x <= e * W) by (apply Rmult_le_compat_l; lra).
  assert (HLa: Rabs ((x + 1 / 2) * la) <= W).
  { rewrite Rabs_mult, (Rabs_right (x + 1 / 2)) by lra. fold L. unfold W. apply Rmult_le_compat; lra. }
  apply Rabs_le_inv in HLa. set (hl := (x + 1 / 2) * la) in *.
  destruct (G (kp * lg mk)%Q (2 * W)) as [F1 F2]; [lra|lra|]. set (t1 := rg (kp * lg mk)) in *.
  destruct (G (t1 - M)%Q (3 * W + m)) as [F3 F4]; [rewrite Q2R_minus; lra|rewrite Q2R_minus; lra|]. rewrite Q2R_minus in F3, F4. set (t2 := rg (t1 - M)) in *.
  assert (IK: INR (Z.to_nat k) = x) by (rewrite INR_IZR_INZ, Z2Nat.id by lia; reflexivity).
  pose proof (stirling (Z.to_nat k) ltac:(lia)) as ST. rewrite IK in ST. apply Rabs_le_inv in ST.
  destruct c2pi_ok as (C1 & C2 & C3). change (dlit (91893853320467267 # 100000000000000000)) with (dlit c2pi).
  assert (T53: 0 < / 2 ^ 53 <= 1 / 10 ^ 13) by (split; [apply Rinv_0_lt_compat, pow_lt; lra|cbn [pow]; lra]).
  assert (T55: 0 < / 2 ^ 55 <= 1 / 10 ^ 13) by (split; [apply Rinv_0_lt_compat, pow_lt; lra|cbn [pow]; lra]).
  assert (T33: 1 / 10 ^ 10 + 2 / 10 ^ 13 <= / 2 ^ 33) by (cbn [pow]; lra).
  set (cq := dlit c2pi) in *. set (c := Q2R c2pi) in *. clearbody cq c.
  set (dl3 := / 2 ^ 53) in *. set (dl5 := / 2 ^ 55) in *. set (dl33 := / 2 ^ 33) in *. clearbody dl3 dl5 dl33.
  destruct (F cq 2) as [F5 F6]; [lra|lra|]. set (cc := rnd cq) in *.
  destruct (G (t2 - cc)%Q (4 * W + 2 * m)) as [F7 F8]; [rewrite Q2R_minus; lra|rewrite Q2R_minus; lra|]. rewrite Q2R_minus in F7, F8. set (t3 := rg (t2 - cc)) in *.
  destruct (G (t3 + kq)%Q (6 * W + 3 * m)) as [F9 F10]; [rewrite Q2R_plus, Q2R_Z; lra|rewrite Q2R_plus, Q2R_Z; lra|]. rewrite Q2R_plus, Q2R_Z in F9, F10. set (t4 := rg (t3 + kq)) in *.
  destruct (G (t4 - q3)%Q (7 * W + 4 * m)) as [F11 F12]; [rewrite Q2R_minus; lra|rewrite Q2R_minus; lra|]. rewrite Q2R_minus in F11, F12. set (r := rg (t4 - q3)) in *.
  (* compare *)
  destruct (ppmf_ln m (Z.to_nat k) ltac:(lra)) as [PP PL].
  rewrite IK in PL.
  assert (HE: hl = (x + 1 / 2) * ln m - (x + 1 / 2) * ln x) by (unfold hl, la; rewrite ln_div by lra; ring).
  assert (VP: 0 < Q2R v). { rewrite <- Q2R_0. apply Qlt_Rlt. apply Qlt_le_trans with (p2 (emin f + prec f)); [apply p2_pos|exact V0]. }
  assert (EE: e * (K * Rabs V + (2 * K + 27) * (W + m)) = a * Rabs V + 2 * (a * W) + 2 * (a * m) + 27 * (e * W) + 27 * (e * m)) by (unfold a; ring).
  assert (EV: e * (K * (Rabs V + 1) + 2 * (K + 2)) = a * Rabs V + 3 * a + 4 * e) by (unfold a; ring). rewrite EV in LV1, LV2. rewrite EE.
  assert (AM: a * 10 <= a * m) by (apply Rmult_le_compat_l; lra).
  assert (SG: st x = st x) by reflexivity. set (sx := st x) in *. clearbody sx. clear SG.
  set (AVV := Rabs V) in *. clearbody AVV.
  destruct (Qle_bool lv r) eqn:Q.
  - apply Qle_bool_iff in Q. apply Q2R_le in Q. apply cmp_exp; [exact VP|exact PP|]. rewrite PL. unfold V in LV1, LV2. lra.
  - assert (Q': (r <= lv)%Q). { apply Qlt_le_weak. apply Qnot_le_lt. intro Z. apply Qle_bool_iff in Z. congruence. }
    apply Q2R_le in Q'. apply cmp_exp; [exact PP|exact VP|]. rewrite PL. unfold V in LV1, LV2. lra.
Qed.
End B.
