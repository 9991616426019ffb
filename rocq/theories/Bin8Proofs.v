(* binomial_distribution by rejection: logarithms of the probabilities. *)
From Coq Require Import Reals Lra Qreals.
From Verif Require Import Base ProgModel UIntModel UIntSpec FloatModel FloatSpec FloatProofs RealModel BinModel BinSpec BinProofs Bin2Proofs Bin4Proofs Bin5Proofs Bin6Proofs
  PoisRSpec RExpProofs StirProofs Pois3Proofs.
Ltac Zify.zify_post_hook ::= idtac.
Open Scope R_scope.

(* x - x^2 <= ln (1 + x) <= x *)
Lemma ln1_hi : forall x, - 1 < x -> ln (1 + x) <= x.
Proof. intros x X. apply ln_le_of; [lra|]. apply exp_ineq1_le. Qed.
Lemma ln1_lo : forall x, - (1 / 2) <= x -> x - x * x <= ln (1 + x).
Proof.
  intros x X. destruct (Rle_dec 0 x) as [P|P].
  - assert (H: 0 <= ln (1 + x) - (x - x * x)); [|lra].
    refine (inc_0 (fun y => ln (1 + y) - (y - y * y)) (fun y => / (1 + y) - (1 - (1 * y + y * 1))) x _ _ _ x ltac:(lra)).
    + intros y Y. apply (derivable_pt_lim_minus (fun y => ln (1 + y)) (fun y => y - y * y)).
      * replace (/ (1 + y)) with (/ (1 + y) * (0 + 1)) by ring.
        apply (derivable_pt_lim_comp (fct_cte 1 + id)%F ln y (0 + 1) (/ (1 + y))).
        { apply derivable_pt_lim_plus; [apply derivable_pt_lim_const|apply derivable_pt_lim_id]. }
        { apply derivable_pt_lim_ln. unfold plus_fct, fct_cte, id. lra. }
      * apply (derivable_pt_lim_minus id (id * id)%F); [apply derivable_pt_lim_id|]. apply derivable_pt_lim_mult; apply derivable_pt_lim_id.
    + intros y Y. replace (/ (1 + y) - (1 - (1 * y + y * 1))) with ((y + 2 * y * y) * / (1 + y)) by (field; lra).
      apply Rmult_le_pos; [|apply Rlt_le, Rinv_0_lt_compat; lra]. assert (0 <= y * y) by (apply Rmult_le_pos; lra). lra.
    + rewrite Rplus_0_r, ln_1. ring.
  - set (z := - x). replace x with (- z) by (unfold z; ring). assert (Z: 0 <= z <= 1 / 2) by (unfold z; lra).
    assert (H: 0 <= ln (1 - z) + (z + z * z)); [|replace (1 + - z) with (1 - z) by ring; lra].
    refine (inc_0 (fun y => ln (1 - y) + (y + y * y)) (fun y => / (1 - y) * (0 - 1) + (1 + (1 * y + y * 1))) (1 / 2) _ _ _ z Z).
    + intros y Y. apply (derivable_pt_lim_plus (fun y => ln (1 - y)) (fun y => y + y * y)).
      * apply (derivable_pt_lim_comp (fct_cte 1 - id)%F ln y (0 - 1) (/ (1 - y))).
        { apply derivable_pt_lim_minus; [apply derivable_pt_lim_const|apply derivable_pt_lim_id]. }
        { apply derivable_pt_lim_ln. unfold minus_fct, fct_cte, id. lra. }
      * apply (derivable_pt_lim_plus id (id * id)%F); [apply derivable_pt_lim_id|]. apply derivable_pt_lim_mult; apply derivable_pt_lim_id.
    + intros y Y. replace (/ (1 - y) * (0 - 1) + (1 + (1 * y + y * 1))) with (y * (1 - 2 * y) * / (1 - y)) by (field; lra).
      apply Rmult_le_pos; [apply Rmult_le_pos; lra|apply Rlt_le, Rinv_0_lt_compat; lra].
    + rewrite Rminus_0_r, ln_1. ring.
Qed.

(* sums of the logarithms of the ratios of neighbouring probabilities *)
Section D.
Variables (D : nat -> R) (a b tau : R) (Y : nat).
Hypothesis A : 0 < a.
Hypothesis B : 0 < b.
Hypothesis D0 : D 0%nat = 0.
Hypothesis DS : forall y, (y < Y)%nat -> let j := INR y + tau in j / b < 1 /\ - 1 < j / a /\ D (S y) - D y = ln (1 - j / b) - ln (1 + j / a).
Definition s1 (y : R) : R := y * y / 2 - y / 2 + tau * y.
Definition s2 (y : R) : R := (y - 1) * y * (2 * y - 1) / 6 + tau * (y * (y - 1)) + tau * tau * y.
Lemma s1_S : forall y, s1 (y + 1) = s1 y + (y + tau).
Proof. intro y. unfold s1. field. Qed.
Lemma s2_S : forall y, s2 (y + 1) = s2 y + (y + tau) * (y + tau).
Proof. intro y. unfold s2. field. Qed.

Lemma sum_up : (forall y, (y < Y)%nat -> - (1 / 2) <= (INR y + tau) / a) -> forall y, (y <= Y)%nat ->
  D y <= - (s1 (INR y) * (/ a + / b)) + s2 (INR y) / (a * a).
Proof.
  intros H y. induction y as [|y IH]; intro HY.
  - rewrite D0. unfold s1, s2. cbn [INR]. unfold Rdiv. lra.
  - specialize (IH ltac:(lia)). specialize (H y ltac:(lia)). destruct (DS y ltac:(lia)) as (J1 & J2 & E). cbv zeta in J1, J2, E. rewrite S_INR, s1_S, s2_S.
    set (j := INR y + tau) in *. pose proof (ln1_hi (- (j / b)) ltac:(lra)) as L1. replace (1 + - (j / b)) with (1 - j / b) in L1 by ring.
    pose proof (ln1_lo (j / a) H) as L2. replace (j / a * (j / a)) with (j * j / (a * a)) in L2 by (field; lra).
    replace (- ((s1 (INR y) + j) * (/ a + / b)) + (s2 (INR y) + j * j) / (a * a)) with (- (s1 (INR y) * (/ a + / b)) + s2 (INR y) / (a * a) + (- (j / a) - j / b + j * j / (a * a))) by (field; lra). lra.
Qed.
Lemma sum_lo : (forall y, (y < Y)%nat -> (INR y + tau) / b <= 1 / 2) -> forall y, (y <= Y)%nat ->
  - (s1 (INR y) * (/ a + / b)) - s2 (INR y) / (b * b) <= D y.
Proof.
  intros H y. induction y as [|y IH]; intro HY.
  - rewrite D0. unfold s1, s2. cbn [INR]. unfold Rdiv. lra.
  - specialize (IH ltac:(lia)). specialize (H y ltac:(lia)). destruct (DS y ltac:(lia)) as (J1 & J2 & E). cbv zeta in J1, J2, E. rewrite S_INR, s1_S, s2_S.
    set (j := INR y + tau) in *. pose proof (ln1_hi (j / a) ltac:(lra)) as L1.
    pose proof (ln1_lo (- (j / b)) ltac:(lra)) as L2. replace (1 + - (j / b)) with (1 - j / b) in L2 by ring. replace (- (j / b) * - (j / b)) with (j * j / (b * b)) in L2 by (field; lra).
    replace (- ((s1 (INR y) + j) * (/ a + / b)) - (s2 (INR y) + j * j) / (b * b)) with (- (s1 (INR y) * (/ a + / b)) - s2 (INR y) / (b * b) + (- (j / a) - j / b - j * j / (b * b))) by (field; lra). lra.
Qed.
End D.

(* the bounds of lines 343-347 *)
Definition sq_t (v y : R) : R := - (y * y) / (2 * v).
Definition sq_rho (v y : R) : R := y / v * (((y / 3 + 5 / 8) * y + 1 / 6) / v + 1 / 2).
(* what a deviation d of the mode costs *)
Definition sq_d (v y d : R) : R := d * y / v + d * (y * y + (2 + d) * y) / (v * v).

Lemma sq_bounds : forall tau d y v V a, 1 <= y -> 0 <= d -> - d <= tau <= 1 + d -> 0 < v <= V -> V <= a -> V - v <= 1 / 4 ->
  sq_t v y - sq_rho v y - sq_d v y d <= - (s1 tau y * / V) - s2 tau y / (a * a) /\
  - (s1 tau y * / V) + s2 tau y / (a * a) <= sq_t v y + sq_rho v y + sq_d v y d.
Proof.
  intros tau d y v V a Y0 DP T V0 VA VD.
  set (i := / v). set (I := / V). assert (I0: 0 < I) by (apply Rinv_0_lt_compat; lra). assert (II: I <= i) by (apply Rinv_le_contravar; lra).
  assert (VI: v * i = 1) by (unfold i; field; lra). assert (VI': V * I = 1) by (unfold I; field; lra).
  assert (ID: i - I <= 1 / 4 * (i * i)).
  { replace (i - I) with ((V - v) * (i * I)) by (unfold i, I; field; lra). apply Rmult_le_compat; [lra|apply Rmult_le_pos; lra|exact VD|apply Rmult_le_compat_l; lra]. }
  assert (AI: 0 < / (a * a) <= i * i).
  { split; [apply Rinv_0_lt_compat, Rmult_lt_0_compat; lra|]. replace (i * i) with (/ (v * v)) by (unfold i; field; lra). apply Rinv_le_contravar; [apply Rmult_lt_0_compat; lra|]. apply Rmult_le_compat; lra. }
  assert (YY: y <= y * y) by (replace y with (y * 1) at 1 by ring; apply Rmult_le_compat_l; lra).
  assert (S1: y * y / 2 - (1 / 2 + d) * y <= s1 tau y <= y * y / 2 + (1 / 2 + d) * y).
  { unfold s1. assert (- d * y <= tau * y) by (apply Rmult_le_compat_r; lra). assert (tau * y <= (1 + d) * y) by (apply Rmult_le_compat_r; lra). lra. }
  assert (S2: 0 <= s2 tau y <= y * y * y / 3 + y * y / 2 + y / 6 + d * (y * y + (2 + d) * y)).
  { split.
    - replace (s2 tau y) with (y * (((y - 1) / 2 + tau) * ((y - 1) / 2 + tau) + (y * y - 1) / 12)) by (unfold s2; field).
      apply Rmult_le_pos; [lra|]. pose proof (Rle_0_sqr ((y - 1) / 2 + tau)) as SQ. unfold Rsqr in SQ. lra.
    - assert (T1: tau * (y * (y - 1)) <= (1 + d) * (y * (y - 1))) by (apply Rmult_le_compat_r; [apply Rmult_le_pos; lra|lra]).
      assert (T2: tau * tau <= (1 + d) * (1 + d)).
      { assert (Rabs tau * Rabs tau <= (1 + d) * (1 + d)) by (apply Rmult_le_compat; try apply Rabs_pos; apply Rabs_le; lra). rewrite <- Rabs_mult in H. pose proof (Rle_abs (tau * tau)). lra. }
      assert (T3: tau * tau * y <= (1 + d) * (1 + d) * y) by (apply Rmult_le_compat_r; lra). assert (0 <= d * y) by (apply Rmult_le_pos; lra). unfold s2. lra. }
  assert (P: s2 tau y / (a * a) <= (y * y * y / 3 + y * y / 2 + y / 6 + d * (y * y + (2 + d) * y)) * (i * i)) by (apply Rmult_le_compat; lra).
  assert (L1: (y * y / 2 - (1 / 2 + d) * y) * I <= s1 tau y * I) by (apply Rmult_le_compat_r; lra).
  assert (L2: s1 tau y * I <= (y * y / 2 + (1 / 2 + d) * y) * I) by (apply Rmult_le_compat_r; lra).
  assert (M1: (1 / 2 + d) * y * I <= (1 / 2 + d) * y * i) by (apply Rmult_le_compat_l; [apply Rmult_le_pos; lra|exact II]).
  assert (M2: y * y / 2 * I <= y * y / 2 * i) by (apply Rmult_le_compat_l; lra).
  assert (M3: y * y / 2 * (i - I) <= y * y / 2 * (1 / 4 * (i * i))) by (apply Rmult_le_compat_l; lra).
  assert (E1: sq_t v y = - (y * y / 2 * i)) by (unfold sq_t, i; field; lra).
  assert (E2: sq_rho v y = (y * y * y / 3 + 5 / 8 * (y * y) + y / 6) * (i * i) + 1 / 2 * y * i) by (unfold sq_rho, i; field; lra).
  assert (E3: sq_d v y d = d * y * i + d * (y * y + (2 + d) * y) * (i * i)) by (unfold sq_d, i; field; lra).
  rewrite E1, E2, E3. fold I. assert (Q: 0 <= y * y * (i * i)) by (apply Rmult_le_pos; [lra|apply Rmult_le_pos; lra]). split; lra.
Qed.

Section P.
Variables (t : nat) (p : Q).
Hypothesis P0 : (0 < p)%Q.
Hypothesis P1 : (p < 1)%Q.
Local Notation P := (Q2R p).
Local Notation LP k := (ln (Q2R (bpmf t p k))).
Lemma P_pos : 0 < P < 1.
Proof. split; [rewrite <- Q2R_0|rewrite <- Q2R_1]; apply Qlt_Rlt; assumption. Qed.
Lemma b_pos : forall k, (k <= t)%nat -> 0 < Q2R (bpmf t p k).
Proof. intros k H. rewrite <- Q2R_0. apply Qlt_Rlt. apply bpmf_pos; assumption. Qed.
Lemma Q2R_qn : forall n, Q2R (qn n) = INR n.
Proof. intro n. unfold qn. rewrite Q2R_Z, INR_IZR_INZ. reflexivity. Qed.
Lemma b_step : forall k, (k < t)%nat -> LP (S k) - LP k = ln ((INR t - INR k) * P / (INR (S k) * (1 - P))).
Proof.
  intros k H. pose proof P_pos. pose proof (b_pos k ltac:(lia)) as B0. pose proof (b_pos (S k) ltac:(lia)) as B1.
  pose proof (bpmf_ratio p t k) as R. apply Qeq_eqR in R. rewrite !Q2R_mult, !Q2R_minus, !Q2R_qn, Q2R_1 in R.
  pose proof (INR_S_pos k) as SK. assert (SK0: 0 < INR (S k)) by (apply lt_0_INR; lia). assert (TK: INR (S k) <= INR t) by (apply le_INR; lia). rewrite S_INR in TK.
  rewrite <- ln_div by assumption. f_equal. apply Rmult_eq_reg_r with (INR (S k) * (1 - P) * Q2R (bpmf t p k)).
  - transitivity (INR (S k) * (1 - P) * Q2R (bpmf t p (S k))); [field; lra|]. rewrite R. field. split; lra.
  - apply Rgt_not_eq. apply Rmult_lt_0_compat; [apply Rmult_lt_0_compat; lra|exact B0].
Qed.
Lemma b_ln : forall k, (k <= t)%nat -> LP k = lnfact t - lnfact k - lnfact (t - k) + INR k * ln P + (INR t - INR k) * ln (1 - P).
Proof.
  pose proof P_pos. induction k as [|k IH]; intro H1.
  - rewrite Nat.sub_0_r. assert (L0: lnfact 0 = 0) by (unfold lnfact; cbn; apply ln_1). rewrite L0. cbn [INR].
    destruct (bpmf_0 p t) as [E|E]; [|exfalso; apply Qeq_eqR in E; rewrite Q2R_minus, Q2R_1, Q2R_0 in E; lra].
    assert (E2: Q2R (Qpower (1 - p) (Z.of_nat t)) = (1 - P) ^ t).
    { clear E H1. induction t as [|n IHn]; [cbn; unfold Q2R; cbn; field|].
      rewrite Nat2Z.inj_succ. unfold Z.succ. assert (NZ: ~ (1 - p == 0)%Q). { intro E. apply Qeq_eqR in E. rewrite Q2R_minus, Q2R_1, Q2R_0 in E. lra. }
      assert (X: (Qpower (1 - p) (Z.of_nat n + 1) == Qpower (1 - p) (Z.of_nat n) * (1 - p))%Q) by (rewrite Qpower_plus by exact NZ; change (Qpower (1 - p) 1) with (1 - p)%Q; reflexivity).
      apply Qeq_eqR in X. rewrite X, Q2R_mult, IHn, Q2R_minus, Q2R_1. cbn. ring. }
    apply Qeq_eqR in E. rewrite E, E2, ln_pow by lra. ring.
  - specialize (IH ltac:(lia)). pose proof (b_step k ltac:(lia)) as S. rewrite IH in S.
    assert (TK: INR (Datatypes.S k) <= INR t) by (apply le_INR; lia). assert (SK0: 0 < INR (Datatypes.S k)) by (apply lt_0_INR; lia). rewrite S_INR in TK. pose proof (pos_INR k).
    rewrite ln_div, !ln_mult in S by (lra || (apply Rmult_lt_0_compat; lra)).
    assert (F: lnfact (t - k) = lnfact (t - Datatypes.S k) + ln (INR t - INR k)).
    { replace (t - k)%nat with (Datatypes.S (t - Datatypes.S k)) by lia. rewrite lnfact_S. do 2 f_equal. replace (Datatypes.S (t - Datatypes.S k)) with (t - k)%nat by lia. apply minus_INR. lia. }
    rewrite lnfact_S. rewrite F in S. rewrite (S_INR k) at 2 3. lra.
Qed.

Variables (m k : nat) (d : R).
Hypothesis Hm : (m <= t)%nat.
Hypothesis Hk : (k <= t)%nat.
Hypothesis HN : k <> m.
Hypothesis PH : P <= 1 / 2.
Local Notation N := (INR t + 1).
Hypothesis D0 : 0 <= d.
Hypothesis HD : - d <= N * P - INR m <= 1 + d.
Local Notation v := (INR t * P * (1 - P)).
Local Notation y := (Rabs (INR k - INR m)).

Lemma tpos : 1 <= INR t.
Proof. replace 1 with (INR 1) by reflexivity. apply le_INR. lia. Qed.
Lemma v_facts : 0 < v <= N * P * (1 - P) /\ N * P * (1 - P) <= N * P /\ N * P <= N * (1 - P) /\ N * P * (1 - P) - v <= 1 / 4.
Proof.
  pose proof P_pos. pose proof tpos. assert (A: 0 < P * (1 - P)) by (apply Rmult_lt_0_compat; lra).
  assert (B: 0 < INR t * (P * (1 - P))) by (apply Rmult_lt_0_compat; lra).
  assert (C: N * P * (1 - P) <= N * P * 1) by (apply Rmult_le_compat_l; [apply Rmult_le_pos; lra|lra]).
  assert (E: N * P <= N * (1 - P)) by (apply Rmult_le_compat_l; lra).
  pose proof (Rle_0_sqr (P - 1 / 2)) as SQ. unfold Rsqr in SQ. repeat split; lra.
Qed.
Lemma squeeze : (d <= N * P / 2 -> LP k - LP m <= sq_t v y + sq_rho v y + sq_d v y d) /\
  (y + d <= N * P / 2 -> sq_t v y - sq_rho v y - sq_d v y d <= LP k - LP m).
Proof.
  pose proof P_pos as PP. pose proof tpos as T1. destruct v_facts as (V0 & VA & VB & VD). set (a := N * P) in *. set (b := N * (1 - P)) in *.
  assert (AP: 0 < a) by (unfold a; apply Rmult_lt_0_compat; lra).
  assert (IV: / a + / b = / (N * P * (1 - P))) by (unfold a, b; field; lra).
  destruct (le_lt_dec m k) as [L|L].
  - set (Y := (k - m)%nat). assert (YK: (m + Y = k)%nat) by lia.
    assert (YE: y = INR Y). { unfold Y. rewrite minus_INR by exact L. apply Rabs_right. apply le_INR in L. lra. }
    rewrite YE. assert (Y1: 1 <= INR Y) by (replace 1 with (INR 1) by reflexivity; apply le_INR; lia).
    set (tau := 1 - (a - INR m)). set (D := fun i => LP (m + i) - LP m).
    assert (DY: D Y = LP k - LP m) by (unfold D; rewrite YK; reflexivity).
    assert (DS: forall i, (i < Y)%nat -> let j := INR i + tau in j / b < 1 /\ - 1 < j / a /\ D (S i) - D i = ln (1 - j / b) - ln (1 + j / a)).
    { intros i Hi j. assert (E1: b - j = INR t - INR (m + i)) by (unfold j, tau, a, b; rewrite plus_INR; ring).
      assert (E2: a + j = INR (S (m + i))) by (unfold j, tau; rewrite S_INR, plus_INR; ring).
      assert (G1: 1 <= b - j). { rewrite E1. rewrite <- minus_INR by lia. replace 1 with (INR 1) by reflexivity. apply le_INR. lia. }
      assert (G2: 0 < a + j) by (rewrite E2; apply lt_0_INR; lia).
      assert (F1: 1 - j / b = (b - j) / b) by (field; lra). assert (F2: 1 + j / a = (a + j) / a) by (field; lra).
      assert (G3: 0 < 1 - j / b) by (rewrite F1; apply Rmult_lt_0_compat; [lra|apply Rinv_0_lt_compat; lra]).
      assert (G4: 0 < 1 + j / a) by (rewrite F2; apply Rmult_lt_0_compat; [lra|apply Rinv_0_lt_compat; lra]).
      split; [lra|]. split; [lra|]. unfold D. replace (m + S i)%nat with (S (m + i)) by lia.
      replace (LP (S (m + i)) - LP m - (LP (m + i) - LP m)) with (LP (S (m + i)) - LP (m + i)) by ring. rewrite b_step by lia. rewrite <- ln_div by assumption.
      f_equal. rewrite F1, F2, E1, E2. unfold a, b. field. repeat split; try lra; apply Rgt_not_eq; rewrite <- E2; exact G2. }
    assert (DZ: D 0%nat = 0) by (unfold D; rewrite Nat.add_0_r; ring).
    assert (TAU: - d <= tau <= 1 + d) by (unfold tau, a in *; lra).
    split; intro H.
    + pose proof (sum_up D a b tau Y AP ltac:(lra) DZ DS) as SU. rewrite <- DY. 
      destruct (sq_bounds tau d (INR Y) v (N * P * (1 - P)) a Y1 D0 TAU V0 VA VD) as [_ SB]. rewrite <- IV in SB.
      eapply Rle_trans; [apply SU|exact SB]; [|lia]. intros i Hi. pose proof (pos_INR i). apply Rmult_le_reg_r with a; [exact AP|]. unfold Rdiv at 2. rewrite Rmult_assoc, Rinv_l by lra. lra.
    + pose proof (sum_lo D a b tau Y AP ltac:(lra) DZ DS) as SU. rewrite <- DY. 
      destruct (sq_bounds tau d (INR Y) v (N * P * (1 - P)) b Y1 D0 TAU V0 (Rle_trans _ _ _ VA VB) VD) as [SB _]. rewrite <- IV in SB.
      eapply Rle_trans; [exact SB|apply SU]; [|lia]. intros i Hi. assert (INR (S i) <= INR Y) by (apply le_INR; lia). rewrite S_INR in *.
      apply Rmult_le_reg_r with b; [lra|]. unfold Rdiv at 1. rewrite Rmult_assoc, Rinv_l by lra. lra.
  - set (Y := (m - k)%nat). assert (YK: (m - Y = k)%nat) by lia.
    assert (YE: y = INR Y). { unfold Y. rewrite minus_INR by lia. rewrite Rabs_left1; [ring|]. apply lt_INR in L. lra. }
    rewrite YE. assert (Y1: 1 <= INR Y) by (replace 1 with (INR 1) by reflexivity; apply le_INR; lia).
    set (tau := a - INR m). set (D := fun i => LP (m - i) - LP m).
    assert (DY: D Y = LP k - LP m) by (unfold D; rewrite YK; reflexivity).
    assert (DS: forall i, (i < Y)%nat -> let j := INR i + tau in j / a < 1 /\ - 1 < j / b /\ D (S i) - D i = ln (1 - j / a) - ln (1 + j / b)).
    { intros i Hi j. assert (E1: a - j = INR (S (m - S i))) by (unfold j, tau; replace (S (m - S i)) with (m - i)%nat by lia; rewrite minus_INR by lia; ring).
      assert (E2: b + j = INR t - INR (m - S i)) by (unfold j, tau, a, b; rewrite minus_INR, S_INR by lia; ring).
      assert (G1: 0 < a - j) by (rewrite E1; apply lt_0_INR; lia).
      assert (G2: 0 < b + j). { rewrite E2. rewrite <- minus_INR by lia. apply lt_0_INR. lia. }
      assert (F1: 1 - j / a = (a - j) / a) by (field; lra). assert (F2: 1 + j / b = (b + j) / b) by (field; lra).
      assert (G3: 0 < 1 - j / a) by (rewrite F1; apply Rmult_lt_0_compat; [lra|apply Rinv_0_lt_compat; lra]).
      assert (G4: 0 < 1 + j / b) by (rewrite F2; apply Rmult_lt_0_compat; [lra|apply Rinv_0_lt_compat; lra]).
      split; [lra|]. split; [lra|]. unfold D.
      replace (LP (m - S i) - LP m - (LP (m - i) - LP m)) with (- (LP (m - i) - LP (m - S i))) by ring.
      replace (m - i)%nat with (S (m - S i)) by lia. rewrite b_step by lia. rewrite <- ln_div by assumption.
      rewrite <- ln_Rinv.
      - f_equal. rewrite F1, F2, E1, E2. unfold a, b. field. repeat split; try lra.
      - apply Rmult_lt_0_compat; [rewrite <- E2; apply Rmult_lt_0_compat; lra|]. apply Rinv_0_lt_compat. rewrite <- E1. apply Rmult_lt_0_compat; lra. }
    assert (DZ: D 0%nat = 0) by (unfold D; rewrite Nat.sub_0_r; ring).
    assert (TAU: - d <= tau <= 1 + d) by (unfold tau, a in *; lra). rewrite Rplus_comm in IV.
    split; intro H.
    + pose proof (sum_up D b a tau Y ltac:(lra) AP DZ DS) as SU. rewrite <- DY. 
      destruct (sq_bounds tau d (INR Y) v (N * P * (1 - P)) b Y1 D0 TAU V0 (Rle_trans _ _ _ VA VB) VD) as [_ SB]. rewrite <- IV in SB.
      eapply Rle_trans; [apply SU|exact SB]; [|lia]. intros i Hi. pose proof (pos_INR i). apply Rmult_le_reg_r with b; [lra|]. unfold Rdiv at 2. rewrite Rmult_assoc, Rinv_l by lra. lra.
    + pose proof (sum_lo D b a tau Y ltac:(lra) AP DZ DS) as SU. rewrite <- DY. 
      destruct (sq_bounds tau d (INR Y) v (N * P * (1 - P)) a Y1 D0 TAU V0 VA VD) as [SB _]. rewrite <- IV in SB.
      eapply Rle_trans; [exact SB|apply SU]; [|lia]. intros i Hi. assert (INR (S i) <= INR Y) by (apply le_INR; lia). rewrite S_INR in *.
      apply Rmult_le_reg_r with a; [lra|]. unfold Rdiv at 1. rewrite Rmult_assoc, Rinv_l by lra. lra.
Qed.
End P.
