(* C63: poisson_distribution, the acceptance test of the rejection algorithm *)
From Coq Require Import Reals Lra Qreals.
From Verif Require Import Base ProgModel UIntModel UIntSpec FloatModel FloatSpec FloatProofs RealModel UniProofs RDiscProofs BinModel BinSpec BinProofs Bin2Proofs Bin4Proofs Bin6Proofs
  PoisModel PoisRSpec RExpProofs StirProofs Pois3Proofs Pois4Proofs.
Ltac Zify.zify_post_hook ::= idtac.
Open Scope R_scope.

(* For k < 10 (lines 311-313) the test with the table of log(k!) decides whether v
   is at most the probability of k, up to a factor exp E. *)
Theorem C63_accept_table : forall f md ti lg K mean v k,
  fmt_wide f -> (20 <= prec f)%Z -> (32 <= bits ti)%Z -> 0 <= K -> K * eps f <= 1 / 8 -> log_ok f K lg ->
  representable f mean -> (10 <= mean)%Q -> (0 < v)%Q -> representable f v -> (0 <= k < 10)%Z ->
  let m := Q2R mean in let E := eps f * (K * Rabs (ln (Q2R v)) + (K + 7) * (IZR k * ln m + m)) + / 2 ^ 49 in
  exists ok, po_accept_small f md ti lg mean v k = Some ok /\
  if ok then Q2R v <= ppmf m (Z.to_nat k) * exp E else ppmf m (Z.to_nat k) <= Q2R v * exp E.
Proof.
  intros f md ti lg K mean v k Hw Pf Hti K0 K1 HL RM M0 V0 RV Hk. apply (small_ok f md ti lg K mean Hw Pf Hti K0 K1 HL RM M0 v k V0 RV Hk).
  unfold imax. pose proof (Z.pow_le_mono_r 2 4 (if sgn ti then bits ti - 1 else bits ti)%Z ltac:(lia) ltac:(destruct (sgn ti); lia)). destruct (sgn ti); lia.
Qed.
Print Assumptions C63_accept_table.

(* For 10 <= k (lines 302-310) the same for the test with Stirling's series. *)
Theorem C63_accept_series : forall f g md lg sq K mean v k,
  fmt_ok f -> fmt_ok g -> fmt_wide f -> (20 <= prec f)%Z -> (prec f <= prec g)%Z -> (emin g <= emin f)%Z -> (emin g + prec g <= 0)%Z ->
  0 <= K -> K * eps f <= 1 / 8 -> log_ok f K lg -> sqrt_acc f K sq ->
  representable f mean -> (10 <= mean)%Q -> (10 <= k)%Z -> (inject_Z k * p2 (emin f + prec f) <= 1)%Q -> (p2 (emin f + prec f) <= v)%Q ->
  let m := Q2R mean in
  let E := eps f * (K * Rabs (ln (Q2R v) + ln m / 2) + (2 * K + 27) * ((IZR k + 3 / 2) * (Rabs (ln (m / IZR k)) + 1) + m)) + / 2 ^ 33 in
  exists ok, po_accept_big f g md lg mean (sq mean) v (inject_Z k) = Some ok /\
  if ok then Q2R v <= ppmf m (Z.to_nat k) * exp E else ppmf m (Z.to_nat k) <= Q2R v * exp E.
Proof.
  intros f g md lg sq K mean v k Hf Hg Hw Pf Pg Eg Ng K0 K1 HL HS RM M0 Hk Nk V0.
  exact (big_ok f g md lg sq K mean Hf Hg Hw Pf Pg Eg Ng K0 K1 HL HS RM M0 k Hk Nk v V0).
Qed.
Print Assumptions C63_accept_series.

(* v = 0 is always accepted: log(0) is minus infinity. *)
Theorem C63_accept_zero : forall f g md ti lg mean smu, fmt_ok f ->
  (forall k ok, po_accept_small f md ti lg mean 0 k = Some ok -> ok = true) /\
  (forall k ok, po_accept_big f g md lg mean smu 0 k = Some ok -> ok = true).
Proof.
  intros f g md ti lg mean smu Hf. split; intros k ok; [unfold po_accept_small|unfold po_accept_big].
  - match goal with |- bind ?x _ = _ -> _ => destruct x end; cbn [bind]; [|discriminate]. intro H. injection H as <-. reflexivity.
  - destruct (fdiv f md mean k); cbn [bind]; [|discriminate]. destruct (fdiv _ _ _ _); cbn [bind]; [|discriminate]. destruct (fdiv _ _ _ _); cbn [bind]; [|discriminate]. destruct (fdiv _ _ _ _); cbn [bind]; [|discriminate].
    intro H. injection H as <-. replace (Qle_bool (fround f md (0 * smu)) 0) with true; [reflexivity|]. symmetry. apply Qle_bool_iff.
    apply Qle_lteq; right. apply Qeq_trans with (fround f md 0); [apply (rnd_compat f md Hf); ring|apply (rnd_fix f md Hf); exact (repr_0 f Hf)].
Qed.
Print Assumptions C63_accept_zero.

Lemma ln2_le : 0 < ln 2 <= 1.
Proof.
  split; [rewrite <- ln_1; apply ln_increasing; lra|]. replace 1 with (ln (exp 1)) by apply ln_exp. left. apply ln_increasing; [lra|].
  pose proof (exp_ineq1 1 ltac:(lra)). lra.
Qed.
Lemma ln_2n : forall n, ln (2 ^ n) = INR n * ln 2.
Proof.
  induction n; [cbn; rewrite ln_1; ring|]. rewrite <- tech_pow_Rmult, ln_mult, IHn, S_INR by (try apply pow_lt; lra). ring.
Qed.
Lemma ln_bnd : forall n y, / 2 ^ n <= y -> y <= 2 ^ n -> Rabs (ln y) <= INR n.
Proof.
  intros n y A B. assert (P: 0 < 2 ^ n) by (apply pow_lt; lra). assert (PI: 0 < / 2 ^ n) by (apply Rinv_0_lt_compat; exact P). pose proof ln2_le. pose proof (pos_INR n).
  assert (N: INR n * ln 2 <= INR n) by (rewrite <- (Rmult_1_r (INR n)) at 2; apply Rmult_le_compat_l; lra).
  assert (U: ln y <= INR n * ln 2). { rewrite <- ln_2n. destruct (Rle_lt_or_eq_dec _ _ B) as [C| ->]; [left; apply ln_increasing; lra|lra]. }
  assert (L: - (INR n * ln 2) <= ln y). { rewrite <- ln_2n, <- ln_Rinv by exact P. destruct (Rle_lt_or_eq_dec _ _ A) as [C| <-]; [left; apply ln_increasing; lra|lra]. }
  apply Rabs_le. lra.
Qed.
Lemma exp_small : forall x, 0 <= x <= 1 / 2 -> exp x <= 1 + 2 * x.
Proof.
  intros x X. assert (A: 1 - x <= exp (- x)). { destruct (Req_dec x 0) as [->|N]; [rewrite Ropp_0, exp_0; lra|]. pose proof (exp_ineq1 (- x) ltac:(lra)). lra. }
  rewrite exp_Ropp in A. pose proof (exp_pos x). assert (B: (1 - x) * exp x <= 1). { replace 1 with (/ exp x * exp x) at 2 by (field; lra). apply Rmult_le_compat_r; lra. }
  assert (C: (1 + 2 * x) * (1 - x) >= 1) by nra. apply Rmult_le_reg_l with (1 - x); lra.
Qed.
Lemma eps_double : eps ieee_double = / 2 ^ 52.
Proof. unfold eps, Q2R. cbn [ieee_double prec]. cbn. field. Qed.

(* double, log and sqrt with an error of at most one ulp: up to mean 2^20 a number
   k up to 2^20 is accepted if v <= P(k) (1 - 10^-6) and rejected if v > P(k) (1 + 10^-6). *)
Theorem C63_double : forall md ti lg sq mean v k,
  (32 <= bits ti)%Z -> log_ok ieee_double 1 lg -> sqrt_acc ieee_double 1 sq ->
  representable ieee_double mean -> (10 <= mean <= 1048576)%Q -> representable ieee_double v -> / 2 ^ 100 <= Q2R v <= 2 ^ 100 -> (0 <= k <= 1048576)%Z ->
  exists ok, (if (10 <=? k)%Z then po_accept_big ieee_double ieee_double md lg mean (sq mean) v (inject_Z k)
              else po_accept_small ieee_double md ti lg mean v k) = Some ok /\
  let P := ppmf (Q2R mean) (Z.to_nat k) in
  (Q2R v <= P * (1 - / 10 ^ 6) -> ok = true) /\ (P * (1 + / 10 ^ 6) < Q2R v -> ok = false).
Proof.
  intros md ti lg sq mean v k Hti HL HS RM [M0 M1] RV [V0 V1] Hk.
  assert (E0: eps ieee_double = / 2 ^ 52) by exact eps_double.
  assert (m0: 10 <= Q2R mean) by (replace 10 with (Q2R 10) by (unfold Q2R; cbn; field); apply Q2R_le; exact M0).
  assert (m1: Q2R mean <= 1048576) by (replace 1048576 with (Q2R 1048576) by (unfold Q2R; cbn; field); apply Q2R_le; exact M1).
  set (m := Q2R mean) in *. assert (LV: Rabs (ln (Q2R v)) <= 100) by (replace 100 with (INR 100) by (rewrite INR_IZR_INZ; reflexivity); apply ln_bnd; assumption).
  assert (LM: Rabs (ln m) <= 20). { replace 20 with (INR 20) by (rewrite INR_IZR_INZ; reflexivity). apply ln_bnd; cbn [pow]; lra. }
  assert (P100: 0 < / 2 ^ 100) by (apply Rinv_0_lt_compat, pow_lt; lra). set (t100 := / 2 ^ 100) in *.
  assert (FIN: forall E ok, 0 <= E <= / 10 ^ 6 / 4 ->
    (if ok : bool then Q2R v <= ppmf m (Z.to_nat k) * exp E else ppmf m (Z.to_nat k) <= Q2R v * exp E) ->
    (Q2R v <= ppmf m (Z.to_nat k) * (1 - / 10 ^ 6) -> ok = true) /\ (ppmf m (Z.to_nat k) * (1 + / 10 ^ 6) < Q2R v -> ok = false)).
  { intros E ok HE H. destruct (ppmf_ln m (Z.to_nat k) ltac:(lra)) as [PP _]. set (P := ppmf m (Z.to_nat k)) in *.
    assert (XE: exp E <= 1 + / 10 ^ 6 / 2). { apply Rle_trans with (1 := exp_small E ltac:(cbn [pow] in HE; lra)). lra. }
    assert (T: / 10 ^ 6 = 1 / 1000000) by (cbn [pow]; lra). rewrite T in *. split; intro C; destruct ok; try reflexivity; exfalso.
    - assert (Q2R v * exp E <= Q2R v * (1 + 1 / 1000000 / 2)) by (apply Rmult_le_compat_l; lra). lra.
    - assert (P * exp E <= P * (1 + 1 / 1000000 / 2)) by (apply Rmult_le_compat_l; lra). lra. }
  assert (RK: 0 <= IZR k <= 1048576) by (split; apply IZR_le; lia).
  assert (K1: 1 * eps ieee_double <= 1 / 8) by (rewrite E0; cbn [pow]; lra).
  destruct (Z.leb_spec 10 k) as [H10|H10].
  - assert (x0: 10 <= IZR k) by (apply IZR_le; exact H10).
    destruct (C63_accept_series ieee_double ieee_double md lg sq 1 mean v k) as (ok & EQ & H); try assumption; try (cbn; lia); try lra.
    + split; cbn; lia.
    + split; cbn; lia.
    + split; cbn; lia.
    + apply Qle_trans with (inject_Z 1048576 * p2 (emin ieee_double + prec ieee_double))%Q; [apply Qmult_le_compat_r; [rewrite <- Zle_Qle; lia|apply Qlt_le_weak, p2_pos]|].
      vm_compute. discriminate.
    + apply Qle_trans with (p2 (-100)); [apply p2_le; cbn; lia|]. apply Rle_Qle. replace (Q2R (p2 (-100))) with t100; [exact V0|]. unfold t100, Q2R. cbn. field.
    + exists ok. split; [exact EQ|]. cbv zeta in H. fold m in H. eapply FIN; [|exact H]. rewrite E0.
      assert (DX: / 2 ^ 20 <= m / IZR k <= 2 ^ 20).
      { split; cbn [pow].
        - apply Rmult_le_reg_r with (IZR k); [lra|]. replace (m / IZR k * IZR k) with m by (field; lra). lra.
        - apply Rmult_le_reg_r with (IZR k); [lra|]. replace (m / IZR k * IZR k) with m by (field; lra). lra. }
      assert (LX: Rabs (ln (m / IZR k)) <= 20) by (replace 20 with (INR 20) by (rewrite INR_IZR_INZ; reflexivity); apply ln_bnd; lra).
      pose proof (Rabs_pos (ln (m / IZR k))). set (L := Rabs (ln (m / IZR k))) in *.
      assert (W: 0 <= (IZR k + 3 / 2) * (L + 1) <= 1048578 * 21). { split; [apply Rmult_le_pos; lra|apply Rmult_le_compat; lra]. }
      set (WW := (IZR k + 3 / 2) * (L + 1)) in *. clearbody WW.
      assert (LS: Rabs (ln (Q2R v) + ln m / 2) <= 110). { apply Rabs_le_inv in LV. apply Rabs_le_inv in LM. apply Rabs_le. lra. }
      pose proof (Rabs_pos (ln (Q2R v) + ln m / 2)). set (S := Rabs (ln (Q2R v) + ln m / 2)) in *. clearbody S. clear - W LS m0 m1 H1. cbn [pow]. lra.
  - destruct (C63_accept_table ieee_double md ti lg 1 mean v k) as (ok & EQ & H); try assumption; try (cbn; lia); try lra.
    + split; cbn; lia.
    + apply Rlt_Qlt. rewrite Q2R_0. lra.
    + exists ok. split; [exact EQ|]. cbv zeta in H. fold m in H. eapply FIN; [|exact H]. rewrite E0.
      assert (k9: IZR k <= 9) by (apply IZR_le; lia). assert (L0: 0 <= ln m) by (rewrite <- ln_1; left; apply ln_increasing; lra). rewrite (Rabs_right (ln m)) in LM by lra.
      assert (W: 0 <= IZR k * ln m <= 9 * 20) by (split; [apply Rmult_le_pos; lra|apply Rmult_le_compat; lra]).
      set (WW := IZR k * ln m) in *. clearbody WW. pose proof (Rabs_pos (ln (Q2R v))). set (S := Rabs (ln (Q2R v))) in *. clearbody S. clear - W LV m0 m1 H0. cbn [pow]. lra.
Qed.
Print Assumptions C63_double.

(* a rational number with relative distance at most e to x *)
Definition appr (e x : R) : Q :=
  if Req_EM_T x 0 then 0%Q else let d := up (/ (e * Rabs x)) in (inject_Z (up (x * IZR d)) / inject_Z d)%Q.
Lemma appr_ok : forall e x, 0 < e -> Rabs (Q2R (appr e x) - x) <= 1 * e * Rabs x.
Proof.
  intros e x E. unfold appr. destruct (Req_EM_T x 0) as [->|N]; [rewrite Q2R_0, Rabs_R0, Rminus_0_r, Rabs_R0; lra|].
  cbv zeta. set (d := up (/ (e * Rabs x))). pose proof (Rabs_pos_lt x N) as AX. assert (EX: 0 < e * Rabs x) by (apply Rmult_lt_0_compat; lra).
  pose proof (Rinv_0_lt_compat _ EX) as IE. destruct (archimed (/ (e * Rabs x))) as [D1 _]. fold d in D1. assert (DP: 0 < IZR d) by lra.
  assert (DZ: (0 < d)%Z) by (apply lt_IZR; exact DP). rewrite Q2R_div by (intro H; unfold Qeq in H; cbn in H; lia). rewrite !Q2R_Z.
  destruct (archimed (x * IZR d)) as [U1 U2]. set (u := IZR (up (x * IZR d))) in *.
  replace (u / IZR d - x) with ((u - x * IZR d) * / IZR d) by (field; lra). rewrite Rabs_mult. rewrite (Rabs_right (u - x * IZR d)) by lra. rewrite (Rabs_right (/ IZR d)) by (left; apply Rinv_0_lt_compat; exact DP).
  assert (DI: / IZR d <= e * Rabs x). { rewrite <- (Rinv_inv (e * Rabs x)). apply Rinv_le_contravar; lra. }
  pose proof (Rinv_0_lt_compat _ DP). assert ((u - x * IZR d) * / IZR d <= 1 * / IZR d) by (apply Rmult_le_compat_r; lra). lra.
Qed.
(* the hypotheses of C63_double: mean 100, k = 100 and k = 5, v = 1/32 *)
Example C63_ex : let f := ieee_double in
  fmt_ok f /\ fmt_wide f /\ (emin f + prec f <= 0)%Z /\ 1 * eps f <= 1 / 8 /\
  log_ok f 1 (fun y => appr (eps f) (ln (Q2R y))) /\ sqrt_acc f 1 (fun y => appr (eps f) (sqrt (Q2R y))) /\
  representable f 100 /\ representable f (1 # 32) /\ / 2 ^ 100 <= Q2R (1 # 32) <= 2 ^ 100.
Proof.
  cbv zeta. split; [split; cbn; lia|]. split; [split; cbn; lia|]. split; [cbn; lia|]. split; [rewrite eps_double; cbn [pow]; lra|].
  split; [intros y Y0 RY; apply appr_ok; apply e_pos|].
  split; [intros y Y0 RY; pose proof (appr_ok (eps ieee_double) (sqrt (Q2R y)) (e_pos _)) as H; rewrite (Rabs_right (sqrt (Q2R y))) in H by (apply Rle_ge, sqrt_pos); exact H|].
  split; [exists 100%Z, 0%Z; repeat split; vm_compute; try reflexivity; discriminate|].
  split; [exists 1%Z, (-5)%Z; repeat split; vm_compute; try reflexivity; discriminate|].
  replace (Q2R (1 # 32)) with (1 / 32) by (unfold Q2R; cbn; field). assert (64 <= 2 ^ 100) by (replace (2 ^ 100) with (2 ^ 6 * 2 ^ 94) by (rewrite <- pow_add; reflexivity); pose proof (pow_R1_Rle 2 94 ltac:(lra)); cbn [pow] in *; lra).
  assert (/ 2 ^ 100 <= / 64) by (apply Rinv_le_contravar; lra). lra.
Qed.
