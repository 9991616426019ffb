(* poisson_distribution by rejection: the test with logarithms. *)
From Coq Require Import Reals Lra Qreals.
From Verif Require Import Base ProgModel UIntModel UIntSpec FloatModel FloatSpec FloatProofs RealModel UniProofs RDiscProofs BinModel BinSpec BinProofs Bin2Proofs Bin4Proofs Bin6Proofs
  PoisModel PoisRSpec RExpProofs StirProofs.
Ltac Zify.zify_post_hook ::= idtac.
Open Scope R_scope.

Lemma Q2R_Z : forall z, Q2R (inject_Z z) = IZR z.
Proof. intro z. unfold Q2R. cbn. field. Qed.
Lemma Q2R_le : forall x y, (x <= y)%Q -> Q2R x <= Q2R y.
Proof. exact Qle_Rle. Qed.
Lemma Q2R_0 : Q2R 0 = 0.
Proof. unfold Q2R. cbn. field. Qed.
Lemma Q2R_1 : Q2R 1 = 1.
Proof. unfold Q2R. cbn. field. Qed.

Lemma Rabs_le_inv : forall x y, Rabs x <= y -> - y <= x <= y.
Proof. intros x y H. pose proof (Rle_abs x). pose proof (Rle_abs (- x)). rewrite Rabs_Ropp in *. lra. Qed.

Section R.
Variables (f : fmt).
Hypothesis Hw : fmt_wide f.
Let e := eps f.
Lemma e_pos : 0 < e.
Proof. unfold e, eps. rewrite <- Q2R_0. apply Qlt_Rlt. apply p2_pos. Qed.
Lemma e_le : (20 <= prec f)%Z -> e <= 1 / 524288.
Proof.
  intro H. unfold e, eps. replace (1 / 524288) with (Q2R (p2 (-19))) by (unfold p2, Q2R; cbn; field). apply Q2R_le. apply p2_le. lia.
Qed.

(* rounding *)
Lemma rr : forall h md x B, (prec f <= prec h)%Z -> (emin h <= emin f)%Z -> - B <= Q2R x -> Q2R x <= B ->
  Q2R x - e * (B + 1) <= Q2R (fround h md x) /\ Q2R (fround h md x) <= Q2R x + e * (B + 1).
Proof.
  intros h md x B HP HE B1 B2.
  assert (U: (p2 (fexp h x) <= Qabs x * p2 (1 - prec f) + p2 (1 - prec f))%Q).
  { assert (FE: fexp h x = fexp h (Qabs x)).
    { unfold fexp. assert (QB: Qeq_bool (Qabs x) 0 = Qeq_bool x 0).
      { destruct (Qeq_bool x 0) eqn:E.
        - apply Qeq_bool_eq in E. apply Qeq_eq_bool. rewrite E. reflexivity.
        - destruct (Qeq_bool (Qabs x) 0) eqn:E2; [|reflexivity]. exfalso. apply Qeq_bool_eq in E2. apply Qeq_bool_neq in E. apply E.
          assert (A: (Qabs x <= 0)%Q) by (rewrite E2; apply Qle_refl). apply abs_le_inv in A. destruct A as [A1 A2]. apply Qle_antisym; [exact A2|]. exact A1. }
      rewrite QB. destruct (Qeq_bool x 0); [reflexivity|]. assert (AA: Qabs (Qabs x) = Qabs x) by (destruct x as [[|n|n] d]; reflexivity). rewrite AA. reflexivity. }
    rewrite FE. pose proof (Qabs_nonneg x) as AN. pose proof (ulp_gen h (Qabs x) AN) as G.
    assert (P1: (p2 (1 - prec h) <= p2 (1 - prec f))%Q) by (apply p2_le; lia).
    assert (P2: (p2 (emin h) <= p2 (1 - prec f))%Q) by (apply p2_le; destruct Hw; lia).
    apply Qle_trans with (1 := G). apply Qplus_le_compat; [|exact P2]. rewrite !(Qmult_comm (Qabs x)). apply Qmult_le_compat_r; assumption. }
  pose proof (rnd_err h md x) as [A C]. apply Qlt_Rlt in A, C. rewrite Q2R_minus in A. rewrite Q2R_plus in C.
  apply Q2R_le in U. rewrite Q2R_plus, Q2R_mult in U. fold (eps f) in U. fold e in U. pose proof e_pos as EP.
  assert (AB: Q2R (Qabs x) <= B).
  { destruct (Qlt_le_dec x 0) as [L|L].
    - assert (E: (Qabs x == - x)%Q) by (apply Qabs_neg; apply Qlt_le_weak; exact L). apply Qeq_eqR in E. rewrite E, Q2R_opp. lra.
    - assert (E: (Qabs x == x)%Q) by (apply Qabs_pos; exact L). apply Qeq_eqR in E. rewrite E. lra. }
  assert (M: Q2R (Qabs x) * e <= B * e) by (apply Rmult_le_compat_r; lra). lra.
Qed.
(* relative error *)
Lemma rrel : forall h md x, (prec f <= prec h)%Z -> (p2 (emin h + prec h - 1) <= x)%Q ->
  (1 - e) * Q2R x <= Q2R (fround h md x) /\ Q2R (fround h md x) <= (1 + e) * Q2R x.
Proof.
  intros h md x HP HX. pose proof (p2_pos (emin h + prec h - 1)) as PP. pose proof (ulp_rel h x HX) as U.
  assert (P1: (p2 (1 - prec h) <= p2 (1 - prec f))%Q) by (apply p2_le; lia).
  assert (X0: (0 <= x)%Q) by (apply Qlt_le_weak, Qlt_le_trans with (1 := PP); exact HX).
  assert (U2: (p2 (fexp h x) <= x * p2 (1 - prec f))%Q). { apply Qle_trans with (1 := U). rewrite !(Qmult_comm x). apply Qmult_le_compat_r; assumption. }
  apply Q2R_le in U2. rewrite Q2R_mult in U2. fold (eps f) in U2. fold e in U2.
  pose proof (rnd_err h md x) as [A C]. apply Qlt_Rlt in A, C. rewrite Q2R_minus in A. rewrite Q2R_plus in C. lra.
Qed.
End R.

(* ln near 1 *)
Lemma ln_1p : forall d x, 0 <= d -> d <= 1 / 2 -> 1 - d <= x -> x <= 1 + d -> - (2 * d) <= ln x /\ ln x <= d.
Proof.
  intros d x D0 D1 X0 X1. assert (XP: 0 < x) by lra. split.
  - apply ln_ge_of. apply Rle_trans with (1 - d); [|exact X0].
    pose proof (exp_ineq1_le (2 * d)) as E. rewrite exp_Ropp. pose proof (exp_pos (2 * d)) as EP.
    apply Rmult_le_reg_r with (exp (2 * d)); [exact EP|]. rewrite Rinv_l by lra.
    assert ((1 - d) * (1 + 2 * d) <= (1 - d) * exp (2 * d)) by (apply Rmult_le_compat_l; lra). nra.
  - apply ln_le_of; [exact XP|]. pose proof (exp_ineq1_le d). lra.
Qed.
Lemma ln_rel : forall d x y, 0 <= d -> d <= 1 / 2 -> 0 < y -> (1 - d) * y <= x -> x <= (1 + d) * y -> - (2 * d) <= ln x - ln y /\ ln x - ln y <= d.
Proof.
  intros d x y D0 D1 Y0 X0 X1. assert (XP: 0 < x) by nra. rewrite <- ln_div by assumption. apply ln_1p; try assumption.
  - apply Rmult_le_reg_r with y; [exact Y0|]. unfold Rdiv. rewrite Rmult_assoc, Rinv_l by lra. lra.
  - apply Rmult_le_reg_r with y; [exact Y0|]. unfold Rdiv. rewrite Rmult_assoc, Rinv_l by lra. lra.
Qed.

Lemma ppmf_ln : forall m k, 0 < m -> 0 < ppmf m k /\ ln (ppmf m k) = INR k * ln m - m - lnfact k.
Proof.
  intros m k M0. unfold ppmf, lnfact. pose proof (INR_fact_lt_0 k) as F. pose proof (exp_pos (- m)) as E. pose proof (pow_lt m k M0) as P. split.
  - apply Rmult_lt_0_compat; [apply Rmult_lt_0_compat; assumption|apply Rinv_0_lt_compat; exact F].
  - rewrite ln_div by (try apply Rmult_lt_0_compat; assumption). rewrite ln_mult by assumption. rewrite ln_exp, ln_pow by exact M0. ring.
Qed.

(* from a comparison of logarithms to one of the numbers *)
Lemma cmp_exp : forall v w E, 0 < v -> 0 < w -> ln v <= ln w + E -> v <= w * exp E.
Proof.
  intros v w E V W H. rewrite <- (exp_ln v V), <- (exp_ln w W), <- exp_plus.
  destruct (Req_dec (ln v) (ln w + E)) as [->|N]; [apply Rle_refl|]. left. apply exp_increasing. lra.
Qed.

(* the logarithms of the first factorials *)
Definition lnf_bounds : list (Z * Z) := [(0, 0); (0, 0); (54916777467707473351140422552, 54916777467707473351142519705); (141957810414472353118805639405, 141957810414472353118807736558); (251791365349887299821088581661, 251791365349887299821090678814); (379304173832834540560077049139, 379304173832834540560079146292); (521261984247306893678883737120, 521261984247306893678885834273); (675432869774817596997011121391, 675432869774817596997013218544); (840183202177940017050435534775, 840183202177940017050437631928); (1014265268071469776585765968481, 1014265268071469776585768065634)]%Z.
Definition lnf_one : Z := (2 ^ 100)%Z.
(* the numbers in [tab] are within [d] of the bounds *)
Definition tab_chk (tab : list Q) (d : Q) (i : nat) : bool :=
  match nth_error tab i, nth_error lnf_bounds i with
  | Some t, Some (lo, hi) =>
      ln_chk lnf_one 30 4 (inject_Z (zfact i)) lo hi &&
      Qle_bool (t - d) (16 * (inject_Z lo / inject_Z lnf_one)) && Qle_bool (16 * (inject_Z hi / inject_Z lnf_one)) (t + d) &&
      Qle_bool 0 t && Qle_bool t 13
  | _, _ => false
  end.
Lemma tab_chk_ok : forall tab d i, tab_chk tab d i = true -> exists t, nth_error tab i = Some t /\ 0 <= Q2R t /\ Q2R t <= 13 /\
  Q2R t - Q2R d <= lnfact i /\ lnfact i <= Q2R t + Q2R d.
Proof.
  intros tab d i H. unfold tab_chk in H. destruct (nth_error tab i) as [t|]; [|discriminate]. destruct (nth_error lnf_bounds i) as [[lo hi]|]; [|discriminate].
  rewrite !andb_true_iff, !Qle_bool_iff in H. destruct H as [[[[H1 H2] H3] H4] H5]. exists t. split; [reflexivity|].
  apply ln_chk_ok in H1. rewrite Q2R_Z, <- zfact_eq in H1. fold (lnfact i) in H1. apply Q2R_le in H2, H3, H4, H5.
  assert (OZ: ~ (inject_Z lnf_one == 0)%Q) by (vm_compute; discriminate).
  rewrite Q2R_minus, Q2R_mult, Q2R_div, !Q2R_Z in H2 by exact OZ. rewrite Q2R_plus, Q2R_mult, Q2R_div, !Q2R_Z in H3 by exact OZ.
  assert (S: Q2R 16 = 2 ^ 4) by (unfold Q2R; cbn; field). rewrite S in H2, H3. rewrite Q2R_0 in H4.
  assert (T: Q2R 13 = 13) by (unfold Q2R; cbn; field). rewrite T in H5. lra.
Qed.

Lemma po_tab_ok : forall i, (i < 10)%nat -> exists t, nth_error po_table i = Some t /\ 0 <= Q2R t /\ Q2R t <= 13 /\
  Q2R t - / 2 ^ 49 <= lnfact i /\ lnfact i <= Q2R t + / 2 ^ 49.
Proof.
  intros i Hi.
  assert (A: forallb (tab_chk po_table (1 # 562949953421312)) (seq 0 10) = true) by (vm_compute; reflexivity).
  rewrite forallb_forall in A. specialize (A i). rewrite in_seq in A. specialize (A ltac:(lia)). apply tab_chk_ok in A.
  assert (E: Q2R (1 # 562949953421312) = / 2 ^ 49). { unfold Q2R. cbn [Qnum Qden]. replace (2 ^ 49) with 562949953421312 by (cbn; ring). field. }
  rewrite E in A. exact A.
Qed.

Section S.
Variables (f g : fmt) (md : rmode) (ti : ity) (lg sq : Q -> Q) (K : R) (M : Q).
Hypothesis Hf : fmt_ok f.
Hypothesis Hg : fmt_ok g.
Hypothesis Hw : fmt_wide f.
Hypothesis Pf : (20 <= prec f)%Z.
Hypothesis Pg : (prec f <= prec g)%Z.
Hypothesis Eg : (emin g <= emin f)%Z.
Hypothesis Hti : (32 <= bits ti)%Z.
Hypothesis K0 : 0 <= K.
Hypothesis K1 : K * eps f <= 1 / 8.
Hypothesis HL : log_ok f K lg.
Hypothesis RM : representable f M.
Hypothesis M0 : (10 <= M)%Q.
Local Notation rnd := (fround f md).
Local Notation rg := (fround g md).
Local Notation e := (eps f).
Local Notation m := (Q2R M).

Lemma m_ge : 10 <= m.
Proof. replace 10 with (Q2R 10) by (unfold Q2R; cbn; field). apply Q2R_le. exact M0. Qed.
Lemma rrf : forall x B, - B <= Q2R x -> Q2R x <= B -> Q2R x - e * (B + 1) <= Q2R (rnd x) /\ Q2R (rnd x) <= Q2R x + e * (B + 1).
Proof. intros. apply rr; try assumption; lia. Qed.
Lemma rrg : forall x B, - B <= Q2R x -> Q2R x <= B -> Q2R x - e * (B + 1) <= Q2R (rg x) /\ Q2R (rg x) <= Q2R x + e * (B + 1).
Proof. intros. apply rr; try assumption; lia. Qed.
Lemma ln_m : 0 <= ln m.
Proof. pose proof m_ge. rewrite <- ln_1. left. apply ln_increasing; lra. Qed.

Lemma small_ok : forall v k, (0 < v)%Q -> representable f v -> (0 <= k < 10)%Z -> (10 <= imax ti)%Z ->
  exists ok, po_accept_small f md ti lg M v k = Some ok /\
  let E := e * (K * Rabs (ln (Q2R v)) + (K + 7) * (IZR k * ln m + m)) + / 2 ^ 49 in
  if ok then Q2R v <= ppmf m (Z.to_nat k) * exp E else ppmf m (Z.to_nat k) <= Q2R v * exp E.
Proof.
  intros v k V0 RV Hk HI. unfold po_accept_small. pose proof (imin_le_0 ti Hti). rewrite to_int_Z by lia. cbn [bind].
  unfold po_logfact. destruct (Z.leb_spec 0 k); [|lia]. destruct (po_tab_ok (Z.to_nat k) ltac:(lia)) as (t & ET & T0 & T1 & T2 & T3). rewrite ET. cbn [option_map bind].
  eexists. split; [reflexivity|]. pose proof m_ge as MG. pose proof ln_m as LM. pose proof (e_pos f) as EP. pose proof (e_le f Pf) as E1.
  assert (NV: Qle_bool v 0 = false). { destruct (Qle_bool v 0) eqn:Q; [|reflexivity]. apply Qle_bool_iff in Q. exfalso. apply (Qlt_not_le _ _ V0 Q). }
  rewrite NV. cbv zeta.
  pose proof (HL M ltac:(apply Qlt_le_trans with 10%Q; [reflexivity|exact M0]) RM) as LE. rewrite (Rabs_right (ln m)) in LE by lra. apply Rabs_le_inv in LE.
  set (l := Q2R (lg M)) in *. set (L := ln m) in *. assert (KK: 0 <= IZR k) by (apply (IZR_le 0); lia).
  set (A := IZR k * L). assert (A0: 0 <= A) by (apply Rmult_le_pos; assumption).
  set (x0 := (inject_Z k * lg M)%Q). assert (X0: Q2R x0 = IZR k * l) by (unfold x0; rewrite Q2R_mult, Q2R_Z; reflexivity).
  assert (D0: A - K * e * A <= IZR k * l /\ IZR k * l <= A + K * e * A).
  { unfold A. split.
    - replace (IZR k * L - K * e * (IZR k * L)) with (IZR k * (L - K * e * L)) by ring. apply Rmult_le_compat_l; lra.
    - replace (IZR k * L + K * e * (IZR k * L)) with (IZR k * (L + K * e * L)) by ring. apply Rmult_le_compat_l; lra. }
  assert (KA: K * e * A <= 1 / 8 * A) by (apply Rmult_le_compat_r; assumption). assert (KA0: 0 <= K * e * A) by (apply Rmult_le_pos; [apply Rmult_le_pos; lra|exact A0]).
  assert (EA: e * A <= 1 / 524288 * A) by (apply Rmult_le_compat_r; assumption). assert (EA0: 0 <= e * A) by (apply Rmult_le_pos; lra).
  assert (EM: e * m <= 1 / 524288 * m) by (apply Rmult_le_compat_r; lra). assert (EM0: e * 10 <= e * m) by (apply Rmult_le_compat_l; lra).
  destruct (rrf x0 (9 / 8 * A)) as [B1 B2]; [lra|lra|]. set (x1 := rnd x0) in *.
  destruct (rrf (x1 - M) (2 * A + m + 1)) as [C1 C2]; [rewrite Q2R_minus; lra|rewrite Q2R_minus; lra|]. rewrite Q2R_minus in C1, C2. set (x2 := rnd (x1 - M)) in *.
  destruct (rrf t 13) as [D1 D2]; [lra|lra|]. set (lf := rnd t) in *.
  destruct (rrf (x2 - lf) (2 * A + 2 * m + 15)) as [F1 F2]; [rewrite Q2R_minus; lra|rewrite Q2R_minus; lra|]. rewrite Q2R_minus in F1, F2. set (r := rnd (x2 - lf)) in *.
  assert (VP: 0 < Q2R v) by (rewrite <- Q2R_0; apply Qlt_Rlt; exact V0).
  pose proof (HL v V0 RV) as LV. apply Rabs_le_inv in LV. set (lv := Q2R (lg v)) in *. set (V := ln (Q2R v)) in *.
  destruct (ppmf_ln m (Z.to_nat k) ltac:(lra)) as [PP PL].
  assert (IK: INR (Z.to_nat k) = IZR k) by (rewrite INR_IZR_INZ, Z2Nat.id by lia; reflexivity). rewrite IK in PL. fold L A in PL.
  assert (EE: e * (K * Rabs V + (K + 7) * (A + m)) = K * e * Rabs V + K * e * A + K * (e * m) + 7 * (e * A) + 7 * (e * m)) by ring. rewrite EE.
  assert (KM: 0 <= K * (e * m)) by (apply Rmult_le_pos; lra).
  destruct (Qle_bool (lg v) r) eqn:Q.
  - apply Qle_bool_iff in Q. apply Q2R_le in Q. fold lv in Q. apply cmp_exp; [exact VP|exact PP|]. fold V. rewrite PL. lra.
  - assert (Q': (r <= lg v)%Q). { apply Qlt_le_weak. apply Qnot_le_lt. intro Z. apply Qle_bool_iff in Z. congruence. }
    apply Q2R_le in Q'. fold lv in Q'. apply cmp_exp; [exact PP|exact VP|]. fold V. rewrite PL. lra.
Qed.
End S.
