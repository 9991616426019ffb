(* weibull_distribution, extreme_value_distribution, cauchy_distribution *)
From Coq Require Import Reals Lqa Lra Qreals Rpower Ratan Machin.
From Verif Require Import Base ProgModel ProgSpec ProgProofs UIntSpec FloatModel FloatSpec FloatProofs RealModel UniProofs BinModel BinSpec PoisRSpec Pois3Proofs Zig4Proofs InvModel InvSpec Inv1Proofs Inv2Proofs Inv3Proofs.
Ltac Zify.zify_post_hook ::= idtac.
Open Scope R_scope.
Ltac ql := Lqa.lra.

(* a rational sum below or above pi/4 *)
Fixpoint qpow (x : Q) (n : nat) : Q := match n with O => 1%Q | S k => (x * qpow x k)%Q end.
Definition qterm (n : nat) : Q := (qpow (-1) n * (2 * (qpow (1 # 3) (2 * n + 1) / inject_Z (Z.of_nat (2 * n + 1))) + qpow (1 # 7) (2 * n + 1) / inject_Z (Z.of_nat (2 * n + 1))))%Q.
Fixpoint qsum (n : nat) : Q := match n with O => Qred (qterm 0) | S k => Qred (qsum k + qterm (S k)) end.
Lemma qpow_R : forall x n, Q2R (qpow x n) = Q2R x ^ n.
Proof. intros x n. induction n as [|n IH]; cbn [qpow pow]; [apply Q2R_1|]. rewrite Q2R_mult, IH. reflexivity. Qed.
Lemma Qred_R : forall x, Q2R (Qred x) = Q2R x.
Proof. intro x. apply Qeq_eqR. apply Qred_correct. Qed.
Lemma qterm_R : forall n, Q2R (qterm n) = tg_alt PI_2_3_7_tg n.
Proof.
  intro n. unfold qterm, tg_alt, PI_2_3_7_tg, Ratan_seq. assert (NZ: ~ (inject_Z (Z.of_nat (2 * n + 1)) == 0)%Q).
  { unfold Qeq. cbn [inject_Z Qnum Qden]. rewrite Nat2Z.inj_add, Nat2Z.inj_mul. lia. }
  rewrite Q2R_mult, qpow_R, Q2R_plus, Q2R_mult, !Q2R_div by exact NZ. rewrite !qpow_R, Q2R_Z, INR_IZR_INZ.
  replace (Q2R (-1)) with (-1) by (unfold Q2R; cbn; field). replace (Q2R 2) with 2 by (unfold Q2R; cbn; field).
  replace (Q2R (1 # 3)) with (/ 3) by (unfold Q2R; cbn; field). replace (Q2R (1 # 7)) with (/ 7) by (unfold Q2R; cbn; field). reflexivity.
Qed.
Lemma qsum_R : forall n, Q2R (qsum n) = sum_f_R0 (tg_alt PI_2_3_7_tg) n.
Proof. induction n as [|n IH]; cbn [qsum sum_f_R0]; rewrite Qred_R; [apply qterm_R|]. rewrite Q2R_plus, IH, qterm_R. reflexivity. Qed.
Lemma pi_gt : forall q, (q < 4 * qsum 17)%Q -> Q2R q < PI.
Proof.
  intros q H. apply Qlt_Rlt in H. rewrite Q2R_mult, qsum_R in H. destruct (PI_2_3_7_ineq 8) as [A _]. change (S (2 * 8)) with 17%nat in A.
  replace (Q2R 4) with 4 in H by (unfold Q2R; cbn; field). lra.
Qed.
Lemma pi_lt : forall q, (4 * qsum 16 < q)%Q -> PI < Q2R q.
Proof.
  intros q H. apply Qlt_Rlt in H. rewrite Q2R_mult, qsum_R in H. destruct (PI_2_3_7_ineq 8) as [_ A]. change (2 * 8)%nat with 16%nat in A.
  replace (Q2R 4) with 4 in H by (unfold Q2R; cbn; field). lra.
Qed.
Lemma pi_double : Q2R (cau_pi ieee_double RNE) < PI.
Proof. apply pi_gt. vm_compute. reflexivity. Qed.
Lemma pi_single : PI < Q2R (cau_pi ieee_single RNE).
Proof. apply pi_lt. vm_compute. reflexivity. Qed.
Lemma pi_3 : 3 < PI.
Proof. pose proof PI2_3_2. lra. Qed.

Section V.
Variables (f : fmt) (md : rmode) (K : R).
Hypothesis Hf : fmt_ok f.
Hypothesis Hp : (4 <= prec f)%Z.
Hypothesis HK : 0 <= K.
Hypothesis HKe : K * eps f <= 1 / 8.
Local Notation e := (eps f).
Local Notation t := (tiny f).
Local Notation rnd := (fround f md).
Local Notation kp := (K * eps f).

(* sums with a last rounding *)
Lemma add_err : forall x m y z d, Q2R x = m + y -> Rabs (y - z) <= d -> Rabs (Q2R (rnd x) - (m + z)) <= d * (1 + e) + e * (Rabs m + Rabs z) + t.
Proof.
  intros x m y z d EX H. pose proof (rt f md x) as R. pose proof (e_pos f) as E0.
  assert (XB: Rabs (Q2R x) <= Rabs m + Rabs z + d).
  { rewrite EX. replace (m + y) with (m + (z + (y - z))) by ring. apply Rle_trans with (1 := Rabs_triang _ _). pose proof (Rabs_triang z (y - z)). lra. }
  pose proof (Rmult_le_compat_l e _ _ ltac:(lra) XB) as EXB.
  replace (Q2R (rnd x) - (m + z)) with ((Q2R (rnd x) - Q2R x) + (y - z)) by (rewrite EX; ring). apply Rle_trans with (1 := Rabs_triang _ _). lra.
Qed.
Lemma mul_err : forall x s y z k, Q2R x = s * y -> 0 <= s -> Rabs (y - z) <= k -> Rabs (Q2R (rnd x) - s * z) <= s * k * (1 + e) + e * (s * Rabs z) + t.
Proof.
  intros x s y z k EX S0 H. pose proof (rt f md x) as R. pose proof (e_pos f) as E0.
  assert (YB: Rabs y <= Rabs z + k). { replace y with (z + (y - z)) at 1 by ring. apply Rle_trans with (1 := Rabs_triang _ _). lra. }
  assert (XB: Rabs (Q2R x) <= s * (Rabs z + k)) by (rewrite EX, Rabs_mult, (Rabs_pos_eq s S0); apply Rmult_le_compat_l; assumption).
  pose proof (Rmult_le_compat_l e _ _ ltac:(lra) XB) as EXB.
  assert (D: Rabs (s * y - s * z) <= s * k) by (rewrite <- Rmult_minus_distr_l, Rabs_mult, (Rabs_pos_eq s S0); apply Rmult_le_compat_l; assumption).
  replace (Q2R (rnd x) - s * z) with ((Q2R (rnd x) - Q2R x) + (s * y - s * z)) by (rewrite EX; ring). apply Rle_trans with (1 := Rabs_triang _ _). lra.
Qed.

(* ---- cauchy ---- *)
Section C.
Variable tn : Q -> Q.
Hypothesis HT : tan_ok f K tn.
Let p := cau_pi f md.
Lemma p_le : (p <= 4)%Q /\ (2 <= p)%Q /\ representable f p.
Proof.
  assert (R4: representable f 4) by (apply (repr_p2 f Hf 2); destruct Hf; lia). assert (R2: representable f 2) by (apply (repr_p2 f Hf 1); destruct Hf; lia).
  split; [apply repr_rnd_le; [exact Hf|exact R4|vm_compute; discriminate]|]. split; [apply repr_rnd_ge; [exact Hf|exact R2|vm_compute; discriminate]|apply rnd_repr; exact Hf].
Qed.
Lemma half_p : representable f (p * (1 # 2)).
Proof.
  destruct p_le as (_ & P2 & (m & x & Hx & Hm & EQ)). destruct Hf as [HP HE].
  assert (G: (emin f < x)%Z).
  { destruct (Z_lt_le_dec (emin f) x) as [G|G]; [exact G|exfalso]. assert (x = emin f) by lia. subst x. pose proof (p2_pos (emin f)) as P0.
    assert (L: (inject_Z m * p2 (emin f) <= inject_Z (2 ^ prec f) * p2 (emin f))%Q) by (apply mul_le_compat; [exact P0|apply injZ_le; lia]).
    rewrite <- EQ in L. rewrite <- p2_Z in L by lia. rewrite <- p2_add in L. pose proof (p2_le (prec f + emin f) 0 ltac:(lia)) as L2. change (p2 0) with 1%Q in L2. ql. }
  exists m, (x - 1)%Z. split; [lia|]. split; [exact Hm|]. rewrite EQ. replace x with (x - 1 + 1)%Z at 1 by lia. rewrite p2_add, p2_1. ring.
Qed.
Lemma arg_bounds : forall u, representable f u -> (0 <= u)%Q -> (u <= 1)%Q -> (- (p * (1 # 2)) <= cau_arg f md u)%Q /\ (cau_arg f md u <= p * (1 # 2))%Q.
Proof.
  intros u RU U0 U1. destruct p_le as (P4 & P2 & RP). pose proof half_p as RH. unfold cau_arg. fold p.
  assert (RHF: representable f (1 # 2)) by (apply (repr_p2 f Hf (-1)); destruct Hf; lia).
  assert (NEG: forall x, representable f x -> representable f (- x)).
  { intros x (m & x0 & A & B & C). exists (- m)%Z, x0. split; [exact A|]. split; [rewrite Z.abs_opp; exact B|]. rewrite C, inject_Z_opp. ring. }
  assert (H0: (- (1 # 2) <= rnd (u - (1 # 2)))%Q) by (apply repr_rnd_ge; [exact Hf|apply NEG; exact RHF|ql]).
  assert (H1: (rnd (u - (1 # 2)) <= 1 # 2)%Q) by (apply repr_rnd_le; [exact Hf|exact RHF|ql]). set (h := rnd (u - (1 # 2))) in *.
  split.
  - apply repr_rnd_ge; [exact Hf|apply NEG; exact RH|]. setoid_replace (- (p * (1 # 2)))%Q with (- (1 # 2) * p)%Q by ring. rewrite (Qmult_comm p h). apply mul_le_compat; [ql|exact H0].
  - apply repr_rnd_le; [exact Hf|exact RH|]. rewrite !(Qmult_comm p). apply mul_le_compat; [ql|exact H1].
Qed.
Lemma arg_err : forall u, representable f u -> (0 <= u)%Q -> (u <= 1)%Q ->
  Rabs (1 / 2 + Q2R (cau_arg f md u) / PI - Q2R u) <= 2 * e + 2 * t + Rabs (Q2R p - PI).
Proof.
  intros u RU U0 U1. destruct p_le as (P4 & P2 & RP). unfold cau_arg. fold p. pose proof (e_pos f) as E0. pose proof (tiny_pos f) as T0. pose proof pi_3 as PI3. pose proof PI_4 as PI4.
  assert (RHF: representable f (1 # 2)) by (apply (repr_p2 f Hf (-1)); destruct Hf; lia).
  pose proof (rt f md (u - (1 # 2))) as A. rewrite Q2R_minus in A. replace (Q2R (1 # 2)) with (1 / 2) in A by (unfold Q2R; cbn; field).
  assert (U0R: 0 <= Q2R u) by (rewrite <- Q2R_0; apply Q2R_le; exact U0). assert (U1R: Q2R u <= 1) by (rewrite <- Q2R_1; apply Q2R_le; exact U1).
  assert (UH: Rabs (Q2R u - 1 / 2) <= 1 / 2) by (apply Rabs_le; lra).
  assert (HB: Rabs (Q2R (rnd (u - (1 # 2)))) <= 1 / 2).
  { replace (1 / 2) with (Q2R (1 # 2)) by (unfold Q2R; cbn; field). assert (NEG: representable f (- (1 # 2))) by (destruct RHF as (m & x0 & B1 & B2 & B3); exists (- m)%Z, x0; split; [exact B1|]; split; [rewrite Z.abs_opp; exact B2|]; rewrite B3, inject_Z_opp; ring).
    apply Rabs_le. rewrite <- Q2R_opp. split; apply Q2R_le; [apply repr_rnd_ge; [exact Hf|exact NEG|ql]|apply repr_rnd_le; [exact Hf|exact RHF|ql]]. }
  set (h := rnd (u - (1 # 2))) in *. set (x := Q2R u - 1 / 2) in *.
  assert (HX: Rabs (Q2R h - x) <= e / 2 + t) by (pose proof (Rmult_le_compat_l e _ _ ltac:(lra) UH); lra).
  pose proof (rt f md (p * h)) as B. rewrite Q2R_mult in B. pose proof (Q2R_le _ _ P4) as P4R. pose proof (Q2R_le _ _ P2) as P2R.
  replace (Q2R 4) with 4 in P4R by (unfold Q2R; cbn; field). replace (Q2R 2) with 2 in P2R by (unfold Q2R; cbn; field).
  set (pr := Q2R p) in *. set (th := Q2R (rnd (p * h))) in *. set (hr := Q2R h) in *.
  assert (PH: Rabs (pr * hr) <= 2) by (rewrite Rabs_mult, (Rabs_pos_eq pr) by lra; replace 2 with (4 * (1 / 2)) by field; apply Rmult_le_compat; try lra; apply Rabs_pos).
  assert (B2: Rabs (th - pr * hr) <= 2 * e + t) by (pose proof (Rmult_le_compat_l e _ _ ltac:(lra) PH); lra).
  assert (B3: Rabs ((pr - PI) * hr) <= Rabs (pr - PI) * (1 / 2)) by (rewrite Rabs_mult; apply Rmult_le_compat_l; [apply Rabs_pos|exact HB]).
  assert (B4: Rabs (PI * (hr - x)) <= 4 * (e / 2 + t)) by (rewrite Rabs_mult, (Rabs_pos_eq PI) by lra; apply Rmult_le_compat; try lra; apply Rabs_pos).
  assert (TOT: Rabs (th - PI * x) <= 4 * e + 5 * t + Rabs (pr - PI) * (1 / 2)).
  { replace (th - PI * x) with ((th - pr * hr) + ((pr - PI) * hr + PI * (hr - x))) by ring. apply Rle_trans with (1 := Rabs_triang _ _). pose proof (Rabs_triang ((pr - PI) * hr) (PI * (hr - x))). lra. }
  replace (1 / 2 + th / PI - Q2R u) with ((th - PI * x) / PI) by (unfold x; field; lra).
  unfold Rdiv. rewrite Rabs_mult, (Rabs_pos_eq (/ PI)) by (left; apply Rinv_0_lt_compat; lra).
  apply Rmult_le_reg_r with PI; [lra|]. rewrite Rmult_assoc, Rinv_l, Rmult_1_r by lra.
  pose proof (Rabs_pos (pr - PI)) as AP. set (g := Rabs (pr - PI)) in *.
  assert (L: (2 * e + 2 * t + g) * 3 <= (2 * e + 2 * t + g) * PI) by (apply Rmult_le_compat_l; lra). lra.
Qed.
Lemma cau_main : forall m s u, representable f u -> (0 <= u)%Q -> (u <= 1)%Q -> (0 < s)%Q -> Q2R p < PI ->
  exists z u', cau_cdf (Q2R m) (Q2R s) z = u' /\ 0 < u' < 1 /\ Rabs (u' - Q2R u) <= 2 * e + 2 * t + Rabs (Q2R p - PI) /\
    Rabs (Q2R (cau_val f md tn m s u) - z) <= (2 * K + 3) * e * Rabs (z - Q2R m) + e * Rabs (Q2R m) + 3 * t.
Proof.
  intros m s u RU U0 U1 S0 HPI. pose proof (arg_err u RU U0 U1) as AE. destruct (arg_bounds u RU U0 U1) as [A1 A2]. destruct p_le as (P4 & P2 & RP).
  apply Q2R_le in A1, A2. rewrite Q2R_opp, Q2R_mult in A1. rewrite Q2R_mult in A2. replace (Q2R (1 # 2)) with (1 / 2) in * by (unfold Q2R; cbn; field).
  unfold cau_val. assert (RT: representable f (cau_arg f md u)) by (apply rnd_repr; exact Hf). set (th := cau_arg f md u) in *.
  assert (TB: - (PI / 2) < Q2R th < PI / 2) by lra. assert (CP: 0 < cos (Q2R th)) by (apply cos_gt_0; lra).
  pose proof (HT th RT ltac:(lra)) as TE. set (tt := tan (Q2R th)) in *. assert (SR: 0 < Q2R s) by (rewrite <- Q2R_0; apply Qlt_Rlt; exact S0).
  pose proof pi_3 as PI3. exists (Q2R m + Q2R s * tt), (1 / 2 + Q2R th / PI). split.
  { unfold cau_cdf. replace ((Q2R m + Q2R s * tt - Q2R m) / Q2R s) with tt by (field; lra). unfold tt. rewrite atan_tan by exact TB. reflexivity. }
  split.
  { assert (-(1/2) < Q2R th / PI < 1 / 2); [|lra]. assert (EA: Q2R th / PI * PI = Q2R th) by (field; lra). split; (apply Rmult_lt_reg_r with PI; [lra|]); rewrite EA; lra. }
  split; [exact AE|].
  pose proof (mul_err (s * tn th) (Q2R s) _ tt _ (Q2R_mult _ _) ltac:(lra) TE) as ME.
  pose proof (add_err (m + rnd (s * tn th)) (Q2R m) _ _ _ (Q2R_plus _ _) ME) as AD.
  replace (Q2R m + Q2R s * tt - Q2R m) with (Q2R s * tt) by ring. apply Rle_trans with (1 := AD).
  rewrite (Rabs_mult (Q2R s) tt), (Rabs_pos_eq (Q2R s)) by lra. pose proof (Rabs_pos tt) as TP. assert (W0: 0 <= Q2R s * Rabs tt) by (apply Rmult_le_pos; lra).
  pose proof (e_pos f) as E0. pose proof (te_le f Hp) as E1. pose proof (tiny_pos f) as T0. assert (K0: 0 <= kp) by (apply Rmult_le_pos; lra).
  set (w := Q2R s * Rabs tt) in *. replace (Q2R s * (kp * Rabs tt)) with (kp * w) by (unfold w; ring). replace ((2 * K + 3) * e * w) with (2 * (kp * w) + 3 * (e * w)) by ring.
  pose proof (Rmult_le_pos kp w K0 W0) as KW. pose proof (Rmult_le_pos e w ltac:(lra) W0) as EW. pose proof (Rmult_le_compat_r (kp * w) e (1 / 8) KW E1) as EKW. pose proof (Rmult_le_compat_r (e * w) e (1 / 8) EW E1) as EEW.
  pose proof (Rmult_le_compat_r t e (1 / 8) ltac:(lra) E1) as ET. pose proof (Rmult_le_pos e (kp * w) ltac:(lra) KW) as EKW0. pose proof (Rmult_le_compat_r (e * (kp * w)) e (1 / 8) EKW0 E1) as EEKW.
  replace ((kp * w * (1 + e) + e * w + t) * (1 + e)) with (kp * w + 2 * (e * (kp * w)) + e * (e * (kp * w)) + e * w + e * (e * w) + t + e * t) by ring. lra.
Qed.
End C.

(* ---- extreme value ---- *)
Section L.
Variable lg : Q -> Q.
Hypothesis HL : log_ok f K lg.
Hypothesis HF : log_fl f lg.
Lemma repr_opp : forall x, representable f x -> representable f (- x).
Proof.
  intros x (m & x0 & A & B & C). exists (- m)%Z, x0. split; [exact A|]. split; [rewrite Z.abs_opp; exact B|]. rewrite C, inject_Z_opp. ring.
Qed.
Lemma nlg : forall x, (0 < x)%Q -> (x < 1)%Q -> representable f x ->
  (0 < - lg x)%Q /\ representable f (- lg x) /\ (1 - kp) * - ln (Q2R x) <= Q2R (- lg x) /\ Q2R (- lg x) <= (1 + kp) * - ln (Q2R x) /\ 0 < - ln (Q2R x).
Proof.
  intros x X0 X1 RX. destruct (lg_b f lg K HL x X0 ltac:(ql) RX) as [A B].
  assert (XR: 0 < Q2R x) by (rewrite <- Q2R_0; apply Qlt_Rlt; exact X0). assert (XR1: Q2R x < 1) by (rewrite <- Q2R_1; apply Qlt_Rlt; exact X1).
  assert (LN: ln (Q2R x) < 0) by (rewrite <- ln_1; apply ln_increasing; assumption). rewrite Q2R_opp.
  pose proof (Rmult_le_compat_r (- ln (Q2R x)) kp (1 / 8) ltac:(lra) HKe) as KL.
  split; [|split; [apply repr_opp; apply HF; assumption|lra]].
  assert (H: (lg x < 0)%Q) by (apply Rlt_Qlt; rewrite Q2R_0; lra). ql.
Qed.
Lemma exv_main : forall a b u, representable f u -> (0 < u)%Q -> (u < 1)%Q -> (0 < b)%Q ->
  exists v z, exv_val f md lg a b u = Some (Some v) /\ exv_cdf (Q2R a) (Q2R b) z = Q2R u /\
    Rabs (Q2R v - z) <= (4 * K + 3) * e * (Rabs (Q2R a) + Q2R b + Rabs (z - Q2R a)) + 3 * t.
Proof.
  intros a b u RU U0 U1 B0. destruct (nlg u U0 U1 RU) as (Y0 & RY & Y1 & Y2 & N0). set (N := - ln (Q2R u)) in *. set (y := (- lg u)%Q) in *.
  unfold exv_val. destruct (Qeq_bool u 0) eqn:E1; [apply Qeq_bool_iff in E1; ql|]. destruct (Qle_bool u 0) eqn:E2; [apply Qle_bool_iff in E2; ql|].
  cbv zeta. fold y. destruct (Qle_bool y 0) eqn:E3; [apply Qle_bool_iff in E3; ql|].
  assert (UR: 0 < Q2R u) by (rewrite <- Q2R_0; apply Qlt_Rlt; exact U0). assert (BR: 0 < Q2R b) by (rewrite <- Q2R_0; apply Qlt_Rlt; exact B0).
  eexists. exists (Q2R a + - (Q2R b * ln N)). split; [reflexivity|]. split.
  { unfold exv_cdf. replace ((Q2R a - (Q2R a + - (Q2R b * ln N))) / Q2R b) with (ln N) by (field; lra). rewrite exp_ln by exact N0. unfold N. rewrite Ropp_involutive. apply exp_ln. exact UR. }
  pose proof (e_pos f) as E0. pose proof (te_le f Hp) as EL. pose proof (tiny_pos f) as T0. assert (K0: 0 <= kp) by (apply Rmult_le_pos; lra).
  destruct (ln_rel kp (Q2R y) N K0 ltac:(lra) N0 Y1 Y2) as [L1 L2]. pose proof (HL y Y0 RY) as LY. set (Ln := ln N) in *. set (ly := ln (Q2R y)) in *.
  assert (LB: Rabs ly <= Rabs Ln + 2 * kp). { replace ly with (Ln + (ly - Ln)) by ring. apply Rle_trans with (1 := Rabs_triang _ _). assert (Rabs (ly - Ln) <= 2 * kp) by (apply Rabs_le; lra). lra. }
  pose proof (Rabs_pos Ln) as LP. set (w := Rabs Ln) in *.
  assert (GE: Rabs (Q2R (lg y) - Ln) <= kp * w + 3 * kp).
  { replace (Q2R (lg y) - Ln) with ((Q2R (lg y) - ly) + (ly - Ln)) by ring. apply Rle_trans with (1 := Rabs_triang _ _). assert (Rabs (ly - Ln) <= 2 * kp) by (apply Rabs_le; lra).
    pose proof (Rmult_le_compat_l kp _ _ K0 LB). pose proof (Rmult_le_compat_l kp _ _ K0 HKe). lra. }
  pose proof (mul_err (lg y * b) (Q2R b) (Q2R (lg y)) Ln _ ltac:(rewrite Q2R_mult; ring) ltac:(lra) GE) as ME. fold w in ME.
  assert (ME2: Rabs (- Q2R (rnd (lg y * b)) - - (Q2R b * Ln)) <= Q2R b * (kp * w + 3 * kp) * (1 + e) + e * (Q2R b * w) + t).
  { replace (- Q2R (rnd (lg y * b)) - - (Q2R b * Ln)) with (- (Q2R (rnd (lg y * b)) - Q2R b * Ln)) by ring. rewrite Rabs_Ropp. exact ME. }
  pose proof (add_err (a - rnd (lg y * b)) (Q2R a) (- Q2R (rnd (lg y * b))) _ _ ltac:(rewrite Q2R_minus; ring) ME2) as AD.
  rewrite Rabs_Ropp, Rabs_mult, (Rabs_pos_eq (Q2R b)) in AD by lra. fold w in AD.
  replace (Q2R a + - (Q2R b * Ln) - Q2R a) with (- (Q2R b * Ln)) by ring. rewrite Rabs_Ropp, Rabs_mult, (Rabs_pos_eq (Q2R b)) by lra. fold w.
  apply Rle_trans with (1 := AD). pose proof (Rabs_pos (Q2R a)) as AP. set (aa := Rabs (Q2R a)) in *. set (bb := Q2R b) in *. set (bw := bb * w) in *. assert (BW: 0 <= bw) by (apply Rmult_le_pos; lra).
  replace (bb * (kp * w + 3 * kp)) with (kp * bw + 3 * (kp * bb)) by (unfold bw; ring).
  set (g := kp * bw) in *. set (h := kp * bb) in *. assert (G0: 0 <= g) by (apply Rmult_le_pos; lra). assert (H0: 0 <= h) by (apply Rmult_le_pos; lra).
  replace ((4 * K + 3) * e * (aa + bb + bw) + 3 * t) with (4 * (kp * aa) + 4 * h + 4 * g + 3 * (e * aa) + 3 * (e * bb) + 3 * (e * bw) + 3 * t) by (unfold g, h; ring).
  pose proof (Rmult_le_compat_r g e (1 / 8) G0 EL) as M1. pose proof (Rmult_le_compat_r h e (1 / 8) H0 EL) as M2. pose proof (Rmult_le_pos e g ltac:(lra) G0) as M3. pose proof (Rmult_le_pos e h ltac:(lra) H0) as M4.
  pose proof (Rmult_le_compat_r (e * g) e (1 / 8) M3 EL) as M5. pose proof (Rmult_le_compat_r (e * h) e (1 / 8) M4 EL) as M6.
  pose proof (Rmult_le_pos e bw ltac:(lra) BW) as M7. pose proof (Rmult_le_compat_r (e * bw) e (1 / 8) M7 EL) as M8. pose proof (Rmult_le_compat_r t e (1 / 8) ltac:(lra) EL) as M9.
  pose proof (Rmult_le_pos kp aa K0 AP) as M10. pose proof (Rmult_le_pos e aa ltac:(lra) AP) as M11. pose proof (Rmult_le_pos e bb ltac:(lra) ltac:(lra)) as M12.
  replace (((g + 3 * h) * (1 + e) + e * bw + t) * (1 + e) + e * (aa + bw) + t) with (g + 3 * h + 2 * (e * g) + 6 * (e * h) + e * (e * g) + 3 * (e * (e * h)) + e * bw + e * (e * bw) + t + e * t + e * aa + e * bw + t) by ring.
  clearbody g h bw aa bb. lra.
Qed.

(* ---- weibull ---- *)
Variable pw : Q -> Q -> Q.
Hypothesis HP : pow_all f K pw.
Lemma wei_one : forall a b u, (0 < a)%Q -> (p2 (emin f + prec f - 1) <= 1 / a)%Q -> (rnd (1 - u) == 1)%Q ->
  exists v, wei_val f md lg pw a b u = Some v /\ (v == 0)%Q.
Proof.
  intros a b u A0 AN E1. unfold wei_val. cbv zeta. set (x := rnd (1 - u)) in *.
  assert (RX: representable f x) by (apply rnd_repr; exact Hf).
  destruct (Qle_bool x 0) eqn:EX; [apply Qle_bool_iff in EX; ql|]. unfold fdiv. destruct (Qeq_bool a 0) eqn:EA; [apply Qeq_bool_iff in EA; ql|].
  assert (LG: (lg x == 0)%Q).
  { pose proof (HL x ltac:(ql) RX) as A. assert (XR: Q2R x = 1) by (apply Qeq_eqR in E1; rewrite E1; apply Q2R_1). rewrite XR, ln_1, Rabs_R0, Rmult_0_r, Rminus_0_r in A.
    apply eqR_Qeq. rewrite Q2R_0. destruct (Req_dec (Q2R (lg x)) 0) as [Z|Z]; [exact Z|]. pose proof (Rabs_pos_lt _ Z). lra. }
  assert (Y0: (0 < rnd (1 / a))%Q).
  { apply Qlt_le_trans with (p2 (emin f + prec f - 1)); [apply p2_pos|]. apply repr_rnd_ge; [exact Hf|apply repr_p2; [exact Hf|destruct Hf; lia]|exact AN]. }
  destruct HP as [_ P0]. pose proof (P0 (- lg x)%Q (rnd (1 / a)) ltac:(ql) Y0 (rnd_repr f md Hf _)) as PZ.
  eexists. split; [reflexivity|]. rewrite (rnd_compat f md Hf _ 0); [apply rnd_fix; [exact Hf|apply repr_0; exact Hf]|]. rewrite PZ. ring.
Qed.
Lemma wei_main : forall a b u, representable f u -> (0 <= u)%Q -> (u < 1)%Q -> (0 < a)%Q -> (0 < b)%Q -> (p2 (emin f + prec f - 1) <= 1 / a)%Q -> (rnd (1 - u) < 1)%Q ->
  exists v z a' x', wei_val f md lg pw a b u = Some v /\ (0 <= v)%Q /\ 0 < z /\ wei_sf a' (Q2R b) z = x' /\
    (1 - 2 * e) * Q2R a <= a' <= (1 + 2 * e) * Q2R a /\ 0 < x' < 1 /\ Rabs (ln x' - ln (Q2R (rnd (1 - u)))) <= kp * - ln (Q2R (rnd (1 - u))) /\
    Rabs (Q2R v - z) <= (K + 2) * e * z + 2 * t * (1 + Q2R b).
Proof.
  intros a b u RU U0 U1 A0 B0 AN X1. destruct (one_minus f md u Hf RU U0 U1) as (X0' & _ & RX). pose proof (p2_pos (- prec f)) as PP. unfold wei_val. cbv zeta. set (x := rnd (1 - u)) in *.
  assert (X0: (0 < x)%Q) by ql. destruct (Qle_bool x 0) eqn:EX; [apply Qle_bool_iff in EX; ql|]. unfold fdiv. destruct (Qeq_bool a 0) eqn:EA; [apply Qeq_bool_iff in EA; ql|].
  destruct (nlg x X0 X1 RX) as (Y0 & RY & Y1 & Y2 & N0). set (N := - ln (Q2R x)) in *. set (y := (- lg x)%Q) in *.
  pose proof (e_pos f) as E0. pose proof (te_le f Hp) as EL. pose proof (tiny_pos f) as T0. assert (K0: 0 <= kp) by (apply Rmult_le_pos; lra).
  assert (AR: 0 < Q2R a) by (rewrite <- Q2R_0; apply Qlt_Rlt; exact A0). assert (BR: 0 < Q2R b) by (rewrite <- Q2R_0; apply Qlt_Rlt; exact B0).
  destruct (rrel f f md (1 / a)%Q ltac:(lia) AN) as [I1 I2]. assert (NZ: ~ (a == 0)%Q) by (intro H; rewrite H in A0; ql). rewrite Q2R_div, Q2R_1 in I1, I2 by exact NZ. set (r := rnd (1 / a)) in *.
  assert (IA: 0 < 1 / Q2R a) by (apply Rmult_lt_0_compat; [lra|apply Rinv_0_lt_compat; exact AR]).
  assert (R0: 0 < Q2R r). { apply Rlt_le_trans with (2 := I1). apply Rmult_lt_0_compat; lra. }
  assert (R0Q: (0 < r)%Q) by (apply Rlt_Qlt; rewrite Q2R_0; exact R0).
  destruct HP as [P1 _]. destruct (P1 y r Y0 R0Q RY (rnd_repr f md Hf _)) as [PN PE].
  assert (YR: 0 < Q2R y) by (rewrite <- Q2R_0; apply Qlt_Rlt; exact Y0).
  set (W := Rpower (Q2R y) (Q2R r)) in *. assert (W0: 0 < W) by apply exp_pos.
  eexists. exists (Q2R b * W), (/ Q2R r), (exp (- Q2R y)). split; [reflexivity|].
  split; [apply rnd_nonneg; apply Qmult_le_0_compat; ql|]. split; [apply Rmult_lt_0_compat; lra|]. split.
  { unfold wei_sf. replace (Q2R b * W / Q2R b) with W by (field; lra). unfold W. rewrite Rpower_mult, Rinv_r, Rpower_1 by lra. reflexivity. }
  split.
  { assert (ER: Q2R r * / Q2R r = 1) by (apply Rinv_r; lra). assert (EA': 1 / Q2R a * Q2R a = 1) by (field; lra). set (i := / Q2R r) in *. set (rr := Q2R r) in *. set (ia := 1 / Q2R a) in *.
    assert (I0: 0 < i) by (unfold i; apply Rinv_0_lt_compat; exact R0).
    assert (Q1: (1 - e) * i <= Q2R a).
    { apply Rmult_le_reg_l with ia; [exact IA|]. rewrite EA'. replace (ia * ((1 - e) * i)) with (((1 - e) * ia) * i) by ring. apply Rle_trans with (rr * i); [apply Rmult_le_compat_r; lra|lra]. }
    assert (Q2: Q2R a <= (1 + e) * i).
    { apply Rmult_le_reg_l with ia; [exact IA|]. rewrite EA'. replace (ia * ((1 + e) * i)) with (((1 + e) * ia) * i) by ring. apply Rle_trans with (rr * i); [lra|apply Rmult_le_compat_r; lra]. }
    split.
    - apply Rmult_le_reg_r with (1 + e); [lra|]. replace ((1 - 2 * e) * Q2R a * (1 + e)) with ((1 - e - 2 * (e * e)) * Q2R a) by ring. pose proof (Rmult_le_pos e e ltac:(lra) ltac:(lra)).
      apply Rle_trans with (1 * Q2R a); [apply Rmult_le_compat_r; lra|lra].
    - apply Rmult_le_reg_r with (1 - e); [lra|]. replace ((1 + 2 * e) * Q2R a * (1 - e)) with ((1 + e - 2 * (e * e)) * Q2R a) by ring. pose proof (Rmult_le_compat_l e e (1 / 8) ltac:(lra) EL).
      apply Rle_trans with (1 * Q2R a); [lra|apply Rmult_le_compat_r; lra]. }
  split; [split; [apply exp_pos|rewrite <- exp_0; apply exp_increasing; lra]|]. split.
  { rewrite ln_exp. fold N. replace (ln (Q2R x)) with (- N) by (unfold N; ring). apply Rabs_le. lra. }
  pose proof (mul_err (b * pw y r) (Q2R b) _ W _ (Q2R_mult _ _) ltac:(lra) PE) as ME. rewrite (Rabs_pos_eq W) in ME by lra. apply Rle_trans with (1 := ME).
  set (z := Q2R b * W) in *. assert (Z0: 0 < z) by (apply Rmult_lt_0_compat; lra). set (bb := Q2R b) in *.
  replace (bb * (kp * W + t)) with (kp * z + bb * t) by (unfold z; ring). replace ((K + 2) * e * z) with (kp * z + 2 * (e * z)) by ring.
  pose proof (Rmult_le_pos e z ltac:(lra) ltac:(lra)) as EZ. pose proof (Rmult_le_compat_r (e * z) kp (1 / 8) EZ HKe) as M1. pose proof (Rmult_le_pos bb t ltac:(lra) ltac:(lra)) as BT. pose proof (Rmult_le_compat_r (bb * t) e (1 / 8) BT EL) as M2.
  replace ((kp * z + bb * t) * (1 + e)) with (kp * z + kp * (e * z) + bb * t + e * (bb * t)) by ring. lra.
Qed.
End L.
End V.

(* in single precision pi is rounded up, and u = 0 lands beyond the pole of tan *)
Lemma cau_single : forall tn K, 0 <= K -> K * eps ieee_single <= 1 / 8 -> tan_ok ieee_single K tn ->
  (0 < cau_val ieee_single RNE tn 0 1 0)%Q /\ (cau_val ieee_single RNE tn 0 1 (1 # 4) < 0)%Q.
Proof.
  intros tn K K0 KE HT. assert (Hf: fmt_ok ieee_single) by (split; cbn; lia). pose proof pi_single as PS. pose proof pi_3 as P3. pose proof PI_4 as P4.
  assert (TP: forall y, representable ieee_single y -> cos (Q2R y) <> 0 -> 1 / 2 <= tan (Q2R y) -> (1 # 8 <= tn y)%Q).
  { intros y RY C0 TY. pose proof (HT y RY C0) as A. rewrite (Rabs_pos_eq (tan (Q2R y))) in A by lra. apply Rabs_le_inv in A. pose proof (Rmult_le_compat_r (tan (Q2R y)) _ _ ltac:(lra) KE) as M.
    apply Rle_Qle. replace (Q2R (1 # 8)) with (1 / 8) by (unfold Q2R; cbn; field). lra. }
  assert (TN: forall y, representable ieee_single y -> cos (Q2R y) <> 0 -> tan (Q2R y) <= - (1 / 2) -> (tn y <= - (1 # 8))%Q).
  { intros y RY C0 TY. pose proof (HT y RY C0) as A. rewrite (Rabs_left1 (tan (Q2R y))) in A by lra. apply Rabs_le_inv in A. pose proof (Rmult_le_compat_r (- tan (Q2R y)) _ _ ltac:(lra) KE) as M.
    apply Rle_Qle. rewrite Q2R_opp. replace (Q2R (1 # 8)) with (1 / 8) by (unfold Q2R; cbn; field). lra. }
  assert (R8: representable ieee_single (1 # 8)) by (exists 1%Z, (-3)%Z; repeat split; vm_compute; discriminate).
  assert (R8n: representable ieee_single (- (1 # 8))) by (exists (-1)%Z, (-3)%Z; repeat split; vm_compute; discriminate).
  split.
  - unfold cau_val. set (y := cau_arg ieee_single RNE 0). assert (EY: (y == - (cau_pi ieee_single RNE * (1 # 2)))%Q) by (vm_compute; reflexivity).
    assert (RY: representable ieee_single y) by (apply rnd_repr; exact Hf). apply Qeq_eqR in EY. rewrite Q2R_opp, Q2R_mult in EY. replace (Q2R (1 # 2)) with (1 / 2) in EY by (unfold Q2R; cbn; field).
    assert (UP: Q2R (cau_pi ieee_single RNE) < 32 / 10) by (replace (32 / 10) with (Q2R (32 # 10)) by (unfold Q2R; cbn; field); apply Qlt_Rlt; vm_compute; reflexivity).
    set (pp := Q2R (cau_pi ieee_single RNE)) in *.
    assert (TE: tan (Q2R y) = tan (Q2R y + PI)).
    { unfold tan. rewrite neg_sin, neg_cos. assert (C: 0 < cos (Q2R y + PI)) by (apply cos_gt_0; lra). rewrite neg_cos in C. field. lra. }
    assert (TG: 1 < tan (Q2R y + PI)) by (rewrite <- tan_PI4; apply tan_increasing; lra).
    assert (C0: cos (Q2R y) <> 0). { assert (C: 0 < cos (Q2R y + PI)) by (apply cos_gt_0; lra). rewrite neg_cos in C. lra. }
    pose proof (TP y RY C0 ltac:(lra)) as L. apply Qlt_le_trans with (1 # 8); [reflexivity|].
    apply repr_rnd_ge; [exact Hf|exact R8|]. assert (L2: (1 # 8 <= fround ieee_single RNE (1 * tn y))%Q) by (apply repr_rnd_ge; [exact Hf|exact R8|ql]). ql.
  - unfold cau_val. set (y := cau_arg ieee_single RNE (1 # 4)). assert (EY: (y == - (cau_pi ieee_single RNE * (1 # 4)))%Q) by (vm_compute; reflexivity).
    assert (RY: representable ieee_single y) by (apply rnd_repr; exact Hf). apply Qeq_eqR in EY. rewrite Q2R_opp, Q2R_mult in EY. replace (Q2R (1 # 4)) with (1 / 4) in EY by (unfold Q2R; cbn; field).
    assert (UP: Q2R (cau_pi ieee_single RNE) < 32 / 10) by (replace (32 / 10) with (Q2R (32 # 10)) by (unfold Q2R; cbn; field); apply Qlt_Rlt; vm_compute; reflexivity).
    set (pp := Q2R (cau_pi ieee_single RNE)) in *.
    assert (TG: tan (Q2R y) < -1).
    { rewrite EY, tan_neg. assert (TI: tan (PI / 4) < tan (pp * (1 / 4))) by (apply tan_increasing; lra). rewrite tan_PI4 in TI. lra. }
    assert (C0: cos (Q2R y) <> 0). { assert (0 < cos (Q2R y)) by (apply cos_gt_0; lra). lra. }
    pose proof (TN y RY C0 ltac:(lra)) as L. apply Qle_lt_trans with (- (1 # 8))%Q; [|reflexivity].
    apply repr_rnd_le; [exact Hf|exact R8n|]. assert (L2: (fround ieee_single RNE (1 * tn y) <= - (1 # 8))%Q) by (apply repr_rnd_le; [exact Hf|exact R8n|ql]). ql.
Qed.
