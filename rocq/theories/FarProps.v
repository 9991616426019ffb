(* binomial_distribution by rejection: the test more than 15 from the mode
   accepts by the quotient of the probabilities. *)
From Coq Require Import Lqa Reals Lra Qreals.
From Verif Require Import Base ProgModel ProgSpec ProgProofs Disc4Proofs UIntModel UIntSpec FloatModel FloatSpec FloatProofs RealModel UniProofs BinModel BinSpec BinProofs Bin2Proofs Bin4Proofs Bin5Proofs Bin6Proofs Bin7Proofs
  PoisRSpec RExpProofs StirProofs Pois3Proofs Pois3Props Bin8Proofs Bin9Proofs Bin10Proofs Bin11Proofs Bin12Proofs FarSpec.
From Verif Require BinProps.
Ltac Zify.zify_post_hook ::= idtac.
Open Scope R_scope.

(* ---- C74 ---- *)

(* The table of fc (lines 35-47) has ln k! without the leading terms of
   Stirling's formula, within 2^-56, for one constant c; the test does not depend
   on c. *)
Theorem C74_table : forall k, (k < 10)%nat -> exists q, nth_error bn_table k = Some q /\
  Rabs (Q2R q - stir_corr (918938533204672741780 / 10 ^ 21) k) <= / 2 ^ 56.
Proof.
  intros k H. destruct (bn_tab_ok k H) as (q & E & _ & B). exists q. split; [exact E|]. unfold stir_corr. replace (918938533204672741780 / 10 ^ 21) with (Q2R hl2pi); [exact B|].
  unfold hl2pi, Q2R. cbn [Qnum Qden]. cbn [pow]. field.
Qed.
Print Assumptions C74_table.

(* fc (lines 259-268) for every k. *)
Theorem C74_fc : forall f md ti k, fmt_ok f -> fmt_wide f -> (20 <= prec f)%Z -> (32 <= bits ti)%Z -> (0 <= k)%Z -> (k + 1 <= imax ti)%Z -> (k + 1 <= 2 ^ prec f)%Z ->
  exists q, bn_fc f md ti k = Some q /\ Rabs (Q2R q - stir_corr (91893853320467267 / 10 ^ 17) (Z.to_nat k)) <= 5 * eps f + 101 / 10 ^ 12.
Proof.
  intros f md ti k Hf Hw Pf Hti K0 K1 K2. destruct (fc_ok f md ti Hf Hw Pf Hti k K0 K1 K2) as (q & E & _ & B). exists q. split; [exact E|].
  unfold stir_corr. replace (91893853320467267 / 10 ^ 17) with (Q2R c2pi); [exact B|]. unfold c2pi, Q2R. cbn [Qnum Qden]. cbn [pow]. field.
Qed.
Print Assumptions C74_fc.

(* A number k more than 15 from the mode m is rejected only if v is at least
   P(X=k)/P(X=m), up to rounding.  It is accepted only if v is at most this
   quotient, if also 2|k-m| + 2 <= (t+1)p; the quick acceptance of line 348 is not
   correct for all k, as refuted below. *)
Theorem C74_accept_partial : forall f g md ti pw sq lg K t p d b k v,
  fmt_ok f -> fmt_ok g -> fmt_wide f -> (20 <= prec f)%Z -> (prec f <= prec g)%Z -> (emin g <= emin f)%Z ->
  (emin f + 3 * prec f <= 0)%Z -> (emin g + 3 * prec g <= 0)%Z -> sqrt_ok sq -> 0 <= K -> K * eps f <= 1 / 8 -> log_ok f K lg ->
  (32 <= bits ti)%Z -> sgn ti = true -> (0 <= t < imax ti)%Z -> (t + 1 <= 2 ^ prec f)%Z ->
  representable f p -> (0 <= p)%Q -> (p <= 1)%Q -> (p == 0 \/ p2 (emin f + prec f) <= p)%Q ->
  bn_init f g md ti pw sq t p = Some d -> bn_u d = UBtrd b ->
  (0 <= k <= t)%Z -> (15 < Z.abs (k - bn_m d))%Z -> representable f v -> (0 < v)%Q ->
  let B i := Q2R (bpmf (Z.to_nat t) (psmall p) (Z.to_nat i)) in
  let y := Z.abs (k - bn_m d) in
  let E := exp (far_tol f K t (ln (Q2R v))) in
  exists ok, bn_accept_far f g md ti lg (b_r b) (b_npq b) t (bn_m d) k (inject_Z y) v = Some ok /\
    if ok then 2 * IZR y + 2 <= (IZR t + 1) * Q2R (psmall p) -> Q2R v * B (bn_m d) <= B k * E
    else B k <= Q2R v * B (bn_m d) * E.
Proof.
  intros f g md ti pw sq lg K t p d b k v Hf Hg Hw Pf Pg Eg F3 G3 Hsq HK HKe HL Hti Hs [T0 T1] TP Rp P0 P1 Pn HI HU Hk HY RV V0 B y E.
  destruct (init_btrd f g md ti pw sq t p Hf Hg Hw Pf Pg Eg Hti T0 T1 Rp P0 P1 Pn Hsq d b HI HU) as (E1 & E2 & M & NN & SP & S1 & SR & SE & _).
  pose proof (p2_pos (emin f + prec f)) as NP. assert (S0: (0 < bn_small f md p)%Q) by Lqa.lra.
  destruct (init_far f g md ti pw sq t p d b HI HU Hf Hti ltac:(lia) TP ltac:(Lqa.lra)) as (ER & EN & EM).
  set (ps := bn_small f md p) in *. set (m := bn_m d) in *.
  assert (TE: (inject_Z (t + 1) * ps == inject_Z t * ps + ps)%Q) by (rewrite inject_Z_plus; change (inject_Z 1) with 1%Q; ring).
  pose proof (mode_near f md t ps m Hf Pf F3 T0 ltac:(Lqa.lra) EM) as MN. cbv zeta in MN.
  destruct (far_ok f g md ti lg K ps t m k Hf Hg Hw Pf Pg Eg F3 G3 Hti Hs HK HKe HL S0 S1 TP T1 ltac:(Lqa.lra) ltac:(lia) Hk HY (b_r b) (b_npq b) ER EN MN v V0 RV) as (ok & O1 & O2).
  exists ok. split; [exact O1|]. 
  assert (BE: forall i, Q2R (bpmf (Z.to_nat t) ps (Z.to_nat i)) = B i) by (intro i; unfold B; apply Qeq_eqR, bpmf_compat; exact SE).
  assert (PE: Q2R ps = Q2R (psmall p)) by (apply Qeq_eqR; exact SE). rewrite !BE, PE in O2.
  assert (BP: forall i, (0 <= i <= t)%Z -> 0 < B i).
  { intros i Hi. rewrite <- BE, <- Q2R_0. apply Qlt_Rlt. apply bpmf_pos; [exact S0|Lqa.lra|lia]. }
  pose proof (BP m ltac:(lia)) as BM. pose proof (BP k Hk) as BK. assert (VP: 0 < Q2R v) by (rewrite <- Q2R_0; apply Qlt_Rlt; exact V0).
  assert (FE: far_err f K t (ln (Q2R v)) = far_tol f K t (ln (Q2R v))) by reflexivity. rewrite FE in O2.
  destruct ok.
  - intro H. specialize (O2 H). apply cmp_exp; [apply Rmult_lt_0_compat; assumption|exact BK|]. rewrite ln_mult by assumption. lra.
  - apply cmp_exp; [exact BK|apply Rmult_lt_0_compat; assumption|]. rewrite ln_mult by assumption. lra.
Qed.
Print Assumptions C74_accept_partial.

(* v = 0 is accepted, as log(0) is minus infinity. *)
Theorem C74_accept_zero : forall f g md ti pw sq lg t p d b k v,
  fmt_ok f -> fmt_ok g -> fmt_wide f -> (20 <= prec f)%Z -> (prec f <= prec g)%Z -> (emin g <= emin f)%Z ->
  (emin f + 3 * prec f <= 0)%Z -> (emin g + 3 * prec g <= 0)%Z -> sqrt_ok sq ->
  (32 <= bits ti)%Z -> sgn ti = true -> (0 <= t < imax ti)%Z -> (t + 1 <= 2 ^ prec f)%Z ->
  representable f p -> (0 <= p)%Q -> (p <= 1)%Q -> (p == 0 \/ p2 (emin f + prec f) <= p)%Q ->
  bn_init f g md ti pw sq t p = Some d -> bn_u d = UBtrd b ->
  (0 <= k <= t)%Z -> (15 < Z.abs (k - bn_m d))%Z -> (v == 0)%Q ->
  bn_accept_far f g md ti lg (b_r b) (b_npq b) t (bn_m d) k (inject_Z (Z.abs (k - bn_m d))) v = Some true.
Proof.
  intros f g md ti pw sq lg t p d b k v Hf Hg Hw Pf Pg Eg F3 G3 Hsq Hti Hs [T0 T1] TP Rp P0 P1 Pn HI HU Hk HY V0.
  destruct (init_btrd f g md ti pw sq t p Hf Hg Hw Pf Pg Eg Hti T0 T1 Rp P0 P1 Pn Hsq d b HI HU) as (E1 & E2 & M & NN & SP & S1 & SR & SE & _).
  pose proof (p2_pos (emin f + prec f)) as NP. assert (S0: (0 < bn_small f md p)%Q) by Lqa.lra.
  destruct (init_far f g md ti pw sq t p d b HI HU Hf Hti ltac:(lia) TP ltac:(Lqa.lra)) as (ER & EN & EM).
  destruct (sq_ok f g md ti (bn_small f md p) t (bn_m d) k Hf Hg Hw Pf Pg F3 G3 S0 S1 TP ltac:(Lqa.lra) ltac:(lia) Hk HY (b_npq b) EN) as (q1 & q2 & tt & Q1 & Q2 & Q3 & _).
  unfold bn_accept_far. rewrite Q1. cbn [bind]. rewrite Q2. cbn [bind]. rewrite Q3. cbn [bind].
  replace (Qle_bool v 0) with true; [reflexivity|]. symmetry. apply Qle_bool_iff. rewrite V0. apply Qle_refl.
Qed.
Print Assumptions C74_accept_zero.

Lemma ln_lim : forall x n, 0 < x -> x <= 2 ^ n -> / 2 ^ n <= x -> Rabs (ln x) <= INR n.
Proof.
  intros x n X A B. assert (L2: ln 2 < 1). { rewrite <- ln_exp. apply ln_increasing; [lra|]. pose proof (exp_ineq1 1). lra. }
  assert (P: 0 < 2 ^ n) by (apply pow_lt; lra). assert (LN: ln (2 ^ n) <= INR n).
  { rewrite ln_pow by lra. pose proof (pos_INR n). rewrite <- (Rmult_1_r (INR n)) at 2. apply Rmult_le_compat_l; lra. }
  assert (M: forall a c, 0 < a -> a <= c -> ln a <= ln c) by (intros a c A1 [C| ->]; [left; apply ln_increasing; assumption|right; reflexivity]).
  pose proof (M _ _ X A). pose proof (M _ _ (Rinv_0_lt_compat _ P) B) as H0. rewrite ln_Rinv in H0 by exact P. apply Rabs_le. lra.
Qed.

(* In double precision, for t up to 2^20, the error is at most a factor 1 + 10^-5. *)
Theorem C74_double_partial : forall md ti pw sq lg K t p d b k v, let f := ieee_double in
  sqrt_ok sq -> 0 <= K <= 4 -> log_ok f K lg -> (32 <= bits ti)%Z -> sgn ti = true -> (0 <= t < imax ti)%Z -> (t <= 2 ^ 20)%Z ->
  representable f p -> (0 <= p)%Q -> (p <= 1)%Q -> (p == 0 \/ p2 (emin f + prec f) <= p)%Q ->
  bn_init f f md ti pw sq t p = Some d -> bn_u d = UBtrd b ->
  (0 <= k <= t)%Z -> (15 < Z.abs (k - bn_m d))%Z -> representable f v -> / 2 ^ 1100 <= Q2R v <= 2 ^ 1100 ->
  let B i := Q2R (bpmf (Z.to_nat t) (psmall p) (Z.to_nat i)) in
  let y := Z.abs (k - bn_m d) in
  exists ok, bn_accept_far f f md ti lg (b_r b) (b_npq b) t (bn_m d) k (inject_Z y) v = Some ok /\
    if ok then 2 * IZR y + 2 <= (IZR t + 1) * Q2R (psmall p) -> Q2R v * B (bn_m d) <= B k * (1 + 1 / 10 ^ 5)
    else B k <= Q2R v * B (bn_m d) * (1 + 1 / 10 ^ 5).
Proof.
  intros md ti pw sq lg K t p d b k v f Hsq HK HL Hti Hs HT T20 Rp P0 P1 Pn HI HU Hk HY RV HV B y.
  assert (EV: eps f = / 2 ^ 52). { unfold eps, f, ieee_double. cbn [prec]. unfold p2. cbn [Z.sub Z.opp Z.add Z.pos_sub Z.pred_double Pos.pred_double Qpower]. unfold Q2R. vm_compute Qnum. vm_compute Qden. cbn [pow]. field. }
  assert (E52: 0 < / 2 ^ 52 <= 23 / 10 ^ 17) by (cbn [pow]; split; lra).
  assert (V0: (0 < v)%Q). { apply Rlt_Qlt. rewrite Q2R_0. eapply Rlt_le_trans; [|apply HV]. apply Rinv_0_lt_compat, pow_lt; lra. }
  assert (KE: K * eps f <= 4 * (23 / 10 ^ 17)) by (rewrite EV; apply Rmult_le_compat; cbn [pow] in *; lra).
  assert (KE0: 0 <= K * eps f) by (rewrite EV; apply Rmult_le_pos; lra).
  destruct (C74_accept_partial f f md ti pw sq lg K t p d b k v) as (ok & O1 & O2); try assumption;
    try (split; cbn; lia); try (cbn; lia); try lra.
  exists ok. split; [exact O1|]. fold y in O2. fold B in O2. set (tol := far_tol f K t (ln (Q2R v))) in *.
  assert (LV: Rabs (ln (Q2R v)) <= 1100) by (replace 1100 with (INR 1100) by (rewrite INR_IZR_INZ; reflexivity); apply ln_lim; [rewrite <- Q2R_0; apply Qlt_Rlt; exact V0|apply HV|apply HV]).
  assert (TR: 0 <= IZR t <= 1048576) by (split; [apply (IZR_le 0)|apply IZR_le]; lia).
  assert (LT: 0 <= ln (IZR t + 1) <= 21).
  { assert (A: Rabs (ln (IZR t + 1)) <= 21) by (replace 21 with (INR 21) by (rewrite INR_IZR_INZ; reflexivity); apply ln_lim; cbn [pow]; lra). apply Rabs_le_inv in A. split; [|lra].
    rewrite <- ln_1. destruct (Req_dec 1 (IZR t + 1)) as [<-|N]; [right; reflexivity|]. left. apply ln_increasing; lra. }
  assert (WB: 0 <= (IZR t + 2) * (2 * ln (IZR t + 1) + 1) <= 1048578 * 43) by (split; [apply Rmult_le_pos; lra|apply Rmult_le_compat; lra]).
  assert (TB: tol <= 1 / 200000).
  { unfold tol, far_tol, far_u. rewrite EV in *. set (W := (IZR t + 2) * _) in *. set (L := Rabs _) in *. assert (L0: 0 <= L) by apply Rabs_pos.
    assert (U: 0 < / 2 ^ 52 + / 2 ^ 53 <= 35 / 10 ^ 17) by (cbn [pow]; split; lra). set (u := / 2 ^ 52 + / 2 ^ 53) in *.
    assert (A1: (K * / 2 ^ 52 + 500 * u) * L <= (200 / 10 ^ 15) * 1100) by (apply Rmult_le_compat; [lra|lra|cbn [pow] in *; lra|lra]).
    assert (A2: (140 * u + 3 * (K * / 2 ^ 52)) * W <= (55 / 10 ^ 15) * (1048578 * 43)) by (apply Rmult_le_compat; [lra|lra|cbn [pow] in *; lra|lra]).
    cbn [pow] in *. lra. }
  assert (EX: exp tol <= 1 + 1 / 10 ^ 5). { eapply Rle_trans; [apply exp_mono; exact TB|]. eapply Rle_trans; [apply exp_hi; lra|]. cbn [pow]. lra. }
  assert (BN: forall i, 0 <= B i).
  { intro i. unfold B. rewrite <- Q2R_0. apply Q2R_le. apply bpmf_nonneg; unfold psmall; destruct (Qle_bool p (1 # 2)); Lqa.lra. }
  destruct ok.
  - intro H. eapply Rle_trans; [apply (O2 H)|]. apply Rmult_le_compat_l; [apply BN|exact EX].
  - eapply Rle_trans; [exact O2|]. apply Rmult_le_compat_l; [|exact EX]. apply Rmult_le_pos; [|apply BN]. apply Rlt_le. rewrite <- Q2R_0. apply Qlt_Rlt. exact V0.
Qed.
Print Assumptions C74_double_partial.

Lemma far_true : forall f g md ti lg r npq t m k km v q1 q2 tt, fdiv f md km npq = Some q1 ->
  fdiv g md (fround g md (fround g md (fround g md (fround g md (km / 3) + (625 # 1000)) * km) + dlit (1 / 6))) npq = Some q2 ->
  fdiv f md (fround f md (- km * km)) (fround f md (2 * npq)) = Some tt -> Qle_bool v 0 = false ->
  (lg v < fround f md (tt - fround f md (fround g md (q1 * fround g md (q2 + (1 # 2))))))%Q ->
  bn_accept_far f g md ti lg r npq t m k km v = Some true.
Proof.
  intros f g md ti lg r npq t m k km v q1 q2 tt E1 E2 E3 EV H. unfold bn_accept_far. rewrite E1. cbn [bind]. rewrite E2. cbn [bind]. rewrite E3. cbn [bind]. rewrite EV.
  unfold qlt at 1. destruct (Qle_bool _ (lg v)) eqn:C; [|reflexivity]. exfalso. apply Qle_bool_iff in C. revert C. apply Qlt_not_le. exact H.
Qed.
(* one pass of the loop, with the values of its steps *)
Lemma try_true : forall f g md ti lg u01 b t m ds v0 ds1 u v1 ds2 k v, exec u01 ds = ORet v0 ds1 -> Qle_bool v0 (b_urvr b) = false ->
  exec (bn_pick f g md u01 b v0) ds1 = ORet (u, v1) ds2 ->
  let us := fround f md (fround g md ((1 # 2) - Qabs u)) in
  bn_hat f md ti b u us = Some k -> ((k <? 0) || (t <? k))%Z = false -> bn_scale f md b v1 us = Some v -> subT ti k m = Some (k - m)%Z ->
  Qle_bool (fround f md (inject_Z (Z.abs (k - m)))) 15 = false ->
  bn_accept_far f g md ti lg (b_r b) (b_npq b) t m k (fround f md (inject_Z (Z.abs (k - m)))) v = Some true ->
  exec (bn_try f g md ti lg u01 b t m) ds = ORet (Some k) ds2.
Proof.
  intros f g md ti lg u01 b t m ds v0 ds1 u v1 ds2 k v H1 H2 H3 us H4 H5 H6 H7 H8 H9. unfold bn_try. rewrite exec_bind_eq, H1, H2, exec_bind_eq, H3. fold us.
  rewrite exec_bind_eq, H4. cbn [plift exec]. rewrite H5. rewrite exec_bind_eq, H6. cbn [plift exec]. rewrite exec_bind_eq, H7. cbn [plift exec]. rewrite H8.
  rewrite exec_bind_eq, H9. reflexivity.
Qed.
Lemma bprod_lt : forall t p k v c, (0 < p)%Q -> (p < 1)%Q -> (c < v * bprod t p k)%Q -> (c * bpmf t p 0 < v * bpmf t p k)%Q.
Proof.
  intros t p k v c P0 P1 H. rewrite (bprod_ok t p k P0 P1). pose proof (bpmf_pos p t 0 P0 P1 ltac:(lia)) as B0.
  setoid_replace (v * (bpmf t p 0 * bprod t p k))%Q with (v * bprod t p k * bpmf t p 0)%Q by ring. apply Qmult_lt_r; assumption.
Qed.
(* t = 1000, p = 3/64, k = 0 *)
Definition far_o : option bino := Eval vm_compute in bn_init ieee_double ieee_double RNE i32 (BinProps.pw_cr ieee_double) BinProps.sq_ex 1000 (3 # 64).
Definition far_d : bino := Eval vm_compute in match far_o with Some d => d | None => Bino 0 0 0 (UInv 0) end.
Definition far_b : btrd := Eval vm_compute in match bn_u far_d with UBtrd b => b | _ => Btrd 0 0 0 0 0 0 0 0 0 end.
Definition far_u01 : prog Q := uniform_01 ieee_double RNE 9 u64 0 (2 ^ 64 - 1).
Definition far_ds : list Z := [11673853044174983168; 6500]%Z.
Definition far_v0 : Q := Eval vm_compute in match exec far_u01 far_ds with ORet v _ => v | _ => 0%Q end.
Definition far_uv : Q * Q := Eval vm_compute in match exec (bn_pick ieee_double ieee_double RNE far_u01 far_b far_v0) [6500%Z] with ORet v _ => v | _ => (0, 0)%Q end.
Definition far_us : Q := Eval vm_compute in fround ieee_double RNE (fround ieee_double RNE ((1 # 2) - Qabs (fst far_uv))).
Definition far_v : Q := Eval vm_compute in match bn_scale ieee_double RNE far_b (snd far_uv) far_us with Some v => v | _ => 0%Q end.

Lemma far_ln : - (4124 / 100) <= ln (Q2R far_v) <= - (4122 / 100).
Proof.
  assert (A: ln_chk (2 ^ 100) 30 6 (Qred (/ far_v)) 816644285115779659745454268088 816842355522065320589438127964 = true) by (vm_compute; reflexivity). apply ln_chk_ok in A.
  assert (E: Q2R (Qred (/ far_v)) = / Q2R far_v). { rewrite <- Q2R_inv by (unfold Qeq; cbn; lia). apply Qeq_eqR, Qred_correct. }
  rewrite E, ln_Rinv in A by (rewrite <- Q2R_0; apply Qlt_Rlt; reflexivity). set (l := ln (Q2R far_v)) in *. cbn [pow] in A. rewrite !Rmult_1_r in A.
  replace (IZR (2 ^ 100)) with 1267650600228229401496703205376 in A by reflexivity. lra.
Qed.
Lemma far_lg : forall lg K, 0 <= K <= 4 -> log_ok ieee_double K lg -> (lg far_v < - (412 # 10))%Q.
Proof.
  intros lg K HK HL. assert (RV: representable ieee_double far_v) by (exists 6431027027484583%Z, (-112)%Z; repeat split; vm_compute; try reflexivity; discriminate).
  pose proof (HL far_v ltac:(reflexivity) RV) as H. pose proof far_ln as L. set (l := ln (Q2R far_v)) in *. rewrite (Rabs_left1 l) in H by lra. apply Rabs_le_inv in H.
  rewrite eps_double in H. assert (K * / 2 ^ 52 * - l <= 4 * (1 / 10 ^ 15) * (4124 / 100)) by (apply Rmult_le_compat; [apply Rmult_le_pos; [lra|apply Rlt_le, Rinv_0_lt_compat, pow_lt; lra]|lra|apply Rmult_le_compat; [lra|apply Rlt_le, Rinv_0_lt_compat, pow_lt; lra|lra|cbn [pow]; lra]|lra]).
  apply Rlt_Qlt. replace (Q2R (- (412 # 10))) with (- (412 / 10)) by (unfold Q2R; cbn; field). cbn [pow] in *. lra.
Qed.

(* The quick acceptance of line 348 is wrong far below the mode: for t = 1000 and
   p = 3/64 the two engine outputs ds make the function return 0 with a v more than
   40 times P(X=0)/P(X=46), for every std::log of sufficient accuracy. *)
Theorem C74_squeeze_refuted : exists d b ds v, let f := ieee_double in let u01 := uniform_01 f RNE 9 u64 0 (2 ^ 64 - 1) in
  bn_init f f RNE i32 (BinProps.pw_cr f) BinProps.sq_ex 1000 (3 # 64) = Some d /\ bn_u d = UBtrd b /\ bn_m d = 46%Z /\ valid_draws 0 (2 ^ 64 - 1) ds /\
  exec (v <~ u01;; uv <~ bn_pick f f RNE u01 b v;; plift (bn_scale f RNE b (snd uv) (fround f RNE (fround f RNE ((1 # 2) - Qabs (fst uv)))))) ds = ORet v [] /\
  (40 * bpmf 1000 (3 # 64) 0 < v * bpmf 1000 (3 # 64) 46)%Q /\
  forall lg K F, 0 <= K <= 4 -> log_ok f K lg ->
    bn_accept_far f f RNE i32 lg (b_r b) (b_npq b) 1000 46 0 46 v = Some true /\
    exec (bn_op f f RNE i32 lg (S F) u01 d) ds = ORet 0%Z [].
Proof.
  exists far_d, far_b, far_ds, far_v. cbv zeta. split; [vm_compute; reflexivity|]. split; [reflexivity|]. split; [reflexivity|].
  split; [apply Forall_cons; [lia|apply Forall_cons; [lia|apply Forall_nil]]|]. split; [vm_compute; reflexivity|]. split.
  - apply bprod_lt; [reflexivity|reflexivity|]. vm_compute. reflexivity.
  - intros lg K F HK HL. pose proof (far_lg lg K HK HL) as LG.
    assert (A: bn_accept_far ieee_double ieee_double RNE i32 lg (b_r far_b) (b_npq far_b) 1000 46 0 46 far_v = Some true).
    { eapply far_true; [vm_compute; reflexivity|vm_compute; reflexivity|vm_compute; reflexivity|reflexivity|].
      eapply Qlt_trans; [exact LG|]. vm_compute. reflexivity. }
    split; [exact A|]. unfold bn_op. replace (bn_u far_d) with (UBtrd far_b) by reflexivity. replace (qlt (1 # 2) (bn_p far_d)) with false by reflexivity.
    unfold bn_generate. replace (bn_t far_d) with 1000%Z by reflexivity. replace (bn_m far_d) with 46%Z by reflexivity. cbn [retry]. rewrite exec_bind_eq.
    erewrite (try_true ieee_double ieee_double RNE i32 lg _ far_b 1000 46 far_ds far_v0 [6500%Z] (fst far_uv) (snd far_uv) [] 0 far_v);
      [reflexivity|vm_compute; reflexivity|reflexivity|vm_compute; reflexivity|vm_compute; reflexivity|reflexivity|vm_compute; reflexivity|vm_compute; reflexivity|vm_compute; reflexivity|].
    replace (fround ieee_double RNE (inject_Z (Z.abs (0 - 46)))) with 46%Q by (vm_compute; reflexivity). exact A.
Qed.
Print Assumptions C74_squeeze_refuted.

(* the hypotheses of C74_double_partial: t = 1000, p = 3/64, m = 46, k = 26, v = 1/32 *)
Example C74_ex : let f := ieee_double in fmt_ok f /\ fmt_wide f /\ (emin f + 3 * prec f <= 0)%Z /\ sqrt_ok BinProps.sq_ex /\
  log_ok f 1 (fun y => appr (eps f) (ln (Q2R y))) /\ representable f (3 # 64) /\ (p2 (emin f + prec f) <= 3 # 64)%Q /\
  bn_init f f RNE i32 (BinProps.pw_cr f) BinProps.sq_ex 1000 (3 # 64) = Some far_d /\ bn_u far_d = UBtrd far_b /\
  (15 < Z.abs (26 - bn_m far_d))%Z /\ representable f (1 # 32) /\
  2 * IZR (Z.abs (26 - bn_m far_d)) + 2 <= (IZR 1000 + 1) * Q2R (psmall (3 # 64)).
Proof.
  cbv zeta. split; [split; cbn; lia|]. split; [split; cbn; lia|]. split; [cbn; lia|]. split; [exact BinProps.sq_ex_ok|].
  split; [intros y Y0 RY; apply appr_ok; apply e_pos|]. split; [exists 3%Z, (-6)%Z; repeat split; vm_compute; try reflexivity; discriminate|].
  split; [vm_compute; discriminate|]. split; [vm_compute; reflexivity|]. split; [reflexivity|]. split; [reflexivity|].
  split; [exists 1%Z, (-5)%Z; repeat split; vm_compute; try reflexivity; discriminate|].
  replace (psmall (3 # 64)) with (3 # 64) by reflexivity. replace (Z.abs (26 - bn_m far_d)) with 20%Z by reflexivity. unfold Q2R. cbn. lra.
Qed.
(* fc of 3 is 0.0207906721037650... *)
Example C74_ex_fc : option_map (fun q => Qle_bool (2079067 # 100000000) q && Qle_bool q (2079068 # 100000000)) (bn_fc ieee_double RNE i32 3) = Some true.
Proof. vm_compute. reflexivity. Qed.
