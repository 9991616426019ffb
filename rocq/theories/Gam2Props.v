(* The distributions made of gamma, exponential and normal distributions: beta,
   chi squared, F, t, negative binomial, Laplace, lognormal. *)
From Coq Require Import Reals Lqa Lra Qreals Rpower.
From Verif Require Import Base ProgModel ProgSpec ProgProofs UIntSpec FloatModel FloatSpec FloatProofs RealModel UniProofs Disc4Proofs BinModel BinSpec PoisRSpec Pois3Proofs Pois3Props IfpModel IfpSpec InvModel InvSpec Inv1Proofs Inv3Proofs Inv4Proofs InvProps ZigModel ZigSpec Zig4Proofs Zig6Proofs Zig7Proofs GamModel GamSpec Gam1Proofs Gam2Proofs Gam3Proofs GamProps Gam4Proofs Gam5Proofs.
Ltac Zify.zify_post_hook ::= idtac.
Open Scope R_scope.
Ltac ql := Lqa.lra.

(* gamma_distribution(alpha, 1), from C70_run *)
Lemma gm_src : forall f md tn sq ex lg pw K al bmin bmax F u01 ez, fmt_ok f -> (7 <= prec f)%Z -> (emin f + 2 * prec f <= -1)%Z -> 0 <= K -> K * eps f <= 1 / 16 ->
  sqrt_all f K sq -> exp_all f K ex -> log_ok f K lg -> pow_any f K pw ->
  representable f al -> (0 < al)%Q -> (al <= p2 (- (emin f + 2 * prec f)))%Q ->
  source bmin bmax F u01 (fun u => 0 <= u /\ u < 1 /\ representable f u)%Q -> source bmin bmax F ez (fun y => 0 <= y /\ representable f y)%Q ->
  source bmin bmax F (gm_op f md tn sq ex lg pw F u01 ez al 1) (fun g => (0 <= g)%Q /\ representable f g /\ ((1 < al)%Q -> eps f <= Q2R g)).
Proof.
  intros f md tn sq ex lg pw K al bmin bmax F u01 ez Hf Hp Hw HK HKe HS HE HL HP RA A0 AB HU HZ ds Hv HF.
  assert (HC: gm_ctor al 1 = true) by (unfold gm_ctor; destruct (qlt 0 al) eqn:Q; [reflexivity|apply qlt_f in Q; contradiction]).
  destruct (C70_run f md tn sq ex lg pw K al 1 bmin bmax F u01 ez ds Hf Hp Hw HK HKe HS HE HL HP RA AB HC HU HZ Hv HF) as [E|(x & rest & E & LR & X0 & RX & G0 & R)]; [left; exact E|right].
  eexists. exists rest. split; [exact E|]. split; [exact LR|]. split; [exact G0|]. split; [apply rnd_repr; exact Hf|].
  intro A1. destruct (R A1) as [XE _]. assert (EQ: (fround f md (x * 1) == x)%Q) by (rewrite (rnd_compat f md Hf (x * 1) x ltac:(ring)); apply rnd_fix; assumption). rewrite (Qeq_eqR _ _ EQ). exact XE.
Qed.

(* ---- C71: beta_distribution, chi_squared_distribution, fisher_f_distribution, student_t_distribution ---- *)

(* beta: the result is a/(a+b) up to rounding and lies in [0,1]; it is undefined
   exactly if both gamma variates are 0, and never if a parameter exceeds 1. *)
Theorem C71_beta : forall f md tn sq ex lg pw K al be bmin bmax F u01 ez ds, fmt_ok f -> (7 <= prec f)%Z -> (emin f + 2 * prec f <= -1)%Z -> 0 <= K -> K * eps f <= 1 / 16 ->
  sqrt_all f K sq -> exp_all f K ex -> log_ok f K lg -> pow_any f K pw ->
  representable f al -> (0 < al)%Q -> (al <= p2 (- (emin f + 2 * prec f)))%Q -> representable f be -> (0 < be)%Q -> (be <= p2 (- (emin f + 2 * prec f)))%Q ->
  source bmin bmax F u01 (fun u => 0 <= u /\ u < 1 /\ representable f u)%Q -> source bmin bmax F ez (fun y => 0 <= y /\ representable f y)%Q ->
  valid_draws bmin bmax ds -> (length ds < F)%nat ->
  let ga al := gm_op f md tn sq ex lg pw F u01 ez al 1 in
  let op := bt_op f md (ga al) (ga be) in
  exec op ds = OMore \/
  exists a b d1 rest, exec (ga al) ds = ORet a d1 /\ exec (ga be) d1 = ORet b rest /\ ((1 < al \/ 1 < be)%Q -> (0 < a + b)%Q) /\
    if Qeq_bool (a + b) 0 then exec op ds = OUB
    else exists r, exec op ds = ORet r rest /\ (0 <= r)%Q /\ (r <= 1)%Q /\ Rabs (Q2R r - Q2R a / (Q2R a + Q2R b)) <= 3 * eps f * (Q2R a / (Q2R a + Q2R b)) + tiny f.
Proof.
  intros f md tn sq ex lg pw K al be bmin bmax F u01 ez ds Hf Hp Hw HK HKe HS HE HL HP RA A0 AB RB B0 BB HU HZ Hv HF ga op.
  pose proof (gm_src f md tn sq ex lg pw K al bmin bmax F u01 ez Hf Hp Hw HK HKe HS HE HL HP RA A0 AB HU HZ) as SA. pose proof (gm_src f md tn sq ex lg pw K be bmin bmax F u01 ez Hf Hp Hw HK HKe HS HE HL HP RB B0 BB HU HZ) as SB.
  unfold op, bt_op. rewrite exec_bind_eq. destruct (SA ds Hv HF) as [E|(a & d1 & E & L1 & a0 & Ra & Ga)]; fold (ga al) in E; rewrite E; [left; reflexivity|].
  destruct (exec_suffix _ _ _ _ _ _ _ E Hv) as [V1 _]. rewrite exec_bind_eq. destruct (SB d1 V1 ltac:(lia)) as [E2|(b & d2 & E2 & L2 & b0 & Rb & Gb)]; fold (ga be) in E2; rewrite E2; [left; reflexivity|right].
  exists a, b, d1, d2. split; [reflexivity|]. split; [exact E2|]. pose proof (e_pos f) as E0.
  split. { intros [G|G]; [specialize (Ga G)|specialize (Gb G)]; apply Rlt_Qlt; rewrite Q2R_0, Q2R_plus; apply Q2R_le in a0, b0; rewrite Q2R_0 in a0, b0; lra. }
  destruct (Qeq_bool (a + b) 0) eqn:EQ.
  - apply Qeq_bool_iff in EQ. unfold bt_val. rewrite fdiv_zero; [reflexivity|]. rewrite (rnd_compat f md Hf _ _ EQ). apply rnd_fix; [exact Hf|apply repr_0; exact Hf].
  - assert (AB0: (0 < a + b)%Q). { destruct (Qlt_le_dec 0 (a + b)) as [G|G]; [exact G|]. assert (Z: (a + b == 0)%Q) by ql. apply Qeq_bool_iff in Z. congruence. }
    destruct (bt_ok f md Hf Hp a b Ra Rb a0 b0 AB0) as (r & ER & R0 & R1 & RE). rewrite ER. exists r. split; [reflexivity|]. split; [exact R0|]. split; [exact R1|exact RE].
Qed.
Print Assumptions C71_beta.

(* chi squared: n() returns n, the constructor's assertion holds, the result is
   twice a gamma variate, without a rounding error. *)
Theorem C71_chi : forall f md n, fmt_ok f -> (7 <= prec f)%Z -> representable f n -> (p2 (emin f + prec f) <= n)%Q ->
  (ch_n f md (ch_alpha f md n) == n)%Q /\ (ch_alpha f md n == n / 2)%Q /\ gm_ctor (ch_alpha f md n) 1 = true /\
  forall g ds x rest, exec g ds = ORet x rest -> representable f x -> (0 <= x)%Q -> exists r, exec (ch_op f md g) ds = ORet r rest /\ (r == 2 * x)%Q /\ (0 <= r)%Q /\ representable f r.
Proof.
  intros f md n Hf Hp RN HN. destruct (ch_ok f md Hf Hp n RN HN) as [A B]. split; [exact B|]. split; [exact A|]. pose proof (p2_pos (emin f + prec f)) as P.
  split. { unfold gm_ctor. destruct (qlt 0 (ch_alpha f md n)) eqn:Q; [reflexivity|]. apply qlt_f in Q. exfalso. apply Q. rewrite A. apply Qlt_shift_div_l; ql. }
  intros g ds x rest E RX X0. unfold ch_op. rewrite exec_bind_eq, E. eexists. split; [reflexivity|]. split; [apply ch_two; assumption|]. split; [apply rnd_nonneg; ql|apply rnd_repr; exact Hf].
Qed.
Print Assumptions C71_chi.
Example C71_ex_chi : representable ieee_double 5 /\ (p2 (emin ieee_double + prec ieee_double) <= 5)%Q.
Proof. split; [exists 5%Z, 0%Z; repeat split; vm_compute; discriminate|vm_compute; discriminate]. Qed.
(* For the least positive n, n/2 rounds to 0 and the assertion of
   gamma_distribution fails; three times this number is not restored by n(). *)
Theorem C71_chi_refuted : let f := ieee_double in let n := p2 (emin f) in
  representable f n /\ (0 < n)%Q /\ gm_ctor (ch_alpha f RNE n) 1 = false /\ (ch_n f RNE (ch_alpha f RNE (3 * n)) == 4 * n)%Q.
Proof.
  cbv zeta. split; [apply repr_p2; [split; cbn; lia|lia]|]. split; [vm_compute; reflexivity|]. split; vm_compute; reflexivity.
Qed.
Print Assumptions C71_chi_refuted.

(* a chi squared distribution with n degrees of freedom, from the uniform and exponential numbers on *)
Lemma ch_src : forall f md tn sq ex lg pw K n bmin bmax F u01 ez, fmt_ok f -> (7 <= prec f)%Z -> (emin f + 2 * prec f <= -1)%Z -> 0 <= K -> K * eps f <= 1 / 16 ->
  sqrt_all f K sq -> exp_all f K ex -> log_ok f K lg -> pow_any f K pw ->
  representable f n -> (p2 (emin f + prec f) <= n)%Q -> (n <= p2 (- (emin f + 2 * prec f)))%Q ->
  source bmin bmax F u01 (fun u => 0 <= u /\ u < 1 /\ representable f u)%Q -> source bmin bmax F ez (fun y => 0 <= y /\ representable f y)%Q ->
  source bmin bmax F (ch_op f md (gm_op f md tn sq ex lg pw F u01 ez (ch_alpha f md n) 1)) (fun c => (0 <= c)%Q /\ representable f c /\ ((2 < n)%Q -> 2 * eps f <= Q2R c)).
Proof.
  intros f md tn sq ex lg pw K n bmin bmax F u01 ez Hf Hp Hw HK HKe HS HE HL HP RN NL NB HU HZ ds Hv HF.
  destruct (C71_chi f md n Hf Hp RN NL) as (_ & EA & _ & OP). pose proof (p2_pos (emin f + prec f)) as P.
  assert (A0: (0 < ch_alpha f md n)%Q) by (rewrite EA; apply Qlt_shift_div_l; ql). assert (AB: (ch_alpha f md n <= p2 (- (emin f + 2 * prec f)))%Q) by (rewrite EA; apply Qle_shift_div_r; ql).
  destruct (gm_src f md tn sq ex lg pw K (ch_alpha f md n) bmin bmax F u01 ez Hf Hp Hw HK HKe HS HE HL HP (rnd_repr f md Hf _) A0 AB HU HZ ds Hv HF) as [E|(x & rest & E & LR & X0 & RX & GX)].
  - left. unfold ch_op. rewrite exec_bind_eq, E. reflexivity.
  - right. destruct (OP _ ds x rest E RX X0) as (r & ER & RV & R0 & RR). exists r, rest. split; [exact ER|]. split; [exact LR|]. split; [exact R0|]. split; [exact RR|].
    intro N2. assert (A1: (1 < ch_alpha f md n)%Q) by (rewrite EA; apply Qlt_shift_div_l; ql). specialize (GX A1). rewrite (Qeq_eqR _ _ RV), Q2R_mult. replace (Q2R 2) with 2 by (unfold Q2R; cbn; field). lra.
Qed.

(* F: the result is (x/m)/(y/n) up to rounding, barring underflow, whichever chi
   squared variate is computed first. *)
Theorem C71_fisher : forall f md m n (left : bool), fmt_ok f -> (7 <= prec f)%Z -> (0 < m)%Q -> (0 < n)%Q ->
  forall cm cn ds x d1 y rest, (if left then exec cm ds = ORet x d1 /\ exec cn d1 = ORet y rest else exec cn ds = ORet y d1 /\ exec cm d1 = ORet x rest) ->
  (0 <= x)%Q -> (0 < y)%Q -> let q := Q2R x / Q2R m / (Q2R y / Q2R n) in
  tiny f <= eps f * Q2R (x * n) -> tiny f <= eps f * Q2R (y * m) -> tiny f <= eps f * q ->
  exists r, exec (ff_op f md left cm cn m n) ds = ORet r rest /\ (0 <= r)%Q /\ Rabs (Q2R r - q) <= 8 * eps f * q.
Proof.
  intros f md m n left Hf Hp M0 N0 cm cn ds x d1 y rest H X0 Y0 q T1 T2 T3. destruct (ff_ok f md Hp x y m n X0 Y0 M0 N0 T1 T2 T3) as (r & ER & R0 & RE).
  exists r. split; [|split; [exact R0|exact RE]]. destruct left; destruct H as [E1 E2]; unfold ff_op; rewrite exec_bind_eq, E1, exec_bind_eq, E2, ER; reflexivity.
Qed.
Print Assumptions C71_fisher.
(* F with n > 2 is defined for every engine and >= 0 *)
Theorem C71_fisher_run : forall f md tn sq ex lg pw K m n left bmin bmax F u01 ez ds, fmt_ok f -> (7 <= prec f)%Z -> (emin f + 2 * prec f <= -1)%Z -> 0 <= K -> K * eps f <= 1 / 16 ->
  sqrt_all f K sq -> exp_all f K ex -> log_ok f K lg -> pow_any f K pw ->
  representable f m -> (p2 (emin f + prec f) <= m)%Q -> (m <= p2 (- (emin f + 2 * prec f)))%Q -> representable f n -> (2 < n)%Q -> (n <= p2 (- (emin f + 2 * prec f)))%Q ->
  source bmin bmax F u01 (fun u => 0 <= u /\ u < 1 /\ representable f u)%Q -> source bmin bmax F ez (fun y => 0 <= y /\ representable f y)%Q ->
  valid_draws bmin bmax ds -> (length ds < F)%nat ->
  let ch n := ch_op f md (gm_op f md tn sq ex lg pw F u01 ez (ch_alpha f md n) 1) in
  let op := ff_op f md left (ch m) (ch n) (ch_n f md (ch_alpha f md m)) (ch_n f md (ch_alpha f md n)) in
  exec op ds = OMore \/ exists r rest, exec op ds = ORet r rest /\ (0 <= r)%Q.
Proof.
  intros f md tn sq ex lg pw K m n left bmin bmax F u01 ez ds Hf Hp Hw HK HKe HS HE HL HP RM ML MB RN N2 NB HU HZ Hv HF ch op.
  assert (NL: (p2 (emin f + prec f) <= n)%Q) by (apply Qle_trans with (p2 0); [apply p2_le; lia|change (p2 0) with 1%Q; ql]).
  pose proof (ch_src f md tn sq ex lg pw K m bmin bmax F u01 ez Hf Hp Hw HK HKe HS HE HL HP RM ML MB HU HZ) as SM. pose proof (ch_src f md tn sq ex lg pw K n bmin bmax F u01 ez Hf Hp Hw HK HKe HS HE HL HP RN NL NB HU HZ) as SN.
  fold (ch m) in SM. fold (ch n) in SN. destruct (C71_chi f md m Hf Hp RM ML) as (CM & _). destruct (C71_chi f md n Hf Hp RN NL) as (CN & _). set (m' := ch_n f md (ch_alpha f md m)) in *. set (n' := ch_n f md (ch_alpha f md n)) in *.
  assert (V: forall x y, (0 <= x)%Q -> 2 * eps f <= Q2R y -> exists r, ff_val f md x y m' n' = Some r /\ (0 <= r)%Q).
  { intros x y X0 Y0. pose proof (p2_pos (emin f + prec f)) as P.
    assert (YM: (p2 (emin f) <= y * m')%Q).
    { apply Qle_trans with (p2 (2 - prec f) * p2 (emin f + prec f))%Q; [rewrite <- p2_add; apply p2_le; lia|]. rewrite CM.
      assert (YQ: (p2 (2 - prec f) <= y)%Q). { apply Rle_Qle. apply Rle_trans with (2 := Y0). unfold eps. replace 2 with (Q2R (p2 1)) by (unfold p2, Q2R; cbn; field). rewrite <- Q2R_mult, <- (Qeq_eqR _ _ (p2_add _ _)). apply Q2R_le, p2_le. lia. }
      pose proof (p2_pos (2 - prec f)). apply Qle_trans with (y * p2 (emin f + prec f))%Q; [apply Qmult_le_compat_r; ql|]. rewrite !(Qmult_comm y). apply Qmult_le_compat_r; ql. }
    assert (SP: (0 < fround f md (y * m'))%Q) by (apply Qlt_le_trans with (p2 (emin f)); [apply p2_pos|apply repr_rnd_ge; [exact Hf|apply repr_p2; [exact Hf|lia]|exact YM]]).
    unfold ff_val. rewrite fdiv_pos by exact SP. eexists. split; [reflexivity|]. apply rnd_nonneg. apply Qle_shift_div_l; [exact SP|]. assert (XN: (0 <= fround f md (x * n'))%Q) by (apply rnd_nonneg; rewrite CN; apply Qmult_le_0_compat; ql). ql. }
  unfold op, ff_op. destruct left.
  - rewrite exec_bind_eq. destruct (SM ds Hv HF) as [E|(x & d1 & E & L1 & X0 & _)]; rewrite E; [left; reflexivity|]. destruct (exec_suffix _ _ _ _ _ _ _ E Hv) as [V1 _].
    rewrite exec_bind_eq. destruct (SN d1 V1 ltac:(lia)) as [E2|(y & d2 & E2 & L2 & Y0 & _ & GY)]; rewrite E2; [left; reflexivity|right]. destruct (V x y X0 (GY N2)) as (r & ER & R0). rewrite ER. exists r, d2. split; [reflexivity|exact R0].
  - rewrite exec_bind_eq. destruct (SN ds Hv HF) as [E|(y & d1 & E & L1 & Y0 & _ & GY)]; rewrite E; [left; reflexivity|]. destruct (exec_suffix _ _ _ _ _ _ _ E Hv) as [V1 _].
    rewrite exec_bind_eq. destruct (SM d1 V1 ltac:(lia)) as [E2|(x & d2 & E2 & L2 & X0 & _)]; rewrite E2; [left; reflexivity|right]. destruct (V x y X0 (GY N2)) as (r & ER & R0). rewrite ER. exists r, d2. split; [reflexivity|exact R0].
Qed.
Print Assumptions C71_fisher_run.

(* t: the result is z/sqrt(c/n) up to rounding *)
Theorem C71_student : forall f md sq K n (left : bool), fmt_ok f -> (7 <= prec f)%Z -> 0 <= K -> K * eps f <= 1 / 16 -> sqrt_all f K sq -> (0 < n)%Q ->
  forall nz ch ds z d1 c rest, (if left then exec nz ds = ORet z d1 /\ exec ch d1 = ORet c rest else exec ch ds = ORet c d1 /\ exec nz d1 = ORet z rest) ->
  (0 < c)%Q -> tiny f <= eps f * (Q2R c / Q2R n) ->
  let q := Q2R z / sqrt (Q2R c / Q2R n) in
  exists r, exec (st_op f md sq left nz ch n) ds = ORet r rest /\ Rabs (Q2R r - q) <= (5 + 2 * K) * eps f * Rabs q + tiny f.
Proof.
  intros f md sq K n left Hf Hp HK HKe HS N0 nz ch ds z d1 c rest H C0 T q. destruct (st_ok f md Hf Hp K sq HK HKe HS z c n C0 N0 T) as (r & ER & RE).
  exists r. split; [destruct left; destruct H as [E1 E2]; unfold st_op; rewrite exec_bind_eq, E1, exec_bind_eq, E2, ER; reflexivity|]. apply Rle_trans with (1 := RE). right. fold q. ring.
Qed.
Print Assumptions C71_student.
(* t with n > 2 is defined for every engine *)
Theorem C71_student_run : forall f md tn sq ex lg pw K n left bmin bmax F u01 ez nz ds, fmt_ok f -> (7 <= prec f)%Z -> (emin f + 2 * prec f <= -1)%Z -> 0 <= K -> K * eps f <= 1 / 16 ->
  sqrt_all f K sq -> exp_all f K ex -> log_ok f K lg -> pow_any f K pw ->
  representable f n -> (2 < n)%Q -> (n <= p2 (- (emin f + 2 * prec f)))%Q ->
  source bmin bmax F u01 (fun u => 0 <= u /\ u < 1 /\ representable f u)%Q -> source bmin bmax F ez (fun y => 0 <= y /\ representable f y)%Q -> source bmin bmax F nz (fun _ => True) ->
  valid_draws bmin bmax ds -> (length ds < F)%nat ->
  let ch := ch_op f md (gm_op f md tn sq ex lg pw F u01 ez (ch_alpha f md n) 1) in
  let op := st_op f md sq left nz ch (ch_n f md (ch_alpha f md n)) in
  exec op ds = OMore \/
  exists z c r rest, exec op ds = ORet r rest /\ let q := Q2R z / sqrt (Q2R c / Q2R n) in Rabs (Q2R r - q) <= (5 + 2 * K) * eps f * Rabs q + tiny f.
Proof.
  intros f md tn sq ex lg pw K n left bmin bmax F u01 ez nz ds Hf Hp Hw HK HKe HS HE HL HP RN N2 NB HU HZ HN Hv HF ch op.
  assert (NL: (p2 (emin f + prec f) <= n)%Q) by (apply Qle_trans with (p2 0); [apply p2_le; lia|change (p2 0) with 1%Q; ql]).
  pose proof (ch_src f md tn sq ex lg pw K n bmin bmax F u01 ez Hf Hp Hw HK HKe HS HE HL HP RN NL NB HU HZ) as SN. fold ch in SN. destruct (C71_chi f md n Hf Hp RN NL) as (CN & _). set (n' := ch_n f md (ch_alpha f md n)) in *.
  pose proof (e_pos f) as E0. pose proof (Qeq_eqR _ _ CN) as CNR. apply Qlt_Rlt in N2 as NR. replace (Q2R 2) with 2 in NR by (unfold Q2R; cbn; field).
  assert (V: forall c, 2 * eps f <= Q2R c -> (0 < c)%Q /\ tiny f <= eps f * (Q2R c / Q2R n')).
  { intros c C0. split; [apply Rlt_Qlt; rewrite Q2R_0; lra|]. rewrite CNR. apply Rmult_le_reg_r with (Q2R n); [lra|]. replace (eps f * (Q2R c / Q2R n) * Q2R n) with (eps f * Q2R c) by (field; lra).
    apply Rle_trans with (tiny f * Q2R (p2 (- (emin f + 2 * prec f)))); [apply Rmult_le_compat_l; [left; apply tiny_pos|apply Q2R_le; exact NB]|].
    apply Rle_trans with (eps f * (2 * eps f)); [|apply Rmult_le_compat_l; lra]. unfold tiny, eps. replace 2 with (Q2R (p2 1)) by (unfold p2, Q2R; cbn; field). rewrite <- !Q2R_mult. apply Q2R_le. rewrite <- !p2_add. apply p2_le. lia. }
  assert (N0: (0 < n')%Q) by (rewrite CN; ql). destruct left.
  - destruct (HN ds Hv HF) as [E|(z & d1 & E & L1 & _)]; [left; unfold op, st_op; rewrite exec_bind_eq, E; reflexivity|]. destruct (exec_suffix _ _ _ _ _ _ _ E Hv) as [V1 _].
    destruct (SN d1 V1 ltac:(lia)) as [E2|(c & d2 & E2 & L2 & _ & _ & GC)]; [left; unfold op, st_op; rewrite exec_bind_eq, E, exec_bind_eq, E2; reflexivity|right]. destruct (V c (GC N2)) as [C0 T].
    destruct (C71_student f md sq K n' true Hf Hp HK HKe HS N0 nz ch ds z d1 c d2 (conj E E2) C0 T) as (r & ER & RE). rewrite CNR in RE. exists z, c, r, d2. split; [exact ER|exact RE].
  - destruct (SN ds Hv HF) as [E|(c & d1 & E & L1 & _ & _ & GC)]; [left; unfold op, st_op; rewrite exec_bind_eq, E; reflexivity|]. destruct (exec_suffix _ _ _ _ _ _ _ E Hv) as [V1 _].
    destruct (HN d1 V1 ltac:(lia)) as [E2|(z & d2 & E2 & L2 & _)]; [left; unfold op, st_op; rewrite exec_bind_eq, E, exec_bind_eq, E2; reflexivity|right]. destruct (V c (GC N2)) as [C0 T].
    destruct (C71_student f md sq K n' false Hf Hp HK HKe HS N0 nz ch ds z d1 c d2 (conj E E2) C0 T) as (r & ER & RE). rewrite CNR in RE. exists z, c, r, d2. split; [exact ER|exact RE].
Qed.
Print Assumptions C71_student_run.

(* The documented domains are alpha, beta, m, n > 0.  beta(1,1), F(2,2) and t(2)
   divide by 0 with an engine that returns 0; for every exp, tan, log, pow, and
   every sqrt with sqrt(0) = 0. *)
Theorem C71_refuted : forall tn sq ex lg pw left, (sq 0 == 0)%Q -> let f := ieee_double in
  let u01 := uniform_01 f RNE 9 u32 0 (2 ^ 32 - 1) in
  let pair := int_float_pair f RNE 9 8 u32 0 (2 ^ 32 - 1) in
  let ez := ez_op f RNE ex pair u01 9 1 in
  let ga al := gm_op f RNE tn sq ex lg pw 9 u01 ez al 1 in
  let ch n := ch_op f RNE (ga (ch_alpha f RNE n)) in
  exec (bt_op f RNE (ga 1%Q) (ga 1%Q)) [0; 0; 0; 0]%Z = OUB /\
  exec (ff_op f RNE left (ch 2%Q) (ch 2%Q) (ch_n f RNE (ch_alpha f RNE 2)) (ch_n f RNE (ch_alpha f RNE 2))) [0; 0; 0; 0]%Z = OUB /\
  exec (st_op f RNE sq left (nz_op f RNE ex pair u01 9 0 1) (ch 2%Q) (ch_n f RNE (ch_alpha f RNE 2))) [0; 0; 0; 0]%Z = OUB.
Proof.
  intros tn sq ex lg pw left S0 f u01 pair ez ga ch.
  assert (Z1: forall ds, exec (ga 1%Q) (0 :: 0 :: ds)%Z = ORet 0%Q ds) by (intro ds; vm_compute; reflexivity).
  assert (Z2: forall ds, exec (ch 2%Q) (0 :: 0 :: ds)%Z = ORet 0%Q ds) by (intro ds; vm_compute; reflexivity).
  assert (Z3: forall ds, exec (nz_op f RNE ex pair u01 9 0 1) (0 :: 0 :: ds)%Z = ORet 0%Q ds) by (intro ds; vm_compute; reflexivity).
  split; [unfold bt_op; rewrite exec_bind_eq, Z1, exec_bind_eq, Z1; reflexivity|]. split.
  - unfold ff_op. destruct left; rewrite exec_bind_eq, Z2, exec_bind_eq, Z2; reflexivity.
  - assert (SV: st_val f RNE sq 0 0 (ch_n f RNE (ch_alpha f RNE 2)) = None).
    { unfold st_val. assert (D: fdiv f RNE 0 (ch_n f RNE (ch_alpha f RNE 2)) = Some 0%Q) by (vm_compute; reflexivity). rewrite D. cbn [bind]. unfold fsqrt. replace (qlt 0 0) with false by reflexivity. cbn [bind]. apply fdiv_zero. exact S0. }
    unfold st_op. destruct left; rewrite exec_bind_eq; [rewrite Z3, exec_bind_eq, Z2, SV|rewrite Z2, exec_bind_eq, Z3, SV]; reflexivity.
Qed.
Print Assumptions C71_refuted.
(* m = 4, n = 8, x = 3, y = 1/2; then z = 3, c = 2, n = 8 with sqrt(1/4) = 1/2 *)
Example C71_ex : let f := ieee_double in
  bt_val f RNE 3 1 = Some (3 # 4)%Q /\ ff_val f RNE 3 (1 # 2) 4 8 = Some 12%Q /\ st_val f RNE (fun _ => 1 # 2) 3 2 8 = Some 6%Q /\
  tiny f <= eps f * Q2R (3 * 8) /\ tiny f <= eps f * (Q2R 2 / Q2R 8).
Proof.
  cbv zeta. split; [vm_compute; reflexivity|]. split; [vm_compute; reflexivity|]. split; [vm_compute; reflexivity|].
  assert (T: 4 * tiny ieee_double <= eps ieee_double). { unfold tiny, eps. replace 4 with (Q2R (p2 2)) by (unfold p2, Q2R; cbn; field). rewrite <- Q2R_mult. apply Q2R_le. rewrite <- p2_add. apply p2_le. cbn. lia. }
  pose proof (tiny_pos ieee_double). split; [replace (Q2R (3 * 8)) with 24 by (unfold Q2R; cbn; field); lra|replace (Q2R 2 / Q2R 8) with (/ 4) by (unfold Q2R; cbn; field); lra].
Qed.

(* ---- C72: negative_binomial_distribution ---- *)

(* For k >= 1 and 0 < p < 1 the gamma distribution has the parameters k and, up to
   rounding, (1-p)/p. *)
Theorem C72_gamma : forall f md k p, fmt_ok f -> (7 <= prec f)%Z -> (emin f + 2 * prec f <= -1)%Z -> (1 <= k)%Z -> representable f p -> (0 < p)%Q -> (p < 1)%Q ->
  exists a b, nb_gamma f md k p = Some (a, b) /\ gm_ctor a b = true /\ a = fround f md (inject_Z k) /\ Rabs (Q2R b - (1 - Q2R p) / Q2R p) <= 4 * eps f * ((1 - Q2R p) / Q2R p).
Proof. intros f md k p Hf Hp Hw HK RP P0 P1. destruct (nb_ok f md Hf Hp Hw k p HK RP P0 P1) as (a & b & A & B & C & _ & D). exists a, b. repeat split; assumption. Qed.
Print Assumptions C72_gamma.
(* From k = 2 on the gamma variate is positive, and the result is a Poisson variate
   with this mean. *)
Theorem C72_run : forall f md tn sq ex lg pw K k p poisson bmin bmax F u01 ez ds, fmt_ok f -> (7 <= prec f)%Z -> (emin f + 2 * prec f <= -1)%Z -> 0 <= K -> K * eps f <= 1 / 16 ->
  sqrt_all f K sq -> exp_all f K ex -> log_ok f K lg -> pow_any f K pw ->
  (2 <= k)%Z -> (fround f md (inject_Z k) <= p2 (- (emin f + 2 * prec f)))%Q -> representable f p -> (0 < p)%Q -> (p < 1)%Q ->
  source bmin bmax F u01 (fun u => 0 <= u /\ u < 1 /\ representable f u)%Q -> source bmin bmax F ez (fun y => 0 <= y /\ representable f y)%Q ->
  valid_draws bmin bmax ds -> (length ds < F)%nat ->
  let gamma := gm_op f md tn sq ex lg pw F u01 ez in
  exec (nb_op f md gamma poisson k p) ds = OMore \/
  exists a b g rest, nb_gamma f md k p = Some (a, b) /\ exec (gamma a b) ds = ORet g rest /\ (0 < g)%Q /\ representable f g /\ exec (nb_op f md gamma poisson k p) ds = exec (poisson g) rest.
Proof.
  intros f md tn sq ex lg pw K k p poisson bmin bmax F u01 ez ds Hf Hp Hw HK HKe HS HE HL HP K2 KB RP P0 P1 HU HZ Hv HF gamma.
  destruct (nb_ok f md Hf Hp Hw k p ltac:(lia) RP P0 P1) as (a & b & EN & GC & EA & BL & _). unfold nb_op. rewrite EN. cbn [pbind plift fst snd]. rewrite exec_bind_eq.
  assert (RA: representable f a) by (rewrite EA; apply rnd_repr; exact Hf). assert (A1: (1 < a)%Q).
  { apply Qlt_le_trans with 2%Q; [reflexivity|]. rewrite EA. apply repr_rnd_ge; [exact Hf|apply (repr_p2 f Hf 1); lia|rewrite (Zle_Qle 2 k) in K2; exact K2]. }
  destruct (C70_run f md tn sq ex lg pw K a b bmin bmax F u01 ez ds Hf Hp Hw HK HKe HS HE HL HP RA ltac:(rewrite EA; exact KB) GC HU HZ Hv HF) as [E|(x & rest & E & LR & X0 & RX & G0 & R)]; fold gamma in E; rewrite E; [left; reflexivity|right].
  destruct (R A1) as [XE _]. assert (XQ: (p2 (1 - prec f) <= x)%Q) by (apply Rle_Qle; exact XE).
  assert (GP: (0 < fround f md (x * b))%Q).
  { apply Qlt_le_trans with (p2 (1 - 2 * prec f)); [apply p2_pos|]. apply repr_rnd_ge; [exact Hf|apply repr_p2; [exact Hf|lia]|]. replace (1 - 2 * prec f)%Z with ((1 - prec f) + - prec f)%Z by lia. rewrite p2_add.
    pose proof (p2_pos (1 - prec f)). pose proof (p2_pos (- prec f)). apply Qle_trans with (x * p2 (- prec f))%Q; [apply Qmult_le_compat_r; ql|]. rewrite !(Qmult_comm x). apply Qmult_le_compat_r; ql. }
  exists a, b, (fround f md (x * b)), rest. split; [reflexivity|]. split; [exact E|]. split; [exact GP|]. split; [apply rnd_repr; exact Hf|].
  unfold nb_mean. destruct (qlt 0 (fround f md (x * b))) eqn:Q; [reflexivity|apply qlt_f in Q; contradiction].
Qed.
Print Assumptions C72_run.
(* The documented domain is k >= 0 and 0 <= p <= 1.  k = 0, p = 0 and p = 1 fail
   assertions or divide by 0; so does k = 1, the default, with p = 1/2, the
   default, if the engine returns 0. *)
Theorem C72_refuted : forall tn sq ex lg pw poisson, let f := ieee_double in
  let u01 := uniform_01 f RNE 9 u32 0 (2 ^ 32 - 1) in
  let ez := ez_op f RNE ex (int_float_pair f RNE 9 8 u32 0 (2 ^ 32 - 1)) u01 9 1 in
  let op k p := nb_op f RNE (gm_op f RNE tn sq ex lg pw 9 u01 ez) poisson k p in
  (forall ds, exec (op 0%Z (1 # 2)) ds = OUB /\ exec (op 5%Z 0%Q) ds = OUB /\ exec (op 5%Z 1%Q) ds = OUB) /\ exec (op 1%Z (1 # 2)) [0; 0]%Z = OUB.
Proof. intros. split; [intro ds; repeat split; vm_compute; reflexivity|vm_compute; reflexivity]. Qed.
Print Assumptions C72_refuted.
(* k = 7, p = 1/4: gamma(7, 3) *)
Example C72_ex : nb_gamma ieee_double RNE 7 (1 # 4) = Some (7, 3)%Q /\ representable ieee_double (1 # 4) /\ (fround ieee_double RNE (inject_Z 7) <= p2 (- (emin ieee_double + 2 * prec ieee_double)))%Q.
Proof. split; [vm_compute; reflexivity|]. split; [exists 1%Z, (-2)%Z; repeat split; vm_compute; discriminate|vm_compute; discriminate]. Qed.

(* ---- C73: laplace_distribution, lognormal_distribution ---- *)

(* The distribution function at the result is exp(-x)/2 or 1 - exp(-x)/2, each for
   half of the uniform numbers u, where x is the exponential variate. *)
Theorem C73_laplace : forall f md mean beta ez u01 ds x d1 u rest, fmt_ok f -> (7 <= prec f)%Z -> (0 < beta)%Q ->
  exec ez ds = ORet x d1 -> exec u01 d1 = ORet u rest -> (0 <= x)%Q ->
  exists r z, exec (lp_op f md u01 ez mean beta) ds = ORet r rest /\
    lap_cdf (Q2R mean) (Q2R beta) z = (if qlt u (1 # 2) then exp (- Q2R x) / 2 else 1 - exp (- Q2R x) / 2) /\
    Rabs (Q2R r - z) <= 3 * eps f * (Rabs (Q2R mean) + Q2R beta * Q2R x) + 3 * tiny f.
Proof.
  intros f md mean beta ez u01 ds x d1 u rest Hf Hp B0 E1 E2 X0. destruct (lp_ok f md Hp mean beta x u X0 B0) as [A B]. eexists. eexists. split; [unfold lp_op; rewrite exec_bind_eq, E1, exec_bind_eq, E2; reflexivity|]. split; [exact A|exact B].
Qed.
Print Assumptions C73_laplace.
Example C73_ex_laplace : let at_ u := lp_val ieee_double RNE 1 2 3 u in (at_ (1 # 4) == -5)%Q /\ (at_ (1 # 2) == 7)%Q.
Proof. split; vm_compute; reflexivity. Qed.

(* lognormal: the result is exp of the normal variate, >= 0. *)
Theorem C73_lognormal : forall f ex K nz ds x rest, exp_all f K ex -> exec nz ds = ORet x rest -> representable f x ->
  exists r, exec (ln_op ex nz) ds = ORet r rest /\ (0 <= r)%Q /\ Rabs (Q2R r - exp (Q2R x)) <= K * eps f * exp (Q2R x) + tiny f.
Proof. intros f ex K nz ds x rest HE E RX. destruct (HE x RX) as (P & _ & Q). exists (ex x). split; [unfold ln_op; rewrite exec_bind_eq, E; reflexivity|]. split; [exact P|exact Q]. Qed.
Print Assumptions C73_lognormal.

(* The deprecated class: _nmean and _nsigma are the documented numbers up to
   rounding; the square of _nsigma has an absolute error of 13 epsilon. *)
Theorem C73_old : forall f md sq lg K mean sigma, fmt_ok f -> (7 <= prec f)%Z -> 0 <= K -> K * eps f <= 1 / 32 -> sqrt_all f K sq -> log_ok f K lg -> log_fl f lg ->
  (0 < mean)%Q -> (0 <= sigma)%Q -> let M := Q2R mean in let S := Q2R sigma in
  tiny f <= eps f * (M * M) -> tiny f <= eps f * (M * M / sqrt (S * S + M * M)) ->
  exists nm ns, ln_old_init f md sq lg mean sigma = Some (nm, ns) /\
    Rabs (Q2R nm - ln_mu M S) <= K * eps f * Rabs (ln_mu M S) + (25 + 5 * K) * eps f /\
    0 <= Q2R ns /\ Rabs (Q2R ns * Q2R ns - ln_var M S) <= 5 * (K * eps f) * ln_var M S + 13 * eps f.
Proof.
  intros f md sq lg K mean sigma Hf Hp HK HKe HS HL HF M0 S0 M S T1 T2. assert (Te: tiny f <= eps f) by (unfold tiny, eps; apply Q2R_le, p2_le; destruct Hf; lia).
  destruct (ln_init_ok f md Hf Hp K sq lg HK HKe HS HL HF mean sigma M0 S0 T1 T2 Te) as (nm & ns & A & B & C & D). exists nm, ns. split; [exact A|]. split; [apply Rle_trans with (1 := B); right; unfold M, S; ring|]. split; [exact C|exact D].
Qed.
Print Assumptions C73_old.
Theorem C73_old_run : forall f md ex K nz nm ns ds x rest, fmt_ok f -> (7 <= prec f)%Z -> exp_all f K ex -> exec nz ds = ORet x rest ->
  exists r w, exec (ln_old_op f md ex nz nm ns) ds = ORet r rest /\ (0 <= r)%Q /\ Rabs (Q2R r - exp w) <= K * eps f * exp w + tiny f /\
    Rabs (w - (Q2R nm + Q2R x * Q2R ns)) <= 3 * eps f * (Rabs (Q2R nm) + Rabs (Q2R x * Q2R ns)) + 3 * tiny f.
Proof.
  intros f md ex K nz nm ns ds x rest Hf Hp HE E. set (w := fround f md (fround f md (x * ns) + nm)). destruct (HE w (rnd_repr f md Hf _)) as (P & _ & Q). exists (ex w), (Q2R w).
  split; [unfold ln_old_op; rewrite exec_bind_eq, E; reflexivity|]. split; [exact P|]. split; [exact Q|]. destruct (g_e f Hp) as [E0 E1]. pose proof (tiny_pos f) as T0.
  pose proof (rt f md (x * ns)) as R. rewrite Q2R_mult in R.
  pose proof (add_err f md (fround f md (x * ns) + nm) (Q2R nm) (Q2R (fround f md (x * ns))) (Q2R x * Q2R ns) _ ltac:(rewrite Q2R_plus; ring) R) as A. fold w in A.
  pose proof (Rabs_pos (Q2R nm)) as M0. pose proof (Rabs_pos (Q2R x * Q2R ns)) as BX. pose proof (Rmult_le_pos (eps f) _ ltac:(lra) M0). pose proof (Rmult_le_pos (eps f) _ ltac:(lra) BX) as EB. pose proof (Rmult_le_compat_r _ _ _ EB E1). pose proof (Rmult_le_compat_r (tiny f) _ _ ltac:(lra) E1).
  apply Rle_trans with (1 := A). lra.
Qed.
Print Assumptions C73_old_run.
Lemma old_ns : forall f md sq lg mean sigma a b nm ns, fdiv f md (fround f md (sigma * sigma)) mean = Some a -> fdiv f md a mean = Some b -> fround f md (b + 1) = 1%Q ->
  ln_old_init f md sq lg mean sigma = Some (nm, ns) -> ns = sq (lg 1%Q).
Proof.
  intros f md sq lg mean sigma a b nm ns HA HB HC EI. unfold ln_old_init in EI. destruct (fsqrt sq _) as [r|]; cbn [bind] in EI; [|discriminate]. destruct (fdiv _ _ _ r) as [m|]; cbn [bind] in EI; [|discriminate]. destruct (flog lg m) as [n1|]; cbn [bind] in EI; [|discriminate].
  rewrite HA in EI. cbn [bind] in EI. rewrite HB in EI. cbn [bind] in EI. rewrite HC in EI. unfold flog in EI. change (Qle_bool 1 0) with false in EI. cbn [bind] in EI. unfold fsqrt in EI. destruct (qlt (lg 1%Q) 0); cbn [bind] in EI; [discriminate|]. injection EI as _ <-. reflexivity.
Qed.
Lemma ns_zero : forall f md x nm ns, fmt_ok f -> (ns == 0)%Q -> (fround f md (fround f md (x * ns) + nm) == fround f md nm)%Q.
Proof.
  intros f md x nm ns Hf NS. apply rnd_compat; [exact Hf|]. assert (Z: (x * ns == 0)%Q) by (rewrite NS; ring). rewrite (rnd_compat _ md Hf _ _ Z), (rnd_fix _ md Hf 0 (repr_0 _ Hf)). ring.
Qed.
(* The relative error of _nsigma can be 1: with mean 1 and sigma 2^-27 it is 0, and
   every result is the same, although the documented standard deviation of the
   logarithm is positive. *)
Theorem C73_old_refuted : forall sq lg x, (lg 1 == 0)%Q -> (forall y, (y == 0)%Q -> (sq y == 0)%Q) ->
  0 < sqrt (ln_var 1 (Q2R (1 # 2 ^ 27))) /\
  forall nm ns, ln_old_init ieee_double RNE sq lg 1 (1 # 2 ^ 27) = Some (nm, ns) -> (ns == 0)%Q /\
  (fround ieee_double RNE (fround ieee_double RNE (x * ns) + nm) == fround ieee_double RNE nm)%Q.
Proof.
  intros sq lg x HL HS. split.
  - apply sqrt_lt_R0. unfold ln_var. rewrite <- ln_1 at 1. apply ln_increasing; [lra|]. assert (P: 0 < Q2R (1 # 2 ^ 27)) by (rewrite <- Q2R_0; apply Qlt_Rlt; reflexivity). pose proof (Rmult_lt_0_compat _ _ P P) as PP. unfold Rdiv. rewrite Rmult_1_r, Rinv_1. lra.
  - intros nm ns EI. assert (NS: (ns == 0)%Q).
    { rewrite (old_ns ieee_double RNE sq lg 1 (1 # 2 ^ 27) (1 # 2 ^ 54) (1 # 2 ^ 54) nm ns); [apply HS; exact HL|vm_compute; reflexivity|vm_compute; reflexivity|vm_compute; reflexivity|exact EI]. }
    split; [exact NS|]. apply ns_zero; [split; cbn; lia|exact NS].
Qed.
Print Assumptions C73_old_refuted.
(* the hypotheses: mean = sigma = 1, the default, and the functions of C70_ex *)
Example C73_ex : let f := ieee_double in 3 * eps f <= 1 / 32 /\ sqrt_all f 3 (fun x => appr (eps f) (sqrt (Q2R x))) /\ log_ok f 3 (lgf f) /\ log_fl f (lgf f) /\
  tiny f <= eps f * (Q2R 1 * Q2R 1) /\ tiny f <= eps f * (Q2R 1 * Q2R 1 / sqrt (Q2R 1 * Q2R 1 + Q2R 1 * Q2R 1)) /\ (lgf f 1 == 0)%Q.
Proof.
  cbv zeta. assert (Hf: fmt_ok ieee_double) by (split; cbn; lia). pose proof (e_pos ieee_double) as E0. destruct (lgf_ok ieee_double Hf ltac:(cbn; lia) ltac:(cbn; lia)) as [A B].
  split; [unfold eps; assert (H: (3 * p2 (1 - prec ieee_double) <= 1 # 32)%Q) by (vm_compute; discriminate); apply Q2R_le in H; rewrite Q2R_mult in H; unfold Q2R in H at 1 3; cbn [Qnum Qden] in H; lra|].
  split; [apply sqg_ok; cbn; lia|]. split; [exact A|]. split; [exact B|]. rewrite Q2R_1. assert (T: 2 * tiny ieee_double <= eps ieee_double). { unfold tiny, eps. replace 2 with (Q2R (p2 1)) by (unfold p2, Q2R; cbn; field). rewrite <- Q2R_mult. apply Q2R_le. rewrite <- p2_add. apply p2_le. cbn. lia. }
  pose proof (tiny_pos ieee_double) as T0. split; [lra|]. split; [|unfold lgf; cbv zeta; replace (Qeq_bool 1 1) with true by reflexivity; apply Qeq_refl].
  assert (S2: sqrt (1 * 1 + 1 * 1) <= 2) by (apply Rle_trans with (sqrt (2 * 2)); [apply sqrt_le_1_alt; lra|right; apply sqrt_square; lra]). assert (SP: 0 < sqrt (1 * 1 + 1 * 1)) by (apply sqrt_lt_R0; lra).
  set (s := sqrt (1 * 1 + 1 * 1)) in *. apply Rmult_le_reg_r with s; [exact SP|]. replace (eps ieee_double * (1 * 1 / s) * s) with (eps ieee_double) by (field; lra). pose proof (Rmult_le_compat_l (tiny ieee_double) s 2 ltac:(lra) S2). lra.
Qed.
