(* geometric_distribution, triangle_distribution, weibull_distribution,
   extreme_value_distribution, cauchy_distribution: the result is the quantile of
   the uniform number. *)
From Coq Require Import Reals Lqa Lra Qreals Rpower.
From Verif Require Bin2Proofs.
From Verif Require Import Base ProgModel ProgSpec ProgProofs UIntSpec FloatModel FloatSpec FloatProofs RealModel UniProofs Disc4Proofs BinModel BinSpec PoisRSpec Pois3Proofs Pois3Props InvModel InvSpec Inv1Proofs Inv2Proofs Inv3Proofs Inv4Proofs.
Ltac Zify.zify_post_hook ::= idtac.
Open Scope R_scope.

(* ---- C66: geometric_distribution ---- *)

(* The probability of k is p(1-p)^k, so a number x = 1-u in (0,1] selects the k
   with (1-p)^(k+1) < x <= (1-p)^k.  The result is this k, with exponents off by a
   relative (4K+2) epsilon; q is 1-p rounded, and x is 1-u rounded.  Undefined
   only if k does not fit IntType. *)
Theorem C66_value : forall f md lg K it p u, fmt_ok f -> (4 <= prec f)%Z -> 0 <= K -> K * eps f <= 1 / 8 -> log_ok f K lg ->
  representable f u -> (0 <= u)%Q -> (u < 1)%Q -> representable f p -> (0 < p)%Q -> (p < 1)%Q -> (fround f md (1 - p) < 1)%Q ->
  let q := Q2R (fround f md (1 - p)) in
  let x := Q2R (fround f md (1 - u)) in
  let d := (4 * K + 2) * eps f in
  exists k, (0 <= k)%Z /\ Rpower q ((IZR k + 1) * (1 + d)) <= x /\ x <= Rpower q (IZR k * (1 - d)) /\
    geo_val f md lg it (geo_init f md lg p) u = if ((imin it <=? k) && (k <=? imax it))%Z then Some k else None.
Proof. intros f md lg K it p u Hf Hp HK HKe HL RU U0 U1 RP P0 P1 Q1. exact (geo_val_ok f md lg K Hf Hp HK HKe HL it p u RU U0 U1 P1 RP P0 Q1). Qed.
Print Assumptions C66_value.

(* operator() is defined for every engine if (1-p)^max() is less than the least
   possible 1-u. *)
Theorem C66_run : forall f md lg K it p tb bmin bmax F ds, fmt_ok f -> (4 <= prec f)%Z -> 0 <= K -> K * eps f <= 1 / 8 -> log_ok f K lg ->
  representable f p -> (0 < p)%Q -> (p < 1)%Q -> (fround f md (1 - p) < 1)%Q -> (0 < bits it)%Z ->
  let q := Q2R (fround f md (1 - p)) in
  let d := (4 * K + 2) * eps f in
  Rpower q ((IZR (imax it) + 1) * (1 - d)) < Q2R (p2 (- prec f)) ->
  eng_wf tb bmin bmax -> (bmax - bmin <= imax tb)%Z -> valid_draws bmin bmax ds -> (length ds < F)%nat ->
  let u01 := uniform_01 f md F tb bmin bmax in
  let op := geo_op f md lg it u01 p in
  exec op ds = OMore \/
  exists k rest u, exec op ds = ORet k rest /\ exec u01 ds = ORet u rest /\ (0 <= k <= imax it)%Z /\
    Rpower q ((IZR k + 1) * (1 + d)) <= Q2R (fround f md (1 - u)) /\ Q2R (fround f md (1 - u)) <= Rpower q (IZR k * (1 - d)).
Proof.
  intros f md lg K it p tb bmin bmax F ds Hf Hp HK HKe HL RP P0 P1 Q1 HB q d HQ He HR Hv HF u01 op. unfold op, geo_op. rewrite exec_bind_eq.
  destruct (u01_run2 f md tb bmin bmax F ds Hf He HR Hv HF) as [E|(u & rest & E & _ & U0 & U1 & RU)]; fold u01 in E; rewrite E; [left; reflexivity|right].
  destruct (geo_val_ok f md lg K Hf Hp HK HKe HL it p u RU U0 U1 P1 RP P0 Q1) as (k & K0 & A & B & EV). fold q in A, B. fold d in A, B.
  destruct (one_minus f md u Hf RU U0 U1) as (X0 & _ & _). apply Q2R_le in X0.
  destruct (one_minus f md p Hf RP ltac:(Lqa.lra) P1) as (Q0 & _ & _). pose proof (p2_pos (- prec f)) as PP.
  assert (QR: 0 < q) by (unfold q; rewrite <- Q2R_0; apply Qlt_Rlt; Lqa.lra). assert (QR1: q < 1) by (unfold q; rewrite <- Q2R_1; apply Qlt_Rlt; exact Q1).
  assert (LQ: ln q < 0) by (rewrite <- ln_1; apply ln_increasing; assumption).
  pose proof (ge_le f Hp) as E1. pose proof (e_pos f) as E0. assert (D1: d <= 3 / 4) by (unfold d; lra).
  assert (KM: (k <= imax it)%Z).
  { destruct (Z_le_gt_dec k (imax it)) as [G|G]; [exact G|exfalso]. assert (G': (imax it + 1 <= k)%Z) by lia. apply IZR_le in G'. rewrite plus_IZR in G'.
    assert (L: Rpower q (IZR k * (1 - d)) <= Rpower q ((IZR (imax it) + 1) * (1 - d))); [|lra].
    unfold Rpower. assert (M: (IZR (imax it) + 1) * (1 - d) <= IZR k * (1 - d)) by (apply Rmult_le_compat_r; lra).
    pose proof (Rmult_le_compat_r (- ln q) _ _ ltac:(lra) M) as M2. destruct (Rle_lt_or_eq_dec (IZR k * (1 - d) * ln q) ((IZR (imax it) + 1) * (1 - d) * ln q) ltac:(lra)) as [H|H]; [left; apply exp_increasing; exact H|rewrite H; right; reflexivity]. }
  assert (IM: (imin it <= 0)%Z) by (unfold imin; destruct (sgn it); [pose proof (Z.pow_nonneg 2 (bits it - 1)); lia|lia]).
  exists k, rest, u. rewrite EV. destruct (Z.leb_spec (imin it) k); [|lia]. destruct (Z.leb_spec k (imax it)); [|lia]. cbn [andb plift exec].
  split; [reflexivity|]. split; [reflexivity|]. split; [lia|]. split; assumption.
Qed.
Print Assumptions C66_run.

(* geometric_distribution<int>: the conversion to IntType is undefined for p =
   2^-40 and the largest uniform number, for every std::log of sufficient accuracy;
   and for every uniform number if 1-p rounds to 1. *)
Theorem C66_refuted : forall lg K, 0 <= K -> K * eps ieee_double <= 1 / 8 -> log_ok ieee_double K lg ->
  let op p := geo_op ieee_double RNE lg i32 (uniform_01 ieee_double RNE 2 u64 0 (2 ^ 64 - 1)) p in
  exec (op (1 # 2 ^ 40)) [(2 ^ 64 - 2 ^ 11)%Z] = OUB /\ exec (op (1 # 2 ^ 60)) [0%Z] = OUB.
Proof.
  intros lg K HK HKe HL op. assert (Hf: fmt_ok ieee_double) by (split; cbn; lia). split; unfold op, geo_op; rewrite exec_bind_eq.
  - assert (E: exec (uniform_01 ieee_double RNE 2 u64 0 (2 ^ 64 - 1)) [(2 ^ 64 - 2 ^ 11)%Z] = ORet (9007199254740991 # 9007199254740992) []) by (vm_compute; reflexivity).
    rewrite E. clear E. set (u := 9007199254740991 # 9007199254740992). set (p := 1 # 2 ^ 40).
    assert (RU: representable ieee_double u) by (exists 9007199254740991%Z, (-53)%Z; repeat split; vm_compute; discriminate).
    assert (RP: representable ieee_double p) by (exists 1%Z, (-40)%Z; repeat split; vm_compute; discriminate).
    destruct (geo_val_ok ieee_double RNE lg K Hf ltac:(cbn; lia) HK HKe HL i32 p u RU ltac:(vm_compute; discriminate) ltac:(vm_compute; reflexivity) ltac:(vm_compute; reflexivity) RP ltac:(vm_compute; reflexivity) ltac:(vm_compute; reflexivity)) as (k & K0 & A & B & EV).
    rewrite EV. destruct (Z.leb_spec k (imax i32)) as [L|L]; [exfalso|rewrite Bool.andb_false_r; reflexivity].
    assert (XV: (fround ieee_double RNE (1 - u) == 1 # 9007199254740992)%Q) by (vm_compute; reflexivity). assert (QV: (fround ieee_double RNE (1 - p) == 1 - (1 # 2 ^ 40))%Q) by (vm_compute; reflexivity).
    apply Qeq_eqR in XV, QV. rewrite XV in A. rewrite QV in A. clear B EV XV QV. set (q := Q2R (1 - (1 # 2 ^ 40))) in *.
    assert (QE: q = 1 - / 1099511627776) by (unfold q; rewrite Q2R_minus, Q2R_1; unfold Q2R; cbn; field).
    assert (LQ: - (2 / 1099511627776) <= ln q).
    { destruct (ln_1p (/ 1099511627776) q ltac:(lra) ltac:(lra) ltac:(lra) ltac:(lra)) as [LL _]. lra. }
    assert (KB: IZR k <= 2147483647) by (apply IZR_le; exact L). assert (KN: 0 <= IZR k) by (apply (IZR_le 0); exact K0).
    pose proof (ge_le ieee_double ltac:(cbn; lia)) as E1. pose proof (e_pos ieee_double) as E0. set (d := (4 * K + 2) * eps ieee_double) in *. assert (D1: d <= 3 / 4) by (unfold d; lra). assert (D0: 0 <= d) by (unfold d; apply Rmult_le_pos; lra).
    assert (EX: - (1 / 2) <= (IZR k + 1) * (1 + d) * ln q).
    { assert (M: (IZR k + 1) * (1 + d) <= 2147483648 * 2) by (apply Rmult_le_compat; lra). assert (M0: 0 <= (IZR k + 1) * (1 + d)) by (apply Rmult_le_pos; lra).
      assert (LN: ln q <= 0) by (apply ln_le0; lra).
      pose proof (Rmult_le_compat _ _ _ _ M0 (ltac:(lra) : 0 <= - ln q) M (ltac:(lra) : - ln q <= 2 / 1099511627776)). lra. }
    unfold Rpower in A. assert (EP: exp (- (1 / 2)) <= exp ((IZR k + 1) * (1 + d) * ln q)).
    { destruct (Rle_lt_or_eq_dec _ _ EX) as [G|G]; [left; apply exp_increasing; exact G|rewrite G; right; reflexivity]. }
    pose proof (exp_ineq1 (- (1 / 2)) ltac:(lra)) as E2. assert (XS: Q2R (1 # 9007199254740992) < 1 / 2) by (unfold Q2R; cbn; lra). lra.
  - assert (E: exec (uniform_01 ieee_double RNE 2 u64 0 (2 ^ 64 - 1)) [0%Z] = ORet 0%Q []) by (vm_compute; reflexivity). rewrite E. clear E.
    unfold geo_val, geo_init. assert (XV: fround ieee_double RNE (1 - 0) = 1%Q) by (vm_compute; reflexivity). assert (QV: fround ieee_double RNE (1 - (1 # 2 ^ 60)) = 1%Q) by (vm_compute; reflexivity). rewrite XV, QV.
    cbv zeta. replace (Qle_bool 1 0) with false by reflexivity.
    assert (LG: (lg 1 == 0)%Q).
    { pose proof (HL 1%Q ltac:(reflexivity) (repr_1 _ Hf)) as A. rewrite Q2R_1, ln_1, Rabs_R0, Rmult_0_r, Rminus_0_r in A.
      apply eqR_Qeq. rewrite Q2R_0. destruct (Req_dec (Q2R (lg 1%Q)) 0) as [Z|Z]; [exact Z|]. pose proof (Rabs_pos_lt _ Z). lra. }
    unfold fdiv. apply Qeq_bool_iff in LG. rewrite LG. reflexivity.
Qed.
Print Assumptions C66_refuted.

(* The deprecated class counts from 1 and its parameter is the probability to go
   on: with ip = 1-p rounded and q = 1-ip rounded, the result j has (up to the same
   error) q^j < x <= q^(j-1). *)
Theorem C66_old_run : forall f md lg K it p tb bmin bmax F ds, fmt_ok f -> (4 <= prec f)%Z -> 0 <= K -> K * eps f <= 1 / 8 -> log_ok f K lg ->
  let ip := geo_old_init f md p in
  representable f ip -> (0 < ip)%Q -> (ip < 1)%Q -> (fround f md (1 - ip) < 1)%Q -> (32 <= bits it)%Z ->
  let q := Q2R (fround f md (1 - ip)) in
  let d := (4 * K + 2) * eps f in
  Rpower q (IZR (imax it) * (1 - d)) < Q2R (p2 (- prec f)) ->
  eng_wf tb bmin bmax -> (bmax - bmin <= imax tb)%Z -> valid_draws bmin bmax ds -> (length ds < F)%nat ->
  let u01 := uniform_01 f md F tb bmin bmax in
  let op := geo_old_op f md lg it u01 ip in
  exec op ds = OMore \/
  exists j rest u, exec op ds = ORet j rest /\ exec u01 ds = ORet u rest /\ (1 <= j <= imax it)%Z /\
    Rpower q (IZR j * (1 + d)) <= Q2R (fround f md (1 - u)) /\ Q2R (fround f md (1 - u)) <= Rpower q ((IZR j - 1) * (1 - d)).
Proof.
  intros f md lg K it p tb bmin bmax F ds Hf Hp HK HKe HL ip RP P0 P1 Q1 HB q d HQ He HR Hv HF u01 op.
  destruct (one_minus f md ip Hf RP ltac:(Lqa.lra) P1) as (Q0 & _ & _). pose proof (p2_pos (- prec f)) as PP.
  assert (QR: 0 < q) by (unfold q; rewrite <- Q2R_0; apply Qlt_Rlt; Lqa.lra). assert (QR1: q < 1) by (unfold q; rewrite <- Q2R_1; apply Qlt_Rlt; exact Q1).
  assert (LQ: ln q < 0) by (rewrite <- ln_1; apply ln_increasing; assumption).
  pose proof (ge_le f Hp) as E1. pose proof (e_pos f) as E0. assert (D1: d <= 3 / 4) by (unfold d; lra).
  assert (HQ': Rpower q ((IZR (imax it) + 1) * (1 - d)) < Q2R (p2 (- prec f))).
  { eapply Rlt_trans; [|exact HQ]. unfold Rpower. apply exp_increasing. pose proof (Rmult_lt_0_compat (1 - d) (- ln q) ltac:(lra) ltac:(lra)). lra. }
  unfold op, geo_old_op. rewrite exec_bind_eq.
  destruct (C66_run f md lg K it ip tb bmin bmax F ds Hf Hp HK HKe HL RP P0 P1 Q1 ltac:(lia) HQ' He HR Hv HF) as [E|(k & rest & u & E & EU & B & A1 & A2)]; fold u01 in E; rewrite E; [left; reflexivity|right].
  fold u01 in EU. fold q in A1, A2. fold d in A1, A2.
  destruct (u01_run2 f md tb bmin bmax F ds Hf He HR Hv HF) as [E'|(u' & rest' & E' & _ & U0 & U1 & RU)]; fold u01 in E'; rewrite EU in E'; [discriminate|]. injection E' as <- <-.
  destruct (one_minus f md u Hf RU U0 U1) as (X0 & _ & _). apply Q2R_le in X0.
  assert (KN: k <> imax it) by (intro G; rewrite G in A2; lra).
  assert (IM: (imin it <= 0)%Z) by (unfold imin; destruct (sgn it); [pose proof (Z.pow_nonneg 2 (bits it - 1)); lia|lia]).
  exists (k + 1)%Z, rest, u. rewrite (Bin2Proofs.addT_in it k 1) by lia. cbn [plift exec]. split; [reflexivity|]. split; [exact EU|]. split; [lia|].
  rewrite plus_IZR. replace (IZR k + 1 - 1) with (IZR k) by ring. split; assumption.
Qed.
Print Assumptions C66_old_run.

(* The deprecated class stores 1-p; writing it and reading it back restores the
   stored number, for every p and every rounding direction. *)
Theorem C66_old_io : forall f md p, fmt_ok f -> representable f p -> (0 <= p)%Q -> (p <= 1)%Q ->
  let ip := geo_old_init f md p in (geo_old_init f md (geo_old_p f md ip) == ip)%Q.
Proof. exact geo_old_rt. Qed.
Print Assumptions C66_old_io.
(* 0.1 is not restored by p(), but the stored number is *)
Example C66_ex_old : let p := fround ieee_double RNE (1 # 10) in let ip := geo_old_init ieee_double RNE p in
  Qeq_bool (geo_old_p ieee_double RNE ip) p = false /\ Qeq_bool (geo_old_init ieee_double RNE (geo_old_p ieee_double RNE ip)) ip = true.
Proof. vm_compute. split; reflexivity. Qed.
(* the hypotheses: p = 1/2, int *)
Example C66_ex : let f := ieee_double in fmt_ok f /\ 1 * eps f <= 1 / 8 /\ log_ok f 1 (fun y => appr (eps f) (ln (Q2R y))) /\
  representable f (1 # 2) /\ (fround f RNE (1 - (1 # 2)) < 1)%Q /\
  Rpower (Q2R (fround f RNE (1 - (1 # 2)))) ((IZR (imax i32) + 1) * (1 - (4 * 1 + 2) * eps f)) < Q2R (p2 (- prec f)).
Proof.
  cbv zeta. assert (E8: eps ieee_double <= 1 / 64) by (unfold eps; replace (1 / 64) with (Q2R (p2 (-6))) by (unfold p2, Q2R; cbn; field); apply Q2R_le, p2_le; cbn; lia).
  split; [split; cbn; lia|]. split; [lra|]. split; [intros y Y0 RY; apply appr_ok; apply e_pos|]. split; [exists 1%Z, (-1)%Z; repeat split; vm_compute; discriminate|]. split; [vm_compute; reflexivity|].
  assert (QV: (fround ieee_double RNE (1 - (1 # 2)) == 1 # 2)%Q) by (vm_compute; reflexivity). apply Qeq_eqR in QV. rewrite QV. clear QV. replace (Q2R (1 # 2)) with (/ 2) by (unfold Q2R; cbn; field).
  assert (PV: Q2R (p2 (- prec ieee_double)) = Rpower (/ 2) 53).
  { replace 53 with (INR 53) by (cbn; ring). rewrite Rpower_pow by lra. unfold p2. cbn [prec ieee_double Z.opp Qpower]. replace (Q2R (/ Qpower_positive 2 53)) with (/ 2 ^ 53) by (unfold Q2R; cbn; field). cbn; field. }
  rewrite PV. unfold Rpower. apply exp_increasing. assert (LN: ln (/ 2) < 0) by (rewrite <- ln_1; apply ln_increasing; lra).
  assert (M: 53 < (IZR (imax i32) + 1) * (1 - (4 * 1 + 2) * eps ieee_double)).
  { apply Rlt_le_trans with ((IZR (imax i32) + 1) * (1 / 2)); [cbn; lra|]. apply Rmult_le_compat_l; [cbn; lra|lra]. }
  pose proof (Rmult_lt_compat_r (- ln (/ 2)) _ _ ltac:(lra) M). lra.
Qed.

(* the deprecated class with p = 1/2 *)
Example C66_ex_old_run : let f := ieee_double in let ip := geo_old_init f RNE (1 # 2) in
  representable f ip /\ (0 < ip)%Q /\ (ip < 1)%Q /\ (fround f RNE (1 - ip) < 1)%Q /\
  Rpower (Q2R (fround f RNE (1 - ip))) (IZR (imax i32) * (1 - (4 * 1 + 2) * eps f)) < Q2R (p2 (- prec f)).
Proof.
  cbv zeta. assert (E8: eps ieee_double <= 1 / 64) by (unfold eps; replace (1 / 64) with (Q2R (p2 (-6))) by (unfold p2, Q2R; cbn; field); apply Q2R_le, p2_le; cbn; lia).
  split; [apply rnd_repr; split; cbn; lia|]. split; [vm_compute; reflexivity|]. split; [vm_compute; reflexivity|]. split; [vm_compute; reflexivity|].
  assert (QV: (fround ieee_double RNE (1 - geo_old_init ieee_double RNE (1 # 2)) == 1 # 2)%Q) by (vm_compute; reflexivity). apply Qeq_eqR in QV. rewrite QV. clear QV. replace (Q2R (1 # 2)) with (/ 2) by (unfold Q2R; cbn; field).
  assert (PV: Q2R (p2 (- prec ieee_double)) = Rpower (/ 2) 53).
  { replace 53 with (INR 53) by (cbn; ring). rewrite Rpower_pow by lra. unfold p2. cbn [prec ieee_double Z.opp Qpower]. replace (Q2R (/ Qpower_positive 2 53)) with (/ 2 ^ 53) by (unfold Q2R; cbn; field). cbn; field. }
  rewrite PV. unfold Rpower. apply exp_increasing. assert (LN: ln (/ 2) < 0) by (rewrite <- ln_1; apply ln_increasing; lra).
  assert (M: 53 < IZR (imax i32) * (1 - (4 * 1 + 2) * eps ieee_double)).
  { apply Rlt_le_trans with (IZR (imax i32) * (1 / 2)); [cbn; lra|]. apply Rmult_le_compat_l; [cbn; lra|lra]. }
  pose proof (Rmult_lt_compat_r (- ln (/ 2)) _ _ ltac:(lra) M). lra.
Qed.

(* ---- C67: triangle_distribution ---- *)

(* The constructor and operator() never take the square root of a negative number
   and never divide by zero.  For u <= q1 the result is the u-quantile; for u > q1
   the quantiles between b and c are used in reverse order (1 + (b-a)/(c-a) - u).
   The error of the quantile level is at most 6 epsilon and that of the result
   O(epsilon (|a|+|c|)), apart from underflow. *)
Theorem C67_value : forall f md sq K a b c, fmt_ok f -> (4 <= prec f)%Z -> 0 <= K -> K * eps f <= 1 / 8 -> sqrt_all f K sq ->
  representable f a -> representable f b -> representable f c -> (a <= b)%Q -> (b <= c)%Q -> (a < c)%Q ->
  let D1 := Q2R b - Q2R a in let D2 := Q2R c - Q2R a in let M := Rabs (Q2R a) + Rabs (Q2R c) in
  exists t, tri_init f md sq a b c = Some t /\
  forall u, representable f u -> (0 <= u)%Q -> (u < 1)%Q ->
  exists w z u', tri_val f md sq t u = Some w /\ Q2R a <= z <= Q2R c /\ 0 <= u' <= 1 /\
    Rabs (u' - Q2R u) * D2 <= 6 * eps f * D2 + 2 * tiny f * (1 + D2) /\
    tri_cdf (Q2R a) (Q2R b) (Q2R c) z = (if Qle_bool u (fround f md (fround f md (b - a) / fround f md (c - a))) then u' else 1 + D1 / D2 - u') /\
    Rabs (Q2R w - z) <= (28 + 7 * K) * eps f * M + 7 * sqrt (tiny f) * (1 + M).
Proof.
  intros f md sq K a b c Hf Hp HK HKe HS Ra Rb Rc Hab Hbc Hac D1 D2 M.
  destruct (tri_init_ok f md sq Hf a b c Ra Rc Hab Hbc Hac) as (q1 & EQ & ET). eexists. split; [exact ET|]. intros u RU U0 U1.
  destruct (tri_main f md sq K Hf Hp HK HKe HS a b c Ra Rb Rc Hab Hbc Hac _ u ET RU U0 U1) as (w & z & u' & A & B & C & D & E & _ & G).
  cbn [tr_q1] in E. rewrite EQ in E. exists w, z, u'. repeat (split; [first [exact A|exact B|exact C|exact D|exact E]|]).
  apply Rle_trans with (1 := G). right. unfold M. ring.
Qed.
Print Assumptions C67_value.

Theorem C67_run : forall f md sq K a b c tb bmin bmax F ds, fmt_ok f -> (4 <= prec f)%Z -> 0 <= K -> K * eps f <= 1 / 8 -> sqrt_all f K sq ->
  representable f a -> representable f b -> representable f c -> (a <= b)%Q -> (b <= c)%Q -> (a < c)%Q ->
  eng_wf tb bmin bmax -> (bmax - bmin <= imax tb)%Z -> valid_draws bmin bmax ds -> (length ds < F)%nat ->
  exists t, tri_init f md sq a b c = Some t /\
  (exec (tri_op f md sq (uniform_01 f md F tb bmin bmax) t) ds = OMore \/
   exists w rest, exec (tri_op f md sq (uniform_01 f md F tb bmin bmax) t) ds = ORet w rest /\
    Q2R a - ((28 + 7 * K) * eps f * (Rabs (Q2R a) + Rabs (Q2R c)) + 7 * sqrt (tiny f) * (1 + (Rabs (Q2R a) + Rabs (Q2R c)))) <= Q2R w /\
    Q2R w <= Q2R c + ((28 + 7 * K) * eps f * (Rabs (Q2R a) + Rabs (Q2R c)) + 7 * sqrt (tiny f) * (1 + (Rabs (Q2R a) + Rabs (Q2R c))))).
Proof.
  intros f md sq K a b c tb bmin bmax F ds Hf Hp HK HKe HS Ra Rb Rc Hab Hbc Hac He HR Hv HF.
  destruct (C67_value f md sq K a b c Hf Hp HK HKe HS Ra Rb Rc Hab Hbc Hac) as (t & ET & W). exists t. split; [exact ET|]. unfold tri_op. rewrite exec_bind_eq.
  destruct (u01_run2 f md tb bmin bmax F ds Hf He HR Hv HF) as [E|(u & rest & E & _ & U0 & U1 & RU)]; rewrite E; [left; reflexivity|right].
  destruct (W u RU U0 U1) as (w & z & u' & A & B & _ & _ & _ & G). rewrite A. exists w, rest. split; [reflexivity|]. apply Rabs_le_inv in G. lra.
Qed.
Print Assumptions C67_run.
(* a = 0, b = 1, c = 4; u = 1/16 gives 1/2, u = 1 - 2^-10 about 1, and u just above 1/4 gives about 4 *)
Example C67_ex : let f := ieee_double in fmt_ok f /\ 1 * eps f <= 1 / 8 /\ sqrt_all f 1 (fun y => appr (eps f) (sqrt (Q2R y))) /\
  representable f 0 /\ representable f 1 /\ representable f 4 /\ tri_cdf 0 1 4 (1 / 2) = 1 / 16.
Proof.
  cbv zeta. assert (E8: eps ieee_double <= 1 / 64) by (unfold eps; replace (1 / 64) with (Q2R (p2 (-6))) by (unfold p2, Q2R; cbn; field); apply Q2R_le, p2_le; cbn; lia).
  split; [split; cbn; lia|]. split; [lra|]. split; [intros y Y0 RY; pose proof (appr_ok (eps ieee_double) (sqrt (Q2R y)) (e_pos _)) as H; rewrite (Rabs_right (sqrt (Q2R y))) in H by (apply Rle_ge, sqrt_pos); exact H|].
  repeat (split; [first [exists 0%Z, 0%Z; repeat split; vm_compute; discriminate|exists 1%Z, 0%Z; repeat split; vm_compute; discriminate|exists 4%Z, 0%Z; repeat split; vm_compute; discriminate]|]).
  unfold tri_cdf. destruct (Rle_dec (1 / 2) 1); [field|lra].
Qed.

(* ---- C68: weibull_distribution, extreme_value_distribution ---- *)

(* The distribution function of the Weibull distribution is 1 - exp(-(z/b)^a).
   The result is >= 0, and up to relative rounding errors it is the z with
   exp(-(z/b)^a) = x, x being 1-u rounded; ln x is off by at most K epsilon and a
   by 2 epsilon, because 1/a is rounded.  Result 0 if x is 1. *)
Theorem C68_weibull : forall f md lg pw K a b tb bmin bmax F ds, fmt_ok f -> (4 <= prec f)%Z -> 0 <= K -> K * eps f <= 1 / 8 ->
  log_ok f K lg -> log_fl f lg -> pow_all f K pw -> (0 < a)%Q -> (0 < b)%Q -> (p2 (emin f + prec f - 1) <= 1 / a)%Q ->
  eng_wf tb bmin bmax -> (bmax - bmin <= imax tb)%Z -> valid_draws bmin bmax ds -> (length ds < F)%nat ->
  let u01 := uniform_01 f md F tb bmin bmax in
  let op := wei_op f md lg pw u01 a b in
  exec op ds = OMore \/
  exists v rest u, exec op ds = ORet v rest /\ exec u01 ds = ORet u rest /\ (0 <= v)%Q /\
    let x := Q2R (fround f md (1 - u)) in
    (x = 1 /\ (v == 0)%Q \/
     x < 1 /\ exists z a' x', 0 < z /\ wei_sf a' (Q2R b) z = x' /\
       (1 - 2 * eps f) * Q2R a <= a' <= (1 + 2 * eps f) * Q2R a /\ 0 < x' < 1 /\ Rabs (ln x' - ln x) <= K * eps f * - ln x /\
       Rabs (Q2R v - z) <= (K + 2) * eps f * z + 2 * tiny f * (1 + Q2R b)).
Proof.
  intros f md lg pw K a b tb bmin bmax F ds Hf Hp HK HKe HL HFl HP A0 B0 AN He HR Hv HF u01 op. unfold op, wei_op. rewrite exec_bind_eq.
  destruct (u01_run2 f md tb bmin bmax F ds Hf He HR Hv HF) as [E|(u & rest & E & _ & U0 & U1 & RU)]; fold u01 in E; rewrite E; [left; reflexivity|right].
  destruct (one_minus f md u Hf RU U0 U1) as (_ & X1 & _).
  destruct (Qlt_le_dec (fround f md (1 - u)) 1) as [L|L].
  - destruct (wei_main f md K Hf Hp HK HKe lg HL HFl pw HP a b u RU U0 U1 A0 B0 AN L) as (v & z & a' & x' & EV & V0 & Z0 & S & AA & XX & LL & V).
    exists v, rest, u. rewrite EV. split; [reflexivity|]. split; [reflexivity|]. split; [exact V0|]. cbv zeta. right.
    split; [rewrite <- Q2R_1; apply Qlt_Rlt; exact L|]. exists z, a', x'. repeat (split; [first [exact Z0|exact S|exact AA|exact XX|exact LL]|]). exact V.
  - assert (EQ: (fround f md (1 - u) == 1)%Q) by Lqa.lra.
    destruct (wei_one f md K Hf Hp lg HL pw HP a b u A0 AN EQ) as (v & EV & V0). exists v, rest, u. rewrite EV.
    split; [reflexivity|]. split; [reflexivity|]. split; [rewrite V0; Lqa.lra|]. cbv zeta. left. split; [apply Qeq_eqR in EQ; rewrite EQ; apply Q2R_1|exact V0].
Qed.
Print Assumptions C68_weibull.

(* The distribution function of the extreme value distribution is exp(-exp((a-z)/b)).
   The result is its u-quantile up to rounding, and minus infinity exactly if u = 0. *)
Theorem C68_extreme : forall f md lg K a b tb bmin bmax F ds, fmt_ok f -> (4 <= prec f)%Z -> 0 <= K -> K * eps f <= 1 / 8 ->
  log_ok f K lg -> log_fl f lg -> (0 < b)%Q ->
  eng_wf tb bmin bmax -> (bmax - bmin <= imax tb)%Z -> valid_draws bmin bmax ds -> (length ds < F)%nat ->
  let u01 := uniform_01 f md F tb bmin bmax in
  let op := exv_op f md lg u01 a b in
  exec op ds = OMore \/
  exists r rest u, exec op ds = ORet r rest /\ exec u01 ds = ORet u rest /\
    (r = None <-> (u == 0)%Q) /\
    forall v, r = Some v -> exists z, exv_cdf (Q2R a) (Q2R b) z = Q2R u /\
      Rabs (Q2R v - z) <= (4 * K + 3) * eps f * (Rabs (Q2R a) + Q2R b + Rabs (z - Q2R a)) + 3 * tiny f.
Proof.
  intros f md lg K a b tb bmin bmax F ds Hf Hp HK HKe HL HFl B0 He HR Hv HF u01 op. unfold op, exv_op. rewrite exec_bind_eq.
  destruct (u01_run2 f md tb bmin bmax F ds Hf He HR Hv HF) as [E|(u & rest & E & _ & U0 & U1 & RU)]; fold u01 in E; rewrite E; [left; reflexivity|right].
  destruct (Qeq_bool u 0) eqn:EZ.
  - exists None, rest, u. unfold exv_val. rewrite EZ. split; [reflexivity|]. split; [reflexivity|]. apply Qeq_bool_iff in EZ. split; [split; intros; [exact EZ|reflexivity]|discriminate].
  - assert (U0': (0 < u)%Q). { destruct (Qlt_le_dec 0 u) as [G|G]; [exact G|]. assert (u == 0)%Q by Lqa.lra. apply Qeq_bool_iff in H. congruence. }
    destruct (exv_main f md K Hp HK HKe lg HL HFl a b u RU U0' U1 B0) as (v & z & EV & C & V).
    exists (Some v), rest, u. rewrite EV. split; [reflexivity|]. split; [reflexivity|]. split; [split; [discriminate|intros Z; exfalso; Lqa.lra]|].
    intros v' [= <-]. exists z. split; assumption.
Qed.
Print Assumptions C68_extreme.

(* ---- C69: cauchy_distribution ---- *)

(* If the constant for pi is below pi, the result is the u'-quantile of the Cauchy
   distribution up to relative rounding errors, |u'-u| being at most 2 epsilon plus
   the error of the constant. *)
Theorem C69_value : forall f md tn K m s tb bmin bmax F ds, fmt_ok f -> (4 <= prec f)%Z -> 0 <= K -> K * eps f <= 1 / 8 -> tan_ok f K tn -> (0 < s)%Q ->
  Q2R (cau_pi f md) < PI ->
  eng_wf tb bmin bmax -> (bmax - bmin <= imax tb)%Z -> valid_draws bmin bmax ds -> (length ds < F)%nat ->
  let u01 := uniform_01 f md F tb bmin bmax in
  let op := cau_op f md tn u01 m s in
  exec op ds = OMore \/
  exists v rest u z u', exec op ds = ORet v rest /\ exec u01 ds = ORet u rest /\
    cau_cdf (Q2R m) (Q2R s) z = u' /\ 0 < u' < 1 /\ Rabs (u' - Q2R u) <= 2 * eps f + 2 * tiny f + Rabs (Q2R (cau_pi f md) - PI) /\
    Rabs (Q2R v - z) <= (2 * K + 3) * eps f * Rabs (z - Q2R m) + eps f * Rabs (Q2R m) + 3 * tiny f.
Proof.
  intros f md tn K m s tb bmin bmax F ds Hf Hp HK HKe HT S0 HPI He HR Hv HF u01 op. unfold op, cau_op. rewrite exec_bind_eq.
  destruct (u01_run2 f md tb bmin bmax F ds Hf He HR Hv HF) as [E|(u & rest & E & _ & U0 & U1 & RU)]; fold u01 in E; rewrite E; [left; reflexivity|right].
  destruct (cau_main f md K Hf Hp HK tn HT m s u RU U0 ltac:(Lqa.lra) S0 HPI) as (z & u' & A & B & C & D).
  exists (cau_val f md tn m s u), rest, u, z, u'. split; [reflexivity|]. split; [reflexivity|]. split; [exact A|]. split; [exact B|]. split; [exact C|exact D].
Qed.
Print Assumptions C69_value.

(* The constant is below pi for double, so C69_value applies to the default type. *)
Theorem C69_double : Q2R (cau_pi ieee_double RNE) < PI /\ (0 < cau_pi ieee_double RNE)%Q.
Proof. split; [exact pi_double|vm_compute; reflexivity]. Qed.
Print Assumptions C69_double.

(* For float the constant is rounded up above pi, and u = 0, which should give the
   lowest result, gives a positive one: the distribution is not monotone in u. *)
Theorem C69_float_refuted : forall tn K, 0 <= K -> K * eps ieee_single <= 1 / 8 -> tan_ok ieee_single K tn ->
  exists u1 u2 v1 v2, (u1 < u2)%Q /\ representable ieee_single u1 /\ representable ieee_single u2 /\ (0 <= u1)%Q /\ (u2 < 1 # 2)%Q /\
    exec (cau_op ieee_single RNE tn (PRet u1) 0 1) [] = ORet v1 [] /\ exec (cau_op ieee_single RNE tn (PRet u2) 0 1) [] = ORet v2 [] /\ (v2 < 0)%Q /\ (0 < v1)%Q.
Proof.
  intros tn K K0 KE HT. destruct (cau_single tn K K0 KE HT) as [A B]. exists 0%Q, (1 # 4), (cau_val ieee_single RNE tn 0 1 0), (cau_val ieee_single RNE tn 0 1 (1 # 4)).
  split; [reflexivity|]. split; [exists 0%Z, 0%Z; repeat split; vm_compute; discriminate|]. split; [exists 1%Z, (-2)%Z; repeat split; vm_compute; discriminate|]. split; [discriminate|]. split; [reflexivity|].
  split; [reflexivity|]. split; [reflexivity|]. split; [exact B|exact A].
Qed.
Print Assumptions C69_float_refuted.

(* the hypotheses on the library functions can be met *)
Lemma above_1 : forall f y, fmt_ok f -> representable f y -> (1 < y)%Q -> (1 + p2 (1 - prec f) <= y)%Q.
Proof.
  intros f y Hf (m & x & X & M & E) Y1. destruct (Z_le_gt_dec (1 - prec f) x) as [G|G].
  - set (g := (1 - prec f)%Z) in *. assert (EY: (y == inject_Z (m * 2 ^ (x - g)) * p2 g)%Q).
    { rewrite E, inject_Z_mult. assert (P: (inject_Z (2 ^ (x - g)) == p2 (x - g))%Q) by (symmetry; apply p2_Z; lia). rewrite P.
      rewrite <- Qmult_assoc. apply Qmult_comp; [reflexivity|]. rewrite <- p2_add. replace (x - g + g)%Z with x by lia. reflexivity. }
    assert (EG: (inject_Z (2 ^ (- g)) * p2 g == 1)%Q).
    { assert (P: (inject_Z (2 ^ (- g)) == p2 (- g))%Q) by (symmetry; apply p2_Z; destruct Hf; unfold g; lia). rewrite P, <- p2_add. replace (- g + g)%Z with 0%Z by lia. reflexivity. }
    set (n := (m * 2 ^ (x - g))%Z) in *. set (n1 := (2 ^ (- g))%Z) in *. pose proof (p2_pos g) as PG.
    assert (N: (n1 < n)%Z). { rewrite Zlt_Qlt. apply Qmult_lt_r with (p2 g); [exact PG|]. rewrite EG, <- EY. exact Y1. }
    assert (N': (n1 + 1 <= n)%Z) by lia. rewrite Zle_Qle, inject_Z_plus in N'. pose proof (Qmult_le_compat_r _ _ _ N' (ltac:(Lqa.lra) : (0 <= p2 g)%Q)) as H. rewrite <- EY in H. assert (H2: ((inject_Z n1 + inject_Z 1) * p2 g == 1 + p2 g)%Q) by (rewrite Qmult_plus_distr_l, EG; change (inject_Z 1) with 1%Q; ring). Lqa.lra.
  - exfalso. assert (B: (inject_Z m <= inject_Z (2 ^ prec f))%Q) by (rewrite <- Zle_Qle; lia).
    pose proof (p2_pos x) as PX. pose proof (Qmult_le_compat_r _ _ _ B (ltac:(Lqa.lra) : (0 <= p2 x)%Q)) as H. rewrite <- E in H.
    assert (P: (inject_Z (2 ^ prec f) == p2 (prec f))%Q) by (symmetry; apply p2_Z; destruct Hf; lia).
    rewrite P, <- p2_add in H. assert (L: (p2 (prec f + x) <= p2 0)%Q) by (apply p2_le; lia). change (p2 0) with 1%Q in L. Lqa.lra.
Qed.
(* std::log, rounded to the format *)
Definition lgf (f : fmt) (y : Q) : Q :=
  let x := appr (eps f) (ln (Q2R y)) in
  if Qeq_bool y 1 then 0 else if Qle_bool y 1 then - fround f RNE (- x) else fround f RNE x.
Lemma lgf_rel : forall f x L, (4 <= prec f)%Z -> (emin f + prec f - 1 <= - 1 - prec f)%Z -> eps f / 2 <= L -> Rabs (Q2R x - L) <= 1 * eps f * L ->
  Rabs (Q2R (fround f RNE x) - L) <= 3 * eps f * L.
Proof.
  intros f x L Hp He HL HX. pose proof (ge_le f Hp) as E1. pose proof (e_pos f) as E0. apply Rabs_le_inv in HX.
  assert (PQ: Q2R (p2 (- 1 - prec f)) = eps f / 4).
  { unfold eps. replace (1 - prec f)%Z with (2 + (- 1 - prec f))%Z by lia. rewrite (Qeq_eqR _ _ (p2_add 2 (- 1 - prec f))), Q2R_mult. replace (Q2R (p2 2)) with 4 by (unfold p2, Q2R; cbn; field). field. }
  pose proof (Rmult_le_compat_r L (eps f) (1 / 8) ltac:(lra) ltac:(lra)) as M.
  assert (X: (p2 (emin f + prec f - 1) <= x)%Q). { apply Qle_trans with (p2 (- 1 - prec f)); [apply p2_le; lia|]. apply Rle_Qle. rewrite PQ. lra. }
  destruct (rrel f f RNE x ltac:(lia) X) as [A B]. apply Rabs_le. assert (XR: 0 <= Q2R x) by lra.
  pose proof (Rmult_le_compat_l (eps f) (Q2R x) (L + eps f * L) ltac:(lra) ltac:(lra)) as M2. pose proof (Rmult_le_compat_r (eps f * L) (eps f) 1 ltac:(apply Rmult_le_pos; lra) ltac:(lra)) as M3. split; lra.
Qed.
Lemma lgf_ok : forall f, fmt_ok f -> (4 <= prec f)%Z -> (emin f + prec f - 1 <= - 1 - prec f)%Z -> log_ok f 3 (lgf f) /\ log_fl f (lgf f).
Proof.
  intros f Hf Hp He. pose proof (ge_le f Hp) as E1. pose proof (e_pos f) as E0. split.
  - intros y Y0 RY. unfold lgf. cbv zeta. assert (YR: 0 < Q2R y) by (rewrite <- Q2R_0; apply Qlt_Rlt; exact Y0).
    pose proof (appr_ok (eps f) (ln (Q2R y)) E0) as A. set (x := appr (eps f) (ln (Q2R y))) in *.
    assert (PE: Q2R (p2 (- prec f)) = eps f / 2).
    { unfold eps. replace (1 - prec f)%Z with (1 + (- prec f))%Z by lia. rewrite (Qeq_eqR _ _ (p2_add 1 (- prec f))), Q2R_mult. replace (Q2R (p2 1)) with 2 by (unfold p2, Q2R; cbn; field). field. }
    destruct (Qeq_bool y 1) eqn:EY; [apply Qeq_bool_iff in EY; apply Qeq_eqR in EY; rewrite EY, Q2R_1, ln_1, Q2R_0, Rminus_0_r, Rabs_R0; lra|].
    assert (N1: ~ (y == 1)%Q) by (intros H; apply Qeq_bool_iff in H; congruence).
    destruct (Qle_bool y 1) eqn:LY.
    + apply Qle_bool_iff in LY. assert (Y1: (y < 1)%Q) by (destruct (Qlt_le_dec y 1); [assumption|exfalso; apply N1; Lqa.lra]).
      pose proof (below_1 f y Hf RY Y1) as B. apply Q2R_le in B. rewrite Q2R_minus, Q2R_1, PE in B.
      assert (LN: ln (Q2R y) <= - (eps f / 2)).
      { destruct (Req_dec (ln (Q2R y)) 0) as [Z|Z]; [exfalso; apply (f_equal exp) in Z; rewrite exp_ln, exp_0 in Z by exact YR; lra|]. pose proof (exp_ineq1 _ Z) as I. rewrite exp_ln in I by exact YR. lra. }
      rewrite (Rabs_left1 (ln (Q2R y))) in * by lra. rewrite Q2R_opp.
      assert (G: Rabs (Q2R (fround f RNE (- x)) - - ln (Q2R y)) <= 3 * eps f * - ln (Q2R y)).
      { apply lgf_rel; [exact Hp|exact He|lra|]. rewrite Q2R_opp. replace (- Q2R x - - ln (Q2R y)) with (- (Q2R x - ln (Q2R y))) by ring. rewrite Rabs_Ropp. exact A. }
      replace (- Q2R (fround f RNE (- x)) - ln (Q2R y)) with (- (Q2R (fround f RNE (- x)) - - ln (Q2R y))) by ring. rewrite Rabs_Ropp. exact G.
    + assert (Y1: (1 < y)%Q) by (destruct (Qlt_le_dec 1 y) as [G|G]; [exact G|apply Qle_bool_iff in G; congruence]).
      pose proof (above_1 f y Hf RY Y1) as B. apply Q2R_le in B. rewrite Q2R_plus, Q2R_1 in B. fold (eps f) in B.
      assert (LN: eps f / 2 <= ln (Q2R y)).
      { pose proof (ln_increasing 1 (Q2R y) ltac:(lra) ltac:(lra)) as L0. rewrite ln_1 in L0. pose proof (exp_ineq1 (- ln (Q2R y)) ltac:(lra)) as I. rewrite exp_Ropp, exp_ln in I by exact YR.
        assert (V: / Q2R y <= 1 - eps f / 2). { apply Rmult_le_reg_r with (Q2R y); [exact YR|]. rewrite Rinv_l by lra. pose proof (Rmult_le_compat_l (1 - eps f / 2) _ _ ltac:(lra) B) as M. pose proof (Rmult_le_compat_r (eps f) (eps f) 1 ltac:(lra) ltac:(lra)). lra. }
        lra. }
      rewrite (Rabs_pos_eq (ln (Q2R y))) in * by lra. apply lgf_rel; [exact Hp|exact He|lra|exact A].
  - intros y Y0 RY. unfold lgf. cbv zeta. destruct (Qeq_bool y 1); [exists 0%Z, (emin f); split; [lia|]; split; [cbn; apply Z.pow_nonneg; lia|reflexivity]|].
    destruct (Qle_bool y 1); [apply repr_opp|]; apply rnd_repr; exact Hf.
Qed.
Definition pwf (f : fmt) (x y : Q) : Q := if Qle_bool x 0 then 0%Q else appr (eps f) (Rpower (Q2R x) (Q2R y)).
Lemma pwf_ok : forall f, (4 <= prec f)%Z -> pow_all f 3 (pwf f).
Proof.
  intros f Hp. pose proof (ge_le f Hp) as E1. pose proof (e_pos f) as E0. pose proof (tiny_pos f) as T0. split.
  - intros x y X0 Y0 RX RY. unfold pwf. destruct (Qle_bool x 0) eqn:E; [apply Qle_bool_iff in E; exfalso; Lqa.lra|]. pose proof (exp_pos (Q2R y * ln (Q2R x))) as EP. fold (Rpower (Q2R x) (Q2R y)) in EP.
    set (r := Rpower (Q2R x) (Q2R y)) in *. pose proof (appr_ok (eps f) r E0) as A. rewrite (Rabs_pos_eq r) in A by lra. pose proof (Rmult_le_compat_r r (eps f) (1 / 8) ltac:(lra) ltac:(lra)) as M. split.
    + apply Rle_Qle. rewrite Q2R_0. apply Rabs_le_inv in A. lra.
    + pose proof (Rmult_le_pos (eps f) r ltac:(lra) ltac:(lra)). lra.
  - intros x y X0 Y0 RY. unfold pwf. destruct (Qle_bool x 0) eqn:E; [reflexivity|]. assert (H: (x <= 0)%Q) by Lqa.lra. apply Qle_bool_iff in H. congruence.
Qed.
(* a = 2, b = 1 *)
Example C68_ex : let f := ieee_double in fmt_ok f /\ 3 * eps f <= 1 / 8 /\ log_ok f 3 (lgf f) /\ log_fl f (lgf f) /\ pow_all f 3 (pwf f) /\ (p2 (emin f + prec f - 1) <= 1 / 2)%Q /\
  exec (exv_op f RNE (lgf f) (uniform_01 f RNE 2 u64 0 (2 ^ 64 - 1)) 0 1) [0%Z] = ORet None [].
Proof.
  cbv zeta. assert (E8: eps ieee_double <= 1 / 64) by (unfold eps; replace (1 / 64) with (Q2R (p2 (-6))) by (unfold p2, Q2R; cbn; field); apply Q2R_le, p2_le; cbn; lia).
  split; [split; cbn; lia|]. split; [lra|]. destruct (lgf_ok ieee_double ltac:(split; cbn; lia) ltac:(cbn; lia) ltac:(cbn; lia)) as [A B].
  split; [exact A|]. split; [exact B|]. split; [apply pwf_ok; cbn; lia|]. split; [vm_compute; discriminate|].
  unfold exv_op. rewrite exec_bind_eq. assert (E: exec (uniform_01 ieee_double RNE 2 u64 0 (2 ^ 64 - 1)) [0%Z] = ORet 0%Q []) by (vm_compute; reflexivity). rewrite E. reflexivity.
Qed.
Example C69_ex : let f := ieee_double in fmt_ok f /\ 1 * eps f <= 1 / 8 /\ tan_ok f 1 (fun y => appr (eps f) (tan (Q2R y))) /\ tan_ok ieee_single 1 (fun y => appr (eps ieee_single) (tan (Q2R y))).
Proof.
  cbv zeta. assert (E8: eps ieee_double <= 1 / 64) by (unfold eps; replace (1 / 64) with (Q2R (p2 (-6))) by (unfold p2, Q2R; cbn; field); apply Q2R_le, p2_le; cbn; lia).
  split; [split; cbn; lia|]. split; [lra|]. split; intros y RY C; apply appr_ok; apply e_pos.
Qed.
