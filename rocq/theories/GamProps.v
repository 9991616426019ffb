(* gamma_distribution, and the distributions made of gamma, exponential and normal
   distributions. *)
From Coq Require Import Reals Lqa Lra Qreals Rpower.
From Verif Require Import Base ProgModel ProgSpec ProgProofs UIntSpec FloatModel FloatSpec FloatProofs RealModel UniProofs Disc4Proofs BinModel BinSpec PoisRSpec Pois3Proofs Pois3Props IfpModel IfpSpec InvModel InvSpec Inv1Proofs Inv3Proofs Inv4Proofs InvProps ZigModel ZigSpec Zig4Proofs Zig6Proofs Zig7Proofs ZigProps GamModel GamSpec Gam1Proofs Gam2Proofs Gam3Proofs.
Ltac Zify.zify_post_hook ::= idtac.
Open Scope R_scope.

(* ---- C70: gamma_distribution ---- *)

(* alpha > 1.  The hat of the rejection method, a Cauchy density, lies above the
   density of the gamma distribution: the acceptance probability is <= 1, and 1 at
   the mode. *)
Theorem C70_hat : forall alpha y, 1 < alpha -> let x := sqrt (2 * alpha - 1) * y + (alpha - 1) in 0 < x ->
  gl_h alpha x y <= 1 /\ gl_h alpha (alpha - 1) 0 = 1.
Proof.
  intros alpha y H1 x X0. unfold gl_h. set (A := alpha - 1) in *. set (s := sqrt (2 * alpha - 1)) in *. assert (A0: 0 < A) by (unfold A; lra).
  assert (S0: 0 < s) by (apply sqrt_lt_R0; lra). assert (SS: s * s = 2 * A + 1) by (unfold s; rewrite sqrt_sqrt by lra; unfold A; ring).
  replace alpha with (A + 1) by (unfold A; ring). rewrite !gd_ratio by assumption. split.
  - pose proof (hat_log A s A0 SS S0 y ltac:(unfold x in X0; lra)) as H. assert (Q: 0 < 1 + y * y) by (pose proof (Rle_0_sqr y) as Q; unfold Rsqr in Q; lra).
    rewrite <- (exp_ln (1 + y * y)) by exact Q. rewrite <- exp_plus. apply Rle_trans with (exp 0); [apply exp_le|rewrite exp_0; lra]. unfold x. replace (s * y + A) with (A + s * y) by ring. lra.
  - replace (A / A) with 1 by (field; lra). rewrite ln_1. replace (A * 0 - (A - A)) with 0 by ring. rewrite exp_0. ring.
Qed.
Print Assumptions C70_hat.

(* alpha < 1.  With probability gs_p x has the distribution function x^alpha on
   (0,1) and is accepted with probability exp(-x); otherwise x-1 is exponential and
   x is accepted with probability x^(alpha-1).  Both parts are the same multiple of
   the density. *)
Theorem C70_small_hat : forall alpha x, 0 < alpha -> alpha < 1 -> 0 < x ->
  let c := alpha * gs_p alpha in
  (exists d, derivable_pt_lim (fun t => Rpower t alpha) x d /\ gs_p alpha * d * exp (- x) = c * gdens alpha x) /\
  (1 <= x -> exists d, derivable_pt_lim (fun t => 1 - exp (- (t - 1))) x d /\ (1 - gs_p alpha) * d * Rpower x (alpha - 1) = c * gdens alpha x) /\
  0 < exp (- x) <= 1 /\ (1 <= x -> 0 < Rpower x (alpha - 1) <= 1).
Proof.
  intros alpha x A0 A1 X0 c. split; [|split; [|split]].
  - exists (alpha * Rpower x (alpha - 1)). split; [apply derivable_pt_lim_power; exact X0|]. apply gs_part1; assumption.
  - intro X1. exists (exp (- (x - 1))). split; [|apply gs_part2; assumption].
    replace (exp (- (x - 1))) with (0 - exp (- (x - 1)) * - (1 - 0)) by ring. apply derivable_pt_lim_minus; [apply derivable_pt_lim_const|].
    apply (derivable_pt_lim_comp (fun t => - (t - 1)) exp); [|apply derivable_pt_lim_exp]. apply derivable_pt_lim_opp. apply derivable_pt_lim_minus; [apply derivable_pt_lim_id|apply derivable_pt_lim_const].
  - split; [apply exp_pos|]. apply Rle_trans with (exp 0); [apply exp_le|rewrite exp_0; lra]. lra.
  - intro X1. split; [apply exp_pos|]. unfold Rpower. apply Rle_trans with (exp 0); [apply exp_le|rewrite exp_0; lra].
    assert (LX: 0 <= ln x) by (rewrite <- ln_1; destruct X1 as [H|H]; [left; apply ln_increasing; lra|rewrite H; right; reflexivity]). pose proof (Rmult_le_pos (1 - alpha) (ln x) ltac:(lra) LX). lra.
Qed.
Print Assumptions C70_small_hat.

(* One turn of the loop for alpha > 1, with uniform numbers u and v: y is the
   tangent of pi*u, x belongs to y, and x > 0 is accepted if and only if v <= r,
   where r is gl_h up to rounding. *)
Theorem C70_large : forall f md tn sq ex lg K al u, fmt_ok f -> (7 <= prec f)%Z -> 0 <= K -> K * eps f <= 1 / 16 ->
  sqrt_all f K sq -> exp_all f K ex -> log_ok f K lg -> tan_ok f K tn ->
  representable f al -> (1 < al)%Q -> (al <= p2 (- (emin f + 2 * prec f)))%Q -> (0 <= u)%Q -> (u < 1)%Q ->
  let y := gm_y f md tn u in
  exists th S, Rabs (th - PI * Q2R u) <= 5 * eps f + Rabs (Q2R (cau_pi f md) - PI) /\ (cos th <> 0 -> Rabs (Q2R y - tan th) <= K * eps f * Rabs (tan th)) /\
    gm_s f md sq al = Some S /\
    let x := gm_x f md al S y in
    gl_cand f K (Q2R al) (Q2R x) (Q2R y) /\
    ((0 < x)%Q -> exists r, gm_ratio f md ex lg al S x y = Some r /\
      gl_h (Q2R al) (Q2R x) (Q2R y) * exp (- gl_err f K (Q2R al) (Q2R x) (Q2R y)) - 3 * (1 + Q2R y * Q2R y) * tiny f <= Q2R r /\
      Q2R r <= gl_h (Q2R al) (Q2R x) (Q2R y) * exp (gl_err f K (Q2R al) (Q2R x) (Q2R y)) + 3 * (1 + Q2R y * Q2R y) * tiny f) /\
    (forall u01 ds d1 v d2, exec u01 ds = ORet u d1 -> exec u01 d1 = ORet v d2 ->
       exec (gm_large f md tn sq ex lg u01 al) ds =
       if Qle_bool x 0 then ORet None d1 else match gm_ratio f md ex lg al S x y with Some r => ORet (if Qle_bool v r then Some x else None) d2 | None => OUB end).
Proof.
  intros f md tn sq ex lg K al u Hf Hp HK HKe HS HE HL HT RA A1 AB U0 U1 y.
  destruct (s_err f md K sq Hf Hp HK HS al RA A1 AB) as (S & ES & _).
  set (a := fround f md (cau_pi f md * u)). exists (Q2R a), S.
  destruct (g_e f Hp) as [E0 E1]. destruct (g_t f Hp al A1 AB) as [T0 T1].
  split; [|split; [|split; [exact ES|split; [|split]]]].
  - pose proof (rt f md (cau_pi f md * u)) as R. fold a in R. rewrite Q2R_mult in R. apply Q2R_le in U0. apply Qlt_Rlt in U1. rewrite Q2R_0 in U0. rewrite Q2R_1 in U1.
    destruct (p_le f md Hf ltac:(lia)) as (P4 & P2 & _). apply Q2R_le in P4, P2. set (p := Q2R (cau_pi f md)) in *. set (uv := Q2R u) in *.
    replace (Q2R 4) with 4 in P4 by (unfold Q2R; cbn; field). replace (Q2R 2) with 2 in P2 by (unfold Q2R; cbn; field).
    assert (PU: 0 <= p * uv <= 4) by (split; [apply Rmult_le_pos; lra|pose proof (Rmult_le_compat p 4 uv 1 ltac:(lra) ltac:(lra) P4 ltac:(lra)); lra]).
    rewrite (Rabs_pos_eq (p * uv)) in R by lra. pose proof (Rmult_le_compat_l (eps f) _ _ ltac:(lra) (proj2 PU)).
    replace (Q2R a - PI * uv) with ((Q2R a - p * uv) + (p - PI) * uv) by ring. apply rabs_tri2; [lra|]. rewrite Rabs_mult, (Rabs_pos_eq uv) by lra. pose proof (Rmult_le_compat_l (Rabs (p - PI)) uv 1 (Rabs_pos _) ltac:(lra)). lra.
  - intro C. apply HT; [apply rnd_repr; exact Hf|exact C].
  - unfold gl_cand. exact (x_err f md K sq Hf Hp HK HKe HS al RA A1 AB S y ES).
  - intro X0. exact (ratio_ok f md K sq ex lg Hf Hp HK HKe HS HE HL al RA A1 AB S y ES X0).
  - intros u01 ds d1 v d2 X1 X2. unfold gm_large. rewrite exec_bind_eq, X1, ES. cbn [pbind plift]. fold y. destruct (Qle_bool (gm_x f md al S y) 0); [reflexivity|]. rewrite exec_bind_eq, X2.
    destruct (gm_ratio f md ex lg al S (gm_x f md al S y) y) as [r|]; cbn [pbind plift exec]; [|reflexivity]. unfold qlt. destruct (Qle_bool v r); reflexivity.
Qed.
Print Assumptions C70_large.

(* One turn of the loop for alpha < 1, with uniform number u and exponential y.
   For u < p: x is exp(-y/alpha), accepted if and only if u < q, q being p exp(-x);
   otherwise x = 1+y and q = p + (1-p) x^(alpha-1); all up to rounding. *)
Theorem C70_small : forall f md ex pw K al, fmt_ok f -> (7 <= prec f)%Z -> (emin f + 2 * prec f <= -1)%Z -> 0 <= K -> K * eps f <= 1 / 16 ->
  exp_all f K ex -> pow_any f K pw -> representable f al -> (0 < al)%Q -> (al < 1)%Q ->
  let e := eps f in let kp := K * eps f in let t := tiny f in
  exists p, gm_p f md ex al = Some p /\ (1 # 2 <= p <= 1)%Q /\ Rabs (Q2R p - gs_p (Q2R al)) <= (3 * kp + 4 * e) * gs_p (Q2R al) /\
  forall u y, (0 <= y)%Q -> exists x q, gm_xq f md ex pw al p u y = Some (x, q) /\ (0 <= x)%Q /\ representable f x /\
    ((u < p)%Q -> exists y', Rabs (y' - Q2R y / Q2R al) <= e * (Q2R y / Q2R al) + t /\ Rabs (Q2R x - exp (- y')) <= kp * exp (- y') + t /\
       Rabs (Q2R q - Q2R p * exp (- Q2R x)) <= (kp + 2 * e) * (Q2R p * exp (- Q2R x)) + 3 * t) /\
    ((p <= u)%Q -> exists a', Rabs (Q2R x - (1 + Q2R y)) <= e * (1 + Q2R y) /\ Rabs (a' - (Q2R al - 1)) <= e * (1 - Q2R al) + t /\
       Rabs (Q2R q - (Q2R p + (1 - Q2R p) * Rpower (Q2R x) a')) <= kp + 4 * e) /\
    (forall u01 ez ds d1 d2, exec u01 ds = ORet u d1 -> exec ez d1 = ORet y d2 ->
       exec (gm_small f md ex pw u01 ez al p) ds = ORet (if qlt u q then Some x else None) d2).
Proof.
  intros f md ex pw K al Hf Hp Hw HK HKe HE HP RA A0 A1 e kp t.
  destruct (p_ok f md K ex Hf Hp Hw HK HKe HE al A0 A1) as (p & EP & RP & P0 & P1 & PE). exists p. split; [exact EP|]. split; [split; assumption|]. split; [exact PE|].
  intros u y Y0. destruct (Qlt_le_dec u p) as [U|U].
  - destruct (xq1 f md K ex pw Hf Hp Hw HK HKe HE al A0 p u y P0 P1 Y0 U) as (x & q & y' & EX & X0 & RX & B & C & D).
    exists x, q. split; [exact EX|]. split; [exact X0|]. split; [exact RX|]. split; [intros _; exists y'; split; [exact B|split; [exact C|exact D]]|]. split; [intro U2; exfalso; Lqa.lra|].
    intros u01 ez ds d1 d2 X1 X2. unfold gm_small. rewrite exec_bind_eq, X1, exec_bind_eq, X2, EX. cbn [pbind plift fst snd]. unfold qlt. destruct (Qle_bool q u); reflexivity.
  - destruct (xq2 f md K ex pw Hf Hp Hw HK HKe HP al A0 A1 p u y P0 P1 Y0 U) as (x & q & a' & EX & X1 & RX & B & C & D).
    exists x, q. split; [exact EX|]. split; [Lqa.lra|]. split; [exact RX|]. split; [intro U2; exfalso; Lqa.lra|]. split; [intros _; exists a'; split; [exact B|split; [exact C|exact D]]|].
    intros u01 ez ds d1 d2 Y1 Y2. unfold gm_small. rewrite exec_bind_eq, Y1, exec_bind_eq, Y2, EX. cbn [pbind plift fst snd]. unfold qlt. destruct (Qle_bool q u); reflexivity.
Qed.
Print Assumptions C70_small.

(* operator() is defined for every engine; its result is x*beta rounded, at least
   min(), where x was accepted in the last turn. *)
Theorem C70_run : forall f md tn sq ex lg pw K al be bmin bmax F u01 ez ds, fmt_ok f -> (7 <= prec f)%Z -> (emin f + 2 * prec f <= -1)%Z -> 0 <= K -> K * eps f <= 1 / 16 ->
  sqrt_all f K sq -> exp_all f K ex -> log_ok f K lg -> pow_any f K pw ->
  representable f al -> (al <= p2 (- (emin f + 2 * prec f)))%Q -> gm_ctor al be = true ->
  source bmin bmax F u01 (fun u => 0 <= u /\ u < 1 /\ representable f u)%Q -> source bmin bmax F ez (fun y => 0 <= y /\ representable f y)%Q ->
  valid_draws bmin bmax ds -> (length ds < F)%nat ->
  exec (gm_op f md tn sq ex lg pw F u01 ez al be) ds = OMore \/
  exists x rest, exec (gm_op f md tn sq ex lg pw F u01 ez al be) ds = ORet (fround f md (x * be)) rest /\ (length rest < length ds)%nat /\
    (0 <= x)%Q /\ representable f x /\ (0 <= fround f md (x * be))%Q /\
    ((1 < al)%Q -> eps f <= Q2R x /\ exists y v, (0 <= v)%Q /\ gl_cand f K (Q2R al) (Q2R x) (Q2R y) /\
       Q2R v <= gl_h (Q2R al) (Q2R x) (Q2R y) * exp (gl_err f K (Q2R al) (Q2R x) (Q2R y)) + 3 * (1 + Q2R y * Q2R y) * tiny f).
Proof.
  intros f md tn sq ex lg pw K al be bmin bmax F u01 ez ds Hf Hp Hw HK HKe HS HE HL HP RA AB HC HU HZ Hv HF. apply Bool.andb_true_iff in HC. destruct HC as [A0 B0]. apply qlt_t in A0, B0.
  assert (MAIN: exec (gm_unit f md tn sq ex lg pw F u01 ez al) ds = OMore \/ exists x rest, exec (gm_unit f md tn sq ex lg pw F u01 ez al) ds = ORet x rest /\ (length rest < length ds)%nat /\ (0 <= x)%Q /\ representable f x /\
    ((1 < al)%Q -> eps f <= Q2R x /\ exists y v, (0 <= v)%Q /\ gl_cand f K (Q2R al) (Q2R x) (Q2R y) /\
       Q2R v <= gl_h (Q2R al) (Q2R x) (Q2R y) * exp (gl_err f K (Q2R al) (Q2R x) (Q2R y)) + 3 * (1 + Q2R y * Q2R y) * tiny f)).
  { unfold gm_unit. destruct (Qeq_bool al 1) eqn:EQ1.
    - apply Qeq_bool_iff in EQ1. destruct (HZ ds Hv HF) as [E|(y & rest & E & LR & Y0 & RY)]; [left; exact E|right]. exists y, rest. split; [exact E|]. split; [exact LR|]. split; [exact Y0|]. split; [exact RY|intro; exfalso; Lqa.lra].
    - assert (N1: ~ (al == 1)%Q) by (intro H; apply Qeq_bool_iff in H; congruence). destruct (qlt 1 al) eqn:QL.
      + apply qlt_t in QL. destruct (s_err f md K sq Hf Hp HK HS al RA QL AB) as (S & ES & _).
        destruct (retry_run bmin bmax F Q (gm_large f md tn sq ex lg u01 al) (fun x => representable f x /\ eps f <= Q2R x /\ exists y v, (0 <= v)%Q /\ gl_cand f K (Q2R al) (Q2R x) (Q2R y) /\
          Q2R v <= gl_h (Q2R al) (Q2R x) (Q2R y) * exp (gl_err f K (Q2R al) (Q2R x) (Q2R y)) + 3 * (1 + Q2R y * Q2R y) * tiny f) F ds Hv HF HF) as [E|(x & rest & E & LR & RX & X0 & R)].
        * clear ds Hv HF. intros ds Hv HF. unfold gm_large. rewrite exec_bind_eq. destruct (HU ds Hv HF) as [E|(u & d1 & E & L1 & U0 & U1 & _)]; rewrite E; [left; reflexivity|]. rewrite ES. cbn [pbind plift].
          set (y := gm_y f md tn u). destruct (Qle_bool (gm_x f md al S y) 0) eqn:X0; [right; exists None, d1; split; [reflexivity|]; split; [exact L1|intros a [=]]|].
          assert (XP: (0 < gm_x f md al S y)%Q) by (destruct (Qlt_le_dec 0 (gm_x f md al S y)) as [G|G]; [exact G|apply Qle_bool_iff in G; congruence]).
          destruct (exec_suffix _ _ _ _ _ _ _ E Hv) as [V1 _]. rewrite exec_bind_eq. destruct (HU d1 V1 ltac:(lia)) as [E2|(v & d2 & E2 & L2 & V0 & _ & _)]; rewrite E2; [left; reflexivity|right].
          destruct (ratio_ok f md K sq ex lg Hf Hp HK HKe HS HE HL al RA QL AB S y ES XP) as (r & ER & _ & RU). rewrite ER. cbn [pbind plift exec]. destruct (qlt r v) eqn:QV.
          -- exists None, d2. split; [reflexivity|]. split; [lia|intros a [=]].
          -- exists (Some (gm_x f md al S y)), d2. split; [reflexivity|]. split; [lia|]. intros a [= <-]. split; [apply rnd_repr; exact Hf|]. split; [exact (x_ge f md Hf Hp al QL AB S y XP)|]. exists y, v. split; [exact V0|].
             split; [exact (x_err f md K sq Hf Hp HK HKe HS al RA QL AB S y ES)|]. apply qlt_f in QV. apply Qnot_lt_le in QV. apply Q2R_le in QV. apply Rle_trans with (1 := QV). exact RU.
        * left. exact E.
        * right. exists x, rest. split; [exact E|]. split; [exact LR|]. split; [apply Rle_Qle; rewrite Q2R_0; pose proof (e_pos f); lra|]. split; [exact RX|]. intros _. split; [exact X0|exact R].
      + apply qlt_f in QL. apply Qnot_lt_le in QL. assert (A1: (al < 1)%Q) by (destruct (Qlt_le_dec al 1); [assumption|exfalso; apply N1; Lqa.lra]).
        destruct (C70_small f md ex pw K al Hf Hp Hw HK HKe HE HP RA A0 A1) as (p & EP & _ & _ & ST). rewrite EP. cbn [pbind plift].
        destruct (retry_run bmin bmax F Q (gm_small f md ex pw u01 ez al p) (fun x => (0 <= x)%Q /\ representable f x) F ds Hv HF HF) as [E|(x & rest & E & LR & X0 & RX)].
        * clear ds Hv HF. intros ds Hv HF. destruct (HU ds Hv HF) as [E|(u & d1 & E & L1 & U0 & U1 & _)]; [left; unfold gm_small; rewrite exec_bind_eq, E; reflexivity|].
          destruct (exec_suffix _ _ _ _ _ _ _ E Hv) as [V1 _]. destruct (HZ d1 V1 ltac:(lia)) as [E2|(y & d2 & E2 & L2 & Y0 & _)]; [left; unfold gm_small; rewrite exec_bind_eq, E, exec_bind_eq, E2; reflexivity|right].
          destruct (ST u y Y0) as (x & q & _ & X0 & RX & _ & _ & ES). exists (if qlt u q then Some x else None), d2. split; [apply (ES u01 ez ds d1 d2 E E2)|]. split; [lia|]. intros a EA. destruct (qlt u q); [injection EA as <-; split; [exact X0|exact RX]|discriminate].
        * left. exact E.
        * right. exists x, rest. split; [exact E|]. split; [exact LR|]. split; [exact X0|]. split; [exact RX|]. intro; exfalso; Lqa.lra. }
  unfold gm_op. rewrite exec_bind_eq. destruct MAIN as [E|(x & rest & E & LR & X0 & RX & R)]; rewrite E; [left; reflexivity|right].
  exists x, rest. split; [reflexivity|]. split; [exact LR|]. split; [exact X0|]. split; [exact RX|]. split; [apply rnd_nonneg; apply Qmult_le_0_compat; Lqa.lra|exact R].
Qed.
Print Assumptions C70_run.

(* The uniform and the exponential numbers, from the engine on, are what C70_run
   asks for. *)
Theorem C70_engine : forall f md ex K tb bmin bmax F, fmt_ok f -> fmt_wide f -> (20 <= prec f)%Z -> 0 <= K -> exp_ok f K ex ->
  eng_wf tb bmin bmax -> (32 <= bits tb <= 64)%Z -> (bmax - bmin <= imax tb)%Z -> no_full_last (prec f) (digit_bits bmin bmax) 8 ->
  let u01 := uniform_01 f md F tb bmin bmax in
  source bmin bmax F u01 (fun u => 0 <= u /\ u < 1 /\ representable f u)%Q /\
  source bmin bmax F (ez_op f md ex (int_float_pair f md F 8 tb bmin bmax) u01 F 1) (fun y => 0 <= y /\ representable f y)%Q.
Proof.
  intros f md ex K tb bmin bmax F Hf Hw Pf HK HE He HB HR HN u01. split; intros ds Hv HF.
  - destruct (u01_run2 f md tb bmin bmax F ds Hf He HR Hv HF) as [E|(u & rest & E & L & U)]; [left; exact E|right]. exists u, rest. split; [exact E|]. split; [exact L|exact U].
  - destruct (ez_op_run f md ex K Hf Hw Pf HK HE bmin bmax F _ _ (pair_src f md F tb bmin bmax Hf Hw Pf He HB HN) (u01_src f md F tb bmin bmax Hf He HR) F 1%Q ds ltac:(reflexivity) Hv HF HF) as [E|(v & rest & u & E & L & V0 & RV & _)]; [left; exact E|right].
    exists v, rest. split; [exact E|]. split; [exact L|]. split; [exact V0|exact RV].
Qed.
Print Assumptions C70_engine.

(* The documentation says "It produces values > 0".  With alpha = 1 and an engine
   that returns 0 the value is 0, whatever the mathematical functions. *)
Theorem C70_refuted : forall tn sq ex lg pw, let f := ieee_double in
  let u01 := uniform_01 f RNE 9 u32 0 (2 ^ 32 - 1) in
  let ez := ez_op f RNE ex (int_float_pair f RNE 9 8 u32 0 (2 ^ 32 - 1)) u01 9 1 in
  gm_ctor 1 1 = true /\ exec (gm_op f RNE tn sq ex lg pw 9 u01 ez 1 1) [0; 0]%Z = ORet 0%Q [].
Proof. intros. split; [reflexivity|]. vm_compute. reflexivity. Qed.
Print Assumptions C70_refuted.

(* an exp, a pow, and all hypotheses for double *)
Definition exf (f : fmt) (y : Q) : Q := fround f RNE (appr (eps f) (exp (Q2R y))).
Lemma exf_ok : forall f, fmt_ok f -> (7 <= prec f)%Z -> exp_all f 3 (exf f).
Proof.
  intros f Hf Hp y RY. destruct (g_e f Hp) as [E0 E1]. pose proof (exp_pos (Q2R y)) as XP. set (x := exp (Q2R y)) in *. unfold exf. fold x. pose proof (appr_ok (eps f) x E0) as A. rewrite (Rabs_pos_eq x) in A by lra.
  set (a := appr (eps f) x) in *. apply Rabs_le_inv in A. pose proof (Rmult_le_compat_r x (eps f) (1 / 64) ltac:(lra) E1) as M. pose proof (Rmult_le_pos (eps f) x ltac:(lra) ltac:(lra)) as M0.
  assert (A0: (0 <= a)%Q) by (apply Rle_Qle; rewrite Q2R_0; lra). split; [apply rnd_nonneg; exact A0|]. split; [apply rnd_repr; exact Hf|].
  pose proof (rt f RNE a) as R. rewrite (Rabs_pos_eq (Q2R a)) in R by lra. pose proof (Rmult_le_compat_l (eps f) (Q2R a) (2 * x) ltac:(lra) ltac:(lra)).
  replace (Q2R (fround f RNE a) - x) with ((Q2R (fround f RNE a) - Q2R a) + (Q2R a - x)) by ring. eapply Rle_trans; [apply rabs_tri2; [exact R|apply Rabs_le; exact A]|]. lra.
Qed.
Lemma pwg_ok : forall f, (7 <= prec f)%Z -> pow_any f 3 (fun x y => appr (eps f) (Rpower (Q2R x) (Q2R y))).
Proof.
  intros f Hp x y X0 RX RY. destruct (g_e f Hp) as [E0 E1]. pose proof (tiny_pos f). assert (XP: 0 < Rpower (Q2R x) (Q2R y)) by apply exp_pos. set (r := Rpower (Q2R x) (Q2R y)) in *.
  pose proof (appr_ok (eps f) r E0) as A. rewrite (Rabs_pos_eq r) in A by lra. pose proof (Rmult_le_pos (eps f) r ltac:(lra) ltac:(lra)). lra.
Qed.
Lemma sqg_ok : forall f, (7 <= prec f)%Z -> sqrt_all f 3 (fun x => appr (eps f) (sqrt (Q2R x))).
Proof.
  intros f Hp x X0 RX. destruct (g_e f Hp) as [E0 E1]. pose proof (sqrt_pos (Q2R x)) as S. pose proof (appr_ok (eps f) (sqrt (Q2R x)) E0) as A. rewrite (Rabs_pos_eq (sqrt (Q2R x))) in A by exact S.
  pose proof (Rmult_le_pos (eps f) (sqrt (Q2R x)) ltac:(lra) S). lra.
Qed.
Lemma tng_ok : forall f, (7 <= prec f)%Z -> tan_ok f 3 (fun x => appr (eps f) (tan (Q2R x))).
Proof.
  intros f Hp x RX C. destruct (g_e f Hp) as [E0 E1]. pose proof (appr_ok (eps f) (tan (Q2R x)) E0) as A. pose proof (Rmult_le_pos (eps f) (Rabs (tan (Q2R x))) ltac:(lra) (Rabs_pos _)). lra.
Qed.
Example C70_ex : let f := ieee_double in fmt_ok f /\ (7 <= prec f)%Z /\ (emin f + 2 * prec f <= -1)%Z /\ 3 * eps f <= 1 / 16 /\
  sqrt_all f 3 (fun x => appr (eps f) (sqrt (Q2R x))) /\ exp_all f 3 (exf f) /\ log_ok f 3 (lgf f) /\ tan_ok f 3 (fun x => appr (eps f) (tan (Q2R x))) /\
  pow_any f 3 (fun x y => appr (eps f) (Rpower (Q2R x) (Q2R y))) /\
  Forall (fun al => representable f al /\ (al <= p2 (- (emin f + 2 * prec f)))%Q /\ gm_ctor al 3 = true) [1 # 2; 1; 5 # 2]%Q.
Proof.
  cbv zeta. assert (Hf: fmt_ok ieee_double) by (split; cbn; lia). assert (Hp: (7 <= prec ieee_double)%Z) by (cbn; lia).
  split; [exact Hf|]. split; [exact Hp|]. split; [cbn; lia|]. split; [unfold eps; assert (H: (3 * p2 (1 - prec ieee_double) <= 1 # 16)%Q) by (vm_compute; discriminate); apply Q2R_le in H; rewrite Q2R_mult in H; unfold Q2R in H at 1 3; cbn [Qnum Qden] in H; lra|].
  split; [apply sqg_ok; exact Hp|]. split; [apply exf_ok; assumption|]. split; [apply lgf_ok; [exact Hf|cbn; lia|cbn; lia]|]. split; [apply tng_ok; exact Hp|]. split; [apply pwg_ok; exact Hp|].
  repeat apply Forall_cons; try apply Forall_nil; (split; [|split; [vm_compute; discriminate|reflexivity]]).
  - exists 1%Z, (-1)%Z. repeat split; vm_compute; discriminate.
  - exists 1%Z, 0%Z. repeat split; vm_compute; discriminate.
  - exists 5%Z, (-1)%Z. repeat split; vm_compute; discriminate.
Qed.
(* alpha = 5/2, with made up functions: rejected because x <= 0, rejected by the
   test, accepted *)
Example C70_ex_turn :
  let f := ieee_double in let at_ tn us := exec (gm_large f RNE (fun _ => tn) (fun _ => 2%Q) (fun _ => 1 # 2) (fun _ => 0%Q) (PDraw (fun z => PRet (inject_Z z / 64)%Q)) (5 # 2)) us in
  ((at_ (-1) [48; 0]%Z, at_ (1 # 4) [5; 60]%Z, at_ (1 # 4) [5; 30]%Z) = (ORet None [0%Z], ORet None [], ORet (Some 2) []))%Q.
Proof. vm_compute. reflexivity. Qed.
