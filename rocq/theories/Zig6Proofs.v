(* Runs of the ziggurats. *)
From Coq Require Import Reals Lqa Lra Qreals.
From Verif Require Import Base ProgModel ProgSpec ProgProofs FloatModel FloatSpec FloatProofs RealModel UniProofs RDiscProofs Disc4Proofs BinModel BinSpec ZigTable ZigModel ZigSpec PoisRSpec Pois3Proofs Zig1Proofs Zig2Proofs Zig4Proofs Zig5Proofs.
Ltac Zify.zify_post_hook ::= idtac.
Open Scope R_scope.
Ltac ql := Lqa.lra.

Lemma retry_last : forall A (p : prog (option A)) n ds v rest, exec (retry n p) ds = ORet v rest ->
  exists pre ds', ds = pre ++ ds' /\ exec p ds' = ORet (Some v) rest.
Proof.
  intros A p n. induction n as [|n IH]; intros ds v rest E; [discriminate|]. cbn [retry] in E. rewrite exec_bind_eq in E.
  destruct (exec p ds) as [r d| | |] eqn:EP; try discriminate. destruct r as [w|].
  - injection E as <- <-. exists [], ds. split; [reflexivity|exact EP].
  - destruct (exec_rest _ _ _ _ _ EP) as (u & -> & _). destruct (IH _ _ _ E) as (pre & ds' & -> & E').
    exists (u ++ pre), ds'. split; [apply app_assoc|exact E'].
Qed.
Section P.
Variables (f : fmt) (md : rmode) (ex : Q -> Q) (K : R).
Hypothesis Hf : fmt_ok f.
Hypothesis Hw : fmt_wide f.
Hypothesis Pf : (20 <= prec f)%Z.
Hypothesis HK : 0 <= K.
Hypothesis HE : exp_ok f K ex.
Local Notation rnd := (fround f md).
Let w := unit_err f.
Variables (bmin bmax : Z) (FU : nat) (pair : prog (Q * Z)) (u01 : prog Q).
Hypothesis HP : forall ds, valid_draws bmin bmax ds -> (length ds < FU)%nat -> exec pair ds = OMore \/
  exists q b rest, exec pair ds = ORet (q, b) rest /\ (0 <= b < 256)%Z /\ (0 <= q <= 1)%Q /\ (length rest < length ds)%nat.
Hypothesis HU : forall ds, valid_draws bmin bmax ds -> (length ds < FU)%nat -> exec u01 ds = OMore \/
  exists u rest, exec u01 ds = ORet u rest /\ (0 <= u <= 1)%Q.

Lemma w_pos : 0 < w.
Proof. destruct (e_w f Pf) as (_ & W & _). exact W. Qed.
Lemma Kw : 0 <= K * w.
Proof. pose proof w_pos. apply Rmult_le_pos; lra. Qed.
Let ez_pt := ez_point f md ((68 + K) * w).
Local Notation shifts := (shifts f md).
Lemma ez_loop_run : forall n s ds, valid_draws bmin bmax ds -> (length ds < FU)%nat -> (length ds < n)%nat ->
  exec (ez_loop f md ex pair u01 n s) ds = OMore \/
  exists v rest, exec (ez_loop f md ex pair u01 n s) ds = ORet v rest /\ (length rest < length ds)%nat /\ ez_pt s v.
Proof.
  pose proof w_pos as W. pose proof Kw as KW.
  induction n as [|n IH]; intros s ds Hv HF Hn; [lia|]. cbn [ez_loop]. rewrite exec_bind_eq.
  destruct (HP ds Hv HF) as [E|(q & i & r1 & E & Hi & Hq & L1)]; rewrite E; [left; reflexivity|].
  destruct (exec_suffix _ _ _ _ _ _ _ E Hv) as [V1 _]. rewrite (ex_tx i), (ex_tx (i + 1)) by lia. cbn [plift pbind]. cbv zeta.
  set (x := zg_x f md q (nx ex_x i)). destruct (ex_xj i Hi) as [J I].
  destruct (zx_facts f md Hf q (nx ex_x i) Hq ltac:(apply Qnn; lra)) as (RX & X0 & X1). fold x in RX, X0, X1.
  destruct (qlt x (rnd (nx ex_x (i + 1)))) eqn:EQ.
  - right. exists (rnd (s + x)), r1. split; [reflexivity|]. split; [exact L1|]. exists O, i, x, 0%Q. split; [exact Hi|]. split; [split; ql|]. split; [exact X0|]. split; [exact X1|]. split; [exact RX|]. split; [reflexivity|].
    pose proof (ez_fast f md Hf Hw Pf i q 0%Q Hi Hq ltac:(split; ql) EQ) as A. fold x w in A. lra.
  - destruct (Z.eqb_spec i 0) as [->|N].
    + rewrite (ex_tx 1) by lia. cbn [plift pbind]. destruct (IH (rnd (s + rnd (nx ex_x 1))) r1 V1 ltac:(lia) ltac:(lia)) as [M|(v & rest & M & L2 & k & i & x' & t & PT)]; [left; exact M|].
      right. exists v, rest. split; [exact M|]. split; [lia|]. exists (S k), i, x', t. exact PT.
    + rewrite exec_bind_eq. destruct (HU r1 V1 ltac:(lia)) as [M|(u & r2 & M & Hu)]; rewrite M; [left; reflexivity|].
      destruct (exec_suffix _ _ _ _ _ _ _ M V1) as [V2 L2].
      destruct (ez_test_ok f md ex K Hf Hw Pf HK HE i q u ltac:(lia) Hq Hu EQ) as (ok & ET & T1 & T2). fold x w in ET, T1, T2. rewrite ET. cbn [plift pbind].
      destruct ok.
      * right. exists (rnd (x + s)), r2. split; [reflexivity|]. split; [lia|]. exists O, i, x, u. split; [exact Hi|]. split; [exact Hu|]. split; [exact X0|]. split; [exact X1|]. split; [exact RX|]. split; [|apply T1; reflexivity].
        apply rnd_compat; [exact Hf|]. cbn [ZigSpec.shifts]. ring.
      * destruct (IH s r2 V2 ltac:(lia) ltac:(lia)) as [M2|(v & rest & M2 & L3 & PT)]; [left; exact M2|]. right. exists v, rest. split; [exact M2|]. split; [lia|exact PT].
Qed.
Lemma x1_nn : (0 <= rnd (nth 1 ex_x 0%Q))%Q.
Proof. apply rnd_nonneg. change (nth 1 ex_x 0%Q) with (nx ex_x (0 + 1)). apply Qnn. apply (ex_xj 0). lia. Qed.
Lemma shifts_nn : forall k s, (0 <= s)%Q -> (0 <= shifts k s)%Q.
Proof. induction k as [|k IH]; intros s S0; [exact S0|]. cbn [ZigSpec.shifts]. apply IH. apply rnd_nonneg. pose proof x1_nn. ql. Qed.
Lemma ez_pt_nn : forall s v, (0 <= s)%Q -> ez_pt s v -> (0 <= v)%Q /\ representable f v.
Proof.
  intros s v S0 (k & i & x & t & _ & _ & X0 & _ & _ & EV & _). pose proof (shifts_nn k s S0). split.
  - rewrite EV. apply rnd_nonneg. ql.
  - apply (repr_compat f) with (1 := Qeq_sym _ _ EV). apply rnd_repr. exact Hf.
Qed.
Lemma ez_op_run : forall n lambda ds, (0 < lambda)%Q -> valid_draws bmin bmax ds -> (length ds < FU)%nat -> (length ds < n)%nat ->
  exec (ez_op f md ex pair u01 n lambda) ds = OMore \/
  exists v rest u, exec (ez_op f md ex pair u01 n lambda) ds = ORet v rest /\ (length rest < length ds)%nat /\ (0 <= v)%Q /\ representable f v /\ ez_pt 0 u /\ v = rnd (u / lambda).
Proof.
  intros n lambda ds L0 Hv HF Hn. unfold ez_op, ez_unit. rewrite exec_bind_eq.
  destruct (ez_loop_run n 0 ds Hv HF Hn) as [E|(v & rest & E & L & PT)]; rewrite E; [left; reflexivity|]. right.
  assert (EF: fdiv f md v lambda = Some (rnd (v / lambda))). { unfold fdiv. destruct (Qeq_bool lambda 0) eqn:Q0; [apply Qeq_bool_eq in Q0; ql|reflexivity]. }
  rewrite EF. cbn [plift exec]. destruct (ez_pt_nn 0 v ltac:(ql) PT) as [V0 RV]. exists (rnd (v / lambda)), rest, v. split; [reflexivity|]. split; [exact L|].
  split; [apply rnd_nonneg; apply Qle_shift_div_l; ql|]. split; [apply rnd_repr; exact Hf|]. split; [exact PT|reflexivity].
Qed.

(* normal *)
Lemma x1_pos : (1 <= nx nm_x 1)%Q.
Proof. apply Qle_bool_iff. vm_compute. reflexivity. Qed.
Lemma s1 : (1 <= rnd (nx nm_x 1))%Q.
Proof. apply repr_rnd_ge; [exact Hf|apply repr_1; exact Hf|apply x1_pos]. Qed.
Lemma retry_run : forall A (att : prog (option A)) (R : A -> Prop) n ds, valid_draws bmin bmax ds -> (length ds < FU)%nat -> (length ds < n)%nat ->
  (forall ds, valid_draws bmin bmax ds -> (length ds < FU)%nat -> exec att ds = OMore \/ exists r rest, exec att ds = ORet r rest /\ (length rest < length ds)%nat /\ forall a, r = Some a -> R a) ->
  exec (retry n att) ds = OMore \/ exists a rest, exec (retry n att) ds = ORet a rest /\ (length rest < length ds)%nat /\ R a.
Proof.
  intros A att R n ds Hv HF Hn HA. revert ds Hv HF Hn. induction n as [|n IH]; intros ds Hv HF Hn; [lia|]. cbn [retry]. rewrite exec_bind_eq.
  destruct (HA ds Hv HF) as [E|(r & rest & E & L & HR)]; rewrite E; [left; reflexivity|]. destruct (exec_suffix _ _ _ _ _ _ _ E Hv) as [V1 _].
  destruct r as [a|]; [right; exists a, rest; split; [reflexivity|]; split; [exact L|]; apply HR; reflexivity|].
  destruct (IH rest V1 ltac:(lia) ltac:(lia)) as [M|(a & r2 & M & L2 & HR2)]; [left; exact M|]. right. exists a, r2. split; [exact M|]. split; [lia|exact HR2].
Qed.
Lemma tail_try_run : forall n start ds, (FU <= n)%nat -> (0 < start)%Q -> valid_draws bmin bmax ds -> (length ds < FU)%nat ->
  exec (nz_tail_try f md ex pair u01 n start) ds = OMore \/
  exists x y r r1 rest, exec (ez_op f md ex pair u01 n start) ds = ORet x r1 /\ exec (ez_op f md ex pair u01 n 1) r1 = ORet y rest /\
    exec (nz_tail_try f md ex pair u01 n start) ds = ORet r rest /\ (length rest < length ds)%nat /\ (0 <= x)%Q /\ (0 <= y)%Q /\
    match r with
    | Some v => v = rnd (x + start) /\ Q2R x * Q2R x / 2 * (1 - eps f) <= Q2R y * (1 + eps f) + eps f
    | None => Q2R y * (1 - eps f) <= Q2R x * Q2R x / 2 * (1 + eps f) + eps f
    end.
Proof.
  intros n st ds HN S0 Hv HF. unfold nz_tail_try at 1 2. rewrite !exec_bind_eq.
  destruct (ez_op_run n st ds S0 Hv HF ltac:(lia)) as [E|(x & r1 & u & E & L1 & X0 & RX & _)]; rewrite E; [left; reflexivity|].
  destruct (exec_suffix _ _ _ _ _ _ _ E Hv) as [V1 _]. rewrite !exec_bind_eq.
  destruct (ez_op_run n 1 r1 ltac:(ql) V1 ltac:(lia) ltac:(lia)) as [M|(y & r2 & u2 & M & L2 & Y0 & RY & _)]; rewrite M; [left; reflexivity|].
  right. exists x, y. eexists. exists r1, r2. split; [reflexivity|]. split; [exact M|]. split; [reflexivity|]. split; [lia|]. split; [exact X0|]. split; [exact Y0|].
  pose proof (Q2R_le _ _ X0) as XR. pose proof (Q2R_le _ _ Y0) as YR. rewrite Q2R_0 in XR, YR. pose proof (e_pos f) as E0.
  assert (XX: 0 <= Q2R x * Q2R x) by apply Rle_0_sqr. assert (T2: Q2R (2 * y) = 2 * Q2R y) by (rewrite Q2R_mult; f_equal; unfold Q2R; cbn; field).
  destruct (rr f Hw f md (x * x) (Q2R x * Q2R x) ltac:(lia) ltac:(lia) ltac:(rewrite Q2R_mult; lra) ltac:(rewrite Q2R_mult; lra)) as [A1 A2]. rewrite Q2R_mult in A1, A2.
  destruct (rr f Hw f md (2 * y) (2 * Q2R y) ltac:(lia) ltac:(lia) ltac:(rewrite T2; lra) ltac:(rewrite T2; lra)) as [B1 B2]. rewrite T2 in B1, B2.
  set (XQ := Q2R x * Q2R x) in *. set (YQ := Q2R y) in *. set (ee := eps f) in *. clearbody XQ YQ ee.
  destruct (qlt (rnd (x * x)) (rnd (2 * y))) eqn:EQ.
  - split; [reflexivity|]. apply qlt_t, Qlt_Rlt in EQ. lra.
  - apply qlt_f, Qnot_lt_le, Q2R_le in EQ. lra.
Qed.
Lemma tail_run : forall n ds, (FU <= n)%nat -> valid_draws bmin bmax ds -> (length ds < FU)%nat ->
  exec (nz_tail f md ex pair u01 n) ds = OMore \/
  exists v rest, exec (nz_tail f md ex pair u01 n) ds = ORet v rest /\ (length rest < length ds)%nat /\ (rnd (nx nm_x 1) <= v)%Q /\ representable f v.
Proof.
  intros n ds HN Hv HF. unfold nz_tail. rewrite (nm_tx 1) by lia. cbn [plift pbind]. cbv zeta. pose proof s1 as S1. set (st := rnd (nx nm_x 1)) in *.
  apply (retry_run Q _ (fun v => (st <= v)%Q /\ representable f v) n ds Hv HF ltac:(lia)). clear ds Hv HF. intros ds Hv HF.
  destruct (tail_try_run n st ds HN ltac:(ql) Hv HF) as [E|(x & y & r & r1 & rest & _ & _ & E & L & X0 & _ & PT)]; [left; exact E|right].
  exists r, rest. split; [exact E|]. split; [exact L|]. intros v ->. destruct PT as [-> _].
  split; [|apply rnd_repr; exact Hf]. apply repr_rnd_ge; [exact Hf|unfold st; apply rnd_repr; exact Hf|ql].
Qed.
Lemma sgn_eq : forall b, inject_Z (Z.land b 1 * 2 - 1) = sgn b.
Proof. intro b. unfold sgn. change 1%Z with (Z.ones 1) at 1. rewrite Z.land_ones by lia. change (2 ^ 1)%Z with 2%Z. rewrite Zmod_odd. destruct (Z.odd b); reflexivity. Qed.
Lemma rnd_sgn : forall x b, representable f x -> (rnd (x * sgn b) == x * sgn b)%Q.
Proof.
  intros x b RX. apply rnd_fix; [exact Hf|]. unfold sgn. destruct (Z.odd b).
  - apply (repr_compat f) with x; [ring|exact RX].
  - destruct RX as (m & k & M1 & M2 & M3). exists (- m)%Z, k. rewrite Z.abs_opp. split; [exact M1|]. split; [exact M2|]. rewrite M3, inject_Z_opp. ring.
Qed.
Let nz_pt := nz_point f md ((218 + K) * w).
Let nz_rej := nz_above f md ((218 + K) * w).
Lemma try_run : forall n ds, (FU <= n)%nat -> valid_draws bmin bmax ds -> (length ds < FU)%nat ->
  exec (nz_try f md ex pair u01 n) ds = OMore \/
  exists r rest q b r0, exec (nz_try f md ex pair u01 n) ds = ORet r rest /\ (length rest < length ds)%nat /\ exec pair ds = ORet (q, b) r0 /\
    match r with Some v => exists m, nz_pt m /\ (v == m * sgn b)%Q | None => nz_rej end.
Proof.
  intros n ds HN Hv HF. pose proof w_pos as W. pose proof Kw as KW. unfold nz_try. rewrite exec_bind_eq.
  destruct (HP ds Hv HF) as [E|(q & b & r1 & E & Hb & Hq & L1)]; rewrite E; [left; reflexivity|].
  destruct (exec_suffix _ _ _ _ _ _ _ E Hv) as [V1 _]. rewrite sgn_eq. cbv zeta. set (i := Z.shiftr b 1).
  assert (Hi: (0 <= i < 128)%Z). { unfold i. rewrite Z.shiftr_div_pow2 by lia. change (2 ^ 1)%Z with 2%Z. split; [apply Z.div_pos; lia|apply Z.div_lt_upper_bound; lia]. }
  rewrite (nm_tx i), (nm_tx (i + 1)) by lia. cbn [plift pbind].
  set (x := zg_x f md q (nx nm_x i)). destruct (nm_xj i Hi) as [J I].
  destruct (zx_facts f md Hf q (nx nm_x i) Hq ltac:(apply Qnn; lra)) as (RX & X0 & X1). fold x in RX, X0, X1.
  destruct (qlt x (nx nm_x (i + 1))) eqn:EQ.
  - right. exists (Some (rnd (x * sgn b))), r1, q, b, r1. split; [reflexivity|]. split; [exact L1|]. split; [reflexivity|]. exists x. split; [|apply rnd_sgn; exact RX].
    split; [exact RX|]. split; [exact X0|]. left. exists i, 0%Q. split; [exact Hi|]. split; [split; ql|]. split; [exact X1|].
    pose proof (nz_fast f md Hf Pf i q 0%Q Hi Hq ltac:(split; ql) EQ) as A. fold x w in A. lra.
  - destruct (Z.eqb_spec i 0) as [I0|N].
    + rewrite exec_bind_eq. destruct (tail_run n r1 HN V1 ltac:(lia)) as [M|(t & r2 & M & L2 & T0 & RT)]; rewrite M; [left; reflexivity|].
      right. exists (Some (rnd (t * sgn b))), r2, q, b, r1. split; [reflexivity|]. split; [lia|]. split; [reflexivity|]. exists t. split; [|apply rnd_sgn; exact RT].
      split; [exact RT|]. pose proof s1. split; [ql|]. right. exact T0.
    + rewrite exec_bind_eq. destruct (HU r1 V1 ltac:(lia)) as [M|(u & r2 & M & Hu)]; rewrite M; [left; reflexivity|].
      destruct (exec_suffix _ _ _ _ _ _ _ M V1) as [V2 L2].
      destruct (nz_test_ok f md ex K Hf Hw Pf HK HE i q u ltac:(lia) Hq Hu EQ) as (ok & ET & T1 & T2). fold x w in ET, T1, T2. rewrite ET. cbn [plift pbind exec].
      right. eexists. exists r2, q, b, r1. split; [reflexivity|]. split; [lia|]. split; [reflexivity|]. destruct ok.
      * exists x. split; [|apply rnd_sgn; exact RX]. split; [exact RX|]. split; [exact X0|]. left. exists i, u. split; [exact Hi|]. split; [exact Hu|]. split; [exact X1|]. apply T1; reflexivity.
      * exists i, x, u. split; [lia|]. split; [exact Hu|]. split; [exact RX|]. split; [rewrite <- nx_S by lia; apply qlt_f, Qnot_lt_le in EQ; exact EQ|]. split; [exact X1|]. apply T2; reflexivity.
Qed.
Lemma unit_run : forall n ds, (FU <= n)%nat -> valid_draws bmin bmax ds -> (length ds < FU)%nat ->
  exec (nz_unit f md ex pair u01 n) ds = OMore \/
  exists v rest, exec (nz_unit f md ex pair u01 n) ds = ORet v rest /\ (length rest < length ds)%nat /\ exists m, nz_pt m /\ (v == m \/ v == - m)%Q.
Proof.
  intros n ds HN Hv HF. unfold nz_unit. apply (retry_run Q _ (fun v => exists m, nz_pt m /\ (v == m \/ v == - m)%Q) n ds Hv HF ltac:(lia)). clear ds Hv HF. intros ds Hv HF.
  destruct (try_run n ds HN Hv HF) as [E|(r & rest & q & b & r0 & E & L & _ & PT)]; [left; exact E|right]. exists r, rest. split; [exact E|]. split; [exact L|].
  intros v ->. destruct PT as (m & PM & EV). exists m. split; [exact PM|]. unfold sgn in EV. destruct (Z.odd b); [left|right]; rewrite EV; ring.
Qed.
End P.
