(* binomial_distribution: the initial values the test far from the mode uses. *)
From Coq Require Import Lqa Reals Lra Qreals.
From Verif Require Import Base ProgModel UIntModel UIntSpec FloatModel FloatSpec FloatProofs RealModel UniProofs RDiscProofs BinModel BinSpec BinProofs Bin2Proofs Bin4Proofs Bin5Proofs Bin6Proofs Bin7Proofs
  PoisRSpec RExpProofs StirProofs Pois3Proofs Pois4Proofs Bin8Proofs Bin9Proofs Bin10Proofs Bin11Proofs.
From Verif Require Faure2Proofs.
Ltac Zify.zify_post_hook ::= idtac.
Open Scope R_scope.

Lemma init_far : forall f g md ti pw sq t p d b, bn_init f g md ti pw sq t p = Some d -> bn_u d = UBtrd b ->
  fmt_ok f -> (32 <= bits ti)%Z -> (0 <= t < imax ti)%Z -> (t + 1 <= 2 ^ prec f)%Z -> (0 <= bn_small f md p)%Q ->
  let ps := bn_small f md p in
  fdiv f md ps (fround f md (1 - ps)) = Some (b_r b) /\
  b_npq b = fround f md (fround f md (fround f md (inject_Z t) * ps) * fround f md (1 - ps)) /\
  bn_m d = Qfloor (fround f md (inject_Z (t + 1) * ps)).
Proof.
  intros f g md ti pw sq t p d b HI HU Hf Hti HT TP S0 ps. fold ps in S0. unfold bn_init in HI. fold ps in HI. pose proof (imin_le_0 ti Hti) as I0.
  rewrite addT_in in HI by lia. cbn [bind] in HI.
  rewrite (Faure2Proofs.rnd_Z f md Hf (inject_Z (t + 1)) (t + 1)) in HI by (try reflexivity; lia).
  set (x := fround f md (inject_Z (t + 1) * ps)) in *.
  assert (TQ: (0 <= inject_Z (t + 1))%Q) by (change 0%Q with (inject_Z 0); apply injZ_le; lia).
  assert (X0: (0 <= x)%Q) by (apply rnd_nonneg; apply Qmult_le_0_compat; assumption).
  destruct (to_int ti x) as [m|] eqn:EM; [|discriminate]. cbn [bind] in HI.
  assert (MX: m = Qfloor x).
  { unfold to_int, qtrunc in EM. apply Qle_bool_iff in X0. rewrite X0 in EM. destruct (_ && _); [injection EM as <-; reflexivity|discriminate]. }
  destruct (bn_inversion m) eqn:EI; [injection HI as <-; discriminate HU|].
  destruct (bn_btrd f g md ti sq t ps) as [b'|] eqn:EB; [|discriminate]. cbn [bind] in HI. injection HI as <-. cbn in HU. injection HU as ->.
  cbn [bn_m]. rewrite MX. unfold bn_btrd in EB. rewrite addT_in in EB by lia. cbn [bind] in EB.
  destruct (fdiv f md ps (fround f md (1 - ps))) as [r|] eqn:ER; [|discriminate]. cbn [bind] in EB.
  destruct (fdiv g md (dlit (51 # 10)) _) as [q1|]; [|discriminate]. cbn [bind] in EB.
  destruct (fdiv g md (dlit (42 # 10)) _) as [q2|]; [|discriminate]. cbn [bind] in EB. injection EB as <-. cbn [b_r b_npq]. repeat split; reflexivity.
Qed.

(* the mode is within rounding of (t+1) p *)
Lemma mode_near : forall f md t p m, fmt_ok f -> (20 <= prec f)%Z -> (emin f + 3 * prec f <= 0)%Z -> (0 <= t)%Z -> (1 <= inject_Z (t + 1) * p)%Q ->
  m = Qfloor (fround f md (inject_Z (t + 1) * p)) ->
  let N := (IZR t + 1) * Q2R p in - (eps f * N) <= N - IZR m <= 1 + eps f * N.
Proof.
  intros f md t p m Hf Pf F3 T0 HP -> N. set (x := fround f md (inject_Z (t + 1) * p)).
  pose proof (e_pos f) as EP. pose proof (e_le f Pf) as E1.
  assert (NE: Q2R (inject_Z (t + 1) * p) = N) by (rewrite Q2R_mult, Q2R_Z, plus_IZR; reflexivity).
  assert (N1: 1 <= N) by (rewrite <- NE, <- Q2R_1; apply Q2R_le; exact HP).
  assert (X: Rabs (Q2R x - N) <= eps f * N).
  { clearbody N. assert (EE: eps f * eps f <= 1 / 524288 * (1 / 524288)) by (apply Rmult_le_compat; lra).
    pose proof (rrela f f md ltac:(lia) F3 (inject_Z (t + 1) * p)) as X. fold x in X. rewrite NE, (Rabs_pos_eq N) in X by lra. apply X. lra. }
  pose proof (Qfloor_le x) as A. pose proof (Qlt_floor x) as B. apply Q2R_le in A. apply Qlt_Rlt in B. rewrite Q2R_Z in A, B. rewrite plus_IZR in B. apply Rabs_le_inv in X. lra.
Qed.

(* P(X=k) from P(X=0) *)
Fixpoint bprod (t : nat) (p : Q) (k : nat) : Q :=
  match k with O => 1 | S j => Qred (bprod t p j * ((qn t - qn j) * p / (qn (S j) * (1 - p)))) end.
Lemma bprod_ok : forall t p k, (0 < p)%Q -> (p < 1)%Q -> (bpmf t p k == bpmf t p 0 * bprod t p k)%Q.
Proof.
  intros t p k P0 P1. induction k as [|k IH]; [cbn [bprod]; ring|]. cbn [bprod]. rewrite Qred_correct. pose proof (bpmf_ratio p t k) as R.
  assert (K0: (0 < qn (S k))%Q) by (unfold qn; change 0%Q with (inject_Z 0); rewrite <- Zlt_Qlt; lia).
  assert (NZ: ~ (qn (S k) * (1 - p) == 0)%Q). { intro Z. assert (0 < qn (S k) * (1 - p))%Q; [|Lqa.lra]. apply (Qle_lt_trans _ (0 * (1 - p))); [Lqa.lra|]. apply Qmult_lt_r; Lqa.lra. }
  assert (E: (bpmf t p (S k) == (qn t - qn k) * p / (qn (S k) * (1 - p)) * bpmf t p k)%Q).
  { apply (Qmult_inj_l _ _ _ NZ). rewrite R. field. split; intro Z; apply NZ; [rewrite Z; ring|]. Lqa.lra || (rewrite Z; ring). }
  rewrite E, IH. ring.
Qed.
