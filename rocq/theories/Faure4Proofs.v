(* faure.hpp: the values of the coordinates, with rounding errors *)
From Coq Require Import ZArith Arith Lia List QArith Qround Qabs Qfield Lqa.
From Verif Require Import Base FloatModel FloatSpec FloatProofs FaureModel FaureSpec FaureNetProofs FaureNet2Proofs FaureProofs Faure2Proofs Faure3Proofs.
Ltac Zify.zify_post_hook ::= idtac.
Open Scope Q_scope.

Lemma qmul_le : forall a b c, 0 <= c -> a <= b -> a * c <= b * c.
Proof. intros. apply Qmult_le_compat_r; assumption. Qed.
Lemma injZ_pos : forall z, (0 < z)%Z -> 0 < inject_Z z.
Proof. intros z H. change 0 with (inject_Z 0). rewrite <- Zlt_Qlt. exact H. Qed.
Lemma injZ_nonneg : forall z, (0 <= z)%Z -> 0 <= inject_Z z.
Proof. intros z H. change 0 with (inject_Z 0). rewrite <- Zle_Qle. exact H. Qed.

(* a quotient with an inexact divisor *)
Lemma div_err : forall d B r dl, 0 <= d -> 0 < B -> 0 <= dl -> dl <= 1 # 2 -> B - B * dl <= r -> r <= B + B * dl ->
  d / B - 2 * dl * (d / B) <= d / r /\ d / r <= d / B + 2 * dl * (d / B).
Proof.
  intros d B r dl Hd HB H0 H1 L U. assert (Hr : 0 < r) by nra. set (t := d / B). assert (ET : t * B == d) by (unfold t; field; lra).
  assert (Ht : 0 <= t) by (unfold t; apply Qle_shift_div_l; lra). clearbody t. split.
  - apply Qle_shift_div_l; [exact Hr|]. rewrite <- ET. assert (A : (t - 2 * dl * t) * r <= (t - 2 * dl * t) * (B + B * dl)).
    { rewrite !(Qmult_comm (t - 2 * dl * t)). apply qmul_le; [nra|exact U]. }
    eapply Qle_trans; [exact A|]. assert (EE : (t - 2 * dl * t) * (B + B * dl) == t * B - t * B * (dl + 2 * dl * dl)) by ring. rewrite EE.
    assert (0 <= t * B) by nra. assert (0 <= dl * dl) by nra. nra.
  - apply Qle_shift_div_r; [exact Hr|]. rewrite <- ET. assert (A : (t + 2 * dl * t) * (B - B * dl) <= (t + 2 * dl * t) * r).
    { rewrite !(Qmult_comm (t + 2 * dl * t)). apply qmul_le; [nra|exact L]. }
    eapply Qle_trans; [|exact A]. assert (EE : (t + 2 * dl * t) * (B - B * dl) == t * B + t * B * (dl * (1 - 2 * dl))) by ring. rewrite EE.
    assert (0 <= t * B) by nra. assert (0 <= dl * (1 - 2 * dl)) by nra. nra.
Qed.

Section Real.
Variables (f : fmt) (md : rmode).
Hypothesis Hf : fmt_ok f.
Local Notation rnd := (fround f md).
Local Notation u := (p2 (1 - prec f)).

Lemma u_pos : 0 < u. Proof using. apply p2_pos. Qed.
Lemma eta_u : p2 (emin f) <= u * (1 # 2).
Proof using Hf.
  destruct Hf as [_ H]. apply Qle_trans with (p2 (- prec f)); [apply p2_le; lia|]. replace (1 - prec f)%Z with (- prec f + 1)%Z by lia. rewrite p2_add, p2_1.
  pose proof (p2_pos (- prec f)). lra.
Qed.
Lemma rnd_abs : forall x, 0 <= x -> x - u * (x + (1 # 2)) <= rnd x /\ rnd x <= x + u * (x + (1 # 2)).
Proof using Hf.
  intros x Hx. destruct (rnd_err f md x) as [L U]. pose proof (ulp_gen f x Hx) as G. pose proof eta_u. split; nra.
Qed.
Lemma rnd_rel : forall x, 1 <= x -> x - x * u <= rnd x /\ rnd x <= x + x * u.
Proof using Hf.
  intros x Hx. destruct (rnd_err f md x) as [L U]. pose proof (ulp_rel f x) as G.
  assert (p2 (emin f + prec f - 1) <= x). { apply Qle_trans with (p2 0); [apply p2_le; destruct Hf; lia|rewrite p2_0; exact Hx]. }
  specialize (G H). split; lra.
Qed.

(* ---- the first coordinate ---- *)
Lemma rr_range : forall b, (2 <= b <= 2 ^ prec f)%Z -> forall L n r, (0 <= n < b ^ Z.of_nat (S L))%Z -> 0 <= r <= 1 -> 0 <= rr f md b L n r <= 1.
Proof using Hf.
  intros b Hb.
  assert (K : forall v r, (0 <= v < b)%Z -> 0 <= r <= 1 -> 0 <= rnd (rnd (r + inject_Z v) / inject_Z b) <= 1).
  { intros v r Hv Hr. pose proof (injZ_pos b ltac:(lia)) as PB. pose proof (injZ_nonneg v ltac:(lia)) as PV.
    assert (R : 0 <= rnd (r + inject_Z v) <= inject_Z b).
    { split; [apply rnd_nonneg; lra|]. apply (repr_rnd_le f md Hf); [apply repr_Z; [exact Hf|lia]|].
      assert (inject_Z v + 1 <= inject_Z b). { change 1 with (inject_Z 1). rewrite <- inject_Z_plus, <- Zle_Qle. lia. } lra. }
    split; [apply rnd_nonneg; apply Qle_shift_div_l; lra|]. apply (repr_rnd_le f md Hf); [apply repr_1; exact Hf|]. apply Qle_shift_div_r; lra. }
  induction L as [|L IH]; intros n r Hn Hr; cbn [rr].
  - apply K; [|exact Hr]. change (b ^ Z.of_nat 0)%Z with 1%Z. rewrite Z.div_1_r. rewrite bpow_S in Hn. change (b ^ Z.of_nat 0)%Z with 1%Z in Hn. lia.
  - pose proof (bpow_pos b (S L) ltac:(lia)) as HP. apply IH.
    + apply Z.mod_pos_bound. exact HP.
    + apply K; [|exact Hr]. rewrite bpow_S in Hn. split; [apply Z.div_pos; lia|apply Z.div_lt_upper_bound; lia].
Qed.

(* the exact value: digit 0 is the leading one *)
Lemma rr_err : forall b, (2 <= b <= 2 ^ prec f)%Z -> u <= 1 # 8 -> forall L n r t, (0 <= n < b ^ Z.of_nat (S L))%Z -> 0 <= r <= 1 ->
  t - 6 * u <= r -> r <= t + 6 * u ->
  let v := qsum (S L) (fun i => inject_Z (digit b n i) / inject_Z (b ^ Z.of_nat (S i))) + t / inject_Z (b ^ Z.of_nat (S L)) in
  v - 6 * u <= rr f md b L n r /\ rr f md b L n r <= v + 6 * u.
Proof using Hf.
  intros b Hb Hu.
  assert (K : forall v r t, (0 <= v < b)%Z -> 0 <= r <= 1 -> t - 6 * u <= r -> r <= t + 6 * u ->
    (inject_Z v + t) / inject_Z b - 6 * u <= rnd (rnd (r + inject_Z v) / inject_Z b) /\ rnd (rnd (r + inject_Z v) / inject_Z b) <= (inject_Z v + t) / inject_Z b + 6 * u).
  { intros v r t Hv Hr L U. pose proof (injZ_pos b ltac:(lia)) as PB. pose proof (injZ_nonneg v ltac:(lia)) as PV. pose proof u_pos as PU.
    assert (VB : inject_Z v + 1 <= inject_Z b). { change 1 with (inject_Z 1). rewrite <- inject_Z_plus, <- Zle_Qle. lia. }
    assert (B2 : 2 <= inject_Z b). { change 2 with (inject_Z 2). rewrite <- Zle_Qle. lia. }
    destruct (rnd_abs (r + inject_Z v) ltac:(lra)) as [W1 W2].
    assert (R : 0 <= rnd (r + inject_Z v) <= inject_Z b).
    { split; [apply rnd_nonneg; lra|]. apply (repr_rnd_le f md Hf); [apply repr_Z; [exact Hf|lia]|]. lra. }
    set (w := rnd (r + inject_Z v)) in *. set (BB := inject_Z b) in *. set (vv := inject_Z v) in *. clearbody w BB vv.
    assert (Q0 : 0 <= w / BB) by (apply Qle_shift_div_l; lra). assert (Q1 : w / BB <= 1) by (apply Qle_shift_div_r; lra).
    destruct (rnd_abs (w / BB) Q0) as [X1 X2]. set (x := rnd (w / BB)) in *. clearbody x. set (q := w / BB) in *. assert (EQ : q * BB == w) by (unfold q; field; lra). clearbody q.
    set (z := (vv + t) / BB). assert (EZ : z * BB == vv + t) by (unfold z; field; lra). clearbody z.
    (* |w - (vv+t)| <= 6u + u (BB + 1/2) *)
    assert (M1 : (r + vv + (1 # 2)) * u <= (BB + (1 # 2)) * u) by (apply qmul_le; lra).
    assert (EE : (z - q) * BB == vv + t - w) by (rewrite <- EQ; setoid_replace (vv + t) with (z * BB) by (symmetry; exact EZ); ring).
    assert (E1 : (z - q) * BB <= 6 * u + (BB + (1 # 2)) * u) by (rewrite EE; lra).
    assert (E2 : (q - z) * BB <= 6 * u + (BB + (1 # 2)) * u) by (setoid_replace ((q - z) * BB) with (- ((z - q) * BB)) by ring; rewrite EE; lra).
    assert (M2 : 2 * u <= BB * u) by (apply qmul_le; lra). assert (M3 : q * u <= 1 * u) by (apply qmul_le; lra).
    assert (F1 : z - q <= (17 # 4) * u). { apply Qnot_lt_le. intros C. assert ((17 # 4) * u * BB < (z - q) * BB) by (apply Qmult_lt_compat_r; lra). lra. }
    assert (F2 : q - z <= (17 # 4) * u). { apply Qnot_lt_le. intros C. assert ((17 # 4) * u * BB < (q - z) * BB) by (apply Qmult_lt_compat_r; lra). lra. }
    split; lra. }
  induction L as [|L IH]; intros n r t Hn Hr L1 U1 v; cbn [rr].
  - change (b ^ Z.of_nat 0)%Z with 1%Z. rewrite Z.div_1_r. rewrite bpow_S in Hn. change (b ^ Z.of_nat 0)%Z with 1%Z in Hn.
    pose proof (K n r t ltac:(lia) Hr L1 U1) as KK. pose proof (injZ_pos b ltac:(lia)) as PB.
    assert (EV : v == (inject_Z n + t) / inject_Z b).
    { unfold v. cbn [qsum]. rewrite digit_0, Z.mod_small by lia. rewrite bpow_S. change (b ^ Z.of_nat 0)%Z with 1%Z. rewrite Z.mul_1_r. field. lra. }
    rewrite EV. exact KK.
  - pose proof (bpow_pos b (S L) ltac:(lia)) as HP. set (k := (b ^ Z.of_nat (S L))%Z) in *.
    assert (ET : (n / k)%Z = digit b n (S L)) by (apply digit_top; lia).
    assert (HV : (0 <= n / k < b)%Z) by (rewrite ET; apply digit_range; lia).
    destruct (K (n / k)%Z r t HV Hr L1 U1) as [K1 K2]. 
    assert (KR : 0 <= rnd (rnd (r + inject_Z (n / k)) / inject_Z b) <= 1).
    { clear IH v. pose proof (rr_range b Hb 0 (n / k) r) as RR. cbn [rr] in RR. change (b ^ Z.of_nat 0)%Z with 1%Z in RR. rewrite Z.div_1_r in RR. apply RR; [|exact Hr].
      rewrite bpow_S. change (b ^ Z.of_nat 0)%Z with 1%Z. lia. }
    pose proof (IH (n mod k)%Z _ ((inject_Z (n / k) + t) / inject_Z b) (Z.mod_pos_bound n k HP) KR K1 K2) as [I1 I2].
    assert (EV : v == qsum (S L) (fun i => inject_Z (digit b (n mod k) i) / inject_Z (b ^ Z.of_nat (S i))) + (inject_Z (n / k) + t) / inject_Z b / inject_Z k).
    { unfold v. change (qsum (S (S L)) (fun i : nat => inject_Z (digit b n i) / inject_Z (b ^ Z.of_nat (S i))))
        with (qsum (S L) (fun i : nat => inject_Z (digit b n i) / inject_Z (b ^ Z.of_nat (S i))) + inject_Z (digit b n (S L)) / inject_Z (b ^ Z.of_nat (S (S L)))).
      rewrite <- ET. rewrite (bpow_S b (S L)). fold k. rewrite inject_Z_mult.
      assert (EQ : forall h, (h <= S L)%nat -> qsum h (fun i => inject_Z (digit b n i) / inject_Z (b ^ Z.of_nat (S i))) == qsum h (fun i => inject_Z (digit b (n mod k) i) / inject_Z (b ^ Z.of_nat (S i)))).
      { induction h as [|h IHh]; intros Hh; [reflexivity|]. cbn [qsum]. rewrite IHh by lia. unfold k. rewrite digit_mod by lia. reflexivity. }
      rewrite (EQ (S L)) by lia. pose proof (injZ_pos b ltac:(lia)). pose proof (injZ_pos k HP). field. split; lra. }
    rewrite EV. split; [exact I1|exact I2].
Qed.

(* ---- the other coordinates ---- *)
Lemma sv_nonneg : forall b ds, (2 <= b)%Z -> Forall (fun d => (0 <= d)%Z) ds -> forall r first, 1 <= r -> 0 <= first -> 0 <= sv f md b ds r first.
Proof using Hf.
  intros b ds Hb H. induction H as [|d ds Hd H IH]; intros r first Hr H0; cbn [sv]; [exact H0|]. pose proof (r_pos f md Hf b r Hb Hr) as R. apply IH; [exact R|].
  apply rnd_nonneg. assert (0 <= rnd (inject_Z d / rnd (r * inject_Z b))). { apply rnd_nonneg. apply Qle_shift_div_l; [lra|]. pose proof (injZ_nonneg d Hd). lra. } lra.
Qed.

Lemma pow_step : forall B x r' k, 0 < B -> 0 <= k -> k * u <= 1 # 2 -> 1 <= x -> B - B * (2 * k * u) <= x -> x <= B + B * (2 * k * u) ->
  r' = rnd x -> B - B * (2 * (k + 1) * u) <= r' /\ r' <= B + B * (2 * (k + 1) * u).
Proof using Hf.
  intros B x r' k HB Hk Hku Hx L U ->. destruct (rnd_rel x Hx) as [R1 R2]. pose proof u_pos as PU. set (w := u) in *. clearbody w.
  assert (U1 : w <= 1 # 2 \/ 1 # 2 < w) by lra.
  assert (XU : x * w <= (B + B * (2 * k * w)) * w) by (apply qmul_le; lra).
  assert (BK : B * w * (2 * (k * w)) <= B * w * 1). { rewrite !(Qmult_comm (B * w)). apply qmul_le; [|lra]. apply Qmult_le_0_compat; lra. }
  assert (BW : 0 <= B * w) by (apply Qmult_le_0_compat; lra).
  split.
  - assert (x * w <= B * w + B * w * 1) by lra.
    (* need x - x w >= B - B 2(k+1) w *) lra.
  - lra.
Qed.

Lemma sv_err : forall b (g : nat -> Z) h, (2 <= b)%Z -> (forall i, (0 <= g i < b)%Z) ->
  let th := fun i => inject_Z (g i) / inject_Z (b ^ Z.of_nat (S i)) in
  (forall k, qsum k th <= 1) -> 10 * inject_Z (Z.of_nat h) * u <= 1 ->
  forall cnt i r first, (i + cnt = h)%nat -> 1 <= r -> 0 <= first ->
  let B := inject_Z (b ^ Z.of_nat i) in let k := inject_Z (Z.of_nat i) in
  B - B * (2 * k * u) <= r -> r <= B + B * (2 * k * u) ->
  qsum i th - 10 * k * u <= first -> first <= qsum i th + 10 * k * u ->
  qsum h th - 10 * inject_Z (Z.of_nat h) * u <= sv f md b (map g (seq i cnt)) r first /\
  sv f md b (map g (seq i cnt)) r first <= qsum h th + 10 * inject_Z (Z.of_nat h) * u.
Proof using Hf.
  intros b g h Hb Hg th HS Hh. induction cnt as [|m IH]; intros i r first Hi Hr H0 B k R1 R2 F1 F2; cbn [seq map sv].
  - assert (EI : i = h) by lia. unfold k in F1, F2. rewrite EI in F1, F2. split; assumption.
  - pose proof u_pos as PU. pose proof (bpow_pos b i Hb) as HP. assert (PB : 0 < B) by (apply injZ_pos; exact HP). pose proof (injZ_pos b ltac:(lia)) as Pb.
    assert (Hk : 0 <= k) by (apply injZ_nonneg; lia).
    assert (EK : inject_Z (Z.of_nat (S i)) == k + 1). { unfold k. rewrite Nat2Z.inj_succ, <- Z.add_1_r, inject_Z_plus. reflexivity. }
    assert (KH : k + 1 <= inject_Z (Z.of_nat h)). { rewrite <- EK, <- Zle_Qle. lia. }
    assert (KU : (k + 1) * u <= inject_Z (Z.of_nat h) * u) by (apply qmul_le; lra).
    assert (EB : inject_Z (b ^ Z.of_nat (S i)) == B * inject_Z b). { rewrite bpow_S, inject_Z_mult. unfold B. ring. }
    set (B' := B * inject_Z b) in *. assert (PB' : 0 < B') by (unfold B'; apply Qmult_lt_0_compat; assumption).
    assert (X1 : B' - B' * (2 * k * u) <= r * inject_Z b). { unfold B'. setoid_replace (B * inject_Z b - B * inject_Z b * (2 * k * u)) with ((B - B * (2 * k * u)) * inject_Z b) by ring. apply qmul_le; lra. }
    assert (X2 : r * inject_Z b <= B' + B' * (2 * k * u)). { unfold B'. setoid_replace (B * inject_Z b + B * inject_Z b * (2 * k * u)) with ((B + B * (2 * k * u)) * inject_Z b) by ring. apply qmul_le; lra. }
    assert (B1 : 1 <= inject_Z b) by (change 1 with (inject_Z 1); rewrite <- Zle_Qle; lia).
    assert (X0 : 1 <= r * inject_Z b). { apply Qle_trans with (1 * inject_Z b); [lra|]. apply qmul_le; lra. }
    pose proof (r_pos f md Hf b r Hb Hr) as RP. set (r' := rnd (r * inject_Z b)) in *.
    destruct (pow_step B' (r * inject_Z b) r' k PB' Hk ltac:(lra) X0 X1 X2 eq_refl) as [P1 P2].
    pose proof (injZ_nonneg (g i) ltac:(apply Hg)) as HG.
    set (dl := 2 * (k + 1) * u) in *. assert (D0 : 0 <= dl) by (unfold dl; apply Qmult_le_0_compat; lra). assert (D1 : dl <= 1 # 2) by (unfold dl; lra).
    destruct (div_err (inject_Z (g i)) B' r' dl HG PB' D0 D1 P1 P2) as [Q1 Q2]. set (q := inject_Z (g i) / r') in *.
    assert (ETH : th i == inject_Z (g i) / B') by (unfold th; rewrite EB; reflexivity). rewrite <- ETH in Q1, Q2.
    assert (T0 : 0 <= th i). { rewrite ETH. apply Qle_shift_div_l; lra. }
    assert (T1 : (k + 1) * th i <= 1).
    { rewrite ETH. setoid_replace ((k + 1) * (inject_Z (g i) / B')) with ((k + 1) * inject_Z (g i) / B') by (field; lra). apply Qle_shift_div_r; [exact PB'|]. rewrite Qmult_1_l.
      rewrite <- EK, <- EB, <- inject_Z_mult, <- Zle_Qle. rewrite bpow_S. specialize (Hg i). assert (Z.of_nat (S i) <= b ^ Z.of_nat i)%Z.
      { destruct i as [|i']; [cbn; lia|]. pose proof (Z.pow_gt_lin_r b (Z.of_nat (S i')) ltac:(lia) ltac:(lia)). lia. } nia. }
    assert (TT : 2 * dl * th i <= 4 * u). { unfold dl. assert ((k + 1) * th i * u <= 1 * u) by (apply qmul_le; lra). lra. }
    assert (S1 : qsum (S i) th <= 1) by apply HS. cbn [qsum] in S1.
    assert (SN : forall j, 0 <= qsum j th). { induction j as [|j IHj]; [apply Qle_refl|]. cbn [qsum]. assert (0 <= th j); [|lra]. unfold th. apply Qle_shift_div_l; [apply injZ_pos, bpow_pos; exact Hb|].
      pose proof (injZ_nonneg (g j) ltac:(apply Hg)). lra. }
    pose proof (SN i) as SNi.
    assert (q0 : 0 <= q) by (unfold q; apply Qle_shift_div_l; lra).
    assert (HU10 : 10 * u <= 1). { assert (0 <= k * u) by (apply Qmult_le_0_compat; lra). lra. }
    destruct (rnd_abs q q0) as [A1 A2]. assert (A0 : 0 <= rnd q) by (apply rnd_nonneg; assumption). assert (QU : q * u <= (3 # 2) * u) by (apply qmul_le; lra).
    destruct (rnd_abs (first + rnd q) ltac:(lra)) as [C1 C2]. set (q' := rnd q) in *.
    assert (SU : (first + q') * u <= 2 * u) by (apply qmul_le; lra).
    assert (C0 : 0 <= rnd (first + q')) by (apply rnd_nonneg; lra).
    apply (IH (S i) r' (rnd (first + q'))); [lia|exact RP|exact C0| | | |].
    + rewrite EB, EK. exact P1.
    + rewrite EB, EK. exact P2.
    + cbn [qsum]. rewrite EK. lra.
    + cbn [qsum]. rewrite EK. lra.
Qed.
End Real.
