(* The constants of the rejection algorithm and the range of its results. *)
From Coq Require Import Lqa.
From Verif Require Import Base ProgModel ProgSpec ProgProofs UIntModel UIntSpec FloatModel FloatSpec FloatProofs RealModel UniProofs Disc4Proofs RDiscProofs RDisc5Proofs BinModel BinSpec BinProofs Bin2Proofs Bin3Proofs Bin4Proofs.
Ltac Zify.zify_post_hook ::= idtac.
Open Scope Q_scope.

(* a rounding of relative error eta from 1/1024 on *)
Local Notation eta := (1 # 262144).
Definition rel (r : Q -> Q) : Prop := forall x y, Qabs x <= y -> 1 # 1024 <= y -> x - eta * y <= r x /\ r x <= x + eta * y.

Lemma rel_rnd : forall f md, fmt_ok f -> (20 <= prec f)%Z -> (emin f <= -40)%Z -> rel (fround f md).
Proof.
  intros f md Hf HP HE x y Hxy Hy.
  assert (U: p2 (fexp f x) <= eta * y).
  { pose proof (p2_pos (1 - prec f)). assert (e: p2 (1 - prec f) <= 1 # 524288) by (change (1 # 524288) with (p2 (-19)); apply p2_le; lia).
    assert (m: p2 (emin f) <= (1 # 524288) * (1 # 1024)).
    { apply Qle_trans with (p2 (-40)); [apply p2_le; lia|vm_compute; discriminate]. }
    assert (Y: y * p2 (1 - prec f) <= y * (1 # 524288)). { rewrite !(Qmult_comm y). apply Qmult_le_compat_r; lra. }
    apply Qle_trans with (p2 (fexp f y)).
    - apply p2_le. destruct (Qeq_dec x 0) as [E|E].
      + assert (fexp f x = emin f) as ->; [|apply fexp_emin]. unfold fexp. destruct (Qeq_bool x 0) eqn:EB; [reflexivity|]. apply Qeq_bool_neq in EB. contradiction.
      + rewrite (fexp_nz f x E), (fexp_nz f y) by lra.
        assert (0 < Qabs x). { destruct (Qlt_le_dec 0 (Qabs x)) as [L|L]; [exact L|]. exfalso. apply E. apply abs_le_inv in L. lra. }
        pose proof (Qabs_pos y ltac:(lra)). pose proof (qlog2_mono (Qabs x) (Qabs y) ltac:(lra) ltac:(lra)). lia.
    - pose proof (ulp_gen f y ltac:(lra)). lra. }
  pose proof (rnd_err f md x) as [A B]. lra.
Qed.
Lemma rel_pos : forall r x, rel r -> 1 # 1024 <= x -> (1 - eta) * x <= r x /\ r x <= (1 + eta) * x.
Proof. intros r x H Hx. destruct (H x x) as [A B]; [rewrite Qabs_pos; lra|lra|]. lra. Qed.
Lemma rel_abs : forall r x y, rel r -> - y <= x -> x <= y -> 1 # 1024 <= y -> x - eta * y <= r x /\ r x <= x + eta * y.
Proof. intros r x y H H1 H2 H3. apply H; [|exact H3]. apply abs_le; lra. Qed.

Lemma mul_b : forall a b c x, a <= b -> b <= c -> 0 <= x -> a * x <= b * x /\ b * x <= c * x.
Proof. intros. split; apply Qmult_le_compat_r; assumption. Qed.

Lemma sq_le : forall x y, 0 <= x -> 0 <= y -> x * x <= y * y -> x <= y.
Proof.
  intros x y X Y H. destruct (Qlt_le_dec y x) as [L|L]; [|exact L]. exfalso.
  assert (y * y <= x * y) by (apply Qmult_le_compat_r; lra). assert (x * y < x * x); [|lra].
  rewrite !(Qmult_comm x). apply Qmult_lt_compat_r; lra.
Qed.

Section C.
Variables (f g : fmt) (md : rmode) (ti : ity) (sq : Q -> Q) (t : Z) (p : Q).
Hypothesis Rf : rel (fround f md).
Hypothesis Rg : rel (fround g md).
Local Notation rnd := (fround f md).
Local Notation rg := (fround g md).
Local Notation N := (inject_Z t * p).
Hypothesis T0 : (0 <= t)%Z.
Hypothesis N0 : 104 # 10 <= N.
Hypothesis P0 : 0 < p.
Hypothesis P1 : p <= 1 # 2.
Hypothesis Hsq : forall x, 1 <= x -> 0 <= sq x /\ Qabs (sq x * sq x - x) <= (1 # 1000) * x.

Record bfacts (b : btrd) : Prop := {
  bf_s : exists s, 0 <= s /\ s <= (311 # 1000) * N /\ 22 # 10 <= s /\ (1149 # 1000) + (2529 # 1000) * s <= b_b b /\ b_b b <= (1151 # 1000) + (2531 # 1000) * s;
  bf_a1 : (2475 # 100000) * b_b b - (875 # 10000) <= b_a b;
  bf_a2 : b_a b <= (2485 # 100000) * b_b b - (821 # 10000);
  bf_c1 : (9999 # 10000) * (N + (1 # 2)) <= b_c b;
  bf_c2 : b_c b <= (10001 # 10000) * (N + (1 # 2));
  bf_v1 : 28 # 100 <= b_vr b;
  bf_v2 : b_vr b <= 9201 # 10000;
  bf_u1 : 0 <= b_urvr b;
  bf_u2 : b_urvr b <= (8601 # 10000) * b_vr b;
  bf_n : 1 <= b_npq b;
  bf_al : 0 <= b_alpha b;
  bf_r : b_r b = rnd (p / rnd (1 - p));
  bf_nr : b_nr b = rnd (rnd (inject_Z (t + 1)) * b_r b) }.

Lemma t_ge : 20 <= inject_Z t.
Proof.
  assert (X: 0 <= inject_Z t) by (change 0 with (inject_Z 0); apply injZ_le; exact T0).
  assert (inject_Z t * p <= inject_Z t * (1 # 2)). { rewrite !(Qmult_comm (inject_Z t)). apply Qmult_le_compat_r; lra. } lra.
Qed.

Lemma np_ok : (99999 # 100000) * N <= rnd (rnd (inject_Z t) * p) /\ rnd (rnd (inject_Z t) * p) <= (100001 # 100000) * N.
Proof.
  pose proof t_ge as TG. destruct (rel_pos _ (inject_Z t) Rf ltac:(lra)) as [A B].
  assert (A': (1 - eta) * inject_Z t * p <= rnd (inject_Z t) * p) by (apply Qmult_le_compat_r; lra).
  assert (B': rnd (inject_Z t) * p <= (1 + eta) * inject_Z t * p) by (apply Qmult_le_compat_r; lra).
  destruct (rel_pos _ (rnd (inject_Z t) * p) Rf ltac:(lra)) as [C D]. lra.
Qed.

Lemma q_b : 1 - p - eta <= rnd (1 - p) /\ rnd (1 - p) <= 1 - p + eta.
Proof. destruct (rel_abs _ (1 - p) 1 Rf) as [A B]; lra. Qed.

Lemma btrd_facts : forall b, (32 <= bits ti)%Z -> (t < imax ti)%Z -> bn_btrd f g md ti sq t p = Some b -> bfacts b.
Proof.
  intros b Hti T1 H. unfold bn_btrd in H. pose proof (imin_le_0 ti Hti). rewrite addT_in in H by lia. cbn [bind] in H.
  destruct q_b as [Q1 Q2]. destruct np_ok as [M1 M2]. rewrite fdiv_ok in H by lra. cbn [bind] in H.
  set (np := rnd (rnd (inject_Z t) * p)) in *. set (q := rnd (1 - p)) in *.
  assert (X1: (49 # 100) * np <= q * np /\ q * np <= (10001 # 10000) * np) by (apply mul_b; lra).
  assert (X2: np * q == q * np) by ring.
  destruct (rel_pos _ (np * q) Rf ltac:(lra)) as [NP1 NP2]. set (npq := rnd (np * q)) in *.
  destruct (Hsq npq ltac:(lra)) as [S0 S1]. set (s := sq npq) in *. apply abs_le_inv in S1.
  assert (S2: s <= (311 # 1000) * N).
  { apply sq_le; try lra. assert ((104 # 10) * N <= N * N) by (apply Qmult_le_compat_r; lra). lra. }
  assert (S3: 22 # 10 <= s). { apply sq_le; lra. }
  set (k253 := dlit (253 # 100)) in *. set (k115 := dlit (115 # 100)) in *. set (k0248 := dlit (248 # 10000)) in *.
  set (k0873 := dlit (- (873 # 10000))) in *. set (k001 := dlit (1 # 100)) in *. set (k51 := dlit (51 # 10)) in *.
  set (k42 := dlit (42 # 10)) in *. set (k92 := dlit (92 # 100)) in *. set (k86 := dlit (86 # 100)) in *. set (k283 := dlit (283 # 100)) in *.
  assert (C1: 25299 # 10000 <= k253 /\ k253 <= 25301 # 10000) by (split; vm_compute; discriminate).
  assert (C2: 11499 # 10000 <= k115 /\ k115 <= 11501 # 10000) by (split; vm_compute; discriminate).
  assert (C3: 24799 # 1000000 <= k0248 /\ k0248 <= 24801 # 1000000) by (split; vm_compute; discriminate).
  assert (C4: - (87301 # 1000000) <= k0873 /\ k0873 <= - (87299 # 1000000)) by (split; vm_compute; discriminate).
  assert (C5: 0 <= k001 /\ k001 <= 10001 # 1000000) by (split; vm_compute; discriminate).
  assert (C6: 0 <= k42 /\ k42 <= 42001 # 10000) by (split; vm_compute; discriminate).
  assert (C7: 91999 # 100000 <= k92 /\ k92 <= 92001 # 100000) by (split; vm_compute; discriminate).
  assert (C8: 0 <= k86 /\ k86 <= 86001 # 100000) by (split; vm_compute; discriminate).
  assert (C9: 0 <= k283) by (vm_compute; discriminate). assert (C10: 0 <= k51) by (vm_compute; discriminate).
  clearbody k283 k253 k115 k0248 k0873 k001 k51 k42 k92 k86.
  destruct (mul_b (25299 # 10000) k253 (25301 # 10000) s) as [B1 B2]; try lra.
  destruct (rel_pos _ (k253 * s) Rg ltac:(lra)) as [B3 B4]. set (b1 := rg (k253 * s)) in *.
  destruct (rel_pos _ (k115 + b1) Rg ltac:(lra)) as [B5 B6]. set (b2 := rg (k115 + b1)) in *.
  destruct (rel_pos _ b2 Rf ltac:(lra)) as [B7 B8]. set (bb := rnd b2) in *.
  assert (BB1: (1149 # 1000) + (2529 # 1000) * s <= bb) by lra. assert (BB2: bb <= (1151 # 1000) + (2531 # 1000) * s) by lra.
  rewrite !fdiv_ok in H by lra. cbn [bind] in H. injection H as <-.
  (* a *)
  destruct (mul_b (24799 # 1000000) k0248 (24801 # 1000000) bb) as [A1 A2]; try lra.
  destruct (rel_pos _ (k0248 * bb) Rg ltac:(lra)) as [A3 A4]. set (a1 := rg (k0248 * bb)) in *.
  destruct (rel_abs _ (k0873 + a1) ((1 # 10) + (249 # 10000) * bb) Rg) as [A5 A6]; try lra. set (a2 := rg (k0873 + a1)) in *.
  destruct (mul_b 0 k001 (10001 # 1000000) p) as [A7 A8]; try lra.
  destruct (rel_abs _ (k001 * p) (1 # 100) Rg) as [A9 A10]; try lra. set (a3 := rg (k001 * p)) in *.
  destruct (rel_abs _ (a2 + a3) ((2 # 10) + (249 # 10000) * bb) Rg) as [A11 A12]; try lra. set (a4 := rg (a2 + a3)) in *.
  destruct (rel_abs _ a4 ((3 # 10) + (250 # 10000) * bb) Rf) as [A13 A14]; try lra.
  (* c *)
  destruct (rel_pos _ (np + (1 # 2)) Rg ltac:(lra)) as [E1 E2]. set (c1 := rg (np + (1 # 2))) in *.
  destruct (rel_pos _ c1 Rf ltac:(lra)) as [E3 E4].
  (* vr *)
  assert (V0: 0 <= k42 / bb) by (apply Qle_shift_div_l; lra). assert (V1: k42 / bb <= 634 # 1000).
  { apply Qle_shift_div_r; [lra|]. assert ((634 # 1000) * ((1149 # 1000) + (2529 # 1000) * (22 # 10)) <= (634 # 1000) * bb) by lra. lra. }
  destruct (rel_abs _ (k42 / bb) 1 Rg) as [V2 V3]; try lra. set (v1 := rg (k42 / bb)) in *.
  destruct (rel_abs _ (k92 - v1) 1 Rg) as [V4 V5]; try lra. set (v2 := rg (k92 - v1)) in *.
  destruct (rel_abs _ v2 1 Rf) as [V6 V7]; try lra. set (vr := rnd v2) in *.
  destruct (mul_b 0 k86 (86001 # 100000) vr) as [V8 V9]; try lra.
  destruct (rel_abs _ (k86 * vr) vr Rg) as [V10 V11]; try lra. set (w1 := rg (k86 * vr)) in *.
  constructor; cbn [b_b b_a b_c b_vr b_urvr b_npq b_r b_nr b_alpha]; fold np q npq; try lra; try reflexivity.
  - exists s. repeat split; lra.
  - apply rnd_nonneg. apply rnd_nonneg. lra.
  - destruct (Qlt_le_dec w1 0) as [L|L].
    + assert (X: w1 < 0 -> False); [|contradiction (X L)]. intro. assert (0 <= w1) by (apply rnd_nonneg; lra). lra.
    + destruct (rel_abs _ w1 vr Rf) as [V12 V13]; lra.
  - apply rnd_nonneg. apply rnd_nonneg. apply Qmult_le_0_compat; [|lra]. apply rnd_nonneg.
    assert (0 <= rg (k51 / bb)) by (apply rnd_nonneg; apply Qle_shift_div_l; lra). lra.
Qed.

Lemma qtrunc_Z : forall z, qtrunc (inject_Z z) = z.
Proof.
  intro z. unfold qtrunc. destruct (Qle_bool 0 (inject_Z z)); [apply Qfloor_Z|].
  unfold Qceiling. rewrite <- inject_Z_opp, Qfloor_Z. lia.
Qed.
Lemma to_int_Z : forall z, (imin ti <= z <= imax ti)%Z -> to_int ti (inject_Z z) = Some z.
Proof.
  intros z H. unfold to_int. rewrite qtrunc_Z. destruct (Z.leb_spec (imin ti) z); [|lia]. destruct (Z.leb_spec z (imax ti)); [|lia]. reflexivity.
Qed.
Lemma fl_lo : forall x z, inject_Z z <= x -> (z <= Qfloor x)%Z.
Proof. intros x z H. rewrite <- (Qfloor_Z z). apply Qfloor_resp_le. exact H. Qed.
Lemma fl_hi : forall x z, x <= inject_Z z -> (Qfloor x <= z)%Z.
Proof. intros x z H. rewrite <- (Qfloor_Z z). apply Qfloor_resp_le. exact H. Qed.
Lemma t_2N : 2 * N <= inject_Z t.
Proof.
  assert (X: 0 <= inject_Z t) by (change 0 with (inject_Z 0); apply injZ_le; exact T0).
  assert (inject_Z t * p <= inject_Z t * (1 # 2)). { rewrite !(Qmult_comm (inject_Z t)). apply Qmult_le_compat_r; lra. } lra.
Qed.

Lemma quick_ok : forall b v, (32 <= bits ti)%Z -> (t < imax ti)%Z -> bfacts b -> 0 <= v -> v <= b_urvr b ->
  exists k, bn_quick f g md ti b v = Some k /\ (0 <= k <= t)%Z.
Proof.
  intros b v Hti T1 [(s & S0 & S1 & S2 & B1 & B2) A1 A2 C1 C2 V1 V2 U1 U2 _ _ _ _] Hv0 Hv1. unfold bn_quick. pose proof t_2N as TN.
  rewrite fdiv_ok by lra. cbn [bind].
  assert (X1: 0 <= v / b_vr b) by (apply Qle_shift_div_l; lra). assert (X2: v / b_vr b <= 8601 # 10000) by (apply Qle_shift_div_r; lra).
  destruct (rel_abs _ (v / b_vr b) 1 Rf) as [D1 D2]; try lra. set (d := rnd (v / b_vr b)) in *.
  set (k43 := dlit (43 # 100)). assert (K: 42999 # 100000 <= k43 /\ k43 <= 43001 # 100000) by (split; vm_compute; discriminate). clearbody k43.
  destruct (rel_abs _ (d - k43) 1 Rg) as [E1 E2]; try lra. set (u1 := rg (d - k43)) in *.
  destruct (rel_abs _ u1 1 Rf) as [E3 E4]; try lra. set (u := rnd u1) in *.
  assert (U: Qabs u <= 4302 # 10000) by (apply abs_le; lra). pose proof (Qabs_nonneg u) as UN.
  destruct (rel_abs _ ((1 # 2) - Qabs u) 1 Rg) as [F1 F2]; try lra. set (us := rg ((1 # 2) - Qabs u)) in *.
  rewrite fdiv_ok by lra. cbn [bind]. set (a := b_a b) in *. set (bb := b_b b) in *. set (c := b_c b) in *.
  assert (AP: 7 # 100 <= a) by lra.
  destruct (rel_pos _ (2 * a) Rf ltac:(lra)) as [G1 G2]. set (a2 := rnd (2 * a)) in *.
  assert (W0: 0 <= a2 / us) by (apply Qle_shift_div_l; lra).
  assert (W1: a2 / us <= (2866 # 100) * a).
  { apply Qle_shift_div_r; [lra|]. destruct (mul_b (6979 # 100000) us 1 a) as [M1 _]; lra. }
  destruct (rel_abs _ (a2 / us) ((2866 # 100) * a) Rg) as [W2 W3]; try lra. pose proof (rnd_nonneg g md _ W0) as W4. set (w := rg (a2 / us)) in *.
  destruct (rel_pos _ (w + bb) Rg ltac:(lra)) as [Z1 Z2]. set (z1 := rg (w + bb)) in *.
  apply abs_le_inv in U. 
  assert (Y1: z1 * u <= (4302 # 10000) * z1). { rewrite (Qmult_comm z1). apply Qmult_le_compat_r; lra. }
  assert (Y2: - (4302 # 10000) * z1 <= z1 * u). { rewrite (Qmult_comm z1). apply Qmult_le_compat_r; lra. }
  destruct (rel_abs _ (z1 * u) ((4302 # 10000) * z1) Rg) as [Z3 Z4]; try lra. set (z2 := rg (z1 * u)) in *.
  destruct (rel_pos _ (z2 + c) Rg ltac:(lra)) as [Z5 Z6].
  set (z3 := rg (z2 + c)) in *. pose proof (fl_lo z3 0) as L. pose proof (fl_hi z3 t) as H.
  specialize (L ltac:(change (inject_Z 0) with 0; lra)). specialize (H ltac:(lra)).
  exists (Qfloor z3). pose proof (imin_le_0 ti Hti). split; [apply to_int_Z; lia|lia].
Qed.

Lemma hat_ok : forall b u us, (32 <= bits ti)%Z -> sgn ti = true -> (t < imax ti)%Z -> bfacts b -> Qabs u <= 1 # 2 -> 0 < us -> us <= 1 # 2 ->
  inject_Z t <= us * inject_Z (imax ti) -> exists k, bn_hat f md ti b u us = Some k.
Proof.
  intros b u us Hti Hs T1 [(s & S0 & S1 & S2 & B1 & B2) A1 A2 C1 C2 _ _ _ _ _ _ _ _] HU US0 US1 HT. unfold bn_hat. pose proof t_2N as TN.
  rewrite fdiv_ok by lra. cbn [bind]. set (a := b_a b) in *. set (bb := b_b b) in *. set (c := b_c b) in *.
  assert (AP: 7 # 100 <= a) by lra.
  destruct (rel_pos _ (2 * a) Rf ltac:(lra)) as [G1 G2]. set (a2 := rnd (2 * a)) in *.
  pose proof (Qinv_lt_0_compat us US0) as I0. set (i := / us) in *. assert (IE: i * us == 1) by (unfold i; field; lra).
  assert (I2: 2 <= i). { assert (i * us <= i * (1 # 2)); [|lra]. rewrite !(Qmult_comm i). apply Qmult_le_compat_r; lra. }
  assert (NI: 2 * N <= i * N) by (apply Qmult_le_compat_r; lra).
  assert (AN: a <= (224 # 10000) * N) by lra. assert (AI: a * i <= (224 # 10000) * N * i) by (apply Qmult_le_compat_r; lra).
  assert (AI0: 2 * a <= i * a) by (apply Qmult_le_compat_r; lra).
  assert (W0: a2 / us <= (1 + eta) * (2 * a) * i) by (apply Qmult_le_compat_r; lra).
  assert (W1: 0 <= a2 / us) by (apply Qmult_le_0_compat; [lra|unfold i in *; lra]).
  destruct (rel_abs _ (a2 / us) ((3 # 1) * (a * i)) Rf) as [W2 W3]; try lra. pose proof (rnd_nonneg f md _ W1) as W4. set (w := rnd (a2 / us)) in *.
  destruct (rel_pos _ (w + bb) Rf ltac:(lra)) as [Z1 Z2]. set (z1 := rnd (w + bb)) in *.
  apply abs_le_inv in HU.
  assert (Y1: z1 * u <= (1 # 2) * z1). { rewrite (Qmult_comm z1). apply Qmult_le_compat_r; lra. }
  assert (Y2: - (1 # 2) * z1 <= z1 * u). { rewrite (Qmult_comm z1). apply Qmult_le_compat_r; lra. }
  destruct (rel_abs _ (z1 * u) ((1 # 2) * z1) Rf) as [Z3 Z4]; try lra. set (z2 := rnd (z1 * u)) in *.
  destruct (rel_abs _ (z2 + c) (z1 + c) Rf) as [Z5 Z6]; try lra. set (z3 := rnd (z2 + c)) in *.
  assert (TI: inject_Z t * i <= us * inject_Z (imax ti) * i) by (apply Qmult_le_compat_r; lra).
  assert (TE: us * inject_Z (imax ti) * i == inject_Z (imax ti)) by (unfold i; field; lra).
  assert (NT: 2 * N * i <= inject_Z t * i) by (apply Qmult_le_compat_r; lra).
  assert (H1: z3 <= inject_Z (imax ti)) by lra. assert (H2: inject_Z (- imax ti) <= z3) by (rewrite inject_Z_opp; lra).
  pose proof (fl_lo _ _ H2). pose proof (fl_hi _ _ H1). exists (Qfloor z3). apply to_int_Z.
  assert (imin ti = - imax ti - 1)%Z by (unfold imin, imax; rewrite Hs; lia). lia.
Qed.
End C.
