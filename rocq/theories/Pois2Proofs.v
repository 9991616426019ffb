(* poisson_distribution by rejection (PTRD): constants, range of the results, and
   where the behaviour can be undefined. *)
From Coq Require Import Lqa.
From Verif Require Import Base ProgModel ProgSpec ProgProofs UIntModel UIntSpec FloatModel FloatSpec FloatProofs RealModel UniProofs Disc4Proofs RDiscProofs RDisc5Proofs BinModel BinSpec BinProofs Bin2Proofs Bin3Proofs Bin4Proofs Bin6Proofs Bin7Proofs PoisModel.
Ltac Zify.zify_post_hook ::= idtac.
Open Scope Q_scope.

Section C.
Variables (f g : fmt) (md : rmode) (ti : ity) (sq lg : Q -> Q) (M : Q).
Hypothesis Hf : fmt_ok f.
Hypothesis Hg : fmt_ok g.
Hypothesis Hw : fmt_wide f.
Hypothesis Pf : (20 <= prec f)%Z.
Hypothesis Pg : (prec f <= prec g)%Z.
Hypothesis Eg : (emin g <= emin f)%Z.
Hypothesis Hti : (32 <= bits ti)%Z.
Hypothesis M0 : 10 <= M.
Hypothesis M1 : 2 * M <= inject_Z (imax ti).
Hypothesis Hsq : sqrt_ok sq.
Local Notation rnd := (fround f md).
Local Notation rg := (fround g md).
Local Notation P := (prec f).

Record pfacts (p : ptrd) : Prop := {
  pf_s : exists s, 316 # 100 <= s /\ s <= (317 # 1000) * M /\ (930 # 1000) + (2529 # 1000) * s <= pt_b p /\ pt_b p <= (932 # 1000) + (2531 # 1000) * s;
  pf_a1 : (2482 # 100000) * pt_b p - (592 # 10000) <= pt_a p;
  pf_a2 : pt_a p <= (2484 # 100000) * pt_b p - (588 # 10000);
  pf_v1 : 40 # 100 <= pt_vr p;
  pf_v2 : pt_vr p <= 9278 # 10000;
  pf_i : 1 <= pt_ia p;
  pf_m : pt_smu p = sq M }.

Let RF : rel rnd := Rf f md Hf Hw Pf.
Let RG : rel rg := Rg f g md Hg Hw Pf Pg Eg.

Lemma ptrd_facts : exists p, po_ptrd f g md sq M = Some p /\ pfacts p.
Proof.
  unfold po_ptrd. destruct (Hsq M ltac:(lra)) as [S0 S1]. set (s := sq M) in *. apply abs_le_inv in S1.
  assert (S2: s <= (317 # 1000) * M).
  { apply sq_le; try lra. assert (10 * M <= M * M) by (apply Qmult_le_compat_r; lra). lra. }
  assert (S3: 316 # 100 <= s). { apply sq_le; lra. }
  set (k253 := dlit (253 # 100)) in *. set (k931 := dlit (931 # 1000)) in *. set (k0248 := dlit (2483 # 100000)) in *.
  set (k059 := dlit (- (59 # 1000))) in *. set (k34 := dlit (34 # 10)) in *. set (k11 := dlit (11328 # 10000)) in *.
  set (k36 := dlit (36224 # 10000)) in *. set (k92 := dlit (9277 # 10000)) in *. set (k112 := dlit (11239 # 10000)) in *.
  assert (C1: 25299 # 10000 <= k253 /\ k253 <= 25301 # 10000) by (split; vm_compute; discriminate).
  assert (C2: 9309 # 10000 <= k931 /\ k931 <= 9311 # 10000) by (split; vm_compute; discriminate).
  assert (C3: 24829 # 1000000 <= k0248 /\ k0248 <= 24831 # 1000000) by (split; vm_compute; discriminate).
  assert (C4: - (59001 # 1000000) <= k059 /\ k059 <= - (58999 # 1000000)) by (split; vm_compute; discriminate).
  assert (C5: 3399 # 1000 <= k34 /\ k34 <= 3401 # 1000) by (split; vm_compute; discriminate).
  assert (C6: 0 <= k11 /\ k11 <= 1133 # 1000) by (split; vm_compute; discriminate).
  assert (C7: 0 <= k36 /\ k36 <= 36225 # 10000) by (split; vm_compute; discriminate).
  assert (C8: 92769 # 100000 <= k92 /\ k92 <= 92771 # 100000) by (split; vm_compute; discriminate).
  assert (C9: 11238 # 10000 <= k112 /\ k112 <= 11240 # 10000) by (split; vm_compute; discriminate).
  clearbody k253 k931 k0248 k059 k34 k11 k36 k92 k112.
  destruct (mul_b (25299 # 10000) k253 (25301 # 10000) s) as [B1 B2]; try lra.
  destruct (rel_pos _ (k253 * s) RG ltac:(lra)) as [B3 B4]. set (b1 := rg (k253 * s)) in *.
  destruct (rel_pos _ (k931 + b1) RG ltac:(lra)) as [B5 B6]. set (b2 := rg (k931 + b1)) in *.
  destruct (rel_pos _ b2 RF ltac:(lra)) as [B7 B8]. set (b := rnd b2) in *.
  assert (BB1: (930 # 1000) + (2529 # 1000) * s <= b) by lra. assert (BB2: b <= (932 # 1000) + (2531 # 1000) * s) by lra.
  destruct (rel_pos _ (b - k34) RG ltac:(lra)) as [D1 D2]. set (d1 := rg (b - k34)) in *.
  destruct (rel_pos _ (b - 2) RF ltac:(lra)) as [D3 D4]. set (d2 := rnd (b - 2)) in *.
  rewrite !fdiv_ok by lra. cbn [bind]. eexists. split; [reflexivity|].
  destruct (mul_b (24829 # 1000000) k0248 (24831 # 1000000) b) as [A1 A2]; try lra.
  destruct (rel_pos _ (k0248 * b) RG ltac:(lra)) as [A3 A4]. set (a1 := rg (k0248 * b)) in *.
  destruct (rel_pos _ (k059 + a1) RG ltac:(lra)) as [A5 A6]. set (a2 := rg (k059 + a1)) in *.
  destruct (rel_pos _ a2 RF ltac:(lra)) as [A7 A8].
  assert (V0: 0 <= k36 / d2) by (apply Qle_shift_div_l; lra). assert (V1: k36 / d2 <= 525 # 1000) by (apply Qle_shift_div_r; lra).
  destruct (rel_abs _ (k36 / d2) 1 RG) as [V2 V3]; try lra. pose proof (rnd_nonneg g md _ V0) as V8. set (v1 := rg (k36 / d2)) in *.
  destruct (rel_abs _ (k92 - v1) 1 RG) as [V4 V5]; try lra. set (v2 := rg (k92 - v1)) in *.
  destruct (rel_abs _ v2 1 RF) as [V6 V7]; try lra.
  assert (I0: 0 <= rg (k11 / d1)) by (apply rnd_nonneg; apply Qle_shift_div_l; lra). set (i1 := rg (k11 / d1)) in *.
  destruct (rel_pos _ (k112 + i1) RG ltac:(lra)) as [I1 I2]. set (i2 := rg (k112 + i1)) in *.
  destruct (rel_pos _ i2 RF ltac:(lra)) as [I3 I4].
  constructor; cbn [pt_b pt_a pt_vr pt_ia pt_smu]; try lra; try reflexivity.
  exists s. repeat split; lra.
Qed.

Variable p : ptrd.
Hypothesis Hp : pfacts p.

Lemma pquick_ok : forall v, 0 <= v -> v <= rg (dlit (86 # 100) * pt_vr p) ->
  exists k, po_quick f g md ti p M v = Some k /\ (0 <= k)%Z /\ inject_Z k <= 2 * M.
Proof.
  intros v Hv0 Hv1. destruct Hp as [(s & S0 & S1 & B1 & B2) A1 A2 V1 V2 _ _]. unfold po_quick.
  set (k86 := dlit (86 # 100)) in *. assert (K8: 0 <= k86 /\ k86 <= 86001 # 100000) by (split; vm_compute; discriminate). clearbody k86.
  destruct (mul_b 0 k86 (86001 # 100000) (pt_vr p)) as [Q1 Q2]; try lra.
  destruct (rel_abs _ (k86 * pt_vr p) (pt_vr p) RG) as [Q3 Q4]; try lra.
  rewrite fdiv_ok by lra. cbn [bind].
  assert (X1: 0 <= v / pt_vr p) by (apply Qle_shift_div_l; lra). assert (X2: v / pt_vr p <= 8601 # 10000) by (apply Qle_shift_div_r; lra).
  destruct (rel_abs _ (v / pt_vr p) 1 RF) as [D1 D2]; try lra. set (d := rnd (v / pt_vr p)) in *.
  set (k43 := dlit (43 # 100)). assert (K: 42999 # 100000 <= k43 /\ k43 <= 43001 # 100000) by (split; vm_compute; discriminate). clearbody k43.
  set (k44 := dlit (445 # 1000)). assert (K4: 444 # 1000 <= k44 /\ k44 <= 446 # 1000) by (split; vm_compute; discriminate). clearbody k44.
  destruct (rel_abs _ (d - k43) 1 RG) as [E1 E2]; try lra. set (u1 := rg (d - k43)) in *.
  destruct (rel_abs _ u1 1 RF) as [E3 E4]; try lra. set (u := rnd u1) in *.
  assert (U: Qabs u <= 4302 # 10000) by (apply abs_le; lra). pose proof (Qabs_nonneg u) as UN.
  destruct (rel_abs _ ((1 # 2) - Qabs u) 1 RG) as [F1 F2]; try lra. set (us := rg ((1 # 2) - Qabs u)) in *.
  rewrite fdiv_ok by lra. cbn [bind]. set (a := pt_a p) in *. set (bb := pt_b p) in *.
  assert (AP: 7 # 100 <= a) by lra.
  destruct (rel_pos _ (2 * a) RF ltac:(lra)) as [G1 G2]. set (a2 := rnd (2 * a)) in *.
  assert (W0: 0 <= a2 / us) by (apply Qle_shift_div_l; lra).
  assert (W1: a2 / us <= (2866 # 100) * a).
  { apply Qle_shift_div_r; [lra|]. destruct (mul_b (6979 # 100000) us 1 a) as [N1 _]; lra. }
  destruct (rel_abs _ (a2 / us) ((2866 # 100) * a) RG) as [W2 W3]; try lra. pose proof (rnd_nonneg g md _ W0) as W4. set (w := rg (a2 / us)) in *.
  destruct (rel_pos _ (w + bb) RG ltac:(lra)) as [Z1 Z2]. set (z1 := rg (w + bb)) in *.
  apply abs_le_inv in U.
  assert (Y1: z1 * u <= (4302 # 10000) * z1). { rewrite (Qmult_comm z1). apply Qmult_le_compat_r; lra. }
  assert (Y2: - (4302 # 10000) * z1 <= z1 * u). { rewrite (Qmult_comm z1). apply Qmult_le_compat_r; lra. }
  destruct (rel_abs _ (z1 * u) ((4302 # 10000) * z1) RG) as [Z3 Z4]; try lra. set (z2 := rg (z1 * u)) in *.
  destruct (rel_pos _ (z2 + M) RG ltac:(lra)) as [Z5 Z6]. set (z3 := rg (z2 + M)) in *.
  destruct (rel_pos _ (z3 + k44) RG ltac:(lra)) as [Z7 Z8]. set (z4 := rg (z3 + k44)) in *.
  pose proof (fl_lo z4 0 ltac:(change (inject_Z 0) with 0; lra)) as L.
  pose proof (fl_hi z4 (imax ti) ltac:(lra)) as H.
  exists (Qfloor z4). pose proof (imin_le_0 ti Hti). split; [apply to_int_Z; lia|]. split; [exact L|]. pose proof (Qfloor_le z4). lra.
Qed.

Lemma phat_ok : forall u w, Qabs u <= 1 # 2 -> 0 < w -> w <= 1 # 2 -> exists k, po_hat f g md p M u w = Some k /\
  (2 * M <= w * inject_Z (imax ti) -> (k <= imax ti)%Z).
Proof.
  intros u w HU US0 US1. destruct Hp as [(s & S0 & S1 & B1 & B2) A1 A2 _ _ _ _]. unfold po_hat.
  rewrite fdiv_ok by lra. cbn [bind]. eexists. split; [reflexivity|]. intro HT. set (a := pt_a p) in *. set (bb := pt_b p) in *.
  assert (AP: 7 # 100 <= a) by lra.
  destruct (rel_pos _ (2 * a) RF ltac:(lra)) as [G1 G2]. set (a2 := rnd (2 * a)) in *.
  pose proof (Qinv_lt_0_compat w US0) as I0. set (i := / w) in *. assert (IE: i * w == 1) by (unfold i; field; lra).
  assert (I2: 2 <= i). { assert (i * w <= i * (1 # 2)); [|lra]. rewrite !(Qmult_comm i). apply Qmult_le_compat_r; lra. }
  assert (NI: 2 * M <= i * M) by (apply Qmult_le_compat_r; lra).
  assert (AN: a <= (20 # 1000) * M) by lra. assert (AI: a * i <= (20 # 1000) * M * i) by (apply Qmult_le_compat_r; lra).
  assert (AI0: 2 * a <= i * a) by (apply Qmult_le_compat_r; lra).
  assert (W0: a2 / w <= (1 + (1 # 262144)) * (2 * a) * i) by (apply Qmult_le_compat_r; lra).
  assert (W1: 0 <= a2 / w) by (apply Qmult_le_0_compat; [lra|unfold i in *; lra]).
  destruct (rel_abs _ (a2 / w) ((3 # 1) * (a * i)) RF) as [W2 W3]; try lra. pose proof (rnd_nonneg f md _ W1) as W4. set (w1 := rnd (a2 / w)) in *.
  destruct (rel_pos _ (w1 + bb) RF ltac:(lra)) as [Z1 Z2]. set (z1 := rnd (w1 + bb)) in *.
  apply abs_le_inv in HU.
  assert (Y1: z1 * u <= (1 # 2) * z1). { rewrite (Qmult_comm z1). apply Qmult_le_compat_r; lra. }
  assert (Y2: - (1 # 2) * z1 <= z1 * u). { rewrite (Qmult_comm z1). apply Qmult_le_compat_r; lra. }
  destruct (rel_abs _ (z1 * u) ((1 # 2) * z1) RF) as [Z3 Z4]; try lra. set (z2 := rnd (z1 * u)) in *.
  destruct (rel_abs _ (z2 + M) (z1 + M) RF) as [Z5 Z6]; try lra. set (z3 := rnd (z2 + M)) in *.
  set (k44 := dlit (445 # 1000)). assert (K4: 444 # 1000 <= k44 /\ k44 <= 446 # 1000) by (split; vm_compute; discriminate). clearbody k44.
  destruct (rel_abs _ (z3 + k44) (z1 + 2 * M) RG) as [Z7 Z8]; try lra. set (z4 := rg (z3 + k44)) in *.
  set (y := inject_Z (Qfloor z4)). assert (Y: y <= z4) by apply Qfloor_le.
  assert (TI: 2 * M * i <= w * inject_Z (imax ti) * i) by (apply Qmult_le_compat_r; lra).
  assert (TE: w * inject_Z (imax ti) * i == inject_Z (imax ti)) by (unfold i; field; lra).
  destruct (Qlt_le_dec y 1) as [L|L].
  - assert (rnd y <= 1) by (apply repr_rnd_le; [exact Hf|apply repr_1; exact Hf|lra]). apply fl_hi. lra.
  - destruct (rel_pos _ y RF ltac:(lra)) as [Z9 Z10]. apply fl_hi. lra.
Qed.

Lemma ppick_ok : forall u01 v ds bmin bmax, valid_draws bmin bmax ds ->
  (exec u01 ds = OMore \/ exists w rest, exec u01 ds = ORet w rest /\ 0 <= w /\ w < 1) -> 0 <= v ->
  exec (po_pick f g md u01 p v) ds = OMore \/
  exists u v' rest, exec (po_pick f g md u01 p v) ds = ORet (u, v') rest /\ valid_draws bmin bmax rest /\ (length rest <= length ds)%nat /\
    representable f u /\ Qabs u <= 1 # 2 /\ 0 <= v'.
Proof.
  intros u01 v ds bmin bmax Hv HU V0. unfold po_pick.
  destruct Hp as [_ _ _ B1 B2 _ _].
  pose proof (both_le f g md Hf Hg Pf Pg Eg) as BL. pose proof (both_ge f g md Hf Hg Pf Pg Eg) as BG. pose proof (rf_half f Hf Hw Pf) as RH.
  destruct (Qle_bool (pt_vr p) v) eqn:EV.
  - rewrite exec_bind_eq. destruct HU as [E|(w & rest & E & W0 & W1)]; rewrite E; [left; reflexivity|right].
    destruct (exec_suffix _ _ _ _ _ _ _ E Hv) as [X1 X2].
    exists (rnd (rg (w - (1 # 2)))), v, rest. split; [reflexivity|]. split; [exact X1|]. split; [exact X2|]. split; [apply rnd_repr; exact Hf|]. split; [|exact V0].
    apply abs_le.
    + apply BG; [apply repr_opp; exact RH|lra].
    + apply BL; [exact RH|lra].
  - assert (VL: v < pt_vr p). { apply Qnot_le_lt. intro Z. apply Qle_bool_iff in Z. congruence. }
    rewrite fdiv_ok by lra. rewrite plift_some. cbn [pbind].
    assert (X1: 0 <= v / pt_vr p) by (apply Qle_shift_div_l; lra). assert (X2: v / pt_vr p <= 1) by (apply Qle_shift_div_r; lra).
    assert (D0: 0 <= rnd (v / pt_vr p)) by (apply rnd_nonneg; lra). assert (D1: rnd (v / pt_vr p) <= 1) by (apply repr_rnd_le; [exact Hf|apply repr_1; exact Hf|lra]).
    set (d := rnd (v / pt_vr p)) in *. set (k93 := dlit (93 # 100)). assert (K: 92999 # 100000 <= k93 /\ k93 <= 93001 # 100000) by (split; vm_compute; discriminate). clearbody k93.
    assert (U1: rnd (rg (d - k93)) <= 1 # 2) by (apply BL; [exact RH|lra]).
    assert (U2: - (1) <= rnd (rg (d - k93))) by (apply BG; [apply repr_opp; apply repr_1; exact Hf|lra]).
    set (u1 := rnd (rg (d - k93))) in *. set (u := rnd (rg ((if qlt u1 0 then - (1 # 2) else 1 # 2) - u1))).
    assert (UB: Qabs u <= 1 # 2).
    { unfold u. pose proof (qlt_spec u1 0) as QS. destruct (qlt u1 0).
      - apply abs_le; [apply BG; [apply repr_opp; exact RH|lra]|apply BL; [exact RH|lra]].
      - apply abs_le; [apply BG; [apply repr_opp; exact RH|lra]|apply BL; [exact RH|lra]]. }
    rewrite exec_bind_eq. destruct HU as [E|(w & rest & E & W0 & W1)]; rewrite E; [left; reflexivity|right].
    destruct (exec_suffix _ _ _ _ _ _ _ E Hv) as [Y1 Y2].
    exists u, (rnd (w * pt_vr p)), rest. split; [reflexivity|]. split; [exact Y1|]. split; [exact Y2|]. split; [apply rnd_repr; exact Hf|]. split; [exact UB|].
    apply rnd_nonneg. apply Qmult_le_0_compat; lra.
Qed.

Lemma pscale_ok : forall v w, 0 <= v -> p2 (- P - 1) <= w -> exists y, po_scale f md p v w = Some y /\ 0 <= y.
Proof.
  intros v w V0 W0. pose proof (p2_pos (- P - 1)) as X0. unfold po_scale.
  destruct Hp as [(s & S0 & S1 & B1 & B2) A1 A2 _ _ AL _].
  assert (Q1: p2 (- P - 1 + (- P - 1)) <= rnd (w * w)).
  { apply repr_rnd_ge; [exact Hf|apply repr_p2; [exact Hf|destruct Hw; lia]|]. rewrite p2_add.
    assert (p2 (- P - 1) * p2 (- P - 1) <= w * p2 (- P - 1)) by (apply Qmult_le_compat_r; lra).
    assert (w * p2 (- P - 1) <= w * w) by (rewrite !(Qmult_comm w); apply Qmult_le_compat_r; lra). lra. }
  pose proof (p2_pos (- P - 1 + (- P - 1))) as X1.
  rewrite fdiv_ok by lra. cbn [bind].
  assert (W1: 0 <= rnd (pt_a p / rnd (w * w))) by (apply rnd_nonneg; apply Qle_shift_div_l; lra).
  set (a1 := rnd (pt_a p / rnd (w * w))) in *. assert (1 <= rnd (a1 + pt_b p)) by (apply repr_rnd_ge; [exact Hf|apply repr_1; exact Hf|lra]).
  rewrite fdiv_ok by lra. eexists. split; [reflexivity|].
  apply rnd_nonneg. apply Qle_shift_div_l; [lra|]. rewrite Qmult_0_l.
  apply rnd_nonneg. apply Qmult_le_0_compat; lra.
Qed.

Lemma accept_total : forall v k, (10 <= k)%Z -> exists o, po_accept_big f g md lg M (pt_smu p) v (inject_Z k) = Some o.
Proof.
  intros v k Hk. unfold po_accept_big. assert (K: 10 <= inject_Z k) by (apply (injZ_le 10 k); exact Hk). set (x := inject_Z k) in *.
  assert (R1f: representable f 1) by (apply repr_1; exact Hf). assert (R1g: representable g 1) by (apply repr_1; exact Hg).
  assert (KK: 10 * x <= x * x) by (apply Qmult_le_compat_r; lra).
  assert (A: 1 <= rnd (x * x)) by (apply repr_rnd_ge; [exact Hf|exact R1f|lra]).
  assert (B: 1 <= rg (1260 * x)) by (apply repr_rnd_ge; [exact Hg|exact R1g|lra]).
  assert (C: 1 * x <= rg (1260 * x) * x) by (apply Qmult_le_compat_r; lra).
  assert (D: 1 <= rg (rg (1260 * x) * x)) by (apply repr_rnd_ge; [exact Hg|exact R1g|lra]).
  rewrite !fdiv_ok by lra. cbn [bind]. rewrite !fdiv_ok by lra. cbn [bind]. rewrite !fdiv_ok by lra. cbn [bind]. eexists. reflexivity.
Qed.
Lemma small_total : forall v k, (0 <= k)%Z -> (k < 10)%Z -> exists o, po_accept_small f md ti lg M v k = Some o.
Proof.
  intros v k H0 H1. unfold po_accept_small. pose proof (imin_le_0 ti Hti).
  assert (10 <= imax ti)%Z. { rewrite Zle_Qle. change (inject_Z 10) with 10. lra. }
  rewrite to_int_Z by lia. cbn [bind]. unfold po_logfact. destruct (Z.leb_spec 0 k); [|lia].
  destruct (nth_error po_table (Z.to_nat k)) eqn:E; [cbn [option_map bind]; eexists; reflexivity|].
  apply nth_error_None in E. change (length po_table) with 10%nat in E. lia.
Qed.

Definition overflows (u : Q) : Prop :=
  Qabs u <= 1 # 2 /\ let w := us f g md u in 0 < w /\ w * inject_Z (imax ti) < 2 * M /\ exists k, po_hat f g md p M u w = Some k /\ (imax ti < k)%Z.

Lemma ptry_ok : forall u01 ds bmin bmax F, valid_draws bmin bmax ds -> (length ds < F)%nat ->
  (forall ds', valid_draws bmin bmax ds' -> (length ds' < F)%nat -> exec u01 ds' = OMore \/ exists w rest, exec u01 ds' = ORet w rest /\ 0 <= w /\ w < 1) ->
  match exec (po_try f g md ti lg u01 p M) ds with
  | OMore => True
  | ORet None rest => valid_draws bmin bmax rest /\ (length rest <= length ds)%nat
  | ORet (Some k) _ => (0 <= k <= imax ti)%Z
  | OUB => exists u, overflows u
  | OFuel => False
  end.
Proof.
  intros u01 ds bmin bmax F Hv HF HU. unfold po_try. rewrite exec_bind_eq.
  destruct (HU ds Hv HF) as [E|(v & rest & E & V0 & V1)]; rewrite E; [exact I|].
  destruct (exec_suffix _ _ _ _ _ _ _ E Hv) as [X1 X2].
  destruct (Qle_bool v (rg (dlit (86 # 100) * pt_vr p))) eqn:EV.
  - apply Qle_bool_iff in EV. destruct (pquick_ok v V0 EV) as (k & -> & HK & HK2). rewrite plift_some. cbn [pbind exec].
    split; [exact HK|]. rewrite Zle_Qle. lra.
  - rewrite exec_bind_eq. destruct (ppick_ok u01 v rest bmin bmax X1 (HU rest X1 ltac:(lia)) V0) as [E2|(u & v' & rest2 & E2 & Y1 & Y2 & RU & U1 & V2)]; rewrite E2; [exact I|].
    change (rnd (rg ((1 # 2) - Qabs u))) with (us f g md u). cbv zeta. destruct (us_ok f g md Hf Hg Hw Pf Pg Eg u RU U1) as [S1 S2].
    destruct (_ && _); [cbn [exec]; split; [exact Y1|lia]|].
    destruct (Qeq_bool (us f g md u) 0) eqn:E0; [cbn [exec]; split; [exact Y1|lia]|].
    destruct S2 as [S2|S2]; [apply Qeq_eq_bool in S2; congruence|]. pose proof (p2_pos (- P - 1)) as W0.
    destruct (phat_ok u (us f g md u) U1 ltac:(lra) S1) as (k & EK & HK). rewrite EK, plift_some. cbn [pbind].
    destruct (pscale_ok v' (us f g md u) V2 S2) as (y & -> & _). rewrite plift_some. cbn [pbind].
    assert (ACC: exists o, (if (10 <=? k)%Z then po_accept_big f g md lg M (pt_smu p) y (inject_Z k)
                   else if (0 <=? k)%Z then po_accept_small f md ti lg M y k else Some false) = Some o /\ (o = true -> (0 <= k)%Z)).
    { destruct (Z.leb_spec 10 k) as [L|L]; [destruct (accept_total y k L) as [o ->]; exists o; split; [reflexivity|lia]|].
      destruct (Z.leb_spec 0 k) as [L2|L2]; [destruct (small_total y k L2 L) as [o ->]; exists o; split; [reflexivity|lia]|].
      exists false. split; [reflexivity|discriminate]. }
    destruct ACC as (o & -> & HO). rewrite plift_some. cbn [pbind]. destruct o; [|cbn [exec]; split; [exact Y1|lia]].
    specialize (HO eq_refl). pose proof (imin_le_0 ti Hti) as I0. destruct (Z_le_gt_dec k (imax ti)) as [L|L].
    + rewrite to_int_Z by lia. rewrite plift_some. cbn [pbind exec]. lia.
    + assert (EN: to_int ti (inject_Z k) = None).
      { unfold to_int. rewrite qtrunc_Z. destruct (Z.leb_spec k (imax ti)); [lia|]. rewrite andb_false_r. reflexivity. }
      rewrite EN. cbn [plift pbind exec]. exists u. split; [exact U1|]. split; [lra|]. split.
      * destruct (Qlt_le_dec (us f g md u * inject_Z (imax ti)) (2 * M)) as [L2|L2]; [exact L2|]. specialize (HK L2). lia.
      * exists k. split; [exact EK|lia].
Qed.
End C.

Lemma ptrd_op : forall f g md ti ex sq lg mean tb bmin bmax F ds,
  fmt_ok f -> fmt_ok g -> fmt_wide f -> (20 <= prec f)%Z -> (prec f <= prec g)%Z -> (emin g <= emin f)%Z -> sqrt_ok sq -> (32 <= bits ti)%Z ->
  eng_wf tb bmin bmax -> (bmax - bmin <= imax tb)%Z -> 10 <= mean -> 2 * mean <= inject_Z (imax ti) -> valid_draws bmin bmax ds -> (length ds < F)%nat ->
  exists p, po_init f g md ex sq mean = Some (Pois mean (UPtrd p)) /\
  match exec (po_op f g md ti lg F (uniform_01 f md F tb bmin bmax) (Pois mean (UPtrd p))) ds with
  | ORet k _ => (0 <= k <= imax ti)%Z
  | OUB => exists u, overflows f g md ti mean p u
  | _ => True
  end.
Proof.
  intros f g md ti ex sq lg mean tb bmin bmax F ds Hf Hg Hw Pf Pg Eg Hsq Hti He HR M0 M1 Hv HF.
  destruct (ptrd_facts f g md sq mean Hf Hg Hw Pf Pg Eg M0 Hsq) as (p & EP & FP). exists p. split.
  - unfold po_init, po_inversion. pose proof (qlt_spec mean 10) as QS. destruct (qlt mean 10); [lra|]. rewrite EP. reflexivity.
  - unfold po_op. cbn [po_u po_mean]. unfold po_generate. apply (retry_cases _ bmin bmax F F ds _ (fun k => (0 <= k <= imax ti)%Z) Hv HF). intros ds' Hv' HF'.
    apply (ptry_ok f g md ti sq lg mean Hf Hg Hw Pf Pg Eg Hti M0 M1 p FP _ ds' bmin bmax F Hv' HF').
    intros ds2 V2 L2. apply u01_run; assumption.
Qed.
