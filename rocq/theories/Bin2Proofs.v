(* The inversion loop of binomial_distribution: range and accuracy. *)
From Coq Require Import Lqa.
From Verif Require Import Base ProgModel ProgSpec ProgProofs UIntModel FloatModel FloatSpec FloatProofs RealModel UniProofs RDiscProofs RDisc5Proofs Piece2Proofs BinModel BinSpec BinProofs.
Ltac Zify.zify_post_hook ::= idtac.
Open Scope Q_scope.

Lemma norm_in : forall t z, (imin t <= z <= imax t)%Z -> (32 <= bits t)%Z -> norm t z = Some z.
Proof.
  intros t z H Hb. unfold norm. destruct (sgn t) eqn:E.
  - destruct (Z.leb_spec (imin t) z); [|lia]. destruct (Z.leb_spec z (imax t)); [reflexivity|lia].
  - unfold imin, imax in H. rewrite E in H. rewrite Z.mod_small by lia. reflexivity.
Qed.
Lemma addT_in : forall t x y, (imin t <= x + y <= imax t)%Z -> (32 <= bits t)%Z -> addT t x y = Some (x + y)%Z.
Proof. intros. apply norm_in; assumption. Qed.
Lemma imin_le_0 : forall t, (32 <= bits t)%Z -> (imin t <= 0)%Z.
Proof. intros t H. unfold imin. destruct (sgn t); [|lia]. pose proof (Z.pow_nonneg 2 (bits t - 1)). lia. Qed.
Lemma imin_neg : forall t, (32 <= bits t)%Z -> sgn t = true -> (imin t <= -1)%Z.
Proof. intros t H E. unfold imin. rewrite E. pose proof (Z.pow_pos_nonneg 2 (bits t - 1) ltac:(lia) ltac:(lia)). lia. Qed.

Section L.
Variable f : fmt.
Hypothesis Hf : fmt_ok f.
Hypothesis Hw : fmt_wide f.
Local Notation rnd := (fround f RNE).
Local Notation P := (prec f).
Local Notation e := (p2 (1 - P)).
Local Notation nu := (p2 (emin f + P)).

Lemma injZ_rnd : forall md z, (Z.abs z <= 2 ^ P)%Z -> fround f md (inject_Z z) == inject_Z z.
Proof using Hf. intros md z H. apply rnd_fix; [exact Hf|]. apply repr_Z; assumption. Qed.

Lemma e_small : 0 < e /\ e <= 1 # 8.
Proof using Hw. split; [apply p2_pos|]. change (1 # 8) with (p2 (-3)). apply p2_le. destruct Hw. lia. Qed.
Lemma nu_half : nu == 2 * p2 (emin f + P - 1).
Proof using. replace (emin f + P)%Z with (1 + (emin f + P - 1))%Z at 1 by lia. rewrite p2_add. change (p2 1) with 2. reflexivity. Qed.
Lemma nu_e : nu <= e.
Proof using Hw. apply p2_le. destruct Hw. lia. Qed.
Lemma repr_e : representable f e.
Proof using Hf Hw. apply repr_p2; [exact Hf|]. destruct Hw. lia. Qed.

Lemma repr_lt_1 : forall r, representable f r -> r < 1 -> r <= 1 - p2 (- P).
Proof using Hf.
  intros r (m & k & Hk & Hm & E) H. destruct Hf as [HP HE].
  assert (PP: p2 (- P) <= 1 # 2). { change (1 # 2) with (p2 (-1)). apply p2_le. lia. }
  destruct (Z_lt_le_dec k (- P)) as [L|L].
  - assert (r <= 1 # 2); [|lra]. rewrite E. apply Qle_trans with (inject_Z (2 ^ P) * p2 k).
    + apply Qmult_le_compat_r; [apply injZ_le; lia|apply Qlt_le_weak, p2_pos].
    + rewrite <- p2_Z by lia. rewrite <- p2_add. change (1 # 2) with (p2 (-1)). apply p2_le. lia.
  - assert (X: r == inject_Z (m * 2 ^ (k + P)) * p2 (- P)).
    { rewrite inject_Z_mult, <- p2_Z by lia. rewrite <- Qmult_assoc, <- p2_add. replace (k + P + - P)%Z with k by lia. exact E. }
    assert (O: 1 == inject_Z (2 ^ P) * p2 (- P)).
    { rewrite <- p2_Z by lia. rewrite <- p2_add. replace (P + - P)%Z with 0%Z by lia. reflexivity. }
    pose proof (p2_pos (- P)) as D0. set (M := (m * 2 ^ (k + P))%Z) in *.
    assert (LT: (M < 2 ^ P)%Z).
    { rewrite Zlt_Qlt. apply (Qmult_lt_r _ _ (p2 (- P)) D0). lra. }
    assert (M <= 2 ^ P - 1)%Z as LE by lia. apply injZ_le in LE. unfold Z.sub in LE. rewrite inject_Z_plus in LE.
    change (inject_Z (-(1))) with (-(1)) in LE. apply (Qmult_le_compat_r _ _ (p2 (- P))) in LE; lra.
Qed.

(* a number of the format and its successor *)
Lemma repr_succ : forall s, representable f s -> 0 <= s -> representable f (s + p2 (fexp f s)).
Proof using Hf.
  intros s Rs H0. pose proof (rnd_fix f RNE Hf s Rs) as E. pose proof (rnd_eq f RNE s) as E2. rewrite E in E2.
  set (X := fexp f s) in *. set (M := mant f RNE s) in *. pose proof (p2_pos X) as X0.
  exists (M + 1)%Z, X. split; [apply fexp_emin|]. split; [|rewrite inject_Z_plus; change (inject_Z 1) with 1; lra].
  pose proof (fexp_upper f s) as U. rewrite Qabs_pos in U by exact H0. fold X in U. rewrite p2_add, E2 in U. destruct Hf as [HP _].
  rewrite (p2_Z P) in U by lia. rewrite Qmult_comm in U. apply Qmult_lt_l in U; [|exact X0]. rewrite <- Zlt_Qlt in U.
  assert (0 <= M)%Z; [|lia]. rewrite Zle_Qle. change (inject_Z 0) with 0. apply Qnot_lt_le. intro C.
  assert (inject_Z M * p2 X < 0 * p2 X) by (apply Qmult_lt_r; assumption). lra.
Qed.

Lemma fexp_le_1 : forall s, 0 <= s -> s <= 1 -> p2 (fexp f s) <= e.
Proof using Hf.
  intros s H0 H1. destruct (Qlt_le_dec 0 s) as [L|L].
  - apply p2_le. pose proof (fexp_mono_pos f s 1 L H1) as M. assert (fexp f 1 = 1 - P)%Z; [|lia].
    unfold fexp. replace (Qeq_bool 1 0) with false by reflexivity. change (qlog2 (Qabs 1)) with 0%Z. destruct Hf. lia.
  - assert (E: fexp f s = emin f). { unfold fexp. destruct (Qeq_bool s 0) eqn:Q; [reflexivity|].
      apply Qeq_bool_neq in Q. exfalso. apply Q. lra. }
    rewrite E. apply p2_le. destruct Hf. lia.
Qed.

(* the test at x = t+1 succeeds *)
Lemma last_break : forall T s r, 1 <= T -> representable f s -> 0 <= s -> s <= 1 ->
  representable f r -> nu <= r -> r < 1 ->
  rnd (rnd (rnd (rnd (T * s) / T) - s) * r) < e /\ rnd (rnd (rnd (rnd (T * s) / T) - s) * r) < r.
Proof using Hf Hw.
  intros T s r HT Rs S0 S1 Rr R0 R1. destruct e_small as [E0 E8]. pose proof nu_e as NE. pose proof nu_half as NH.
  pose proof (p2_pos (emin f + P - 1)) as NP.
  set (X := fexp f s). pose proof (p2_pos X) as X0. pose proof (fexp_le_1 s S0 S1) as XE. fold X in XE.
  assert (TS0: 0 <= T * s) by (apply Qmult_le_0_compat; lra).
  assert (TI: T * / T == 1) by (field; lra). pose proof (Qinv_lt_0_compat T ltac:(lra)) as I0.
  assert (A: rnd (T * s) / T <= s + p2 X).
  { apply Qle_shift_div_r; [lra|]. pose proof (rnd_err_half f (T * s)) as [_ RH].
    assert (HX: p2 (fexp f (T * s)) / 2 <= p2 X * T).
    { set (Y := fexp f (T * s)) in *. pose proof (p2_pos Y) as Y0. assert (YH: p2 Y / 2 + p2 Y / 2 == p2 Y) by field.
      destruct (Z.eq_dec Y (emin f)) as [EY|EY].
      - assert (p2 Y <= p2 X) by (apply p2_le; rewrite EY; apply fexp_emin).
        assert (p2 X * 1 <= p2 X * T). { rewrite !(Qmult_comm (p2 X)). apply Qmult_le_compat_r; lra. } lra.
      - pose proof (fexp_lower f (T * s) EY) as L. rewrite Qabs_pos in L by exact TS0. fold Y in L.
        pose proof (fexp_upper f s) as U. rewrite Qabs_pos in U by exact S0. fold X in U.
        assert (p2 (Y + P - 1) <= T * p2 (X + P)).
        { apply Qle_trans with (T * s); [exact L|]. rewrite !(Qmult_comm T). apply Qmult_le_compat_r; lra. }
        assert (E1: p2 (Y + P - 1) == p2 (P - 1) * p2 Y). { rewrite <- p2_add. replace (P - 1 + Y)%Z with (Y + P - 1)%Z by lia. reflexivity. }
        assert (E2: T * p2 (X + P) == p2 (P - 1) * (2 * (p2 X * T))).
        { replace (X + P)%Z with (P - 1 + (1 + X))%Z by lia. rewrite !p2_add. change (p2 1) with 2. ring. }
        rewrite E1, E2 in H. apply Qmult_le_l in H; [|apply p2_pos]. lra. }
    lra. }
  set (ax := rnd (rnd (T * s) / T)).
  assert (AX: ax <= s + p2 X) by (apply repr_rnd_le; [exact Hf|apply repr_succ; assumption|exact A]).
  set (d := rnd (ax - s)).
  assert (DX: d <= p2 X). { apply repr_rnd_le; [exact Hf|apply repr_p2; [exact Hf|apply fexp_emin]|lra]. }
  pose proof (repr_lt_1 r Rr R1) as R2.
  assert (PE: e == p2 (- P) * 2). { replace (1 - P)%Z with (- P + 1)%Z by lia. rewrite p2_add. change (p2 1) with 2. reflexivity. }
  pose proof (p2_pos (- P)) as PP.
  assert (Y: d * r <= e * r) by (apply Qmult_le_compat_r; lra).
  split.
  - assert (rnd (d * r) <= e * (1 - p2 (- P))).
    { apply repr_rnd_le; [exact Hf| |].
      - exists (2 ^ P - 1)%Z, (1 - P - P)%Z. destruct Hw as [W1 W2]. pose proof (Z.pow_pos_nonneg 2 P ltac:(lia) ltac:(lia)).
        split; [lia|]. split; [lia|]. replace (2 ^ P - 1)%Z with (2 ^ P + -(1))%Z by lia. rewrite inject_Z_plus. change (inject_Z (-(1))) with (-(1)).
        replace (1 - P - P)%Z with (1 - P + - P)%Z by lia. rewrite p2_add.
        assert (O: inject_Z (2 ^ P) * p2 (- P) == 1). { rewrite <- p2_Z by lia. rewrite <- p2_add. replace (P + - P)%Z with 0%Z by lia. reflexivity. }
        assert (Z1: (inject_Z (2 ^ P) + - (1)) * (e * p2 (- P)) == e * (inject_Z (2 ^ P) * p2 (- P)) - e * p2 (- P)) by ring.
        rewrite Z1, O. ring.
      - apply Qle_trans with (e * r); [exact Y|]. rewrite !(Qmult_comm e). apply Qmult_le_compat_r; lra. }
    assert (0 < e * p2 (- P)) by (apply Qmult_lt_0_compat; assumption). lra.
  - assert (ER: e * r <= (1 # 2) * r) by (apply Qmult_le_compat_r; lra).
    apply Qle_lt_trans with (rnd ((1 # 2) * r)); [apply rnd_mono; [exact Hf|lra]|].
    pose proof (near_rnd f RNE Hf ((1 # 2) * r) ltac:(lra)) as (N1 & N2 & N3 & N4).
    assert (N5: (7 # 8) * rnd ((1 # 2) * r) <= (1 - 1 * e) * rnd ((1 # 2) * r)) by (apply Qmult_le_compat_r; lra). lra.
Qed.

(* ---- the loop ends at t+1 at the latest ---- *)
Section R.
Variables (ti : ity) (t : Z) (s : Q).
Hypothesis Hti : (32 <= bits ti)%Z.
Hypothesis T0 : (0 <= t)%Z.
Hypothesis T1 : (t < imax ti)%Z.
Hypothesis TP : (t + 1 <= 2 ^ P)%Z.
Hypothesis Rs : representable f s.
Hypothesis S0 : 0 <= s.
Hypothesis S1 : s <= 1.
Local Notation a := (rnd (rnd (inject_Z (t + 1)) * s)).

Lemma a_eq : a == rnd (inject_Z (t + 1) * s).
Proof using Hf T0 TP. apply rnd_compat; [exact Hf|]. rewrite injZ_rnd by lia. reflexivity. Qed.

(* the value returned by the test at t+1 *)
Lemma last_break_t : forall r, representable f r -> nu <= r -> r < 1 ->
  rnd (rnd (rnd (a / rnd (inject_Z (t + 1))) - s) * r) < e /\
  rnd (rnd (rnd (a / rnd (inject_Z (t + 1))) - s) * r) < r.
Proof using Hf Hw T0 TP Rs S0 S1.
  intros r Rr R0 R1. assert (Q1: 1 <= inject_Z (t + 1)) by (change 1 with (inject_Z 1); apply injZ_le; lia).
  pose proof (last_break (inject_Z (t + 1)) s r Q1 Rs S0 S1 Rr R0 R1) as LB.
  assert (E: rnd (rnd (rnd (a / rnd (inject_Z (t + 1))) - s) * r) ==
             rnd (rnd (rnd (rnd (inject_Z (t + 1) * s) / inject_Z (t + 1)) - s) * r)).
  { apply rnd_compat; [exact Hf|]. apply Qmult_comp; [|reflexivity]. apply rnd_compat; [exact Hf|].
    apply Qplus_comp; [|reflexivity]. apply rnd_compat; [exact Hf|]. rewrite a_eq, injZ_rnd by lia. reflexivity. }
  rewrite E. exact LB.
Qed.

Lemma xdiv_ok : forall x, (1 <= x)%Z -> (x <= t + 1)%Z -> ~ rnd (inject_Z x) == 0.
Proof using Hf TP.
  intros x H1 H2. rewrite injZ_rnd by lia. intro C. change 0 with (inject_Z 0) in C. rewrite inject_Z_injective in C. lia.
Qed.

Lemma loop_range : forall n fuel r u x, (n < fuel)%nat -> Z.of_nat n = (t + 1 - x)%Z -> (0 <= x <= t)%Z ->
  representable f r -> nu <= r -> u <= 1 ->
  exists y, bn_loop f RNE ti fuel s a r u x = PRet y /\ (x <= y <= t + 1)%Z.
Proof using Hf Hw Hti T0 T1 TP Rs S0 S1.
  pose proof nu_e as NE. pose proof (imin_le_0 ti Hti) as I0.
  induction n as [|n IH]; intros fuel r u x HF HN HX Rr R0 U1; [lia|].
  destruct fuel as [|fuel]; [lia|]. cbn [bn_loop]. pose proof (qlt_spec r u) as C. destruct (qlt r u).
  2:{ exists x. split; [reflexivity|lia]. }
  rewrite addT_in, plift_some by lia. cbn [pbind]. rewrite fdiv_ok by (apply xdiv_ok; lia). rewrite plift_some. cbn [pbind].
  set (r1 := rnd (rnd (rnd (a / rnd (inject_Z (x + 1))) - s) * r)).
  pose proof (qlt_spec r1 e) as C1. pose proof (qlt_spec r1 r) as C2.
  destruct (Z.eq_dec x t) as [->|NX].
  - pose proof (last_break_t r Rr R0 ltac:(lra)) as [L1 L2]. fold r1 in L1, L2.
    destruct (qlt r1 e); [|lra]. destruct (qlt r1 r); [|lra]. cbn [andb]. exists (t + 1)%Z. split; [reflexivity|lia].
  - assert (NB: e <= r1 \/ r <= r1 -> exists y, bn_loop f RNE ti fuel s a r1 (rnd (u - r)) (x + 1) = PRet y /\ (x <= y <= t + 1)%Z).
    { intro CC. destruct (IH fuel r1 (rnd (u - r)) (x + 1)%Z) as (y & Y1 & Y2); try lia.
      - apply rnd_repr. exact Hf.
      - destruct CC; lra.
      - apply repr_rnd_le; [exact Hf|apply repr_1; exact Hf|]. pose proof (p2_pos (emin f + P)). lra.
      - exists y. split; [exact Y1|lia]. }
    destruct (qlt r1 e); [destruct (qlt r1 r)|]; cbn [andb].
    + exists (x + 1)%Z. split; [reflexivity|lia].
    + apply NB. right. exact C2.
    + apply NB. left. exact C1.
Qed.
End R.
End L.
