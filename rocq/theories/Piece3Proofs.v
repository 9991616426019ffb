(* piecewise_linear_distribution *)
From Coq Require Import Lqa Qminmax.
From Verif Require Import Base ProgModel ProgSpec ProgProofs UIntModel UIntSpec UIntProofs FloatModel FloatSpec FloatProofs RealModel RealSpec RealProofs UniProofs Uni2Proofs
  DiscModel DiscSpec DiscProofs Disc2Proofs Disc3Proofs Disc4Proofs RDiscModel RDiscSpec RDiscProofs RDisc2Proofs RDisc3Proofs RDisc4Proofs RDisc5Proofs
  PieceModel PieceSpec PieceProofs Piece2Proofs.
Ltac Zify.zify_post_hook ::= idtac.
Open Scope Q_scope.

Section Lin.
Variables (f : fmt) (md : rmode).
Hypothesis Hf : fmt_ok f.
Local Notation P := (prec f).
Local Notation e := (p2 (1 - prec f)).
Local Notation rnd := (fround f md).
Local Notation dl := (p2 (emin f)).

Lemma near_rnd_dl : forall k x y, 0 <= k -> k * e <= 1 # 8 -> near f k x y ->
  0 <= rnd y /\ Qabs (rnd y - x) <= 2 * (k + 1) * e * x + dl.
Proof using Hf.
  intros k x y K0 K8 (X0 & Y0 & Y1 & Y2). destruct (e_pos f Hf) as [E0 EL].
  split; [apply rnd_nonneg; exact Y0|]. pose proof (rnd_err f md y) as [R1 R2]. pose proof (ulp_gen f y Y0) as U.
  set (v := rnd y) in *. set (q := k * e) in *.
  assert (Q0: 0 <= q) by (apply Qmult_le_0_compat; lra).
  (* y <= x (1 + 8/7 q) *)
  assert (YU: y <= x * (8 # 7)). { assert ((7 # 8) * y <= (1 - q) * y) by (apply Qmult_le_compat_r; lra). lra. }
  assert (QY: q * y <= q * (x * (8 # 7))). { rewrite !(Qmult_comm q). apply Qmult_le_compat_r; lra. }
  assert (EY: y * e <= x * (8 # 7) * e) by (apply Qmult_le_compat_r; lra).
  assert (X: 2 * (k + 1) * e * x == 2 * (q * x) + 2 * (e * x)) by (unfold q; ring).
  assert (QX: 0 <= q * x) by (apply Qmult_le_0_compat; lra).
  assert (EX: 0 <= e * x) by (apply Qmult_le_0_compat; lra).
  rewrite X. apply abs_le; lra.
Qed.

Lemma near_zero : forall k y, k * e <= 1 # 8 -> near f k 0 y -> y == 0.
Proof using.
  intros k y K8 (_ & Y0 & _ & Y2). assert ((7 # 8) * y <= (1 - k * e) * y) by (apply Qmult_le_compat_r; lra). lra.
Qed.

Lemma rnd_zero : forall y, y == 0 -> rnd y == 0.
Proof using Hf. intros y H. rewrite (rnd_compat f md Hf _ _ H). apply rnd_fix; [exact Hf|apply repr_0; exact Hf]. Qed.

Hypothesis He : e <= 1 # 16.

(* what a computed bin weight y has to do with the exact one x *)
Definition bw_ok (x y : Q) : Prop :=
  representable f y /\ 0 <= x /\ 0 <= y /\ Qabs (y - x) <= 8 * e * x + 2 * dl /\ (x == 0 -> y == 0).

Lemma fminq_min : forall x y, fminq x y == Qmin x y.
Proof using.
  intros x y. unfold fminq. pose proof (qlt_spec y x) as H. destruct (qlt y x).
  - symmetry. apply Q.min_r. lra.
  - symmetry. apply Q.min_l. exact H.
Qed.

Lemma bin_rect : forall a b w1 w2, representable f a -> representable f b -> a < b -> 0 <= w1 -> 0 <= w2 ->
  bw_ok (Qmin w1 w2 * (b - a)) (rnd (fminq w1 w2 * rnd (b - a))).
Proof using Hf He.
  intros a b w1 w2 Ra Rb Hab W1 W2. destruct (e_pos f Hf) as [E0 EL]. pose proof (p2_pos (emin f)) as D0.
  assert (M0: 0 <= Qmin w1 w2) by (apply Q.min_glb; assumption).
  pose proof (near_diff f md Hf a b Ra Rb ltac:(lra)) as W.
  assert (N: near f 1 (Qmin w1 w2 * (b - a)) (fminq w1 w2 * rnd (b - a))).
  { apply near_compat with ((b - a) * Qmin w1 w2) (rnd (b - a) * Qmin w1 w2); [ring|rewrite fminq_min; ring|]. apply near_mul; assumption. }
  destruct (near_rnd_dl 1 _ _ ltac:(lra) ltac:(lra) N) as [Y0 YE].
  split; [apply rnd_repr; exact Hf|]. split; [apply N|]. split; [exact Y0|]. split.
  - set (x := Qmin w1 w2 * (b - a)) in *. assert (0 <= e * x) by (apply Qmult_le_0_compat; [lra|apply N]). lra.
  - intro Z0. apply rnd_zero. apply (near_zero 1); [lra|]. apply near_compat with (Qmin w1 w2 * (b - a)) (fminq w1 w2 * rnd (b - a)); [exact Z0|reflexivity|exact N].
Qed.

Lemma near_absdiff : forall a b, representable f a -> representable f b -> near f 1 (Qabs (a - b)) (Qabs (rnd (a - b))).
Proof using Hf. clear He.
  intros a b Ra Rb. destruct (e_pos f Hf) as [E0 EL]. pose proof (sum_err f md Hf a (- b) Ra (repr_neg f b Rb)) as S.
  fold (a - b) in S. set (x := a - b) in *. set (y := rnd x) in *. pose proof (Qabs_nonneg x) as X0. pose proof (Qabs_nonneg y) as Y0.
  pose proof (Qabs_triangle (y - x) x) as T1. assert (E1: y - x + x == y) by ring. rewrite E1 in T1.
  pose proof (Qabs_triangle (- (y - x)) y) as T2. assert (E2: - (y - x) + y == x) by ring. rewrite E2, Qabs_opp in T2.
  unfold near. repeat split; try assumption.
  - lra.
  - assert ((1 - 1 * e) * Qabs y <= (1 - 1 * e) * (e * Qabs x + Qabs x)). { rewrite !(Qmult_comm (1 - 1 * e)). apply Qmult_le_compat_r; lra. }
    assert (0 <= e * (e * Qabs x)) by (apply Qmult_le_0_compat; [lra|apply Qmult_le_0_compat; lra]). lra.
Qed.

Lemma bin_tri : forall a b w1 w2, representable f a -> representable f b -> a < b -> representable f w1 -> representable f w2 ->
  bw_ok (Qabs (w1 - w2) * (b - a) / 2) (rnd (rnd (Qabs (rnd (w1 - w2)) * rnd (b - a)) / 2)).
Proof using Hf He.
  intros a b w1 w2 Ra Rb Hab R1 R2. destruct (e_pos f Hf) as [E0 EL]. pose proof (p2_pos (emin f)) as D0.
  pose proof (near_diff f md Hf a b Ra Rb ltac:(lra)) as W. pose proof (near_absdiff w1 w2 R1 R2) as V.
  set (d := Qabs (w1 - w2)) in *. set (d' := Qabs (rnd (w1 - w2))) in *. set (z := d * (b - a)).
  assert (DP: 0 <= d) by apply V. assert (DP': 0 <= d') by apply V. assert (WP: 0 <= rnd (b - a)) by apply W.
  assert (N: near f 2 z (d' * rnd (b - a))).
  { apply near_mono with (1 + 1); [lra|]. apply near_trans with (d' * (b - a)); try lra.
    - apply near_mul; [lra|exact V].
    - apply near_compat with ((b - a) * d') (rnd (b - a) * d'); [ring|ring|]. apply near_mul; assumption. }
  destruct (near_rnd_dl 2 _ _ ltac:(lra) ltac:(lra) N) as [Y0 YE]. set (r1 := rnd (d' * rnd (b - a))) in *.
  assert (R0: 0 <= r1 / 2) by (apply Qle_shift_div_l; lra).
  pose proof (rnd_err f md (r1 / 2)) as [S1 S2]. pose proof (ulp_gen f (r1 / 2) R0) as U.
  split; [apply rnd_repr; exact Hf|].
  assert (Z0: 0 <= z) by apply N.
  assert (HZ: z / 2 == z * (1 # 2)) by (field). assert (HR: r1 / 2 == r1 * (1 # 2)) by field.
  split; [fold z; lra|]. split; [apply rnd_nonneg; exact R0|]. split.
  - fold z. set (r2 := rnd (r1 / 2)) in *. apply abs_le_inv in YE.
    assert (EZ: 0 <= e * z) by (apply Qmult_le_0_compat; lra).
    assert (EEZ: e * (e * z) <= (1 # 16) * (e * z)) by (apply Qmult_le_compat_r; lra).
    assert (ED: e * dl <= (1 # 16) * dl) by (apply Qmult_le_compat_r; lra).
    assert (ER: r1 / 2 * e <= (z + 2 * (2 + 1) * e * z + dl) * (1 # 2) * e).
    { apply Qmult_le_compat_r; [|lra]. lra. }
    assert (X8: 8 * e * (z / 2) == 4 * (e * z)) by field. rewrite X8.
    apply abs_le; lra.
  - fold z. intro ZZ. apply rnd_zero. assert (z == 0) by lra.
    assert (X: r1 == 0). { apply rnd_zero. apply (near_zero 2); [lra|]. apply near_compat with z (d' * rnd (b - a)); [assumption|reflexivity|exact N]. }
    lra.
Qed.

Lemma bins_all : forall fmax iv ws, Forall (fun x => representable f x /\ - fmax <= x /\ x <= fmax) iv ->
  (forall i, (S i < length iv)%nat -> nth i iv 0 < nth (S i) iv 0) -> Forall (fun w => representable f w /\ 0 <= w) ws ->
  length ws = length iv -> iv <> [] ->
  exists bw, pl_bin_weights f md iv ws = Some bw /\ Forall2 bw_ok (lin_bins iv ws) bw /\ length bw = (2 * length iv - 2)%nat.
Proof using Hf He.
  intro fmax. induction iv as [|a iv IH]; intros ws HI HInc HW HL Hne; [congruence|].
  destruct iv as [|b iv].
  - exists []. destruct ws as [|w1 ws]; [discriminate|]. destruct ws; [|discriminate]. split; [reflexivity|]. split; [constructor|reflexivity].
  - destruct ws as [|w1 ws]; [discriminate|]. destruct ws as [|w2 ws]; [discriminate|].
    destruct (IH (w2 :: ws)) as (bw & B1 & B2 & B3).
    + apply (Forall_inv_tail HI).
    + intros i Hi. apply (HInc (S i)). cbn [length] in *. lia.
    + apply (Forall_inv_tail HW).
    + cbn [length] in *. lia.
    + discriminate.
    + eexists. split; [|split].
      * cbn [pl_bin_weights] in *. rewrite B1. cbn [bind]. reflexivity.
      * pose proof (Forall_inv HI) as (Ra & _). pose proof (Forall_inv (Forall_inv_tail HI)) as (Rb & _).
        pose proof (Forall_inv HW) as (R1 & P1). pose proof (Forall_inv (Forall_inv_tail HW)) as (R2 & P2). cbn beta in *.
        pose proof (HInc 0%nat ltac:(cbn [length]; lia)) as Hab. cbn [nth] in Hab.
        change (lin_bins (a :: b :: iv) (w1 :: w2 :: ws)) with (Qmin w1 w2 * (b - a) :: Qabs (w1 - w2) * (b - a) / 2 :: lin_bins (b :: iv) (w2 :: ws)).
        constructor; [apply bin_rect; assumption|]. constructor; [apply bin_tri; assumption|exact B2].
      * cbn [length] in *. lia.
Qed.

Lemma lin_bins_nth : forall iv ws i, length ws = length iv -> (S i < length iv)%nat ->
  nth (2 * i) (lin_bins iv ws) 0 = Qmin (nth i ws 0) (nth (S i) ws 0) * (nth (S i) iv 0 - nth i iv 0) /\
  nth (2 * i + 1) (lin_bins iv ws) 0 = Qabs (nth i ws 0 - nth (S i) ws 0) * (nth (S i) iv 0 - nth i iv 0) / 2.
Proof using.
  induction iv as [|a iv IH]; intros ws i HL Hi; [cbn in Hi; lia|]. destruct iv as [|b iv]; [cbn in Hi; lia|].
  destruct ws as [|w1 ws]; [discriminate|]. destruct ws as [|w2 ws]; [discriminate|].
  change (lin_bins (a :: b :: iv) (w1 :: w2 :: ws)) with (Qmin w1 w2 * (b - a) :: Qabs (w1 - w2) * (b - a) / 2 :: lin_bins (b :: iv) (w2 :: ws)).
  destruct i as [|i]; [split; reflexivity|].
  replace (2 * S i)%nat with (S (S (2 * i))) by lia. replace (S (S (2 * i)) + 1)%nat with (S (S (2 * i + 1))) by lia.
  cbn [nth]. apply IH; [cbn [length] in *; lia|cbn [length] in *; lia].
Qed.

(* sums *)
Lemma bw_sum : forall xs ys, Forall2 bw_ok xs ys ->
  0 <= qtotal xs /\ 0 <= qtotal ys /\ Qabs (qtotal ys - qtotal xs) <= 8 * e * qtotal xs + 2 * dl * qlen xs /\ length ys = length xs.
Proof using.
  intros xs ys H. induction H as [|x y xs ys (R & X0 & Y0 & E & _) H IH].
  - cbn [qtotal]. split; [lra|]. split; [lra|]. split; [|reflexivity]. change (qlen (@nil Q)) with 0. apply abs_le; lra.
  - destruct IH as (I0 & I1 & I2 & I3). cbn [qtotal]. split; [lra|]. split; [lra|].
    apply abs_le_inv in E. apply abs_le_inv in I2.
    assert (NS: qlen (x :: xs) == 1 + qlen xs) by apply (zof_cons _ x xs).
    assert (X2: 2 * dl * qlen (x :: xs) == 2 * dl + 2 * dl * qlen xs) by (rewrite NS; ring).
    split; [apply abs_le; lra|cbn [length]; lia].
Qed.

Lemma Forall2_nth_bw : forall xs ys, Forall2 bw_ok xs ys -> forall i, (i < length xs)%nat -> bw_ok (nth i xs 0) (nth i ys 0).
Proof using.
  intros xs ys H. induction H as [|x y xs ys B H IH]; intros i Hi; [cbn in Hi; lia|]. destruct i as [|i]; [exact B|].
  cbn [nth length] in *. apply IH. lia.
Qed.

Lemma nth_le_total : forall xs i, Forall (fun x => 0 <= x) xs -> 0 <= nth i xs 0 /\ nth i xs 0 <= qtotal xs.
Proof using.
  induction xs as [|x xs IH]; intros i H; [destruct i; cbn; lra|]. pose proof (Forall_inv H) as H0. apply Forall_inv_tail in H. cbn beta in H0.
  assert (T: 0 <= qtotal xs). { clear IH. clear H0. induction xs as [|y ys IHy]; [cbn; lra|]. pose proof (Forall_inv H) as Hy. cbn beta in Hy. specialize (IHy (Forall_inv_tail H)). cbn [qtotal]. lra. }
  destruct i as [|i]; cbn [nth qtotal]; [lra|]. destruct (IH i H). lra.
Qed.

Variables (iv ws : list Q) (fmax : Q).
Hypothesis Hiv : ivals_ok f fmax iv.
Hypothesis Hws : lweights_ok f iv ws.
Local Notation xs := (lin_bins iv ws).
Local Notation n := (qlen xs).
Hypothesis Hsm : (n + 3) * e <= 1 # 8.

Lemma lin_setup : exists bw, pl_bin_weights f md iv ws = Some bw /\ Forall2 bw_ok xs bw /\ length bw = (2 * length iv - 2)%nat /\
  length xs = length bw /\ 2 <= n /\ 0 < qtotal xs /\
  2 * dl * n <= (1 # 4) * e * qtotal xs /\ (3 # 4) * qtotal xs <= qtotal bw /\ rweights_ok f szt bw.
Proof using Hf He Hiv Hws Hsm.
  destruct (e_pos f Hf) as [E0 EL]. pose proof Hiv as (HL & HI & HInc). pose proof Hws as (WL & W64 & HW & HT).
  destruct (bins_all fmax iv ws HI HInc HW WL) as (bw & B1 & B2 & B3); [destruct iv; [cbn in HL; lia|discriminate]|].
  destruct (bw_sum xs bw B2) as (T0 & T1 & T2 & T3). exists bw. split; [exact B1|]. split; [exact B2|]. split; [exact B3|]. split; [congruence|].
  assert (N2: 2 <= n). { unfold qlen. rewrite <- T3, B3. change 2 with (inject_Z 2). apply injZ_le. lia. }
  split; [exact N2|].
  assert (P4: p2 (emin f + P + 2) == dl * p2 (P + 1) * 2). { replace (emin f + P + 2)%Z with (emin f + (P + 1) + 1)%Z by lia. rewrite !p2_add, p2_1. reflexivity. }
  assert (PE: p2 (P + 1) * e == 4). { rewrite <- p2_add. replace (P + 1 + (1 - P))%Z with 2%Z by lia. reflexivity. }
  pose proof (p2_pos (emin f + P + 2)) as PP. pose proof (p2_pos (emin f)) as D0.
  assert (TP: 0 < qtotal xs). { assert (0 < n * p2 (emin f + P + 2)) by (apply Qmult_lt_0_compat; lra). lra. }
  split; [exact TP|].
  assert (ND: 2 * dl * n <= (1 # 4) * e * qtotal xs).
  { assert (X: n * p2 (emin f + P + 2) * e <= qtotal xs * e) by (apply Qmult_le_compat_r; lra).
    assert (Y: n * p2 (emin f + P + 2) * e == n * dl * 8). { rewrite P4. assert (Z: n * (dl * p2 (P + 1) * 2) * e == n * dl * 2 * (p2 (P + 1) * e)) by ring. rewrite Z, PE. ring. }
    lra. }
  split; [exact ND|]. apply abs_le_inv in T2.
  assert (E40: e <= 1 # 40). { assert (5 * e <= (n + 3) * e) by (apply Qmult_le_compat_r; lra). lra. }
  assert (ET: e * qtotal xs <= (1 # 40) * qtotal xs) by (apply Qmult_le_compat_r; lra).
  assert (BT: (3 # 4) * qtotal xs <= qtotal bw) by lra.
  split; [exact BT|].
  unfold rweights_ok. split; [cbn; lia|]. split; [destruct bw; [cbn in B3; lia|discriminate]|]. split; [rewrite B3; cbn [imax szt bits sgn]; unfold imax; cbn; lia|]. split.
  - apply Forall_forall. intros y Hy. apply (In_nth _ _ 0) in Hy. destruct Hy as (i & Hi & <-). rewrite T3 in Hi.
    destruct (Forall2_nth_bw xs bw B2 i Hi) as (R & _ & Y0 & _). split; assumption.
  - assert (QL: qlen bw == n) by (unfold qlen; rewrite T3; reflexivity). rewrite QL.
    assert (P1: p2 (emin f + P + 2) == 2 * p2 (emin f + P + 1)). { replace (emin f + P + 2)%Z with (1 + (emin f + P + 1))%Z by lia. rewrite p2_add, p2_1. reflexivity. }
    assert (X: n * p2 (emin f + P + 2) == 2 * (n * p2 (emin f + P + 1))) by (rewrite P1; ring). lra.
Qed.

Lemma lin_ratio : forall bw, Forall2 bw_ok xs bw -> 2 <= n -> 0 < qtotal xs -> 2 * dl * n <= (1 # 4) * e * qtotal xs ->
  (3 # 4) * qtotal xs <= qtotal bw -> forall i, (0 <= i < Z.of_nat (length xs))%Z ->
  Qabs (n * qweight bw i / qtotal bw - n * qweight xs i / qtotal xs) <= n * 22 * e.
Proof using Hf.
  intros bw B2 N2 TP ND BT i Hi. destruct (e_pos f Hf) as [E0 EL]. pose proof (p2_pos (emin f)) as D0.
  destruct (bw_sum xs bw B2) as (T0 & T1 & T2 & T3). apply abs_le_inv in T2.
  unfold qweight. assert (Hk: (Z.to_nat i < length xs)%nat) by lia. destruct (Forall2_nth_bw xs bw B2 _ Hk) as (_ & X0 & Y0 & YE & _).
  assert (FX: Forall (fun x => 0 <= x) xs).
  { apply Forall_forall. intros y Hy. apply (In_nth _ _ 0) in Hy. destruct Hy as (j & Hj & <-). destruct (Forall2_nth_bw xs bw B2 j Hj) as (_ & Z0 & _). exact Z0. }
  destruct (nth_le_total xs (Z.to_nat i) FX) as [_ XT]. set (x := nth (Z.to_nat i) xs 0) in *. set (y := nth (Z.to_nat i) bw 0) in *.
  set (T := qtotal xs) in *. set (U := qtotal bw) in *. apply abs_le_inv in YE.
  assert (DN: 2 * dl <= (1 # 8) * e * T). { assert (2 * (2 * dl) <= n * (2 * dl)) by (apply Qmult_le_compat_r; lra). lra. }
  set (r := x / T). assert (XR: x == r * T) by (unfold r; field; lra).
  assert (R0: 0 <= r) by (apply Qle_shift_div_l; lra). assert (R1: r <= 1) by (apply Qle_shift_div_r; lra).
  assert (ET: 0 <= e * T) by (apply Qmult_le_0_compat; lra).
  assert (RE: r * (e * T) <= 1 * (e * T)) by (apply Qmult_le_compat_r; lra).
  assert (RE0: 0 <= r * (e * T)) by (apply Qmult_le_0_compat; lra).
  assert (RU: r * U <= r * (T + 8 * e * T + (1 # 4) * e * T)). { rewrite !(Qmult_comm r). apply Qmult_le_compat_r; lra. }
  assert (RL: r * (T - 8 * e * T - (1 # 4) * e * T) <= r * U). { rewrite !(Qmult_comm r). apply Qmult_le_compat_r; lra. }
  assert (EX: e * x == r * (e * T)) by (rewrite XR; ring).
  assert (EU: e * ((3 # 4) * T) <= e * U). { rewrite !(Qmult_comm e). apply Qmult_le_compat_r; lra. }
  assert (Q1: y / U <= r + 22 * e). { apply Qle_shift_div_r; [lra|]. assert (Y: (r + 22 * e) * U == r * U + 22 * (e * U)) by ring. rewrite Y. lra. }
  assert (Q2: r - 22 * e <= y / U). { apply Qle_shift_div_l; [lra|]. assert (Y: (r - 22 * e) * U == r * U - 22 * (e * U)) by ring. rewrite Y. lra. }
  assert (E1: n * y / U == n * (y / U)) by (field; lra).
  assert (E2: n * x / T == n * r) by (unfold r; field; lra).
  rewrite E1, E2.
  assert (n * (y / U) <= n * (r + 22 * e)). { rewrite !(Qmult_comm n). apply Qmult_le_compat_r; lra. }
  assert (n * (r - 22 * e) <= n * (y / U)). { rewrite !(Qmult_comm n). apply Qmult_le_compat_r; lra. }
  apply abs_le; lra.
Qed.
End Lin.
