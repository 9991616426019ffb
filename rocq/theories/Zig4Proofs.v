(* The tests of the ziggurats against the curves. *)
From Coq Require Import Reals Lra Qreals.
From Verif Require Import Base ProgModel FloatModel FloatSpec FloatProofs RealModel RDiscProofs BinModel BinSpec ZigTable ZigModel ZigSpec PoisRSpec RExpProofs Pois3Proofs Zig1Proofs Zig2Proofs Zig3Proofs.
Ltac Zify.zify_post_hook ::= idtac.
Open Scope R_scope.

Lemma qlt_t : forall a b, qlt a b = true -> (a < b)%Q.
Proof. intros a b H. pose proof (qlt_spec a b) as S. rewrite H in S. exact S. Qed.
Lemma qlt_f : forall a b, qlt a b = false -> ~ (a < b)%Q.
Proof. intros a b H. pose proof (qlt_spec a b) as S. rewrite H in S. apply Qle_not_lt. exact S. Qed.

Section E.
Variables (f : fmt) (md : rmode) (ex : Q -> Q) (K : R).
Hypothesis Hf : fmt_ok f.
Hypothesis Hw : fmt_wide f.
Hypothesis Pf : (20 <= prec f)%Z.
Hypothesis HK : 0 <= K.
Hypothesis HE : exp_ok f K ex.
Local Notation rnd := (fround f md).
Let e := eps f.
Let w := e + / 2 ^ 52.

Lemma e_w : 0 < e /\ 0 < w /\ e <= w /\ / 2 ^ 53 <= w / 2 /\ w <= 1 / 262144.
Proof.
  destruct (w_facts f Pf) as (A & B & C & _). fold e in A, C. assert (/ 2 ^ 53 = / 2 ^ 52 / 2) by (cbn [pow]; field). unfold w. repeat split; lra.
Qed.

Lemma ezf_g : forall x, 0 <= Q2R x -> representable f x -> Rabs (Q2R (ez_f ex x) - fexp1 (Q2R x)) <= K * w.
Proof.
  intros x X0 RX. set (X := Q2R x) in *.
  destruct e_w as (E0 & W0 & EW & _ & W1). unfold ez_f, fexp1.
  assert (N: (- x <= 0)%Q). { apply Rle_Qle. rewrite Q2R_opp, Q2R_0. fold X. lra. }
  assert (R: representable f (- x)). { destruct RX as (m & k & M1 & M2 & M3). exists (- m)%Z, k. rewrite Z.abs_opp. split; [exact M1|]. split; [exact M2|]. rewrite M3. unfold p2. rewrite inject_Z_opp. ring. }
  pose proof (HE _ N R) as A. rewrite Q2R_opp in A. fold X e in A.
  assert (EX: exp (- X) <= 1). { rewrite <- exp_0. destruct (Req_dec X 0) as [->|]; [right; f_equal; ring|]. left. apply exp_increasing. lra. }
  apply Rle_trans with (1 := A). pose proof (exp_pos (- X)). apply Rle_trans with (K * e * 1); [apply Rmult_le_compat_l; [apply Rmult_le_pos; lra|exact EX]|].
  rewrite Rmult_1_r. apply Rmult_le_compat_l; lra.
Qed.

Variables (xi xj yi yj x y01 : Q).
Let X := Q2R x.
Let Xi := Q2R xi.
Let Xj := Q2R xj.
Let Yi := Q2R yi.
Let Yj := Q2R yj.
Let T := Q2R y01.
Let H := hgt yi yj y01.
Hypothesis HX : 0 <= Xj /\ Xj < Xi /\ Xi <= 8 /\ Xi - Xj <= 1.
Hypothesis HY : 0 <= Yi /\ Yi < Yj /\ Yj <= 1 /\ Yj - Yi <= Xi - Xj.
Hypothesis HT : 0 <= T <= 1.
Hypothesis Hx : Xj - 9 * w <= X <= Xi + 9 * w.
Hypothesis X0 : 0 <= X.
Hypothesis RX : representable f x.

Lemma H_bnd : 0 <= H <= 1.
Proof. unfold H, hgt. fold T Yi Yj. assert (0 <= T * (Yj - Yi)) by (apply Rmult_le_pos; lra). assert (T * (Yj - Yi) <= 1 * (Yj - Yi)) by (apply Rmult_le_compat_r; lra). lra. Qed.

(* exponential: the tangent at xj *)
Definition etan_q : Q := rnd (zg_y f md y01 yi yj - rnd (rnd yj + rnd (rnd (rnd xj - x) * rnd yj))).
Lemma etan_e : Rabs (Q2R etan_q - (H - (Yj + (Xj - X) * Yj))) <= 66 * w.
Proof.
  destruct e_w as (E0 & W0 & EW & _ & W1). unfold etan_q.
  pose proof (zy_ok f md Hw Pf xi xj yi yj y01 HY HT) as Z. fold e w H in Z.
  pose proof (rnd_e f md Hw Pf yj Yj 0 1 (self_e yj) ltac:(apply Rabs_le; lra) ltac:(lra)) as A1.
  pose proof (rnd_e f md Hw Pf xj Xj 0 8 (self_e xj) ltac:(apply Rabs_le; lra) ltac:(lra)) as A2. fold e in A1, A2.
  pose proof (sub_e _ _ _ _ _ _ A2 (self_e x)) as A3. fold X in A3.
  pose proof (rnd_e f md Hw Pf _ _ _ 2 A3 ltac:(apply Rabs_le; lra) ltac:(lra)) as A4. fold e in A4.
  pose proof (mul_e _ _ _ _ _ _ 2 1 A4 A1 ltac:(apply Rabs_le; lra) ltac:(apply Rabs_le; lra) ltac:(lra)) as A5.
  assert (B5: Rabs ((Xj - X) * Yj) <= 2). { rewrite Rabs_mult, (Rabs_right Yj) by lra. replace 2 with (2 * 1) by ring. apply Rmult_le_compat; try apply Rabs_pos; try lra. apply Rabs_le; lra. }
  pose proof (rnd_e f md Hw Pf _ _ _ 2 A5 B5 ltac:(lra)) as A6. fold e in A6.
  pose proof (add_e _ _ _ _ _ _ A1 A6) as A7. apply Rabs_le_inv in B5.
  pose proof (rnd_e f md Hw Pf _ _ _ 3 A7 ltac:(apply Rabs_le; lra) ltac:(lra)) as A8. fold e in A8.
  pose proof (sub_e _ _ _ _ _ _ Z A8) as A9. pose proof H_bnd as HB.
  pose proof (rnd_e f md Hw Pf _ _ _ 4 A9 ltac:(apply Rabs_le; lra) ltac:(lra)) as B1. fold e in B1. lra.
Qed.
Lemma ezf_e : Rabs (Q2R (ez_f ex x) - fexp1 X) <= K * w.
Proof. apply ezf_g; assumption. Qed.

Hypothesis Fi : Rabs (Yi - fexp1 Xi) <= / 2 ^ 53.
Hypothesis Fj : Rabs (Yj - fexp1 Xj) <= / 2 ^ 53.
Definition ez_ok : bool := (qlt (zg_diag f md x y01 xi xj) 0 && (qlt etan_q 0 || qlt (zg_y f md y01 yi yj) (ez_f ex x)))%bool.
Lemma ez_ok_true : ez_ok = true -> H <= fexp1 X + (68 + K) * w.
Proof.
  destruct e_w as (E0 & W0 & EW & W2 & W1). unfold ez_ok. intro A. apply andb_true_iff in A. destruct A as [_ A]. apply orb_true_iff in A.
  assert (KW: 0 <= K * w) by (apply Rmult_le_pos; lra). destruct A as [A|A]; apply qlt_t in A.
  - apply Qlt_Rlt in A. rewrite Q2R_0 in A. pose proof etan_e as B. apply Rabs_le_inv in B. pose proof (etan Xj X) as C.
    pose proof Fj as D. apply Rabs_le_inv in D.
    assert ((Yj - fexp1 Xj) * (1 - (X - Xj)) <= / 2 ^ 53 * 2).
    { apply Rle_trans with (Rabs ((Yj - fexp1 Xj) * (1 - (X - Xj)))); [apply Rle_abs|]. rewrite Rabs_mult. apply Rmult_le_compat; try apply Rabs_pos; [exact Fj|]. apply Rabs_le. lra. }
    lra.
  - destruct (cmp_curve f md Hw Pf xi xj yi yj x y01 HY HT fexp1 _ _ ezf_e) as [C _]. specialize (C A). fold X H e w in C. lra.
Qed.
Lemma ez_ok_false : ez_ok = false -> fexp1 X - (68 + K) * w <= H.
Proof.
  destruct e_w as (E0 & W0 & EW & W2 & W1). unfold ez_ok. intro A. apply andb_false_iff in A. assert (KW: 0 <= K * w) by (apply Rmult_le_pos; lra).
  destruct A as [A|A]; [|apply orb_false_iff in A; destruct A as [_ A]]; apply qlt_f in A.
  - destruct (xc_ok f Pf xi xj x HX Hx) as [[C1 C2] _].
    pose proof (diag_up f md Hw Pf xi xj yi yj x y01 HX HY HT Hx fexp1 fexp1_lip Fi Fj X0 ltac:(apply echord; fold Xi Xj; try lra; assumption) A) as D. fold X H e w in D. lra.
  - destruct (cmp_curve f md Hw Pf xi xj yi yj x y01 HY HT fexp1 _ _ ezf_e) as [_ C]. specialize (C A). fold X H e w in C. lra.
Qed.
End E.

Section N.
Variables (f : fmt) (md : rmode) (ex : Q -> Q) (K : R).
Hypothesis Hf : fmt_ok f.
Hypothesis Hw : fmt_wide f.
Hypothesis Pf : (20 <= prec f)%Z.
Hypothesis HK : 0 <= K.
Hypothesis HE : exp_ok f K ex.
Local Notation rnd := (fround f md).
Let e := eps f.
Let w := e + / 2 ^ 52.
Variables (xi xj yi yj x y01 : Q).
Let X := Q2R x.
Let Xi := Q2R xi.
Let Xj := Q2R xj.
Let Yi := Q2R yi.
Let Yj := Q2R yj.
Let T := Q2R y01.
Let H := hgt yi yj y01.
Hypothesis HX : 0 <= Xj /\ Xj < Xi /\ Xi <= 4 /\ Xi - Xj <= 1.
Hypothesis HY : 0 <= Yi /\ Yi < Yj /\ Yj <= 1 /\ Yj - Yi <= Xi - Xj.
Hypothesis HT : 0 <= T <= 1.
Hypothesis Hx : Xj <= X <= Xi + 9 * w.

Lemma ntan_e : Rabs (Q2R (nz_tan f md x (zg_y f md y01 yi yj) xi yi) - (H - (Yi + (Xi - X) * Yi * Xi))) <= 213 * w.
Proof.
  destruct (e_w f Pf) as (E0 & W0 & EW & _ & W1). fold e w in E0, W0, EW, W1. unfold nz_tan.
  pose proof (zy_ok f md Hw Pf xi xj yi yj y01 HY HT) as Z. fold e w H in Z.
  pose proof (rnd_e f md Hw Pf yi Yi 0 1 (self_e yi) ltac:(apply Rabs_le; lra) ltac:(lra)) as A1.
  pose proof (rnd_e f md Hw Pf xi Xi 0 4 (self_e xi) ltac:(apply Rabs_le; lra) ltac:(lra)) as A2. fold e in A1, A2.
  pose proof (sub_e _ _ _ _ _ _ A2 (self_e x)) as A3. fold X in A3.
  pose proof (rnd_e f md Hw Pf _ _ _ 2 A3 ltac:(apply Rabs_le; lra) ltac:(lra)) as A4. fold e in A4.
  pose proof (mul_e _ _ _ _ _ _ 2 1 A4 A1 ltac:(apply Rabs_le; lra) ltac:(apply Rabs_le; lra) ltac:(lra)) as A5.
  assert (B5: Rabs ((Xi - X) * Yi) <= 2). { rewrite Rabs_mult, (Rabs_right Yi) by lra. replace 2 with (2 * 1) by ring. apply Rmult_le_compat; try apply Rabs_pos; try lra. apply Rabs_le; lra. }
  pose proof (rnd_e f md Hw Pf _ _ _ 2 A5 B5 ltac:(lra)) as A6. fold e in A6.
  pose proof (mul_e _ _ _ _ _ _ 2 4 A6 A2 B5 ltac:(apply Rabs_le; lra) ltac:(lra)) as A7.
  assert (B7: Rabs ((Xi - X) * Yi * Xi) <= 8). { rewrite Rabs_mult, (Rabs_right Xi) by lra. replace 8 with (2 * 4) by ring. apply Rmult_le_compat; try apply Rabs_pos; lra. }
  pose proof (rnd_e f md Hw Pf _ _ _ 8 A7 B7 ltac:(lra)) as A8. fold e in A8.
  pose proof (add_e _ _ _ _ _ _ A1 A8) as A9. apply Rabs_le_inv in B7.
  pose proof (rnd_e f md Hw Pf _ _ _ 9 A9 ltac:(apply Rabs_le; lra) ltac:(lra)) as C1. fold e in C1.
  pose proof (sub_e _ _ _ _ _ _ Z C1) as C2. pose proof (H_bnd xi xj yi yj y01 HY HT) as HB. fold H in HB.
  pose proof (rnd_e f md Hw Pf _ _ _ 10 C2 ltac:(apply Rabs_le; lra) ltac:(lra)) as C3. fold e in C3. lra.
Qed.
Lemma nzf_e : Rabs (Q2R (nz_f f md ex x) - fnorm X) <= (20 + K) * w.
Proof.
  destruct (e_w f Pf) as (E0 & W0 & EW & _ & W1). fold e w in E0, W0, EW, W1. unfold nz_f.
  assert (XX: 0 <= X * X <= 17). { split; [apply Rle_0_sqr|]. apply Rle_trans with (4.1 * 4.1); [|lra]. apply Rmult_le_compat; lra. }
  assert (A0: Rabs (Q2R (x * x) - X * X) <= 0) by (rewrite Q2R_mult; fold X; replace (X * X - X * X) with 0 by ring; rewrite Rabs_R0; lra).
  pose proof (rnd_e f md Hw Pf _ _ _ 17 A0 ltac:(apply Rabs_le; lra) ltac:(lra)) as A1. fold e in A1.
  assert (A2: Rabs (Q2R (rnd (x * x) / 2) - X * X / 2) <= 19 * e / 2).
  { rewrite Q2R_div by discriminate. replace (Q2R 2) with 2 by (unfold Q2R; cbn; field). apply Rabs_le_inv in A1. apply Rabs_le. lra. }
  pose proof (rnd_e f md Hw Pf _ _ _ 8.5 A2 ltac:(apply Rabs_le; lra) ltac:(lra)) as A3. fold e in A3.
  set (z := rnd (rnd (x * x) / 2)) in *.
  assert (Z0: (0 <= z)%Q). { unfold z. apply rnd_nonneg. apply Qle_shift_div_l; [reflexivity|]. setoid_replace (0 * 2)%Q with 0%Q by ring. apply rnd_nonneg. apply Rle_Qle. rewrite Q2R_mult, Q2R_0. fold X. lra. }
  assert (RZ: representable f z) by (unfold z; apply rnd_repr; exact Hf).
  pose proof (Q2R_le _ _ Z0) as ZR. rewrite Q2R_0 in ZR.
  pose proof (ezf_g f ex K Pf HK HE z ZR RZ) as B1. unfold ez_f in B1. fold e w in B1.
  pose proof (fexp1_lip (Q2R z) (X * X / 2) ZR ltac:(lra)) as B2. change (fexp1 (X * X / 2)) with (fnorm X) in B2.
  apply Rabs_le_inv in B1, A3. assert (Rabs (Q2R z - X * X / 2) <= 20 * e) by (apply Rabs_le; lra).
  assert (B3: Rabs (fexp1 (Q2R z) - fnorm X) <= 20 * w) by lra. apply Rabs_le_inv in B3. apply Rabs_le. lra.
Qed.

Hypothesis Fi : Rabs (Yi - fnorm Xi) <= / 2 ^ 53.
Hypothesis Fj : Rabs (Yj - fnorm Xj) <= / 2 ^ 53.
Lemma nx_facts : 0 <= X /\ (0 <= Xj /\ Xj < Xi /\ Xi <= 8 /\ Xi - Xj <= 1) /\ Xj - 9 * w <= X <= Xi + 9 * w.
Proof. destruct (e_w f Pf) as (E0 & W0 & EW & _ & W1). fold e w in E0, W0, EW, W1. repeat split; lra. Qed.
(* the tangent of the table and that of the curve *)
Lemma ntan_tab : Rabs (Yi + (Xi - X) * Yi * Xi - fnorm Xi * (1 - Xi * (X - Xi))) <= 5 * w.
Proof.
  destruct (e_w f Pf) as (E0 & W0 & EW & W2 & W1). fold e w in E0, W0, EW, W1, W2.
  replace (Yi + (Xi - X) * Yi * Xi - fnorm Xi * (1 - Xi * (X - Xi))) with ((Yi - fnorm Xi) * (1 + (Xi - X) * Xi)) by ring.
  rewrite Rabs_mult. apply Rle_trans with (w / 2 * 9); [|lra]. apply Rmult_le_compat; try apply Rabs_pos; [lra|].
  assert (Rabs ((Xi - X) * Xi) <= 2 * 4). { rewrite Rabs_mult, (Rabs_right Xi) by lra. apply Rmult_le_compat; try apply Rabs_pos; try lra. apply Rabs_le; lra. }
  apply Rabs_le_inv in H0. apply Rabs_le. lra.
Qed.
Let y := zg_y f md y01 yi yj.
Lemma ncmp : (qlt y (nz_f f md ex x) = true -> H <= fnorm X + (34 + K) * w) /\ (qlt y (nz_f f md ex x) = false -> fnorm X - (34 + K) * w <= H).
Proof.
  destruct (cmp_curve f md Hw Pf xi xj yi yj x y01 HY HT fnorm _ _ nzf_e) as [A B]. fold X H e w in A, B. split; intro C.
  - apply qlt_t in C. specialize (A C). lra.
  - apply qlt_f in C. specialize (B C). lra.
Qed.
(* convex layers, and the one with the inflection point *)
Definition nz_cv : bool := (qlt (zg_diag f md x y01 xi xj) 0 && (qlt (nz_tan f md x y xi yi) 0 || qlt y (nz_f f md ex x)))%bool.
Lemma nz_cv_ok : 1 <= Xi -> 1 <= Xi * Xj -> (1 <= Xj \/ 1 < Xi /\ Xj <= 1 /\ (fnorm Xj - fnorm Xi) / (Xi - Xj) <= Xj * fnorm Xj) ->
  (nz_cv = true -> H <= fnorm X + (218 + K) * w) /\ (nz_cv = false -> fnorm X - (218 + K) * w <= H).
Proof.
  intros C1 C2 C3. destruct (e_w f Pf) as (E0 & W0 & EW & W2 & W1). fold e w in E0, W0, EW, W1, W2. assert (KW: 0 <= K * w) by (apply Rmult_le_pos; lra).
  destruct ncmp as [N1 N2]. destruct nx_facts as (X0 & HX8 & Hx9). unfold nz_cv. split; intro A.
  - apply andb_true_iff in A. destruct A as [_ A]. apply orb_true_iff in A. destruct A as [A|A]; [|specialize (N1 A); lra].
    apply qlt_t, Qlt_Rlt in A. rewrite Q2R_0 in A. pose proof ntan_e as B. fold y in B. pose proof ntan_tab as D. apply Rabs_le_inv in B, D.
    pose proof (tan_convex Xi X C1 X0 ltac:(apply Rle_trans with (1 := C2); apply Rmult_le_compat_l; lra)). lra.
  - apply andb_false_iff in A. destruct A as [A|A]; [|apply orb_false_iff in A; destruct A as [_ A]; specialize (N2 A); lra].
    apply qlt_f in A. destruct (xc_ok f Pf xi xj x HX8 Hx9) as [[D1 D2] _].
    pose proof (diag_up f md Hw Pf xi xj yi yj x y01 HX8 HY HT Hx9 fnorm fnorm_lip Fi Fj X0) as D. fold X Xi Xj H e w in D, D1, D2.
    assert (R: fnorm X - 50 * w <= H); [|lra]. apply D; [|exact A].
    destruct C3 as [C3|(C3 & C4 & C5)]; [apply nchord_convex; try assumption; lra|apply nchord_infl; try assumption; lra].
Qed.
(* concave layers *)
Definition nz_cc : bool := (qlt (nz_tan f md x y xi yi) 0 && (qlt (zg_diag f md x y01 xi xj) 0 || qlt y (nz_f f md ex x)))%bool.
Lemma nz_cc_ok : Xi <= 1 -> Xi * (Xi + 1 / 16384) <= 1 ->
  (nz_cc = true -> H <= fnorm X + (218 + K) * w) /\ (nz_cc = false -> fnorm X - (218 + K) * w <= H).
Proof.
  intros C1 C2. destruct (e_w f Pf) as (E0 & W0 & EW & W2 & W1). fold e w in E0, W0, EW, W1, W2. assert (KW: 0 <= K * w) by (apply Rmult_le_pos; lra).
  destruct ncmp as [N1 N2]. destruct nx_facts as (X0 & HX8 & Hx9). unfold nz_cc. split; intro A.
  - apply andb_true_iff in A. destruct A as [_ A]. apply orb_true_iff in A. destruct A as [A|A]; [|specialize (N1 A); lra].
    apply qlt_t in A. destruct (xc_ok f Pf xi xj x HX8 Hx9) as [[D1 D2] _].
    pose proof (diag_lo f md Hw Pf xi xj yi yj x y01 HX8 HY HT Hx9 fnorm fnorm_lip Fi Fj X0) as D. fold X Xi Xj H e w in D, D1, D2.
    assert (R: H <= fnorm X + 50 * w); [|lra]. apply D; [|exact A]. apply nchord_concave; try assumption; lra.
  - apply andb_false_iff in A. destruct A as [A|A]; [|apply orb_false_iff in A; destruct A as [_ A]; specialize (N2 A); lra].
    apply qlt_f in A. apply Qnot_lt_le, Q2R_le in A. rewrite Q2R_0 in A. pose proof ntan_e as B. fold y in B. pose proof ntan_tab as D. apply Rabs_le_inv in B, D.
    assert (XI: Xi * X <= Xi * (Xi + 1 / 16384)) by (apply Rmult_le_compat_l; lra).
    assert (P: 0 < Xi * Xi) by (apply Rmult_lt_0_compat; lra).
    pose proof (tan_concave Xi X ltac:(lra) X0 ltac:(lra) ltac:(lra)). lra.
Qed.
End N.
