(* Rounding is monotone and leaves representable numbers alone. *)
From Coq Require Import Lqa.
From Verif Require Import Base FloatModel FloatSpec.
Open Scope Q_scope.
Ltac Zify.zify_post_hook ::= idtac.

(* ---- powers of two ---- *)
Lemma two_nz : ~ 2 == 0. Proof. discriminate. Qed.
Lemma p2_pos : forall e, 0 < p2 e.
Proof. intro e. apply Qpower_0_lt. reflexivity. Qed.
Lemma p2_nz : forall e, ~ p2 e == 0.
Proof. intro e. pose proof (p2_pos e). lra. Qed.
Lemma p2_add : forall a b, p2 (a + b) == p2 a * p2 b.
Proof. intros. apply Qpower_plus, two_nz. Qed.
Lemma p2_le : forall a b, (a <= b)%Z -> p2 a <= p2 b.
Proof. intros a b H. apply Qpower_le_compat_l; [exact H|]. lra. Qed.
Lemma p2_lt : forall a b, (a < b)%Z -> p2 a < p2 b.
Proof. intros a b H. apply Qpower_lt_compat_l; [exact H|]. lra. Qed.
Lemma p2_Z : forall e, (0 <= e)%Z -> p2 e == inject_Z (2 ^ e).
Proof. intros e H. unfold p2. symmetry. apply (Zpower_Qpower 2 e H). Qed.
Lemma p2_0 : p2 0 == 1. Proof. reflexivity. Qed.
Lemma p2_1 : p2 1 == 2. Proof. reflexivity. Qed.
Lemma p2_lt_inv : forall a b, p2 a < p2 b -> (a < b)%Z.
Proof. intros a b H. destruct (Z.lt_ge_cases a b) as [L|L]; [exact L|]. apply p2_le in L. lra. Qed.

Lemma injZ_le : forall a b, (a <= b)%Z -> inject_Z a <= inject_Z b.
Proof. intros a b H. rewrite <- Zle_Qle. exact H. Qed.

(* ---- rounding to integers ---- *)
Lemma floor_bounds : forall x, inject_Z (Qfloor x) <= x /\ x < inject_Z (Qfloor x) + 1.
Proof.
  intro x. split; [apply Qfloor_le|]. pose proof (Qlt_floor x) as H. rewrite inject_Z_plus in H. exact H.
Qed.
Lemma ceiling_bounds : forall x, x <= inject_Z (Qceiling x) /\ inject_Z (Qceiling x) < x + 1.
Proof.
  intro x. split; [apply Qle_ceiling|]. pose proof (Qceiling_lt x) as H.
  unfold Z.sub in H. rewrite inject_Z_plus in H. change (inject_Z (-(1))) with (-(1)) in H. lra.
Qed.

Lemma rint_bounds : forall md x, inject_Z (rint md x) < x + 1 /\ x < inject_Z (rint md x) + 1.
Proof.
  intros md x. pose proof (floor_bounds x). pose proof (ceiling_bounds x).
  destruct md; cbn [rint].
  - destruct (Qcompare_spec (x - inject_Z (Qfloor x)) (1 # 2)).
    + destruct (Z.even (Qfloor x)); rewrite ?inject_Z_plus; change (inject_Z 1) with 1; lra.
    + lra.
    + rewrite inject_Z_plus. change (inject_Z 1) with 1. lra.
  - lra.
  - lra.
  - destruct (Qle_bool 0 x); lra.
Qed.

Lemma rint_int_le : forall md x z, x <= inject_Z z -> (rint md x <= z)%Z.
Proof.
  intros md x z H. pose proof (floor_bounds x) as F. pose proof (ceiling_bounds x) as C.
  assert (HF: (Qfloor x <= z)%Z) by (rewrite Zle_Qle; lra).
  assert (HC: (Qceiling x <= z)%Z) by (rewrite <- (Qceiling_Z z); apply Qceiling_resp_le; exact H).
  destruct md; cbn [rint]; [|exact HC|exact HF|destruct (Qle_bool 0 x); assumption].
  assert (HH: Qfloor x = z -> x == inject_Z z) by (intros <-; lra).
  destruct (Qcompare_spec (x - inject_Z (Qfloor x)) (1 # 2)); [|exact HF|].
  - destruct (Z.even (Qfloor x)); [exact HF|].
    assert (Qfloor x <> z) by (intro E; specialize (HH E); rewrite E in *; lra). lia.
  - assert (Qfloor x <> z) by (intro E; specialize (HH E); rewrite E in *; lra). lia.
Qed.

Lemma rint_int_ge : forall md x z, inject_Z z <= x -> (z <= rint md x)%Z.
Proof.
  intros md x z H. pose proof (floor_bounds x) as F. pose proof (ceiling_bounds x) as C.
  assert (HF: (z <= Qfloor x)%Z) by (rewrite <- (Qfloor_Z z); apply Qfloor_resp_le; exact H).
  assert (HC: (z <= Qceiling x)%Z) by (rewrite Zle_Qle; lra).
  destruct md; cbn [rint]; [|exact HC|exact HF|destruct (Qle_bool 0 x); assumption].
  destruct (Qcompare (x - inject_Z (Qfloor x)) (1 # 2)); try lia. destruct (Z.even (Qfloor x)); lia.
Qed.

Lemma rint_Z : forall md x z, x == inject_Z z -> rint md x = z.
Proof.
  intros md x z H. apply Z.le_antisymm; [apply rint_int_le|apply rint_int_ge]; lra.
Qed.

Lemma rint_mono : forall md x y, x <= y -> (rint md x <= rint md y)%Z.
Proof.
  intros md x y H. destruct (Qlt_le_dec (inject_Z (Qfloor x)) (inject_Z (Qfloor y))) as [L|L].
  - (* an integer separates them *)
    apply Z.le_trans with (Qfloor y).
    + apply rint_int_le. rewrite <- Zlt_Qlt in L.
      assert (Qfloor x + 1 <= Qfloor y)%Z as L2 by lia. rewrite Zle_Qle, inject_Z_plus in L2.
      change (inject_Z 1) with 1 in L2. pose proof (floor_bounds x). lra.
    + apply rint_int_ge. apply Qfloor_le.
  - assert (E: Qfloor x = Qfloor y).
    { pose proof (Qfloor_resp_le x y H) as H1. rewrite <- Zle_Qle in L. lia. }
    destruct md; cbn [rint].
    + rewrite <- E. destruct (Qcompare_spec (x - inject_Z (Qfloor x)) (1 # 2)), (Qcompare_spec (y - inject_Z (Qfloor x)) (1 # 2));
        try lra; try lia; destruct (Z.even (Qfloor x)); lia.
    + apply Qceiling_resp_le. exact H.
    + apply Qfloor_resp_le. exact H.
    + destruct (Qle_bool 0 x) eqn:EX, (Qle_bool 0 y) eqn:EY.
      * apply Qfloor_resp_le. exact H.
      * apply Qle_bool_iff in EX. assert (~ 0 <= y) by (intro C; apply Qle_bool_iff in C; congruence). lra.
      * apply Qle_bool_iff in EY. assert (~ 0 <= x) as NX by (intro C; apply Qle_bool_iff in C; congruence).
        apply Z.le_trans with 0%Z.
        -- change (Qceiling x) with (rint RUP x). apply rint_int_le. change (inject_Z 0) with 0. lra.
        -- change (Qfloor y) with (rint RDN y). apply rint_int_ge. exact EY.
      * apply Qceiling_resp_le. exact H.
Qed.

(* ---- logarithm ---- *)
Lemma qlog2_spec : forall x, 0 < x -> p2 (qlog2 x) <= x /\ x < p2 (qlog2 x + 1).
Proof.
  intros [a b] H. assert (Ha: (0 < a)%Z) by (unfold Qlt in H; cbn in H; lia).
  set (u := Z.log2 a). set (v := Z.log2 (Zpos b)).
  pose proof (Z.log2_spec a Ha) as [A1 A2]. fold u in A1, A2.
  pose proof (Z.log2_spec (Zpos b) ltac:(lia)) as [B1 B2]. fold v in B1, B2.
  assert (Hu: (0 <= u)%Z) by apply Z.log2_nonneg. assert (Hv: (0 <= v)%Z) by apply Z.log2_nonneg.
  assert (QA1: p2 u <= inject_Z a) by (rewrite p2_Z by lia; apply injZ_le; exact A1).
  assert (QA2: inject_Z a < p2 (u + 1)) by (rewrite p2_Z by lia; rewrite <- Zlt_Qlt; exact A2).
  assert (QB1: p2 v <= inject_Z (Zpos b)) by (rewrite p2_Z by lia; apply injZ_le; exact B1).
  assert (QB2: inject_Z (Zpos b) < p2 (v + 1)) by (rewrite p2_Z by lia; rewrite <- Zlt_Qlt; exact B2).
  assert (EX: (a # b) * inject_Z (Zpos b) == inject_Z a) by (unfold Qeq, Qmult, inject_Z; cbn; lia).
  set (x := a # b) in *. set (bq := inject_Z (Zpos b)) in *.
  assert (LO: p2 (u - v - 1) < x).
  { assert (K: p2 (u - v - 1) * p2 (v + 1) == p2 u) by (rewrite <- p2_add; replace (u - v - 1 + (v + 1))%Z with u by lia; reflexivity).
    pose proof (p2_pos (u - v - 1)). pose proof (p2_pos (v + 1)). nra. }
  assert (HI: x < p2 (u - v + 1)).
  { assert (K: p2 (u - v + 1) * p2 v == p2 (u + 1)) by (rewrite <- p2_add; replace (u - v + 1 + v)%Z with (u + 1)%Z by lia; reflexivity).
    pose proof (p2_pos (u - v + 1)). pose proof (p2_pos v). nra. }
  assert (QE: qlog2 x = if Qle_bool (p2 (u - v)) x then (u - v)%Z else (u - v - 1)%Z) by reflexivity.
  rewrite QE. clear QE. destruct (Qle_bool (p2 (u - v)) x) eqn:EL.
  - apply Qle_bool_iff in EL. split; [exact EL|exact HI].
  - assert (~ p2 (u - v) <= x) by (intro C; apply Qle_bool_iff in C; congruence).
    split; [apply Qlt_le_weak; exact LO|]. replace (u - v - 1 + 1)%Z with (u - v)%Z by lia. lra.
Qed.

Lemma qlog2_mono : forall x y, 0 < x -> x <= y -> (qlog2 x <= qlog2 y)%Z.
Proof.
  intros x y Hx Hxy. pose proof (qlog2_spec x Hx) as [A1 A2]. pose proof (qlog2_spec y ltac:(lra)) as [B1 B2].
  assert (p2 (qlog2 x) < p2 (qlog2 y + 1)) as L by lra. apply p2_lt_inv in L. lia.
Qed.

(* ---- rounding ---- *)
Section R.
Variables (f : fmt) (md : rmode).
Hypothesis Hf : fmt_ok f.
Local Notation P := (prec f).
Local Notation rnd := (fround f md).

Definition mant (x : Q) : Z := rint md (x / p2 (fexp f x)).

Lemma rnd_eq : forall x, rnd x == inject_Z (mant x) * p2 (fexp f x).
Proof using. intro x. unfold fround. rewrite Qred_correct. reflexivity. Qed.

Lemma fexp_emin : forall x, (emin f <= fexp f x)%Z.
Proof using. intro x. unfold fexp. destruct (Qeq_bool x 0); lia. Qed.

Lemma fexp_nz : forall x, ~ x == 0 -> fexp f x = Z.max (emin f) (qlog2 (Qabs x) - P + 1).
Proof using.
  intros x H. unfold fexp. destruct (Qeq_bool x 0) eqn:E; [|reflexivity].
  apply Qeq_bool_eq in E. contradiction.
Qed.

Lemma abs_pos : forall x, ~ x == 0 -> 0 < Qabs x.
Proof using. intros x H. apply Qabs_case; intro; [|]; lra. Qed.

Lemma fexp_upper : forall x, Qabs x < p2 (fexp f x + P).
Proof using.
  intro x. destruct (Qeq_dec x 0) as [E|E].
  - apply Qle_lt_trans with 0; [|apply p2_pos]. apply Qabs_Qle_condition. lra.
  - rewrite fexp_nz by exact E. pose proof (qlog2_spec _ (abs_pos x E)) as [_ H].
    eapply Qlt_le_trans; [exact H|]. apply p2_le. lia.
Qed.

Lemma fexp_lower : forall x, fexp f x <> emin f -> p2 (fexp f x + P - 1) <= Qabs x.
Proof using.
  intros x H. destruct (Qeq_dec x 0) as [E|E].
  - exfalso. apply H. unfold fexp. apply Qeq_eq_bool in E. rewrite E. reflexivity.
  - rewrite fexp_nz in * by exact E. pose proof (qlog2_spec _ (abs_pos x E)) as [H1 _].
    eapply Qle_trans; [|exact H1]. apply p2_le. lia.
Qed.

Lemma abs_ge : forall x, x <= Qabs x /\ - x <= Qabs x.
Proof using. intro x. split; [apply Qle_Qabs|]. rewrite <- Qabs_opp. apply Qle_Qabs. Qed.

Lemma scaled_bounds : forall x, - inject_Z (2 ^ P) <= x / p2 (fexp f x) <= inject_Z (2 ^ P).
Proof using Hf.
  intro x. destruct Hf as [HP _]. pose proof (fexp_upper x) as H. rewrite p2_add, (p2_Z P) in H by lia.
  pose proof (abs_ge x) as [AX1 AX2]. pose proof (p2_pos (fexp f x)) as HS0.
  assert (E: x == x / p2 (fexp f x) * p2 (fexp f x)) by (field; apply p2_nz).
  set (y := x / p2 (fexp f x)) in *. set (s := p2 (fexp f x)) in *. set (M := inject_Z (2 ^ P)) in *.
  split; apply Qnot_lt_le; intro C; nra.
Qed.

Lemma mant_bounds : forall x, (Z.abs (mant x) <= 2 ^ P)%Z.
Proof using Hf.
  intro x. destruct (scaled_bounds x) as [L U]. unfold mant. apply Z.abs_le. split.
  - apply rint_int_ge. rewrite inject_Z_opp. exact L.
  - apply rint_int_le. exact U.
Qed.

Lemma rnd_repr : forall x, representable f (rnd x).
Proof using Hf.
  intro x. exists (mant x), (fexp f x). split; [apply fexp_emin|]. split; [apply mant_bounds|apply rnd_eq].
Qed.

Lemma mul_le_compat : forall a b s, 0 < s -> a <= b -> a * s <= b * s.
Proof using. intros. apply Qmult_le_compat_r; lra. Qed.

(* sign *)
Lemma rnd_nonneg : forall x, 0 <= x -> 0 <= rnd x.
Proof using.
  intros x H. rewrite rnd_eq. pose proof (p2_pos (fexp f x)).
  assert (0 <= x / p2 (fexp f x)) as H1 by (apply Qle_shift_div_l; lra).
  pose proof (rint_int_ge md (x / p2 (fexp f x)) 0 H1) as H2. fold (mant x) in H2.
  apply injZ_le in H2. change (inject_Z 0) with 0 in H2. nra.
Qed.
Lemma rnd_nonpos : forall x, x <= 0 -> rnd x <= 0.
Proof using.
  intros x H. rewrite rnd_eq. pose proof (p2_pos (fexp f x)).
  assert (x / p2 (fexp f x) <= 0) as H1 by (apply Qle_shift_div_r; lra).
  pose proof (rint_int_le md (x / p2 (fexp f x)) 0 H1) as H2. fold (mant x) in H2.
  apply injZ_le in H2. change (inject_Z 0) with 0 in H2. nra.
Qed.

Lemma same_exp : forall x y, x <= y -> fexp f x = fexp f y -> rnd x <= rnd y.
Proof using.
  intros x y H E. rewrite !rnd_eq. unfold mant. rewrite <- E. pose proof (p2_pos (fexp f x)) as HS.
  apply mul_le_compat; [exact HS|]. apply injZ_le. apply rint_mono.
  unfold Qdiv. apply Qmult_le_compat_r; [exact H|]. apply Qlt_le_weak, Qinv_lt_0_compat. exact HS.
Qed.

Lemma rnd_upper : forall x, Qabs (rnd x) <= p2 (fexp f x + P).
Proof using Hf.
  intro x. rewrite rnd_eq. destruct Hf as [HP _]. rewrite p2_add, (p2_Z P) by lia.
  pose proof (mant_bounds x) as M. pose proof (p2_pos (fexp f x)) as HS.
  rewrite Qabs_Qmult. rewrite (Qabs_pos (p2 _)) by lra. rewrite Qmult_comm.
  apply Qmult_le_l; [exact HS|].
  change (Qabs (inject_Z (mant x))) with (inject_Z (Z.abs (mant x))). apply injZ_le. exact M.
Qed.

Lemma fexp_mono_pos : forall x y, 0 < x -> x <= y -> (fexp f x <= fexp f y)%Z.
Proof using.
  intros x y Hx Hy. rewrite !fexp_nz by lra. pose proof (Qabs_pos x ltac:(lra)). pose proof (Qabs_pos y ltac:(lra)).
  pose proof (qlog2_mono (Qabs x) (Qabs y) ltac:(lra) ltac:(lra)). lia.
Qed.
Lemma fexp_mono_neg : forall x y, x <= y -> y < 0 -> (fexp f y <= fexp f x)%Z.
Proof using.
  intros x y Hx Hy. rewrite !fexp_nz by lra. pose proof (Qabs_neg x ltac:(lra)). pose proof (Qabs_neg y ltac:(lra)).
  pose proof (qlog2_mono (Qabs y) (Qabs x) ltac:(lra) ltac:(lra)). lia.
Qed.

Lemma rnd_lower_pos : forall x, 0 < x -> fexp f x <> emin f -> p2 (fexp f x + P - 1) <= rnd x.
Proof using Hf.
  intros x Hx HE. destruct Hf as [HP _]. pose proof (fexp_lower x HE) as H. rewrite Qabs_pos in H by lra.
  rewrite rnd_eq. replace (fexp f x + P - 1)%Z with (fexp f x + (P - 1))%Z in * by lia.
  rewrite p2_add in *. pose proof (p2_pos (fexp f x)) as HS.
  rewrite Qmult_comm. apply mul_le_compat; [exact HS|].
  rewrite p2_Z by lia. apply injZ_le. apply rint_int_ge. rewrite <- p2_Z by lia.
  apply Qle_shift_div_l; [exact HS|]. rewrite Qmult_comm. exact H.
Qed.
Lemma rnd_lower_neg : forall x, x < 0 -> fexp f x <> emin f -> rnd x <= - p2 (fexp f x + P - 1).
Proof using Hf.
  intros x Hx HE. destruct Hf as [HP _]. pose proof (fexp_lower x HE) as H. rewrite Qabs_neg in H by lra.
  rewrite rnd_eq. replace (fexp f x + P - 1)%Z with (fexp f x + (P - 1))%Z in * by lia.
  rewrite p2_add in *. pose proof (p2_pos (fexp f x)) as HS.
  setoid_replace (- (p2 (fexp f x) * p2 (P - 1))) with ((- p2 (P - 1)) * p2 (fexp f x)) by ring.
  apply mul_le_compat; [exact HS|].
  rewrite p2_Z by lia. rewrite <- inject_Z_opp. apply injZ_le. apply rint_int_le. rewrite inject_Z_opp. rewrite <- p2_Z by lia.
  apply Qle_shift_div_r; [exact HS|]. lra.
Qed.

Theorem rnd_mono : forall x y, x <= y -> rnd x <= rnd y.
Proof using Hf.
  intros x y H. destruct (Qlt_le_dec 0 x) as [Hx|Hx].
  - destruct (Z.eq_dec (fexp f x) (fexp f y)) as [E|E]; [apply same_exp; assumption|].
    pose proof (fexp_mono_pos x y Hx H) as M. pose proof (fexp_emin x).
    pose proof (rnd_upper x) as U. pose proof (abs_ge (rnd x)) as [U' _].
    pose proof (rnd_lower_pos y ltac:(lra) ltac:(lia)) as L.
    assert (p2 (fexp f x + P) <= p2 (fexp f y + P - 1)) by (apply p2_le; lia). lra.
  - destruct (Qlt_le_dec y 0) as [Hy|Hy].
    + destruct (Z.eq_dec (fexp f x) (fexp f y)) as [E|E]; [apply same_exp; assumption|].
      pose proof (fexp_mono_neg x y H Hy) as M. pose proof (fexp_emin y).
      pose proof (rnd_upper y) as U. pose proof (abs_ge (rnd y)) as [_ U'].
      pose proof (rnd_lower_neg x ltac:(lra) ltac:(lia)) as L.
      assert (p2 (fexp f y + P) <= p2 (fexp f x + P - 1)) by (apply p2_le; lia). lra.
    + pose proof (rnd_nonpos x Hx). pose proof (rnd_nonneg y Hy). lra.
Qed.

Lemma rnd_compat : forall x y, x == y -> rnd x == rnd y.
Proof using Hf. intros x y E. apply Qle_antisym; apply rnd_mono; lra. Qed.

Theorem rnd_fix : forall x, representable f x -> rnd x == x.
Proof using Hf.
  intros x (m & e & He & Hm & Ex). destruct Hf as [HP _].
  destruct (Z.eq_dec m 0) as [->|Hm0].
  { assert (Z0: x == 0) by (rewrite Ex; change (inject_Z 0) with 0; ring).
    pose proof (rnd_nonneg x ltac:(lra)). pose proof (rnd_nonpos x ltac:(lra)). lra. }
  pose proof (p2_pos e) as He0.
  assert (Hx0: ~ x == 0).
  { rewrite Ex. intro C. apply Qmult_integral in C. destruct C as [C|C]; [|lra].
    apply Hm0. apply (proj1 (inject_Z_injective m 0)). exact C. }
  (* x is a multiple of 2^fexp: 2^fexp <= 2^e, or |m| = 2^P *)
  assert (HD: exists k, x == inject_Z k * p2 (fexp f x)).
  { destruct (Z.le_gt_cases (fexp f x) e) as [L|L].
    - exists (m * 2 ^ (e - fexp f x))%Z. rewrite inject_Z_mult, <- p2_Z by lia. rewrite <- Qmult_assoc, <- p2_add.
      replace (e - fexp f x + fexp f x)%Z with e by lia. exact Ex.
    - assert (HN: fexp f x <> emin f) by lia. pose proof (fexp_lower x HN) as LB.
      assert (AX: Qabs x == inject_Z (Z.abs m) * p2 e).
      { rewrite Ex, Qabs_Qmult. rewrite (Qabs_pos (p2 e)) by lra. reflexivity. }
      assert (UB: Qabs x <= p2 (P + e)).
      { rewrite AX, p2_add, (p2_Z P) by lia. apply mul_le_compat; [exact He0|]. apply injZ_le. exact Hm. }
      assert (p2 (fexp f x + P - 1) <= p2 (P + e)) as LE by lra.
      assert (fexp f x = e + 1)%Z as EE.
      { destruct (Z.eq_dec (fexp f x) (e + 1)) as [E|E]; [exact E|].
        assert (p2 (P + e) < p2 (fexp f x + P - 1)) by (apply p2_lt; lia). lra. }
      assert (AM: Z.abs m = (2 ^ P)%Z).
      { apply Z.le_antisymm; [exact Hm|]. rewrite Zle_Qle. rewrite <- p2_Z by lia.
        rewrite EE in LB. replace (e + 1 + P - 1)%Z with (P + e)%Z in LB by lia. rewrite p2_add, AX in LB. 
        apply Qmult_lt_0_le_reg_r with (p2 e); [exact He0|exact LB]. }
      exists (Z.sgn m * 2 ^ (P - 1))%Z. rewrite EE, Z.add_comm, p2_add. rewrite inject_Z_mult, <- p2_Z by lia.
      assert (EM: inject_Z m == p2 (P - 1) * p2 1 * inject_Z (Z.sgn m)).
      { rewrite <- p2_add. replace (P - 1 + 1)%Z with P by lia. rewrite p2_Z by lia. rewrite <- inject_Z_mult.
        rewrite <- AM, Z.abs_sgn. reflexivity. }
      rewrite Ex, EM. ring. }
  destruct HD as (k & Hk). rewrite rnd_eq. unfold mant. rewrite (rint_Z md _ k); [symmetry; exact Hk|].
  rewrite Hk at 1. field. apply p2_nz.
Qed.

Lemma rnd_idem : forall x, rnd (rnd x) == rnd x.
Proof using Hf. intro x. apply rnd_fix, rnd_repr. Qed.

(* integers up to 2^P, powers of two *)
Lemma repr_Z : forall z, (Z.abs z <= 2 ^ P)%Z -> representable f (inject_Z z).
Proof using Hf.
  intros z Hz. destruct Hf as [H1 H2]. exists z, 0%Z. split; [lia|]. split; [exact Hz|].
  rewrite p2_0. ring.
Qed.
Lemma repr_p2 : forall e, (emin f <= e)%Z -> representable f (p2 e).
Proof using Hf.
  intros e He. destruct Hf as [H1 H2]. exists 1%Z, e. split; [exact He|]. split.
  - change (Z.abs 1) with (2 ^ 0)%Z. apply Z.pow_le_mono_r; lia.
  - change (inject_Z 1) with 1. ring.
Qed.
Lemma repr_0 : representable f 0.
Proof using Hf. apply (repr_Z 0). cbn [Z.abs]. apply Z.pow_nonneg. lia. Qed.
Lemma repr_1 : representable f 1.
Proof using Hf. apply (repr_Z 1). change (Z.abs 1) with (2 ^ 0)%Z. destruct Hf. apply Z.pow_le_mono_r; lia. Qed.
Lemma repr_scale : forall x k, representable f x -> (0 <= k)%Z -> representable f (x * p2 k).
Proof using.
  intros x k (m & e & He & Hm & Ex) Hk. exists m, (e + k)%Z. split; [lia|]. split; [exact Hm|].
  rewrite Ex, p2_add. ring.
Qed.

(* ---- error ---- *)
Lemma rnd_err : forall x, x - p2 (fexp f x) < rnd x /\ rnd x < x + p2 (fexp f x).
Proof using.
  intro x. rewrite rnd_eq. pose proof (p2_pos (fexp f x)) as HS. unfold mant.
  assert (Ex: x == x / p2 (fexp f x) * p2 (fexp f x)) by (field; apply p2_nz).
  destruct (rint_bounds md (x / p2 (fexp f x))) as [B1 B2].
  set (y := x / p2 (fexp f x)) in *. set (s := p2 (fexp f x)) in *. set (m := inject_Z (rint md y)) in *.
  clearbody y s m. split; nra.
Qed.

(* numbers in the normal range *)
Lemma ulp_rel : forall x, p2 (emin f + P - 1) <= x -> p2 (fexp f x) <= x * p2 (1 - P).
Proof using.
  intros x H. pose proof (p2_pos (1 - P)) as HE. pose proof (p2_pos (emin f + P - 1)) as HX.
  assert (HA: Qabs x == x) by (apply Qabs_pos; lra).
  destruct (Z.eq_dec (fexp f x) (emin f)) as [E|E].
  - rewrite E. assert (K: p2 (emin f) == p2 (emin f + P - 1) * p2 (1 - P)).
    { rewrite <- p2_add. replace (emin f + P - 1 + (1 - P))%Z with (emin f) by lia. reflexivity. }
    rewrite K. apply mul_le_compat; assumption.
  - pose proof (fexp_lower x E) as L. rewrite HA in L.
    assert (K: p2 (fexp f x) == p2 (fexp f x + P - 1) * p2 (1 - P)).
    { rewrite <- p2_add. replace (fexp f x + P - 1 + (1 - P))%Z with (fexp f x) by lia. reflexivity. }
    rewrite K. apply mul_le_compat; assumption.
Qed.

Lemma ulp_small : forall x, 0 <= x -> x < p2 (emin f + P - 1) -> p2 (fexp f x) == p2 (emin f).
Proof using.
  intros x H0 H. destruct (Z.eq_dec (fexp f x) (emin f)) as [E|E]; [rewrite E; reflexivity|].
  pose proof (fexp_lower x E) as L. rewrite Qabs_pos in L by exact H0. pose proof (fexp_emin x).
  assert (p2 (emin f + P - 1) <= p2 (fexp f x + P - 1)) by (apply p2_le; lia). lra.
Qed.

(* relative error, with an absolute part below the normal range *)
Lemma ulp_gen : forall x, 0 <= x -> p2 (fexp f x) <= x * p2 (1 - P) + p2 (emin f).
Proof using.
  intros x H. pose proof (p2_pos (1 - P)). pose proof (p2_pos (emin f)).
  destruct (Qlt_le_dec x (p2 (emin f + P - 1))) as [L|L].
  - rewrite ulp_small by assumption. nra.
  - pose proof (ulp_rel x L). lra.
Qed.

(* a nonzero number of the format is at least the least one *)
Lemma repr_least : forall x, representable f x -> 0 < x -> p2 (emin f) <= x.
Proof using.
  intros x (m & e & He & Hm & Ex) Hx. pose proof (p2_pos e).
  assert ((0 < m)%Z). { rewrite Zlt_Qlt. change (inject_Z 0) with 0. apply Qnot_le_lt. intro C. nra. }
  assert (L: (1 <= m)%Z) by lia. apply injZ_le in L. change (inject_Z 1) with 1 in L.
  pose proof (p2_le _ _ He). nra.
Qed.

Lemma repr_rnd_ge : forall x y, representable f x -> x <= y -> x <= rnd y.
Proof using Hf. intros x y Hx H. rewrite <- (rnd_fix x Hx). apply rnd_mono. exact H. Qed.
Lemma repr_rnd_le : forall x y, representable f y -> x <= y -> rnd x <= y.
Proof using Hf. intros x y Hy H. rewrite <- (rnd_fix y Hy). apply rnd_mono. exact H. Qed.
Lemma repr_compat : forall x y, x == y -> representable f x -> representable f y.
Proof using. intros x y E (m & e & H1 & H2 & H3). exists m, e. split; [exact H1|]. split; [exact H2|]. rewrite <- E. exact H3. Qed.
End R.

(* to nearest: half a unit *)
Lemma rint_half : forall x, x - (1 # 2) <= inject_Z (rint RNE x) /\ inject_Z (rint RNE x) <= x + (1 # 2).
Proof.
  intro x. pose proof (floor_bounds x). cbn [rint].
  destruct (Qcompare_spec (x - inject_Z (Qfloor x)) (1 # 2)); [destruct (Z.even (Qfloor x))| |];
    rewrite ?inject_Z_plus; change (inject_Z 1) with 1; lra.
Qed.
Lemma rnd_err_half : forall f x,
  x - p2 (fexp f x) / 2 <= fround f RNE x /\ fround f RNE x <= x + p2 (fexp f x) / 2.
Proof.
  intros f x. rewrite rnd_eq. pose proof (p2_pos (fexp f x)) as HS. unfold mant.
  assert (Ex: x == x / p2 (fexp f x) * p2 (fexp f x)) by (field; apply p2_nz).
  destruct (rint_half (x / p2 (fexp f x))) as [B1 B2].
  set (y := x / p2 (fexp f x)) in *. set (s := p2 (fexp f x)) in *. set (m := inject_Z (rint RNE y)) in *.
  clearbody y s m. unfold Qdiv. change (/ 2) with (1 # 2). split; nra.
Qed.
