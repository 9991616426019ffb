(* The curves of the ziggurats against their tangents and chords. *)
From Coq Require Import Reals Lra.
From Verif Require Import ZigSpec RExpProofs StirProofs.
Open Scope R_scope.

(* ln (1+s) - s + s^2/2 increases *)
Lemma ln1p_lim : forall s, -1 < s -> derivable_pt_lim (fun s => ln (1 + s)) s (/ (1 + s)).
Proof.
  intros s Hs. pose proof (derivable_pt_lim_plus (fct_cte 1) id s 0 1 (derivable_pt_lim_const 1 s) (derivable_pt_lim_id s)) as A.
  pose proof (derivable_pt_lim_comp _ _ _ _ _ A (derivable_pt_lim_ln (1 + s) ltac:(lra))) as C.
  replace (/ (1 + s)) with (/ (1 + s) * (0 + 1)) by ring. exact C.
Qed.
Lemma sq_lim : forall s, derivable_pt_lim (fun s => s * s) s (2 * s).
Proof. intro s. pose proof (derivable_pt_lim_mult id id s 1 1 (derivable_pt_lim_id s) (derivable_pt_lim_id s)) as A. replace (2 * s) with (1 * id s + id s * 1) by (unfold id; ring). exact A. Qed.
Lemma q2_lim : forall s, -1 < s -> derivable_pt_lim (fun s => ln (1 + s) - s + / 2 * (s * s)) s (/ (1 + s) - 1 + / 2 * (2 * s)).
Proof.
  intros s Hs. apply (derivable_pt_lim_plus (fun s => ln (1 + s) - s) (fun s => / 2 * (s * s))).
  - apply (derivable_pt_lim_minus (fun s => ln (1 + s)) id); [apply ln1p_lim; exact Hs|apply derivable_pt_lim_id].
  - apply (derivable_pt_lim_scal (fun s => s * s)). apply sq_lim.
Qed.
Lemma q2_pos : forall s, -1 < s -> 0 <= / (1 + s) - 1 + / 2 * (2 * s).
Proof.
  intros s Hs. replace (/ (1 + s) - 1 + / 2 * (2 * s)) with (s * s / (1 + s)) by (field; lra).
  apply Rmult_le_pos; [apply Rle_0_sqr|]. left. apply Rinv_0_lt_compat. lra.
Qed.
Lemma ln1p_ge : forall s, 0 <= s -> s - s * s / 2 <= ln (1 + s).
Proof.
  intros s Hs. pose proof (inc_0 (fun s => ln (1 + s) - s + / 2 * (s * s)) (fun s => / (1 + s) - 1 + / 2 * (2 * s)) s
    ltac:(intros; apply q2_lim; lra) ltac:(intros; apply q2_pos; lra) ltac:(cbv beta; rewrite Rplus_0_r, ln_1; ring) s ltac:(lra)) as H. cbv beta in H. lra.
Qed.
Lemma ln1p_le : forall s, 0 <= s < 1 -> ln (1 - s) <= - s - s * s / 2.
Proof.
  intros s Hs. destruct (Req_dec s 0) as [->|N]; [rewrite Rminus_0_r, ln_1; lra|].
  destruct (MVT_cor2 (fun s => ln (1 + s) - s + / 2 * (s * s)) (fun s => / (1 + s) - 1 + / 2 * (2 * s)) (- s) 0) as (c & Hc & C1 & C2); [lra|intros c Hc; apply q2_lim; lra|].
  cbv beta in Hc. rewrite Rplus_0_r, ln_1 in Hc. pose proof (q2_pos c ltac:(lra)) as P.
  assert (0 <= (/ (1 + c) - 1 + / 2 * (2 * c)) * (0 - - s)) by (apply Rmult_le_pos; lra). replace (1 + - s) with (1 - s) in Hc by ring. lra.
Qed.
(* ln (1+s) <= s - s^2 / (2 (1+s)) *)
Lemma ln1p_up : forall s, 0 <= s -> ln (1 + s) <= s - s * s / (2 * (1 + s)).
Proof.
  intros s Hs. set (h := fun s => / 2 * (1 + s) - / 2 * / (1 + s) - ln (1 + s)).
  assert (L1: forall s, derivable_pt_lim (fun s => 1 + s) s 1).
  { intro t. pose proof (derivable_pt_lim_plus (fct_cte 1) id t 0 1 (derivable_pt_lim_const 1 t) (derivable_pt_lim_id t)) as A. rewrite Rplus_0_l in A. exact A. }
  assert (L2: forall s, 0 <= s -> derivable_pt_lim h s (/ 2 * 1 - / 2 * (- 1 / Rsqr (1 + s)) - / (1 + s))).
  { intros t Ht. unfold h. apply (derivable_pt_lim_minus (fun s => / 2 * (1 + s) - / 2 * / (1 + s)) (fun s => ln (1 + s))); [|apply ln1p_lim; lra].
    apply (derivable_pt_lim_minus (fun s => / 2 * (1 + s)) (fun s => / 2 * / (1 + s))); [apply (derivable_pt_lim_scal (fun s => 1 + s)); apply L1|].
    apply (derivable_pt_lim_scal (fun s => / (1 + s))).
    pose proof (derivable_pt_lim_div (fct_cte 1) (fun s => 1 + s) t 0 1 (derivable_pt_lim_const 1 t) (L1 t) ltac:(cbv beta; lra)) as D.
    cbv beta in D. replace ((0 * (1 + t) - 1 * fct_cte 1 t) / Rsqr (1 + t)) with (-1 / Rsqr (1 + t)) in D by (unfold fct_cte, Rsqr; field; lra).
    intros e E. destruct (D e E) as [d Hd]. exists d. intros k K0 K1. specialize (Hd k K0 K1). unfold div_fct, fct_cte, Rdiv in *. rewrite !Rmult_1_l in Hd. exact Hd. }
  pose proof (inc_0 h (fun s => / 2 * 1 - / 2 * (- 1 / Rsqr (1 + s)) - / (1 + s)) s ltac:(intros; apply L2; lra)) as H.
  assert (P: forall y, 0 <= y <= s -> 0 <= / 2 * 1 - / 2 * (- 1 / Rsqr (1 + y)) - / (1 + y)).
  { intros y Hy. replace (/ 2 * 1 - / 2 * (- 1 / Rsqr (1 + y)) - / (1 + y)) with (/ 2 * Rsqr (y / (1 + y))) by (unfold Rsqr; field; lra). apply Rmult_le_pos; [lra|apply Rle_0_sqr]. }
  specialize (H P ltac:(unfold h; rewrite Rplus_0_r, ln_1; field) s ltac:(lra)). unfold h in H.
  replace (s - s * s / (2 * (1 + s))) with (/ 2 * (1 + s) - / 2 * / (1 + s)) by (field; lra). lra.
Qed.

Lemma exp_ge_ln : forall y q, 0 < y -> ln y <= q -> y <= exp q.
Proof. intros y q Y H. rewrite <- (exp_ln y Y). destruct H as [H|H]; [left; apply exp_increasing; exact H|rewrite H; right; reflexivity]. Qed.
Lemma exp_le_ln : forall y q, 0 < y -> q <= ln y -> exp q <= y.
Proof. intros y q Y H. rewrite <- (exp_ln y Y). destruct H as [H|H]; [left; apply exp_increasing; exact H|rewrite H; right; reflexivity]. Qed.

(* the tangent at a of the normal curve *)
Lemma fnorm_shift : forall a b, fnorm b = fnorm a * exp (- (a * (b - a)) - (b - a) * (b - a) / 2).
Proof. intros a b. unfold fnorm. rewrite <- exp_plus. f_equal. field. Qed.
Lemma fnorm_pos : forall a, 0 < fnorm a.
Proof. intro a. apply exp_pos. Qed.
Lemma tan_convex : forall a b, 1 <= a -> 0 <= b -> 1 <= a * b -> fnorm a * (1 - a * (b - a)) <= fnorm b.
Proof.
  intros a b A B AB. rewrite (fnorm_shift a b). apply Rmult_le_compat_l; [left; apply fnorm_pos|]. set (t := b - a).
  destruct (Rle_dec (1 - a * t) 0) as [N|N]; [pose proof (exp_pos (- (a * t) - t * t / 2)); lra|]. apply exp_ge_ln; [lra|].
  destruct (Rle_dec 0 t) as [T|T].
  - assert (0 <= a * t) by (apply Rmult_le_pos; lra). pose proof (ln1p_le (a * t) ltac:(lra)) as H1.
    assert (a * t * (a * t) >= t * t). { assert (t <= a * t) by (rewrite <- (Rmult_1_l t) at 1; apply Rmult_le_compat_r; lra). apply Rle_ge, Rmult_le_compat; lra. } lra.
  - set (s := - (a * t)). assert (S: 0 <= s). { unfold s. replace (- (a * t)) with (a * - t) by ring. apply Rmult_le_pos; lra. }
    replace (1 - a * t) with (1 + s) by (unfold s; ring). pose proof (ln1p_up s S) as H. replace (- (a * t)) with s by reflexivity.
    assert (t * t / 2 <= s * s / (2 * (1 + s))).
    { apply Rmult_le_reg_r with (2 * (1 + s)); [lra|]. replace (s * s / (2 * (1 + s)) * (2 * (1 + s))) with (s * s) by (field; lra).
      replace (t * t / 2 * (2 * (1 + s))) with (t * t * (1 + s)) by field. replace (s * s) with (t * t * (a * a)) by (unfold s; ring).
      apply Rmult_le_compat_l; [apply Rle_0_sqr|]. unfold s, t. lra. } lra.
Qed.
Lemma tan_concave : forall a b, 0 <= a <= 1 -> 0 <= b -> a * b <= 1 -> a * (b - a) < 1 -> fnorm b <= fnorm a * (1 - a * (b - a)).
Proof.
  intros a b A B AB N. rewrite (fnorm_shift a b). apply Rmult_le_compat_l; [left; apply fnorm_pos|]. set (t := b - a) in *.
  apply exp_le_ln; [lra|]. destruct (Rle_dec 0 t) as [T|T].
  - set (s := a * t) in *. assert (S: 0 <= s) by (apply Rmult_le_pos; lra). assert (P: 0 < 1 - s) by lra.
    assert (H: - ln (1 - s) <= s + s * s / (2 * (1 - s))).
    { rewrite <- ln_Rinv by exact P. replace (/ (1 - s)) with (1 + s / (1 - s)) by (field; lra).
      pose proof (ln1p_up (s / (1 - s)) ltac:(apply Rmult_le_pos; [exact S|left; apply Rinv_0_lt_compat; exact P])) as H.
      replace (s / (1 - s) - s / (1 - s) * (s / (1 - s)) / (2 * (1 + s / (1 - s)))) with (s + s * s / (2 * (1 - s))) in H; [exact H|]. field. split; [|lra]. replace (1 - s + s) with 1 by ring. lra. }
    assert (s * s / (2 * (1 - s)) <= t * t / 2).
    { apply Rmult_le_reg_r with (2 * (1 - s)); [lra|]. replace (s * s / (2 * (1 - s)) * (2 * (1 - s))) with (s * s) by (field; lra).
      replace (t * t / 2 * (2 * (1 - s))) with (t * t * (1 - s)) by field. replace (s * s) with (t * t * (a * a)) by (unfold s; ring).
      apply Rmult_le_compat_l; [apply Rle_0_sqr|]. unfold s, t. lra. } lra.
  - set (s := - (a * t)). assert (S: 0 <= s). { unfold s. replace (- (a * t)) with (a * - t) by ring. apply Rmult_le_pos; lra. }
    replace (1 - a * t) with (1 + s) by (unfold s; ring). pose proof (ln1p_ge s S) as H. replace (- (a * t)) with s by reflexivity.
    assert (s * s <= t * t). { replace (s * s) with (t * t * (a * a)) by (unfold s; ring). rewrite <- (Rmult_1_r (t * t)) at 2. apply Rmult_le_compat_l; [apply Rle_0_sqr|]. replace 1 with (1 * 1) by ring. apply Rmult_le_compat; lra. } lra.
Qed.

(* if F is above its tangent at x in a and b, then F x is below the chord *)
Lemma chord_of : forall (F0 Fa Fb D a b x : R), b < a -> b <= x -> x <= a -> F0 + D * (a - x) <= Fa -> F0 + D * (b - x) <= Fb ->
  F0 <= Fa + (a - x) * ((Fb - Fa) / (a - b)).
Proof.
  intros F0 Fa Fb D a b x AB B A H1 H2. apply Rmult_le_reg_r with (a - b); [lra|].
  replace ((Fa + (a - x) * ((Fb - Fa) / (a - b))) * (a - b)) with (Fa * (x - b) + Fb * (a - x)) by (field; lra).
  pose proof (Rmult_le_compat_r (x - b) _ _ ltac:(lra) H1). pose proof (Rmult_le_compat_r (a - x) _ _ ltac:(lra) H2). lra.
Qed.
Lemma chord_of_ge : forall (F0 Fa Fb D a b x : R), b < a -> b <= x -> x <= a -> Fa <= F0 + D * (a - x) -> Fb <= F0 + D * (b - x) ->
  Fa + (a - x) * ((Fb - Fa) / (a - b)) <= F0.
Proof.
  intros F0 Fa Fb D a b x AB B A H1 H2. apply Rmult_le_reg_r with (a - b); [lra|].
  replace ((Fa + (a - x) * ((Fb - Fa) / (a - b))) * (a - b)) with (Fa * (x - b) + Fb * (a - x)) by (field; lra).
  pose proof (Rmult_le_compat_r (x - b) _ _ ltac:(lra) H1). pose proof (Rmult_le_compat_r (a - x) _ _ ltac:(lra) H2). lra.
Qed.

(* exponential *)
Lemma etan : forall a b, fexp1 a * (1 - (b - a)) <= fexp1 b.
Proof.
  intros a b. unfold fexp1. replace (- b) with (- a + (a - b)) by ring. rewrite exp_plus. apply Rmult_le_compat_l; [left; apply exp_pos|].
  pose proof (exp_ineq1_le (a - b)). lra.
Qed.
Lemma echord : forall a b x, b < a -> b <= x -> x <= a -> fexp1 x <= fexp1 a + (a - x) * ((fexp1 b - fexp1 a) / (a - b)).
Proof.
  intros a b x AB B A. apply (chord_of (fexp1 x) (fexp1 a) (fexp1 b) (- fexp1 x) a b x AB B A).
  - pose proof (etan x a). lra.
  - pose proof (etan x b). lra.
Qed.
(* normal *)
Lemma nchord_convex : forall a b x, 1 <= b -> b < a -> b <= x -> x <= a -> fnorm x <= fnorm a + (a - x) * ((fnorm b - fnorm a) / (a - b)).
Proof.
  intros a b x B0 AB B A. apply (chord_of (fnorm x) (fnorm a) (fnorm b) (- (x * fnorm x)) a b x AB B A).
  - pose proof (tan_convex x a ltac:(lra) ltac:(lra) ltac:(replace 1 with (1 * 1) by ring; apply Rmult_le_compat; lra)). lra.
  - pose proof (tan_convex x b ltac:(lra) ltac:(lra) ltac:(replace 1 with (1 * 1) by ring; apply Rmult_le_compat; lra)). lra.
Qed.
Lemma mul_le_1 : forall a b, 0 <= a <= 1 -> 0 <= b <= 1 -> a * b <= 1.
Proof. intros a b A B. replace 1 with (1 * 1) by ring. apply Rmult_le_compat; lra. Qed.
Lemma mul_lt_1 : forall a b, 0 <= a <= 1 -> 0 <= b <= 1 -> a * (b - a) < 1.
Proof. intros a b A B. pose proof (mul_le_1 a b A B). assert (0 <= a * a) by apply Rle_0_sqr. destruct (Req_dec a 0) as [->|N]; [lra|]. assert (0 < a * a) by (apply Rmult_lt_0_compat; lra). lra. Qed.
Lemma nchord_concave : forall a b x, 0 <= b -> a <= 1 -> b < a -> b <= x -> x <= a -> fnorm a + (a - x) * ((fnorm b - fnorm a) / (a - b)) <= fnorm x.
Proof.
  intros a b x B0 A1 AB B A. apply (chord_of_ge (fnorm x) (fnorm a) (fnorm b) (- (x * fnorm x)) a b x AB B A).
  - pose proof (tan_concave x a ltac:(lra) ltac:(lra) ltac:(apply mul_le_1; lra) ltac:(apply mul_lt_1; lra)). lra.
  - pose proof (tan_concave x b ltac:(lra) ltac:(lra) ltac:(apply mul_le_1; lra) ltac:(apply mul_lt_1; lra)). lra.
Qed.
(* the layer with the inflection point: if the slope at b is steeper than the chord *)
Lemma nchord_infl : forall a b x, 0 <= b <= 1 -> 1 < a -> (fnorm b - fnorm a) / (a - b) <= b * fnorm b -> b <= x -> x <= a ->
  fnorm x <= fnorm a + (a - x) * ((fnorm b - fnorm a) / (a - b)).
Proof.
  intros a b x B0 A1 SL B A. set (s := (fnorm b - fnorm a) / (a - b)) in *.
  assert (ES: fnorm a + (a - b) * s = fnorm b) by (unfold s; field; lra).
  assert (C: forall z, b <= z <= 1 -> fnorm z <= fnorm a + (a - z) * s).
  { intros z Z. pose proof (tan_concave b z ltac:(lra) ltac:(lra) ltac:(apply mul_le_1; lra) ltac:(apply mul_lt_1; lra)) as T.
    assert ((z - b) * s <= (z - b) * (b * fnorm b)) by (apply Rmult_le_compat_l; lra). lra. }
  destruct (Rle_dec x 1) as [X|X]; [apply C; lra|].
  pose proof (nchord_convex a 1 x ltac:(lra) A1 ltac:(lra) A) as N. pose proof (C 1 ltac:(lra)) as C1.
  assert (Q: (fnorm 1 - fnorm a) / (a - 1) <= s). { apply Rmult_le_reg_r with (a - 1); [lra|]. replace ((fnorm 1 - fnorm a) / (a - 1) * (a - 1)) with (fnorm 1 - fnorm a) by (field; lra). lra. }
  assert ((a - x) * ((fnorm 1 - fnorm a) / (a - 1)) <= (a - x) * s) by (apply Rmult_le_compat_l; lra). lra.
Qed.

(* both curves have slopes of at most 1 *)
Lemma exp_lip : forall a b, 0 <= a -> a <= b -> exp (- b) <= exp (- a) /\ exp (- a) - exp (- b) <= b - a.
Proof.
  intros a b A B. split; [destruct B as [B| ->]; [left; apply exp_increasing; lra|lra]|].
  replace (- b) with (- a + (a - b)) by ring. rewrite exp_plus. pose proof (exp_ineq1_le (a - b)) as H. pose proof (exp_pos (- a)) as P.
  assert (E1: exp (- a) <= 1) by (rewrite <- exp_0; destruct A as [A| <-]; [left; apply exp_increasing; lra|rewrite Ropp_0; lra]).
  assert (exp (- a) * (1 + (a - b)) <= exp (- a) * exp (a - b)) by (apply Rmult_le_compat_l; lra).
  assert (exp (- a) * (b - a) <= 1 * (b - a)) by (apply Rmult_le_compat_r; lra). lra.
Qed.
Lemma fexp1_lip : forall a b, 0 <= a -> 0 <= b -> Rabs (fexp1 a - fexp1 b) <= Rabs (a - b).
Proof.
  intros a b A B. unfold fexp1. destruct (Rle_dec a b) as [H|H].
  - destruct (exp_lip a b A H). rewrite (Rabs_left1 (a - b)) by lra. rewrite Rabs_right by lra. lra.
  - destruct (exp_lip b a B ltac:(lra)). rewrite (Rabs_right (a - b)) by lra. rewrite Rabs_left1 by lra. lra.
Qed.
Lemma fnorm_lip : forall a b, 0 <= a -> 0 <= b -> Rabs (fnorm a - fnorm b) <= Rabs (a - b).
Proof.
  assert (W: forall a b, 0 <= a -> a <= b -> fnorm b <= fnorm a /\ fnorm a - fnorm b <= b - a).
  { intros a b A B. split.
    - unfold fnorm. assert (a * a <= b * b) by (apply Rmult_le_compat; lra). destruct (Req_dec (a * a) (b * b)) as [->|N]; [lra|]. left. apply exp_increasing. lra.
    - destruct (Rle_dec b 1) as [B1|B1].
      + pose proof (tan_concave b a ltac:(lra) A ltac:(apply mul_le_1; lra) ltac:(apply mul_lt_1; lra)) as T.
        assert (FB: fnorm b <= 1). { unfold fnorm. rewrite <- exp_0. destruct (Req_dec b 0) as [->|N]; [right; f_equal; field|]. left. apply exp_increasing. assert (0 < b * b) by (apply Rmult_lt_0_compat; lra). lra. }
        pose proof (fnorm_pos b). assert (fnorm b * b <= 1) by (replace 1 with (1 * 1) by ring; apply Rmult_le_compat; lra).
        assert (fnorm b * b * (b - a) <= 1 * (b - a)) by (apply Rmult_le_compat_r; lra). lra.
      + (* derivative x exp(-x^2/2) <= 1 *)
        assert (D: forall c, derivable_pt_lim fnorm c (fnorm c * - (/ 2 * (2 * c)))).
        { intro c. unfold fnorm. pose proof (derivable_pt_lim_scal (fun s => s * s) (- / 2) c (2 * c) (sq_lim c)) as S.
          pose proof (derivable_pt_lim_comp _ _ _ _ _ S (derivable_pt_lim_exp _)) as E. unfold mult_real_fct, comp in E.
          replace (exp (- (c * c / 2)) * - (/ 2 * (2 * c))) with (exp (- / 2 * (c * c)) * (- / 2 * (2 * c))) by (replace (- (c * c / 2)) with (- / 2 * (c * c)) by field; ring).
          intros ep EP. destruct (E ep EP) as [d Hd]. exists d. intros h H0 H1. specialize (Hd h H0 H1).
          replace (- ((c + h) * (c + h) / 2)) with (- / 2 * ((c + h) * (c + h))) by field. replace (- (c * c / 2)) with (- / 2 * (c * c)) by field. exact Hd. }
        destruct (Req_dec a b) as [->|N]; [lra|]. destruct (MVT_cor2 fnorm (fun c => fnorm c * - (/ 2 * (2 * c))) a b ltac:(lra) (fun c _ => D c)) as (c & Hc & C1 & C2).
        assert (fnorm c * c <= 1).
        { unfold fnorm. rewrite exp_Ropp. pose proof (exp_pos (c * c / 2)). apply Rmult_le_reg_l with (exp (c * c / 2)); [lra|]. rewrite <- Rmult_assoc, Rinv_r, Rmult_1_l, Rmult_1_r by lra.
          pose proof (exp_ineq1_le (c * c / 2)). assert (0 <= (c - 1) * (c - 1)) by apply Rle_0_sqr. lra. }
        assert (fnorm c * c * (b - a) <= 1 * (b - a)) by (apply Rmult_le_compat_r; lra). lra. }
  intros a b A B. destruct (Rle_dec a b) as [H|H].
  - destruct (W a b A H). rewrite (Rabs_left1 (a - b)) by lra. rewrite Rabs_right by lra. lra.
  - destruct (W b a B ltac:(lra)). rewrite (Rabs_right (a - b)) by lra. rewrite Rabs_left1 by lra. lra.
Qed.
