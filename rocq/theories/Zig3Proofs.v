(* The tests of the ziggurats: rounding errors. *)
From Coq Require Import Reals Lra Qreals.
From Verif Require Import Base ProgModel FloatModel FloatSpec FloatProofs RealModel RDiscProofs BinModel BinSpec ZigTable ZigModel ZigSpec PoisRSpec RExpProofs Pois3Proofs Zig1Proofs Zig2Proofs.
Ltac Zify.zify_post_hook ::= idtac.
Open Scope R_scope.

Lemma add_e : forall X Y a b E1 E2, Rabs (Q2R X - a) <= E1 -> Rabs (Q2R Y - b) <= E2 -> Rabs (Q2R (X + Y) - (a + b)) <= E1 + E2.
Proof. intros X Y a b E1 E2 H1 H2. rewrite Q2R_plus. apply Rabs_le_inv in H1, H2. apply Rabs_le. lra. Qed.
Lemma sub_e : forall X Y a b E1 E2, Rabs (Q2R X - a) <= E1 -> Rabs (Q2R Y - b) <= E2 -> Rabs (Q2R (X - Y) - (a - b)) <= E1 + E2.
Proof. intros X Y a b E1 E2 H1 H2. rewrite Q2R_minus. apply Rabs_le_inv in H1, H2. apply Rabs_le. lra. Qed.
Lemma mul_e : forall X Y a b E1 E2 A B, Rabs (Q2R X - a) <= E1 -> Rabs (Q2R Y - b) <= E2 -> Rabs a <= A -> Rabs b <= B -> E2 <= 1 ->
  Rabs (Q2R (X * Y) - a * b) <= E1 * (B + 1) + A * E2.
Proof.
  intros X Y a b E1 E2 A B H1 H2 HA HB S. rewrite Q2R_mult. replace (Q2R X * Q2R Y - a * b) with ((Q2R X - a) * Q2R Y + a * (Q2R Y - b)) by ring.
  apply Rle_trans with (1 := Rabs_triang _ _). rewrite !Rabs_mult. apply Rplus_le_compat.
  - apply Rmult_le_compat; try apply Rabs_pos; [exact H1|]. apply Rabs_le_inv in H2, HB. apply Rabs_le. lra.
  - apply Rmult_le_compat; try apply Rabs_pos; assumption.
Qed.
Lemma self_e : forall X, Rabs (Q2R X - Q2R X) <= 0.
Proof. intro X. replace (Q2R X - Q2R X) with 0 by ring. rewrite Rabs_R0. lra. Qed.

Section E.
Variables (f : fmt) (md : rmode) (ex : Q -> Q) (K : R).
Hypothesis Hf : fmt_ok f.
Hypothesis Hw : fmt_wide f.
Hypothesis Pf : (20 <= prec f)%Z.
Local Notation rnd := (fround f md).
Let e := eps f.
Let w := e + / 2 ^ 52.

Lemma w_facts : 0 < e /\ 0 < / 2 ^ 52 /\ w <= 1 / 262144 /\ eps ieee_double = / 2 ^ 52.
Proof.
  pose proof (e_pos f). pose proof (e_le f Pf). assert (0 < / 2 ^ 52) by (apply Rinv_0_lt_compat, pow_lt; lra).
  assert (/ 2 ^ 52 <= 1 / 524288) by (cbn [pow]; lra). unfold w, e. repeat split; try lra. unfold eps, Q2R. cbn. field.
Qed.
Lemma rnd_e : forall X a E B, Rabs (Q2R X - a) <= E -> Rabs a <= B -> E <= 1 -> Rabs (Q2R (rnd X) - a) <= E + e * (B + 2).
Proof.
  intros X a E B H1 H2 H3. apply Rabs_le_inv in H1, H2. destruct w_facts as (E0 & _).
  destruct (rr f Hw f md X (B + 1) ltac:(lia) ltac:(lia) ltac:(lra) ltac:(lra)) as [A C]. fold e in A, C. apply Rabs_le. lra.
Qed.
Lemma dsub_e : forall a b, -1 <= Q2R a - Q2R b <= 1 -> Rabs (Q2R (dsub f md a b) - (Q2R a - Q2R b)) <= 3 * w.
Proof.
  intros a b H. destruct w_facts as (E0 & D0 & W1 & ED). unfold dsub.
  destruct (rr ieee_double ltac:(split; cbn; lia) ieee_double md (a - b)%Q 1 ltac:(lia) ltac:(lia) ltac:(rewrite Q2R_minus; lra) ltac:(rewrite Q2R_minus; lra)) as [A C].
  rewrite Q2R_minus, ED in A, C.
  assert (S: 2 * / 2 ^ 52 <= 1) by (cbn [pow]; lra).
  pose proof (rnd_e (fround ieee_double md (a - b)) (Q2R a - Q2R b) (2 * / 2 ^ 52) 1 ltac:(apply Rabs_le; lra) ltac:(apply Rabs_le; lra) S) as H2.
  unfold w. lra.
Qed.

(* one layer *)
Variables (xi xj yi yj x y01 : Q).
Let X := Q2R x.
Let Xi := Q2R xi.
Let Xj := Q2R xj.
Let Yi := Q2R yi.
Let Yj := Q2R yj.
Let T := Q2R y01.
Hypothesis HX : 0 <= Xj /\ Xj < Xi /\ Xi <= 8 /\ Xi - Xj <= 1.
Hypothesis HY : 0 <= Yi /\ Yi < Yj /\ Yj <= 1 /\ Yj - Yi <= Xi - Xj.
Hypothesis HT : 0 <= T <= 1.
Hypothesis Hx : Xj - 9 * w <= X <= Xi + 9 * w.
Definition hgt : R := Yi + T * (Yj - Yi).

Lemma zy_ok : Rabs (Q2R (zg_y f md y01 yi yj) - hgt) <= 14 * w.
Proof.
  destruct w_facts as (E0 & D0 & W1 & ED). unfold zg_y.
  pose proof (dsub_e yj yi ltac:(fold Yj Yi; lra)) as S. fold Yj Yi in S.
  assert (E9: e <= w) by (unfold w; lra).
  pose proof (mul_e y01 (dsub f md yj yi) T (Yj - Yi) 0 (3 * w) 1 1 (self_e y01) S ltac:(apply Rabs_le; lra) ltac:(apply Rabs_le; lra) ltac:(lra)) as M.
  assert (MB: Rabs (T * (Yj - Yi)) <= 1). { rewrite Rabs_right by (apply Rle_ge, Rmult_le_pos; lra). replace 1 with (1 * 1) by ring. apply Rmult_le_compat; lra. }
  pose proof (rnd_e _ _ _ 1 M MB ltac:(lra)) as M2. pose proof (rnd_e yi Yi 0 1 (self_e yi) ltac:(apply Rabs_le; lra) ltac:(lra)) as M3.
  pose proof (add_e _ _ _ _ _ _ M3 M2) as M4. fold hgt in M4.
  assert (MH: Rabs hgt <= 2). { apply Rabs_le_inv in MB. apply Rabs_le. unfold hgt. lra. }
  pose proof (rnd_e _ _ _ 2 M4 MH ltac:(lra)) as M5. lra.
Qed.
Lemma zd_ok : Rabs (Q2R (zg_diag f md x y01 xi xj) - ((Xi - Xj) * T - (Xi - X))) <= 30 * w.
Proof.
  destruct w_facts as (E0 & D0 & W1 & ED). unfold zg_diag. assert (E9: e <= w) by (unfold w; lra).
  pose proof (dsub_e xi xj ltac:(fold Xj Xi; lra)) as S. fold Xj Xi in S.
  pose proof (mul_e (dsub f md xi xj) y01 (Xi - Xj) T (3 * w) 0 1 1 S (self_e y01) ltac:(apply Rabs_le; lra) ltac:(apply Rabs_le; lra) ltac:(lra)) as M.
  assert (MB: Rabs ((Xi - Xj) * T) <= 1). { rewrite Rabs_right by (apply Rle_ge, Rmult_le_pos; lra). replace 1 with (1 * 1) by ring. apply Rmult_le_compat; lra. }
  pose proof (rnd_e _ _ _ 1 M MB ltac:(lra)) as M2. pose proof (rnd_e xi Xi 0 8 (self_e xi) ltac:(apply Rabs_le; lra) ltac:(lra)) as M3.
  pose proof (sub_e _ _ _ _ _ _ M3 (self_e x)) as M4. fold X in M4.
  pose proof (rnd_e _ _ _ 2 M4 ltac:(apply Rabs_le; lra) ltac:(lra)) as M5. pose proof (sub_e _ _ _ _ _ _ M2 M5) as M6.
  assert (MH: Rabs ((Xi - Xj) * T - (Xi - X)) <= 3). { apply Rabs_le_inv in MB. apply Rabs_le. lra. }
  pose proof (rnd_e _ _ _ 3 M6 MH ltac:(lra)) as M7. lra.
Qed.
(* above or below the diagonal *)
Let s := (Yj - Yi) / (Xi - Xj).
Let chord := Yi + (Xi - X) * s.
Lemma s_facts : 0 < s <= 1 /\ Yj - Yi = s * (Xi - Xj).
Proof.
  assert (ES: Yj - Yi = s * (Xi - Xj)) by (unfold s; field; lra). split; [|exact ES]. split.
  - unfold s. apply Rmult_lt_0_compat; [lra|apply Rinv_0_lt_compat; lra].
  - apply Rmult_le_reg_r with (Xi - Xj); [lra|]. lra.
Qed.
Lemma diag_neg : (zg_diag f md x y01 xi xj < 0)%Q -> hgt <= chord + 30 * w.
Proof.
  intro H. apply Qlt_Rlt in H. rewrite Q2R_0 in H. pose proof zd_ok as Z. apply Rabs_le_inv in Z. destruct s_facts as [[S0 S1] ES].
  unfold hgt, chord. rewrite ES. assert ((T * (Xi - Xj) - (Xi - X)) * s <= 30 * w * s) by (apply Rmult_le_compat_r; lra).
  assert (30 * w * s <= 30 * w * 1) by (apply Rmult_le_compat_l; [destruct w_facts as (? & ? & _); unfold w; lra|lra]). lra.
Qed.
Lemma diag_pos : ~ (zg_diag f md x y01 xi xj < 0)%Q -> chord - 30 * w <= hgt.
Proof.
  intro H. apply Qnot_lt_le in H. apply Q2R_le in H. rewrite Q2R_0 in H. pose proof zd_ok as Z. apply Rabs_le_inv in Z. destruct s_facts as [[S0 S1] ES].
  unfold hgt, chord. rewrite ES. assert (- (30 * w) * s <= (T * (Xi - Xj) - (Xi - X)) * s) by (apply Rmult_le_compat_r; lra).
  assert (30 * w * s <= 30 * w * 1) by (apply Rmult_le_compat_l; [destruct w_facts as (? & ? & _); unfold w; lra|lra]). lra.
Qed.

(* a curve through the points up to 2^-53 *)
Variable (F : R -> R).
Hypothesis HF : (forall a b, 0 <= a -> 0 <= b -> Rabs (F a - F b) <= Rabs (a - b)).
Hypothesis Fi : Rabs (Yi - F Xi) <= / 2 ^ 53.
Hypothesis Fj : Rabs (Yj - F Xj) <= / 2 ^ 53.
Hypothesis X0 : 0 <= X.
Let xc := Rmax Xj (Rmin X Xi).
Lemma xc_ok : Xj <= xc <= Xi /\ Rabs (X - xc) <= 9 * w.
Proof.
  unfold xc, Rmax, Rmin. destruct w_facts as (? & ? & _). destruct (Rle_dec X Xi); destruct (Rle_dec Xj _); split; try lra; apply Rabs_le; unfold w in *; lra.
Qed.
Let Cc := F Xi + (Xi - xc) * ((F Xj - F Xi) / (Xi - Xj)).
(* chord of the table and chord of the curve *)
Lemma chord_near : Rabs (chord - Cc) <= 10 * w.
Proof.
  destruct xc_ok as [[C1 C2] C3]. destruct s_facts as [[S0 S1] ES]. destruct w_facts as (E0 & D0 & _).
  assert (D53: / 2 ^ 53 = / 2 ^ 52 / 2) by (cbn [pow]; field).
  set (l := (Xi - xc) / (Xi - Xj)). assert (L: 0 <= l <= 1).
  { unfold l. split; [apply Rmult_le_pos; [lra|left; apply Rinv_0_lt_compat; lra]|]. apply Rmult_le_reg_r with (Xi - Xj); [lra|]. unfold Rdiv. rewrite Rmult_assoc, Rinv_l by lra. lra. }
  assert (EC: Cc = F Xi * (1 - l) + F Xj * l) by (unfold Cc, l; field; lra).
  assert (EH: chord = Yi * (1 - l) + Yj * l + (xc - X) * s). { unfold chord, l, s. field. lra. }
  rewrite EC, EH. replace (Yi * (1 - l) + Yj * l + (xc - X) * s - (F Xi * (1 - l) + F Xj * l)) with ((Yi - F Xi) * (1 - l) + (Yj - F Xj) * l + (xc - X) * s) by ring.
  assert (A1: Rabs ((Yi - F Xi) * (1 - l)) <= / 2 ^ 53 * (1 - l)) by (rewrite Rabs_mult, (Rabs_right (1 - l)) by lra; apply Rmult_le_compat_r; lra).
  assert (A2: Rabs ((Yj - F Xj) * l) <= / 2 ^ 53 * l) by (rewrite Rabs_mult, (Rabs_right l) by lra; apply Rmult_le_compat_r; lra).
  assert (A3: Rabs ((xc - X) * s) <= 9 * w * 1). { rewrite Rabs_mult, (Rabs_right s) by lra. apply Rmult_le_compat; [apply Rabs_pos|lra| |lra]. rewrite Rabs_minus_sym. exact C3. }
  apply Rabs_le_inv in A1, A2, A3. apply Rabs_le. unfold w in *. lra.
Qed.
Lemma curve_near : Rabs (F X - F xc) <= 9 * w.
Proof. destruct xc_ok as [[C1 C2] C3]. apply Rle_trans with (2 := C3). apply HF; lra. Qed.
(* where the chord is above the curve: above the diagonal is above the curve *)
Lemma diag_up : F xc <= Cc -> ~ (zg_diag f md x y01 xi xj < 0)%Q -> F X - 50 * w <= hgt.
Proof. intros H N. pose proof (diag_pos N). pose proof chord_near as C. pose proof curve_near as D. apply Rabs_le_inv in C, D. destruct w_facts as (? & ? & _). unfold w in *. lra. Qed.
Lemma diag_lo : Cc <= F xc -> (zg_diag f md x y01 xi xj < 0)%Q -> hgt <= F X + 50 * w.
Proof. intros H N. pose proof (diag_neg N). pose proof chord_near as C. pose proof curve_near as D. apply Rabs_le_inv in C, D. destruct w_facts as (? & ? & _). unfold w in *. lra. Qed.
(* comparison with the computed curve *)
Lemma cmp_curve : forall z EZ, Rabs (Q2R z - F X) <= EZ -> ((zg_y f md y01 yi yj < z)%Q -> hgt <= F X + EZ + 14 * w) /\ (~ (zg_y f md y01 yi yj < z)%Q -> F X - EZ - 14 * w <= hgt).
Proof.
  intros z EZ HZ. pose proof zy_ok as Z. apply Rabs_le_inv in Z, HZ. split; intro H.
  - apply Qlt_Rlt in H. lra.
  - apply Qnot_lt_le in H. apply Q2R_le in H. lra.
Qed.
End E.
