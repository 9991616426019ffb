(* triangle_distribution *)
From Coq Require Import Reals Lqa Lra Qreals Rpower.
From Verif Require Import Base ProgModel ProgSpec ProgProofs UIntSpec FloatModel FloatSpec FloatProofs RealModel UniProofs BinModel BinSpec PoisRSpec Pois3Proofs Zig4Proofs InvModel InvSpec Inv1Proofs.
Ltac Zify.zify_post_hook ::= idtac.
Open Scope R_scope.
Ltac ql := Lqa.lra.

(* a product of two approximate factors *)
Lemma prod_err : forall P s v S U al kp e tau t, 0 <= S -> 0 <= U -> 0 <= P -> 0 <= al <= 3 / 4 -> 0 <= kp <= 1 / 8 -> 0 <= e <= 1 / 8 -> 0 <= tau -> 0 <= t ->
  Rabs (P - S) <= al * S + tau -> Rabs (s - U) <= kp * U -> Rabs (v - P * s) <= e * (P * s) + t ->
  Rabs (v - S * U) <= (2 * al + kp + 2 * e) * (S * U) + 2 * (tau * U) + t.
Proof.
  intros P s v S U al kp e tau t S0 U0 P0 [A0 A1] [K0 K1] [E0 E1] T0 t0 HP HS HV.
  apply Rabs_le_inv in HP, HS, HV.
  assert (UP: P * s <= (S * (1 + al) + tau) * ((1 + kp) * U)) by (apply Rmult_le_compat; [exact P0| |lra|lra]; pose proof (Rmult_le_compat_r U kp (1 / 8) U0 K1); lra).
  assert (LO: (S * (1 - al) - tau) * ((1 - kp) * U) <= P * s).
  { apply Rle_trans with (P * ((1 - kp) * U)); [apply Rmult_le_compat_r; [apply Rmult_le_pos; lra|lra]|apply Rmult_le_compat_l; lra]. }
  set (q := S * U) in *. assert (Q0: 0 <= q) by (apply Rmult_le_pos; assumption). set (w := tau * U) in *. assert (W0: 0 <= w) by (apply Rmult_le_pos; assumption).
  replace ((S * (1 + al) + tau) * ((1 + kp) * U)) with (q + al * q + kp * q + kp * (al * q) + w + kp * w) in UP by (unfold q, w; ring).
  replace ((S * (1 - al) - tau) * ((1 - kp) * U)) with (q - al * q - kp * q + kp * (al * q) - w + kp * w) in LO by (unfold q, w; ring).
  set (ps := P * s) in *. clearbody ps q w.
  pose proof (Rmult_le_compat_r q al (3 / 4) Q0 A1) as M1. pose proof (Rmult_le_pos al q A0 Q0) as M2.
  pose proof (Rmult_le_compat_r q kp (1 / 8) Q0 K1) as M3. pose proof (Rmult_le_pos kp q K0 Q0) as M4.
  pose proof (Rmult_le_compat_r (al * q) kp (1 / 8) M2 K1) as M5. pose proof (Rmult_le_pos kp (al * q) K0 M2) as M6.
  pose proof (Rmult_le_compat_r w kp (1 / 8) W0 K1) as M7. pose proof (Rmult_le_pos kp w K0 W0) as M8.
  set (aq := al * q) in *. set (kq := kp * q) in *. set (kaq := kp * aq) in *. set (kw := kp * w) in *.
  assert (EP: e * ps <= e * (2 * q + 5 / 4 * w)) by (apply Rmult_le_compat_l; lra).
  pose proof (Rmult_le_compat_r w e (1 / 8) W0 E1) as M9. pose proof (Rmult_le_pos e q E0 Q0) as M10.
  set (eq := e * q) in *. assert (EE: e * (2 * q + 5 / 4 * w) = 2 * eq + 5 / 4 * (e * w)) by (unfold eq; ring). rewrite EE in EP.
  replace ((2 * al + kp + 2 * e) * q) with (2 * aq + kq + 2 * eq) by (unfold aq, kq, eq; ring). apply Rabs_le. split; lra.
Qed.
Lemma rabs_mul : forall x y, 0 <= y -> Rabs (x * y) = Rabs x * y.
Proof. intros x y H. rewrite Rabs_mult, (Rabs_pos_eq y H). reflexivity. Qed.

Section T.
Variables (f : fmt) (md : rmode) (sq : Q -> Q) (K : R).
Hypothesis Hf : fmt_ok f.
Hypothesis Hp : (4 <= prec f)%Z.
Hypothesis HK : 0 <= K.
Hypothesis HKe : K * eps f <= 1 / 8.
Hypothesis HS : sqrt_all f K sq.
Variables (a b c : Q).
Hypothesis Ra : representable f a.
Hypothesis Rb : representable f b.
Hypothesis Rc : representable f c.
Hypothesis Hab : (a <= b)%Q.
Hypothesis Hbc : (b <= c)%Q.
Hypothesis Hac : (a < c)%Q.
Local Notation e := (eps f).
Local Notation t := (tiny f).
Local Notation rnd := (fround f md).

Lemma te_le : e <= 1 / 8.
Proof. unfold eps. replace (1 / 8) with (Q2R (p2 (-3))) by (unfold p2, Q2R; cbn; field). apply Q2R_le, p2_le. lia. Qed.
Lemma t_le : t <= 1 / 8.
Proof. unfold tiny. replace (1 / 8) with (Q2R (p2 (-3))) by (unfold p2, Q2R; cbn; field). apply Q2R_le, p2_le. destruct Hf. lia. Qed.
Lemma t_sqrt : t <= sqrt t.
Proof.
  pose proof t_le as L. pose proof (tiny_pos f) as P. rewrite <- (sqrt_square t) at 1 by lra. apply sqrt_le_1_alt.
  pose proof (Rmult_le_compat_r t t (1 / 8) ltac:(lra) L). lra.
Qed.
Lemma sq_nn : forall x, (0 <= x)%Q -> representable f x -> (0 <= sq x)%Q.
Proof.
  intros x X0 RX. apply Rle_Qle. rewrite Q2R_0. pose proof (HS x X0 RX) as A. apply Rabs_le_inv in A. pose proof (sqrt_pos (Q2R x)) as P.
  pose proof (Rmult_le_compat_r _ _ _ P HKe). lra.
Qed.
Lemma fsqrt_ok : forall x, (0 <= x)%Q -> fsqrt sq x = Some (sq x).
Proof. intros x H. unfold fsqrt. destruct (qlt x 0) eqn:E; [apply qlt_t in E; ql|reflexivity]. Qed.

Let d1 := rnd (b - a).
Let d2 := rnd (c - a).
Let D1 := Q2R b - Q2R a.
Let D2 := Q2R c - Q2R a.
Lemma d1_nn : (0 <= d1)%Q.
Proof. apply rnd_nonneg. ql. Qed.
Lemma d2_pos : (0 < d2)%Q.
Proof. apply sub_pos; assumption. Qed.
Lemma D_pos : 0 <= D1 /\ 0 < D2 /\ D1 <= D2.
Proof.
  unfold D1, D2. pose proof (Qlt_Rlt _ _ Hac). pose proof (Q2R_le _ _ Hab). pose proof (Q2R_le _ _ Hbc). lra.
Qed.
Lemma tri_init_ok : exists q1, q1 = rnd (d1 / d2) /\
  tri_init f md sq a b c = Some (Tri a b c d1 d2 (sq (rnd (c - b))) q1 (sq (rnd (d1 * d2)))).
Proof.
  pose proof d1_nn as N1. pose proof d2_pos as N2. eexists. split; [reflexivity|]. unfold tri_init. fold rnd. fold d1. fold d2.
  rewrite fsqrt_ok by (apply rnd_nonneg; ql). unfold fdiv. destruct (Qeq_bool d2 0) eqn:E; [apply Qeq_bool_iff in E; ql|].
  rewrite fsqrt_ok by (apply rnd_nonneg; apply Qmult_le_0_compat; ql). reflexivity.
Qed.
(* the argument of the second square root is never negative *)
Lemma arg_nn : forall u, representable f u -> (rnd (d1 / d2) < u)%Q -> (d1 <= d2 * u)%Q /\ (0 <= rnd (rnd (d2 * u) - d1))%Q.
Proof.
  intros u RU H. pose proof d1_nn as N1. pose proof d2_pos as N2.
  assert (L: (d1 / d2 < u)%Q).
  { destruct (Qlt_le_dec (d1 / d2) u) as [L|L]; [exact L|exfalso]. pose proof (repr_rnd_ge f md Hf _ _ RU L). ql. }
  assert (M: (d1 <= d2 * u)%Q).
  { setoid_replace d1 with ((d1 / d2) * d2)%Q by (field; intro Z; rewrite Z in N2; ql).
    rewrite (Qmult_comm d2 u). apply mul_le_compat; [exact N2|ql]. }
  split; [exact M|]. apply rnd_nonneg. assert (G: (d1 <= rnd (d2 * u))%Q) by (apply repr_rnd_ge; [exact Hf|apply rnd_repr; exact Hf|exact M]). ql.
Qed.

Local Notation kp := (K * eps f).
Local Notation T := (sqrt (tiny f)).
Lemma rt0 : forall x, (0 <= x)%Q -> Rabs (Q2R (rnd x) - Q2R x) <= e * Q2R x + t.
Proof. intros x H. pose proof (rt f md x) as A. rewrite (Rabs_pos_eq (Q2R x)) in A by (rewrite <- Q2R_0; apply Q2R_le; exact H). exact A. Qed.
Lemma dr : (1 - e) * D1 <= Q2R d1 /\ Q2R d1 <= (1 + e) * D1 /\ (1 - e) * D2 <= Q2R d2 /\ Q2R d2 <= (1 + e) * D2.
Proof.
  destruct (sub_rel f md a b Hf Ra Rb Hab) as [A B]. destruct (sub_rel f md a c Hf Ra Rc ltac:(ql)) as [C D]. unfold D1, D2. fold d1 in A, B. fold d2 in C, D. repeat split; assumption.
Qed.
Lemma p1_err : Rabs (Q2R (sq (rnd (d1 * d2))) - sqrt (D1 * D2)) <= (5 * e + kp) * sqrt (D1 * D2) + 2 * T.
Proof.
  pose proof d1_nn as N1. pose proof d2_pos as N2. assert (N12: (0 <= d1 * d2)%Q) by (apply Qmult_le_0_compat; ql).
  pose proof (rt0 _ N12) as A. rewrite Q2R_mult in A. destruct dr as (B1 & B2 & B3 & B4). destruct D_pos as (P1 & P2 & P3).
  pose proof (e_pos f) as E0. pose proof te_le as E1. pose proof (tiny_pos f) as T0. pose proof (sqrt_pos t) as ST.
  set (y := rnd (d1 * d2)) in *. assert (Y0: (0 <= y)%Q) by (apply rnd_nonneg; exact N12). assert (RY: representable f y) by (apply rnd_repr; exact Hf).
  pose proof (HS y Y0 RY) as SY. apply Q2R_le in Y0. rewrite Q2R_0 in Y0.
  assert (DN: 0 <= D1 * D2) by (apply Rmult_le_pos; lra).
  assert (UP: Q2R d1 * Q2R d2 <= (1 + e) * D1 * ((1 + e) * D2)).
  { apply Rmult_le_compat; try assumption; [rewrite <- Q2R_0; apply Q2R_le; exact N1|rewrite <- Q2R_0; apply Q2R_le; ql]. }
  assert (LO: (1 - e) * D1 * ((1 - e) * D2) <= Q2R d1 * Q2R d2) by (apply Rmult_le_compat; try assumption; apply Rmult_le_pos; lra).
  set (z := D1 * D2) in *. replace ((1 + e) * D1 * ((1 + e) * D2)) with (z + 2 * (e * z) + e * (e * z)) in UP by (unfold z; ring).
  replace ((1 - e) * D1 * ((1 - e) * D2)) with (z - 2 * (e * z) + e * (e * z)) in LO by (unfold z; ring).
  set (dd := Q2R d1 * Q2R d2) in *. pose proof (Rmult_le_pos e z ltac:(lra) DN) as EZ. pose proof (Rmult_le_compat_r (e * z) e (1 / 8) EZ E1) as EEZ. pose proof (Rmult_le_pos e (e * z) ltac:(lra) EZ) as EEZ0.
  pose proof (Rmult_le_compat_r z e (1 / 8) DN E1) as EZ8.
  assert (DDZ: e * dd <= e * (2 * z)) by (apply Rmult_le_compat_l; lra).
  assert (YZ: Rabs (Q2R y - z) <= 4 * e * z + t).
  { apply Rabs_le_inv in A. assert (DD2: e * dd <= e * (z + 2 * (e * z) + e * (e * z))) by (apply Rmult_le_compat_l; lra).
    replace (e * (z + 2 * (e * z) + e * (e * z))) with (e * z + 2 * (e * (e * z)) + e * (e * (e * z))) in DD2 by ring.
    pose proof (Rmult_le_compat_r (e * (e * z)) e (1 / 8) EEZ0 E1). replace (4 * e * z) with (4 * (e * z)) by ring. apply Rabs_le. lra. }
  pose proof (sqrt_pert (Q2R y) z (4 * e) t Y0 DN ltac:(lra) ltac:(lra) ltac:(lra) YZ) as SP.
  pose proof (sqrt_pos z) as SZ. pose proof (sqrt_pos (Q2R y)) as SQY. set (sz := sqrt z) in *. set (sy := sqrt (Q2R y)) in *.
  apply Rabs_le_inv in SP, SY. assert (K0: 0 <= kp) by (apply Rmult_le_pos; lra). set (k := kp) in *.
  assert (KY: k * sy <= k * ((1 + 4 * e) * sz + T)) by (apply Rmult_le_compat_l; lra).
  replace (k * ((1 + 4 * e) * sz + T)) with (k * sz + 4 * (k * (e * sz)) + k * T) in KY by ring.
  pose proof (Rmult_le_pos e sz ltac:(lra) SZ) as ESZ. pose proof (Rmult_le_compat_r (e * sz) k (1 / 8) ESZ HKe) as KES. pose proof (Rmult_le_compat_r T k (1 / 8) ST HKe) as KT.
  apply Rabs_le. replace ((5 * e + k) * sz) with (5 * (e * sz) + k * sz) by ring. replace (4 * e * sz) with (4 * (e * sz)) in SP by ring. lra.
Qed.
Lemma q1_le : Q2R (rnd (d1 / d2)) <= (1 + 4 * e) * (D1 / D2) + t.
Proof.
  pose proof d1_nn as N1. pose proof d2_pos as N2. assert (N12: (0 <= d1 / d2)%Q) by (apply Qle_shift_div_l; [exact N2|ql]).
  pose proof (rt0 _ N12) as A. apply Rabs_le_inv in A. destruct dr as (B1 & B2 & B3 & B4). destruct D_pos as (P1 & P2 & P3).
  pose proof (e_pos f) as E0. pose proof te_le as E1. rewrite Q2R_div in A by (intro Z; rewrite Z in N2; ql).
  assert (R0: 0 <= D1 / D2) by (apply Rmult_le_pos; [exact P1|left; apply Rinv_0_lt_compat; exact P2]).
  apply Qlt_Rlt in N2. rewrite Q2R_0 in N2. set (x := Q2R d1 / Q2R d2) in *. assert (EX: Q2R d1 = x * Q2R d2) by (unfold x; field; lra).
  set (r := D1 / D2) in *. assert (ER: D1 = r * D2) by (unfold r; field; lra).
  assert (X0: 0 <= x) by (apply Rmult_le_pos; [rewrite <- Q2R_0; apply Q2R_le; exact N1|left; apply Rinv_0_lt_compat; exact N2]).
  assert (X1: x * (1 - e) <= (1 + e) * r).
  { apply Rmult_le_reg_r with D2; [exact P2|]. apply Rle_trans with (x * Q2R d2); [rewrite Rmult_assoc; apply Rmult_le_compat_l; assumption|]. rewrite <- EX. rewrite ER in B2. lra. }
  assert (X2: x * (1 + e) <= (1 + 4 * e) * r).
  { apply Rmult_le_reg_r with (1 - e); [lra|]. apply Rle_trans with ((1 + e) * ((1 + e) * r)); [replace (x * (1 + e) * (1 - e)) with ((1 + e) * (x * (1 - e))) by ring; apply Rmult_le_compat_l; lra|].
    pose proof (Rmult_le_pos e r ltac:(lra) R0) as ER0. pose proof (Rmult_le_compat_r (e * r) e (1 / 8) ER0 E1).
    replace ((1 + e) * ((1 + e) * r)) with (r + 2 * (e * r) + e * (e * r)) by ring. replace ((1 + 4 * e) * r * (1 - e)) with (r + 3 * (e * r) - 4 * (e * (e * r))) by ring. lra. }
  lra.
Qed.

Let M := Rabs (Q2R a) + Rabs (Q2R c).
Lemma M_ge : D2 <= M /\ 0 <= M /\ forall z, Q2R a <= z -> z <= Q2R c -> Rabs z <= M.
Proof.
  unfold M, D2. pose proof (Rle_abs (Q2R c)). pose proof (Rle_abs (- Q2R a)). rewrite Rabs_Ropp in *. pose proof (Rabs_pos (Q2R a)). pose proof (Rabs_pos (Q2R c)).
  split; [lra|]. split; [lra|]. intros z Z1 Z2. apply Rabs_le. pose proof (Rle_abs (- Q2R c)). rewrite Rabs_Ropp in *. lra.
Qed.
Lemma final_rnd : forall x w z err, w = Q2R (rnd x) -> Rabs (Q2R x - z) <= err -> Rabs z <= M -> err <= 4 * M + 8 * T * (1 + M) ->
  Rabs (w - z) <= err + 5 * e * M + 2 * T * (1 + M).
Proof.
  intros x w z err -> A B C. pose proof (rt f md x) as R. pose proof te_le as E1. pose proof (e_pos f) as E0. pose proof t_sqrt as TS. destruct M_ge as (_ & M0 & _). pose proof (sqrt_pos t) as T0.
  assert (XB: Rabs (Q2R x) <= M + err). { replace (Q2R x) with ((Q2R x - z) + z) by ring. apply Rle_trans with (1 := Rabs_triang _ _). lra. }
  assert (EX: e * Rabs (Q2R x) <= e * (5 * M + 8 * T * (1 + M))) by (apply Rmult_le_compat_l; lra).
  assert (TM: 0 <= T * (1 + M)) by (apply Rmult_le_pos; lra). pose proof (Rmult_le_compat_r _ _ _ TM E1) as ET.
  assert (TT: T <= T * (1 + M)) by (rewrite <- (Rmult_1_r T) at 1; apply Rmult_le_compat_l; lra).
  replace (Q2R (rnd x) - z) with ((Q2R (rnd x) - Q2R x) + (Q2R x - z)) by ring. apply Rle_trans with (1 := Rabs_triang _ _).
  replace (e * (5 * M + 8 * T * (1 + M))) with (5 * e * M + 8 * (e * (T * (1 + M)))) in EX by ring. lra.
Qed.

(* the two branches *)
Lemma branch1 : forall u, representable f u -> (0 <= u)%Q -> (u <= 1)%Q -> (u <= rnd (d1 / d2))%Q ->
  exists u' z, 0 <= u' <= D1 / D2 /\ Q2R u - u' <= 4 * e + t /\ u' <= Q2R u /\ Q2R a <= z <= Q2R b /\ (z - Q2R a) * (z - Q2R a) = D1 * D2 * u' /\
    Rabs (Q2R (a + rnd (sq (rnd (d1 * d2)) * sq u)) - z) <= (23 * e + 5 * kp) * M + 5 * T * (1 + M).
Proof.
  intros u RU U0 UL U1. pose proof q1_le as Q1. apply Q2R_le in U1. assert (UR: 0 <= Q2R u) by (rewrite <- Q2R_0; apply Q2R_le; exact U0).
  destruct D_pos as (P1 & P2 & P3). destruct M_ge as (MD & M0 & _). pose proof (e_pos f) as E0. pose proof te_le as E1. pose proof (tiny_pos f) as T0. pose proof t_sqrt as TS. pose proof (sqrt_pos t) as ST.
  assert (K0: 0 <= kp) by (apply Rmult_le_pos; lra).
  assert (R0: 0 <= D1 / D2) by (apply Rmult_le_pos; [exact P1|left; apply Rinv_0_lt_compat; exact P2]).
  assert (R1: D1 / D2 <= 1) by (apply Rmult_le_reg_r with D2; [exact P2|]; replace (D1 / D2 * D2) with D1 by (field; lra); lra).
  set (r := D1 / D2) in *. assert (ER: D1 = r * D2) by (unfold r; field; lra). clearbody r.
  assert (DN: 0 <= D1 * D2) by (apply Rmult_le_pos; lra). pose proof (sqrt_pos (D1 * D2)) as S0. set (S := sqrt (D1 * D2)) in *.
  assert (SM: S <= M).
  { apply Rle_trans with D2; [|exact MD]. apply Rle_trans with (sqrt (D2 * D2)); [apply sqrt_le_1_alt; apply Rmult_le_compat_r; lra|rewrite sqrt_square by lra; lra]. }
  pose (u' := Rmin (Q2R u) r). assert (A0: 0 <= u') by (unfold u'; apply Rmin_glb; assumption). assert (A1: u' <= r) by apply Rmin_r. assert (A2: u' <= Q2R u) by apply Rmin_l.
  assert (ER4: 4 * e * r <= 4 * e) by (rewrite <- (Rmult_1_r (4 * e)) at 2; apply Rmult_le_compat_l; lra).
  assert (A3: Q2R u - u' <= 4 * e * u' + t).
  { unfold u', Rmin. destruct (Rle_dec (Q2R u) r); [|lra]. pose proof (Rmult_le_pos e (Q2R u) ltac:(lra) UR). lra. }
  assert (A4: 4 * e * u' <= 4 * e) by (apply Rle_trans with (4 * e * r); [apply Rmult_le_compat_l; lra|exact ER4]).
  exists u', (Q2R a + S * sqrt u'). split; [split; assumption|]. split; [lra|]. split; [exact A2|].
  pose proof (sqrt_pos u') as V0. set (V := sqrt u') in *.
  assert (SV: S * V <= D1).
  { unfold S, V. rewrite <- sqrt_mult by assumption. apply Rle_trans with (sqrt (D1 * D1)); [|rewrite sqrt_square by lra; lra]. apply sqrt_le_1_alt. rewrite Rmult_assoc. apply Rmult_le_compat_l; [lra|].
    apply Rle_trans with (D2 * r); [apply Rmult_le_compat_l; lra|]. rewrite ER. lra. }
  assert (SV0: 0 <= S * V) by (apply Rmult_le_pos; assumption).
  split; [unfold D1 in *; lra|]. split.
  { replace (Q2R a + S * V - Q2R a) with (S * V) by ring. replace (S * V * (S * V)) with ((S * S) * (V * V)) by ring. unfold S, V. rewrite !sqrt_sqrt by assumption. reflexivity. }
  (* errors *)
  assert (UU: Rabs (Q2R u - u') <= 4 * e * u' + t) by (apply Rabs_le; pose proof (Rmult_le_pos (4 * e) u'); lra).
  pose proof (sqrt_pert _ _ (4 * e) t UR A0 ltac:(lra) ltac:(lra) ltac:(lra) UU) as SU. fold V in SU.
  pose proof (HS u U0 RU) as SS. pose proof p1_err as PE. fold S in PE. set (U := sqrt (Q2R u)) in *. assert (UN: 0 <= U) by apply sqrt_pos.
  pose proof d1_nn as N1. pose proof d2_pos as N2. assert (N12: (0 <= d1 * d2)%Q) by (apply Qmult_le_0_compat; ql).
  assert (PN: (0 <= sq (rnd (d1 * d2)))%Q) by (apply sq_nn; [apply rnd_nonneg; exact N12|apply rnd_repr; exact Hf]). assert (SN: (0 <= sq u)%Q) by (apply sq_nn; assumption).
  pose proof (rt0 (sq (rnd (d1 * d2)) * sq u) ltac:(apply Qmult_le_0_compat; assumption)) as RV. rewrite Q2R_mult in RV.
  assert (PNR: 0 <= Q2R (sq (rnd (d1 * d2)))) by (rewrite <- Q2R_0; apply Q2R_le; exact PN).
  pose proof (prod_err _ _ _ S U (5 * e + kp) kp e (2 * T) t S0 UN PNR ltac:(lra) ltac:(lra) ltac:(lra) ltac:(lra) ltac:(lra) PE SS RV) as PR.
  rewrite Q2R_plus. set (v := Q2R (rnd (sq (rnd (d1 * d2)) * sq u))) in *. clearbody v.
  replace (Q2R a + v - (Q2R a + S * V)) with ((v - S * U) + S * (U - V)) by ring.
  assert (SUV: Rabs (S * (U - V)) <= 4 * e * M + T * M).
  { rewrite Rmult_comm, rabs_mul by exact S0. apply Rle_trans with ((4 * e * V + T) * S); [apply Rmult_le_compat_r; assumption|].
    assert (4 * e * (S * V) <= 4 * e * M) by (apply Rmult_le_compat_l; lra). pose proof (Rmult_le_compat_l T S M ST SM). lra. }
  assert (UB: U <= 1) by (unfold U; rewrite <- sqrt_1; apply sqrt_le_1_alt; rewrite <- Q2R_1; apply Q2R_le; exact UL).
  apply Rle_trans with (1 := Rabs_triang _ _).
  assert (SUB: S * U <= 3 / 2 * M + T * M).
  { replace (S * U) with (S * V + S * (U - V)) by ring. pose proof (Rle_abs (S * (U - V))). pose proof (Rmult_le_compat_r M e (1 / 8) M0 E1). lra. }
  assert (SU0: 0 <= S * U) by (apply Rmult_le_pos; assumption). assert (TU: T * U <= T) by (rewrite <- (Rmult_1_r T) at 2; apply Rmult_le_compat_l; assumption).
  set (g := 2 * (5 * e + kp) + kp + 2 * e) in *. assert (G1: g = 12 * e + 3 * kp) by (unfold g; ring). assert (G0: 0 <= g) by lra. assert (G2: g <= 15 / 8) by lra.
  assert (GS: g * (S * U) <= g * (3 / 2 * M + T * M)) by (apply Rmult_le_compat_l; assumption).
  assert (TM: 0 <= T * M) by (apply Rmult_le_pos; assumption). pose proof (Rmult_le_compat_r _ _ _ TM G2) as GT.
  replace (g * (3 / 2 * M + T * M)) with (3 / 2 * (g * M) + g * (T * M)) in GS by ring.
  assert (GM: g * M = 12 * (e * M) + 3 * (kp * M)) by (rewrite G1; ring). pose proof (Rmult_le_pos e M ltac:(lra) M0) as EM. pose proof (Rmult_le_pos kp M K0 M0) as KM.
  replace (2 * (2 * T * U)) with (4 * (T * U)) in PR by ring. replace ((23 * e + 5 * kp) * M + 5 * T * (1 + M)) with (23 * (e * M) + 5 * (kp * M) + 5 * T + 5 * (T * M)) by ring. lra.
Qed.
Lemma branch2 : forall u, representable f u -> (u < 1)%Q -> (rnd (d1 / d2) < u)%Q ->
  exists u' z, D1 / D2 <= u' <= 1 /\ Rabs (u' - Q2R u) * D2 <= 6 * e * D2 + 2 * t /\ Q2R b <= z <= Q2R c /\ (Q2R c - z) * (Q2R c - z) = (Q2R c - Q2R b) * (D2 * u' - D1) /\
    (z = Q2R b -> D2 * u' - D1 = Q2R c - Q2R b) /\
    Rabs (Q2R (c - rnd (sq (rnd (c - b)) * sq (rnd (rnd (d2 * u) - d1)))) - z) <= (12 * e + 7 * kp) * M + 5 * T.
Proof.
  intros u RU U1 HU. destruct (arg_nn u RU HU) as [AD AN]. pose proof d1_nn as N1. pose proof d2_pos as N2.
  destruct D_pos as (P1 & P2 & P3). destruct M_ge as (MD & M0 & _). pose proof (e_pos f) as E0. pose proof te_le as E1. pose proof (tiny_pos f) as T0. pose proof t_sqrt as TS. pose proof (sqrt_pos t) as ST.
  assert (K0: 0 <= kp) by (apply Rmult_le_pos; lra). destruct dr as (B1 & B2 & B3 & B4).
  assert (U0: (0 <= u)%Q).
  { pose proof (rnd_nonneg f md (d1 / d2) ltac:(apply Qle_shift_div_l; [exact N2|ql])). ql. }
  assert (UR: 0 <= Q2R u) by (rewrite <- Q2R_0; apply Q2R_le; exact U0). assert (UR1: Q2R u <= 1) by (rewrite <- Q2R_1; apply Q2R_le; ql).
  (* the argument of the square root *)
  set (m := rnd (d2 * u)) in *. set (y := rnd (m - d1)) in *.
  assert (DU0: (0 <= d2 * u)%Q) by (apply Qmult_le_0_compat; ql).
  pose proof (rt0 _ DU0) as RM. fold m in RM. rewrite Q2R_mult in RM. apply Rabs_le_inv in RM.
  assert (MD1: (d1 <= m)%Q) by (apply repr_rnd_ge; [exact Hf|apply rnd_repr; exact Hf|exact AD]).
  pose proof (sub_rel f md d1 m Hf (rnd_repr f md Hf _) (rnd_repr f md Hf _) MD1) as RY. fold y in RY.
  assert (MD1R: Q2R d1 <= Q2R m) by (apply Q2R_le; exact MD1). assert (N1R: 0 <= Q2R d1) by (rewrite <- Q2R_0; apply Q2R_le; exact N1).
  assert (N2R: 0 <= Q2R d2) by (rewrite <- Q2R_0; apply Q2R_le; ql).
  set (X := D2 * Q2R u - D1).
  assert (DU: Rabs (Q2R d2 * Q2R u - D2 * Q2R u) <= e * D2).
  { replace (Q2R d2 * Q2R u - D2 * Q2R u) with ((Q2R d2 - D2) * Q2R u) by ring. rewrite rabs_mul by exact UR.
    apply Rle_trans with (Rabs (Q2R d2 - D2) * 1); [apply Rmult_le_compat_l; [apply Rabs_pos|exact UR1]|]. rewrite Rmult_1_r. apply Rabs_le. lra. }
  apply Rabs_le_inv in DU. assert (DUB: Q2R d2 * Q2R u <= 9 / 8 * D2).
  { apply Rle_trans with (Q2R d2 * 1); [apply Rmult_le_compat_l; assumption|]. pose proof (Rmult_le_compat_r D2 e (1 / 8) ltac:(lra) E1). lra. }
  assert (DUE: e * (Q2R d2 * Q2R u) <= e * (9 / 8 * D2)) by (apply Rmult_le_compat_l; lra). set (du := Q2R d2 * Q2R u) in *.
  pose proof (Rmult_le_pos e D2 ltac:(lra) ltac:(lra)) as ED2. pose proof (Rmult_le_compat_l e D1 D2 ltac:(lra) P3) as ED1. pose proof (Rmult_le_compat_r D2 e (1 / 8) ltac:(lra) E1) as ED3.
  assert (DU0R: 0 <= du) by (unfold du; apply Rmult_le_pos; assumption).
  assert (MB: Q2R m <= 3 / 2 * D2 + t) by lra.
  assert (EMB: e * (Q2R m - Q2R d1) <= e * (3 / 2 * D2 + t)) by (apply Rmult_le_compat_l; lra). pose proof (Rmult_le_compat_r t e (1 / 8) ltac:(lra) E1) as ET.
  assert (YX: Rabs (Q2R y - X) <= 6 * e * D2 + 2 * t).
  { replace ((1 - e) * (Q2R m - Q2R d1)) with ((Q2R m - Q2R d1) - e * (Q2R m - Q2R d1)) in RY by ring. replace ((1 + e) * (Q2R m - Q2R d1)) with ((Q2R m - Q2R d1) + e * (Q2R m - Q2R d1)) in RY by ring.
    replace (e * (3 / 2 * D2 + t)) with (3 / 2 * (e * D2) + e * t) in EMB by ring. unfold X. apply Rabs_le. replace (6 * e * D2) with (6 * (e * D2)) by ring. split; lra. }
  assert (Y0: 0 <= Q2R y) by (rewrite <- Q2R_0; apply Q2R_le; exact AN).
  assert (BC: 0 <= Q2R c - Q2R b) by (pose proof (Q2R_le _ _ Hbc); lra). assert (D21: D2 - D1 = Q2R c - Q2R b) by (unfold D1, D2; ring).
  set (R2 := Q2R c - Q2R b) in *. assert (XR: X <= R2). { unfold X. pose proof (Rmult_le_compat_l D2 (Q2R u) 1 ltac:(lra) UR1). lra. }
  apply Rabs_le_inv in YX. set (ep := 6 * e * D2 + 2 * t) in *.
  pose (X2 := Rmin (Q2R y) R2). assert (X20: 0 <= X2) by (apply Rmin_glb; assumption). assert (X2a: X2 <= Q2R y) by apply Rmin_l. assert (X2b: X2 <= R2) by apply Rmin_r.
  assert (X2X: Rabs (X2 - X) <= ep) by (apply Rabs_le; unfold X2, Rmin; destruct (Rle_dec (Q2R y) R2); lra).
  pose proof (sqrt_pos R2) as R0. pose proof (sqrt_sqrt R2 BC) as RR. set (R := sqrt R2) in *.
  pose proof (sqrt_pos X2) as Z20. pose proof (sqrt_sqrt X2 X20) as ZZ. set (Z2 := sqrt X2) in *.
  assert (RZ2: R * Z2 <= R2).
  { rewrite <- RR. apply Rmult_le_compat_l; [exact R0|]. unfold Z2, R. apply sqrt_le_1_alt. exact X2b. }
  assert (RZ20: 0 <= R * Z2) by (apply Rmult_le_pos; assumption).
  exists ((X2 + D1) / D2), (Q2R c - R * Z2).
  assert (EU: D2 * ((X2 + D1) / D2) - D1 = X2) by (field; lra).
  split.
  { split; apply Rmult_le_reg_r with D2; try exact P2.
    - replace (D1 / D2 * D2) with D1 by (field; lra). replace ((X2 + D1) / D2 * D2) with (X2 + D1) by (field; lra). lra.
    - replace ((X2 + D1) / D2 * D2) with (X2 + D1) by (field; lra). lra. }
  split.
  { rewrite <- rabs_mul by lra. replace (((X2 + D1) / D2 - Q2R u) * D2) with (X2 - X) by (unfold X; field; lra). exact X2X. }
  split; [unfold R2 in *; lra|]. split.
  { rewrite EU. replace (Q2R c - (Q2R c - R * Z2)) with (R * Z2) by ring. replace (R * Z2 * (R * Z2)) with ((R * R) * (Z2 * Z2)) by ring. rewrite RR, ZZ. reflexivity. }
  split.
  { intro HZ. rewrite EU. assert (RZ: R * Z2 = R * R) by (rewrite RR; unfold R2; lra). destruct (Req_dec R 0) as [R00|R00].
    - rewrite R00 in RR. lra.
    - assert (Z2 = R) by (apply Rmult_eq_reg_l with R; assumption). rewrite <- ZZ, <- RR, H. reflexivity. }
  (* errors *)
  destruct (sub_rel f md b c Hf Rb Rc Hbc) as [C1 C2]. fold R2 in C1, C2. set (w := rnd (c - b)) in *. assert (W0: (0 <= w)%Q) by (apply rnd_nonneg; ql).
  assert (W0R: 0 <= Q2R w) by (rewrite <- Q2R_0; apply Q2R_le; exact W0).
  pose proof (sqrt_pert (Q2R w) R2 e 0 W0R BC ltac:(lra) ltac:(lra) ltac:(lra) ltac:(apply Rabs_le; lra)) as SW. rewrite sqrt_0 in SW. fold R in SW. apply Rabs_le_inv in SW.
  pose proof (HS w W0 (rnd_repr f md Hf _)) as S3. apply Rabs_le_inv in S3. pose proof (sqrt_pos (Q2R w)) as SW0.
  assert (D3: Rabs (Q2R (sq w) - R) <= (2 * e + 2 * kp) * R + 0).
  { assert (KW: kp * sqrt (Q2R w) <= kp * ((1 + e) * R)) by (apply Rmult_le_compat_l; lra). pose proof (Rmult_le_pos kp R K0 R0) as KR. pose proof (Rmult_le_compat_r (kp * R) e (1 / 8) KR E1).
    pose proof (Rmult_le_pos e R ltac:(lra) R0). replace (kp * ((1 + e) * R)) with (kp * R + e * (kp * R)) in KW by ring. apply Rabs_le.
    replace ((2 * e + 2 * kp) * R) with (2 * (e * R) + 2 * (kp * R)) by ring. lra. }
  pose proof (HS y AN (rnd_repr f md Hf _)) as SY. set (Z := sqrt (Q2R y)) in *. assert (Z0: 0 <= Z) by apply sqrt_pos. pose proof (sqrt_sqrt _ Y0) as ZY. fold Z in ZY.
  assert (PN: (0 <= sq w)%Q) by (apply sq_nn; [exact W0|apply rnd_repr; exact Hf]). assert (SN: (0 <= sq y)%Q) by (apply sq_nn; [exact AN|apply rnd_repr; exact Hf]).
  pose proof (rt0 (sq w * sq y) ltac:(apply Qmult_le_0_compat; assumption)) as RV. rewrite Q2R_mult in RV.
  assert (PNR: 0 <= Q2R (sq w)) by (rewrite <- Q2R_0; apply Q2R_le; exact PN).
  pose proof (prod_err _ _ _ R Z (2 * e + 2 * kp) kp e 0 t R0 Z0 PNR ltac:(lra) ltac:(lra) ltac:(lra) ltac:(lra) ltac:(lra) D3 SY RV) as PR.
  rewrite Q2R_minus. set (v := Q2R (rnd (sq w * sq y))) in *. clearbody v.
  assert (RZ: R * Z - R * Z2 <= ep / 2).
  { unfold Z, Z2, X2, Rmin. destruct (Rle_dec (Q2R y) R2) as [L|L]; [unfold ep; lra|]. fold Z. fold R. rewrite RR.
    assert (R * Z <= R2 + ep / 2); [|lra]. apply Rsqr_incr_0_var; [|unfold ep; lra]. unfold Rsqr. replace (R * Z * (R * Z)) with ((R * R) * (Z * Z)) by ring. rewrite RR, ZY.
    apply Rle_trans with (R2 * (R2 + ep)); [apply Rmult_le_compat_l; [exact BC|lra]|]. pose proof (Rle_0_sqr (ep / 2)). unfold Rsqr in *. lra. }
  assert (RZ0: 0 <= R * Z - R * Z2).
  { assert (Z2 <= Z) by (unfold Z2, Z; apply sqrt_le_1_alt; exact X2a). pose proof (Rmult_le_compat_l R _ _ R0 H). lra. }
  assert (R2M: R2 <= M) by lra. pose proof (Rmult_le_compat_l e D2 M ltac:(lra) MD) as EDM. assert (EPM: ep / 2 <= 3 * (e * M) + t) by (unfold ep; lra). pose proof (Rmult_le_compat_r M e (1 / 8) M0 E1) as EM8.
  set (g := 2 * (2 * e + 2 * kp) + kp + 2 * e) in *. assert (G1: g = 6 * e + 5 * kp) by (unfold g; ring). assert (G0: 0 <= g) by lra. assert (G2: g <= 11 / 8) by lra.
  assert (GS: g * (R * Z) <= g * (11 / 8 * M + t)) by (apply Rmult_le_compat_l; lra). pose proof (Rmult_le_compat_r t g _ ltac:(lra) G2) as GT.
  replace (g * (11 / 8 * M + t)) with (11 / 8 * (g * M) + g * t) in GS by ring.
  assert (GM: g * M = 6 * (e * M) + 5 * (kp * M)) by (rewrite G1; ring). pose proof (Rmult_le_pos e M ltac:(lra) M0) as EM. pose proof (Rmult_le_pos kp M K0 M0) as KM.
  replace (2 * (0 * Z)) with 0 in PR by ring. replace ((12 * e + 7 * kp) * M) with (12 * (e * M) + 7 * (kp * M)) by ring.
  replace (Q2R c - v - (Q2R c - R * Z2)) with ((R * Z - v) + (R * Z2 - R * Z)) by ring. apply Rle_trans with (1 := Rabs_triang _ _).
  rewrite (Rabs_minus_sym (R * Z) v). rewrite (Rabs_minus_sym (R * Z2)), (Rabs_pos_eq _ RZ0). lra.
Qed.

Lemma tri_main : forall t0 u, tri_init f md sq a b c = Some t0 -> representable f u -> (0 <= u)%Q -> (u < 1)%Q ->
  exists w z u', tri_val f md sq t0 u = Some w /\ Q2R a <= z <= Q2R c /\ 0 <= u' <= 1 /\ Rabs (u' - Q2R u) * D2 <= 6 * e * D2 + 2 * t * (1 + D2) /\
    tri_cdf (Q2R a) (Q2R b) (Q2R c) z = (if Qle_bool u (tr_q1 t0) then u' else 1 + D1 / D2 - u') /\
    (if Qle_bool u (tr_q1 t0) then a <= w else w <= c)%Q /\
    Rabs (Q2R w - z) <= (28 * e + 7 * kp) * M + 7 * T * (1 + M).
Proof.
  intros t0 u HT RU U0 U1. destruct tri_init_ok as (q1 & EQ & ET). rewrite ET in HT. injection HT as <-. cbn [tr_q1]. unfold tri_val. cbn [tr_q1 tr_a tr_b tr_c tr_d1 tr_d2 tr_d3 tr_p1].
  destruct D_pos as (P1 & P2 & P3). destruct M_ge as (MD & M0 & MZ). pose proof (e_pos f) as E0. pose proof te_le as E1. pose proof (tiny_pos f) as T0. pose proof t_sqrt as TS. pose proof (sqrt_pos t) as ST.
  assert (K0: 0 <= kp) by (apply Rmult_le_pos; lra). assert (ABR: Q2R a <= Q2R b) by (apply Q2R_le; exact Hab). assert (BCR: Q2R b <= Q2R c) by (apply Q2R_le; exact Hbc).
  pose proof d1_nn as N1. pose proof d2_pos as N2. assert (N12: (0 <= d1 * d2)%Q) by (apply Qmult_le_0_compat; ql).
  assert (R1: D1 / D2 <= 1) by (apply Rmult_le_reg_r with D2; [exact P2|]; replace (D1 / D2 * D2) with D1 by (field; lra); lra).
  pose proof (Rmult_le_pos e M ltac:(lra) M0) as EM. pose proof (Rmult_le_pos kp M K0 M0) as KM. pose proof (Rmult_le_pos T M ST M0) as TM.
  pose proof (Rmult_le_compat_r M e (1 / 8) M0 E1) as EM8. pose proof (Rmult_le_compat_r M kp (1 / 8) M0 HKe) as KM8.
  destruct (Qle_bool u q1) eqn:EU.
  - apply Qle_bool_iff in EU. rewrite EQ in EU. destruct (branch1 u RU U0 ltac:(ql) EU) as (u' & z & (A1 & A2) & A3 & A4 & (A5 & A6) & A7 & A8).
    rewrite fsqrt_ok by exact U0. exists (rnd (a + rnd (sq (rnd (d1 * d2)) * sq u))), z, u'. split; [reflexivity|]. split; [lra|]. split; [lra|]. split.
    { rewrite Rabs_left1 by lra. pose proof (Rmult_le_compat_r D2 _ _ ltac:(lra) A3). pose proof (Rmult_le_pos e D2 ltac:(lra) ltac:(lra)). pose proof (Rmult_le_pos t D2 ltac:(lra) ltac:(lra)). lra. }
    split.
    { unfold tri_cdf. destruct (Rle_dec z (Q2R b)) as [L|L]; [|lra]. rewrite A7. fold D1. fold D2. destruct (Req_dec D1 0) as [D0|D0].
      - rewrite D0 in A2. unfold Rdiv in A2 at 1. rewrite Rmult_0_l in A2. assert (u' = 0) by lra. rewrite H. unfold Rdiv. ring.
      - field. lra. }
    split.
    { apply repr_rnd_ge; [exact Hf|exact Ra|].
      assert ((0 <= rnd (sq (rnd (d1 * d2)) * sq u))%Q); [|ql]. apply rnd_nonneg. apply Qmult_le_0_compat; apply sq_nn; try assumption; [apply rnd_nonneg; exact N12|apply rnd_repr; exact Hf]. }
    pose proof (final_rnd _ _ _ _ eq_refl A8 (MZ z ltac:(lra) ltac:(lra))) as FR.
    assert (C: (23 * e + 5 * kp) * M + 5 * T * (1 + M) <= 4 * M + 8 * T * (1 + M)) by lra. specialize (FR C). lra.
  - assert (HU: (rnd (d1 / d2) < u)%Q) by (apply Qnot_le_lt; intro H; rewrite <- EQ in H; apply Qle_bool_iff in H; congruence).
    destruct (arg_nn u RU HU) as [_ AN].
    destruct (branch2 u RU U1 HU) as (u' & z & (A1 & A2) & A3 & (A5 & A6) & A7 & A8 & A9).
    rewrite fsqrt_ok by exact AN. exists (rnd (c - rnd (sq (rnd (c - b)) * sq (rnd (rnd (d2 * u) - d1))))), z, u'. split; [reflexivity|]. split; [lra|].
    assert (R0: 0 <= D1 / D2) by (apply Rmult_le_pos; [exact P1|left; apply Rinv_0_lt_compat; exact P2]). split; [lra|]. split.
    { pose proof (Rmult_le_pos t D2 ltac:(lra) ltac:(lra)). lra. }
    split.
    { unfold tri_cdf. fold D1. fold D2. destruct (Rle_dec z (Q2R b)) as [L|L].
      - assert (ZB: z = Q2R b) by lra. specialize (A8 ZB). assert (EU': u' = 1) by (apply Rmult_eq_reg_l with D2; [unfold D1, D2 in *; lra|lra]).
        rewrite ZB, EU'. fold D1. destruct (Req_dec D1 0) as [D0|D0]; [rewrite D0; unfold Rdiv; ring|field; lra].
      - rewrite A7. assert (CB: Q2R c - Q2R b <> 0) by lra. field. split; [lra|exact CB]. }
    split.
    { apply repr_rnd_le; [exact Hf|exact Rc|].
      assert ((0 <= rnd (sq (rnd (c - b)) * sq (rnd (rnd (d2 * u) - d1))))%Q); [|ql]. apply rnd_nonneg. apply Qmult_le_0_compat; apply sq_nn; try assumption; try (apply rnd_repr; exact Hf). apply rnd_nonneg. ql. }
    pose proof (final_rnd _ _ _ _ eq_refl A9 (MZ z ltac:(lra) ltac:(lra))) as FR.
    assert (C: (12 * e + 7 * kp) * M + 5 * T <= 4 * M + 8 * T * (1 + M)) by lra. specialize (FR C). lra.
Qed.
End T.
