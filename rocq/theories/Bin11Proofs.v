(* binomial_distribution by rejection: the test far from the mode. *)
From Coq Require Import Reals Lra Qreals.
From Verif Require Import Base ProgModel UIntModel UIntSpec FloatModel FloatSpec FloatProofs RealModel UniProofs RDiscProofs BinModel BinSpec BinProofs Bin2Proofs Bin4Proofs Bin6Proofs
  PoisRSpec RExpProofs StirProofs Pois3Proofs Pois4Proofs Bin8Proofs Bin9Proofs Bin10Proofs.
From Verif Require Faure2Proofs.
Ltac Zify.zify_post_hook ::= idtac.
Open Scope R_scope.

Lemma sq_t_neg : forall v y, v <> 0 -> - sq_t v y = y * y / (2 * v).
Proof. intros. unfold sq_t. field. assumption. Qed.
Lemma half_div : forall y v, v <> 0 -> y * y / (2 * v) = y * (y / v) / 2.
Proof. intros. field. assumption. Qed.
Lemma rho_f : forall v y, v <> 0 -> sq_rho v y = y / v * (y * (y / v) / 3 + (5 / 8 * y + 1 / 6) / v + 1 / 2).
Proof. intros. unfold sq_rho. field. assumption. Qed.
Lemma dbl_div : forall a b, b <> 0 -> a / b = 2 * (a / (2 * b)).
Proof. intros. field. assumption. Qed.
Lemma sqd_f : forall d y v, v <> 0 -> d / v * (y + (y * y / v + (2 + d) * (y / v))) = d * y / v + d * (y * y + (2 + d) * y) / (v * v).
Proof. intros. field. assumption. Qed.
(* the logarithm of the ratio of two probabilities with Stirling's formula, as in lines 349-357 *)
Lemma lr_stir : forall t p k m, (0 < p)%Q -> (p < 1)%Q -> (k <= t)%nat -> (m <= t)%nat ->
  let r := Q2R p / (1 - Q2R p) in let c := fcR (Q2R c2pi) in let nm := INR t - INR m + 1 in let nk := INR t - INR k + 1 in
  ln (Q2R (bpmf t p k)) - ln (Q2R (bpmf t p m)) =
    (INR m + 1 / 2) * ln ((INR m + 1) / (r * nm)) + c m + c (t - m)%nat +
    (INR t + 1) * ln (nm / nk) + (INR k + 1 / 2) * ln (nk * r / (INR k + 1)) - c k - c (t - k)%nat.
Proof.
  intros t p k m P0 P1 Hk Hm r c nm nk. rewrite !b_ln by assumption. destruct (P_pos p P0 P1) as [A B].
  pose proof (pos_INR k). pose proof (pos_INR m). pose proof (le_INR _ _ Hk). pose proof (le_INR _ _ Hm).
  assert (R0: 0 < r) by (unfold r; apply Rmult_lt_0_compat; [exact A|apply Rinv_0_lt_compat; lra]).
  assert (NM: 0 < nm) by (unfold nm; lra). assert (NK: 0 < nk) by (unfold nk; lra).
  assert (LR: ln r = ln (Q2R p) - ln (1 - Q2R p)) by (unfold r; apply ln_div; lra).
  clearbody r. rewrite !ln_div, !ln_mult, LR by (lra || (apply Rmult_lt_0_compat; lra)).
  unfold c, fcR. rewrite !minus_INR by assumption. unfold nm, nk. field.
Qed.

Section S.
Variables (f g : fmt) (md : rmode) (ti : ity) (lg : Q -> Q) (K : R) (p : Q) (t m k : Z).
Hypothesis Hf : fmt_ok f.
Hypothesis Hg : fmt_ok g.
Hypothesis Hw : fmt_wide f.
Hypothesis Pf : (20 <= prec f)%Z.
Hypothesis Pg : (prec f <= prec g)%Z.
Hypothesis Eg : (emin g <= emin f)%Z.
Hypothesis F3 : (emin f + 3 * prec f <= 0)%Z.
Hypothesis G3 : (emin g + 3 * prec g <= 0)%Z.
Hypothesis Hti : (32 <= bits ti)%Z.
Hypothesis Hs : sgn ti = true.
Hypothesis K0 : 0 <= K.
Hypothesis K1 : K * eps f <= 1 / 8.
Hypothesis HL : log_ok f K lg.
Hypothesis P0 : (0 < p)%Q.
Hypothesis P1 : (p <= 1 # 2)%Q.
Hypothesis TP : (t + 1 <= 2 ^ prec f)%Z.
Hypothesis TI : (t < imax ti)%Z.
Hypothesis NP : (10 <= inject_Z t * p)%Q.
Hypothesis Hm : (0 <= m <= t)%Z.
Hypothesis Hk : (0 <= k <= t)%Z.
Hypothesis HY : (15 < Z.abs (k - m))%Z.
Local Notation rnd := (fround f md).
Local Notation rg := (fround g md).
Local Notation e := (eps f).
Local Notation P := (Q2R p).
Local Notation T := (IZR t).
Local Notation y := (IZR (Z.abs (k - m))).
Local Notation v := (T * P * (1 - P)).
Definition uu : R := e + / 2 ^ 53.
Local Notation u := uu.
Local Notation rl := (rl u).

Let EP : 0 < e := e_pos f.
Let E1 : e <= 1 / 524288 := e_le f Pf.
Lemma u_facts : e <= u /\ 0 < u /\ u <= 1 / 400000 /\ / 2 ^ 53 <= u.
Proof. unfold uu. assert (0 < / 2 ^ 53 <= 1 / 10 ^ 13) by (split; [apply Rinv_0_lt_compat, pow_lt; lra|cbn [pow]; lra]). cbn [pow] in *. lra. Qed.
Let EU : e <= u := proj1 u_facts.
Let U0 : 0 < u := proj1 (proj2 u_facts).
Let U1 : u <= 1 / 400000 := proj1 (proj2 (proj2 u_facts)).

Lemma P_half : 0 < P <= 1 / 2.
Proof. split; [rewrite <- Q2R_0; apply Qlt_Rlt; exact P0|]. replace (1 / 2) with (Q2R (1 # 2)) by (unfold Q2R; cbn; field). apply Q2R_le. exact P1. Qed.
Lemma TPR : 10 <= T * P.
Proof. rewrite <- (Q2R_Z t), <- Q2R_mult. replace 10 with (Q2R 10) by (unfold Q2R; cbn; field). apply Q2R_le. exact NP. Qed.
Lemma T_facts : 20 <= T /\ (T + 1) * e <= 2.
Proof.
  pose proof P_half as PH. pose proof TPR as PR. assert (T0: 0 <= T) by (apply (IZR_le 0); lia).
  assert (T * P <= T * (1 / 2)) by (apply Rmult_le_compat_l; lra). split; [lra|].
  apply IZR_le in TP. rewrite plus_IZR in TP. rewrite <- (Q2R_Z (2 ^ prec f)) in TP.
  assert (E: Q2R (inject_Z (2 ^ prec f)) * e = 2).
  { unfold eps. rewrite <- Q2R_mult. assert (Q: (inject_Z (2 ^ prec f) * p2 (1 - prec f) == 2)%Q).
    { rewrite <- p2_Z by lia. rewrite <- p2_add. replace (prec f + (1 - prec f))%Z with 1%Z by lia. reflexivity. }
    apply Qeq_eqR in Q. rewrite Q. unfold Q2R. cbn. field. }
  rewrite <- E. apply Rmult_le_compat_r; lra.
Qed.
Lemma y_facts : 16 <= y <= T.
Proof. split; [apply (IZR_le 16); lia|apply IZR_le; lia]. Qed.
Lemma v_bd : 5 <= v <= T / 4.
Proof.
  pose proof P_half as PH. pose proof TPR as PR. destruct T_facts as [T20 _]. split.
  - apply Rle_trans with (10 * (1 / 2)); [lra|]. apply Rmult_le_compat; lra.
  - pose proof (Rle_0_sqr (P - 1 / 2)) as SQ. unfold Rsqr in SQ. replace v with (T * (P * (1 - P))) by ring. replace (T / 4) with (T * (1 / 4)) by field. apply Rmult_le_compat_l; lra.
Qed.
Lemma rl_c : forall n N x X, n = N -> rl n x X -> rl N x X.
Proof. intros n N x X <-. exact (fun H => H). Qed.
Lemma RF : forall n x X, 0 <= n <= 100 -> rl n (Q2R x) X -> e * e / 4 <= X -> rl (n + 1) (Q2R (rnd x)) X.
Proof. intros. apply (rl_rnd f f md); try assumption; lia. Qed.
Lemma RG : forall n x X, 0 <= n <= 100 -> rl n (Q2R x) X -> e * e / 4 <= X -> rl (n + 1) (Q2R (rg x)) X.
Proof. intros. apply (rl_rnd f g md); try assumption; lia. Qed.
Lemma RFn : forall n x X, 0 <= n <= 100 -> rl n (- Q2R x) X -> e * e / 4 <= X -> rl (n + 1) (- Q2R (rnd x)) X.
Proof. intros. apply (rl_rnd_neg f f md); try assumption; lia. Qed.
(* a number of at least 1 / (T + 1) or its square *)
Lemma big_e : forall X, 1 <= X * ((T + 1) * (T + 1)) -> e * e / 4 <= X.
Proof.
  intros X H. destruct T_facts as [T20 TE]. assert (A: ((T + 1) * e) * ((T + 1) * e) <= 2 * 2) by (apply Rmult_le_compat; try lra; apply Rmult_le_pos; lra).
  apply Rmult_le_reg_r with ((T + 1) * (T + 1)); [apply Rmult_lt_0_compat; lra|]. lra.
Qed.
Lemma e_1 : e * e / 4 <= 1 / 10.
Proof. assert (e * e <= 1 / 524288 * (1 / 524288)) by (apply Rmult_le_compat; lra). lra. Qed.

Lemma fdiv_rl : forall h n x z Z, rl n (Q2R z) Z -> fdiv h md x z = Some (fround h md (x / z)) /\ Q2R (x / z) = Q2R x / Q2R z.
Proof.
  intros h n x z Z H. pose proof (rl_pos _ _ _ _ H) as ZP. assert (NZ: ~ (z == 0)%Q). { intro E. apply Qeq_eqR in E. rewrite Q2R_0 in E. lra. }
  split; [apply fdiv_ok; exact NZ|]. apply Q2R_div; exact NZ.
Qed.
Lemma intZ : forall z, (0 <= z <= t + 1)%Z -> rnd (inject_Z z) = inject_Z z /\ rg (inject_Z z) = inject_Z z.
Proof.
  intros z H. assert (G: (2 ^ prec f <= 2 ^ prec g)%Z) by (apply Z.pow_le_mono_r; lia). split; apply Faure2Proofs.rnd_Z; try assumption; try reflexivity; lia.
Qed.

(* r and npq *)
Lemma q_rl : rl 1 (Q2R (rnd (1 - p))) (1 - P).
Proof.
  pose proof P_half. pose proof e_1. apply rl_c with (0 + 1); [ring|]. apply RF; [lra| |lra]. rewrite Q2R_minus, Q2R_1. apply rl_0; lra.
Qed.
Local Notation rho := (P / (1 - P)).
Lemma rho_bd : 10 <= rho * T /\ 0 < rho <= 1.
Proof.
  pose proof P_half. pose proof TPR. destruct T_facts as [T20 _]. assert (A: P <= rho).
  { apply Rmult_le_reg_r with (1 - P); [lra|]. unfold Rdiv. rewrite Rmult_assoc, Rinv_l by lra. assert (0 <= P * P) by (apply Rmult_le_pos; lra). lra. }
  assert (B: rho <= 1). { apply Rmult_le_reg_r with (1 - P); [lra|]. unfold Rdiv. rewrite Rmult_assoc, Rinv_l by lra. lra. }
  assert (P * T <= rho * T) by (apply Rmult_le_compat_r; lra). lra.
Qed.
Lemma r_rl : exists r, fdiv f md p (rnd (1 - p)) = Some r /\ rl 2 (Q2R r) rho.
Proof.
  pose proof P_half. destruct T_facts as [T20 _]. destruct rho_bd as [A B]. destruct (fdiv_rl f 1 p (rnd (1 - p)) _ q_rl) as [-> E]. eexists. split; [reflexivity|].
  apply rl_c with ((0 + 1) + 1); [ring|]. apply RF; [lra|rewrite E; apply rl_div; [apply rl_0; lra|exact q_rl]|].
  apply big_e. assert (rho * (T + 1) <= rho * ((T + 1) * (T + 1))) by (apply Rmult_le_compat_l; [lra|]; replace (T + 1) with ((T + 1) * 1) at 1 by ring; apply Rmult_le_compat_l; lra). lra.
Qed.
Lemma npq_rl : rl 3 (Q2R (rnd (rnd (rnd (inject_Z t) * p) * rnd (1 - p)))) v.
Proof.
  pose proof P_half. pose proof TPR. pose proof v_bd. pose proof e_1. destruct (intZ t ltac:(lia)) as [-> _].
  apply rl_c with ((1 + 1) + 1); [ring|]. apply RF; [lra| |lra]. rewrite Q2R_mult. apply rl_mul; [|exact q_rl].
  apply rl_c with (0 + 1); [ring|]. apply RF; [lra| |lra]. rewrite Q2R_mult, Q2R_Z. apply rl_0. lra.
Qed.

Variables (r npq : Q).
Hypothesis Hr : fdiv f md p (rnd (1 - p)) = Some r.
Hypothesis Hn : npq = rnd (rnd (rnd (inject_Z t) * p) * rnd (1 - p)).
Lemma NR : rl 3 (Q2R npq) v.
Proof. rewrite Hn. exact npq_rl. Qed.
Lemma RR : rl 2 (Q2R r) rho.
Proof. destruct r_rl as (r' & E & R). rewrite Hr in E. injection E as <-. exact R. Qed.
Local Notation km := (inject_Z (Z.abs (k - m))).
Let KM : Q2R km = y := Q2R_Z _.

Lemma div_big : forall a b, 0 < b <= T + 1 -> 1 <= a -> e * e / 4 <= a / b.
Proof.
  intros a b B A. apply big_e. destruct T_facts as [T20 _]. apply Rmult_le_reg_r with b; [lra|]. unfold Rdiv.
  replace (a * / b * ((T + 1) * (T + 1)) * b) with (a * ((T + 1) * (T + 1))) by (field; lra). rewrite Rmult_1_l.
  apply Rle_trans with (T + 1); [lra|]. replace (T + 1) with (1 * (1 * (T + 1))) at 1 by ring. apply Rmult_le_compat; try lra. apply Rmult_le_compat; lra.
Qed.
Lemma tt_rl : exists q, fdiv f md (rnd (- km * km)) (rnd (2 * npq)) = Some q /\ rl 6 (- Q2R q) (- sq_t v y).
Proof.
  pose proof v_bd as V. pose proof y_facts as Y. pose proof e_1 as EE. destruct T_facts as [T20 _].
  assert (YY: 16 * 16 <= y * y) by (apply Rmult_le_compat; lra).
  assert (A: rl 1 (- Q2R (rnd (- km * km))) (y * y)).
  { apply rl_c with (0 + 1); [ring|]. apply RFn; [lra| |lra]. rewrite Q2R_mult, Q2R_opp, KM. replace (- (- y * y)) with (y * y) by ring. apply rl_0. lra. }
  assert (Q2: Q2R 2 = 2) by (unfold Q2R; cbn; field).
  assert (B: rl 4 (Q2R (rnd (2 * npq))) (2 * v)).
  { apply rl_c with ((0 + 3) + 1); [ring|]. apply RF; [lra| |lra]. rewrite Q2R_mult, Q2. apply rl_mul; [apply rl_0; lra|exact NR]. }
  destruct (fdiv_rl f 4 (rnd (- km * km)) (rnd (2 * npq)) _ B) as [-> E]. eexists. split; [reflexivity|].
  rewrite sq_t_neg by lra.
  apply rl_c with ((1 + 4) + 1); [ring|]. apply RFn; [lra| |apply div_big; lra]. rewrite E. pose proof (rl_pos _ _ _ _ B).
  replace (- (Q2R (rnd (- km * km)) / Q2R (rnd (2 * npq)))) with (- Q2R (rnd (- km * km)) / Q2R (rnd (2 * npq))) by (field; lra).
  apply rl_div; assumption.
Qed.
Lemma sixth : rl 1 (Q2R (dlit (1 / 6))) (1 / 6).
Proof.
  apply rl_c with (0 + 1); [ring|]. apply rl_err with (x := 1 / 6); [exact U0|exact U1|apply rl_0; lra|].
  assert (A: Rabs (Q2R (dlit (1 / 6)) - 1 / 6) <= / 2 ^ 53 * (1 / 6)); [|pose proof (proj2 (proj2 (proj2 u_facts))) as UU; eapply Rle_trans; [exact A|]; apply Rmult_le_compat_r; lra].
  replace (/ 2 ^ 53 * (1 / 6)) with (Q2R (1 # 54043195528445952)) by (unfold Q2R; cbn [Qnum Qden pow]; field). replace (1 / 6) with (Q2R (1 # 6)) by (unfold Q2R; cbn; field).
  rewrite <- Q2R_minus. apply Rabs_le. rewrite <- Q2R_opp. split; apply Q2R_le; vm_compute; discriminate.
Qed.
Lemma rho_rl : exists q1 q2, fdiv f md km npq = Some q1 /\
  fdiv g md (rg (rg (rg (rg (km / 3) + (625 # 1000)) * km) + dlit (1 / 6))) npq = Some q2 /\
  rl 15 (Q2R (rnd (rg (q1 * rg (q2 + (1 # 2)))))) (sq_rho v y).
Proof.
  pose proof v_bd as V. pose proof y_facts as Y. pose proof e_1 as EE. destruct T_facts as [T20 _].
  destruct (fdiv_rl f 3 km npq _ NR) as [-> D1].
  assert (A1: rl 4 (Q2R (rnd (km / npq))) (y / v)).
  { apply rl_c with ((0 + 3) + 1); [ring|]. apply RF; [lra|rewrite D1, KM; apply rl_div; [apply rl_0; lra|exact NR]|apply div_big; lra]. }
  assert (NZ3: ~ (3 == 0)%Q) by (unfold Qeq; cbn; lia). assert (Q3: Q2R 3 = 3) by (unfold Q2R; cbn; field). assert (Q5: Q2R (625 # 1000) = 5 / 8) by (unfold Q2R; cbn; field). assert (Qh: Q2R (1 # 2) = 1 / 2) by (unfold Q2R; cbn; field).
  assert (B1: rl 1 (Q2R (rg (km / 3))) (y / 3)).
  { apply rl_c with (0 + 1); [ring|]. apply RG; [lra|rewrite Q2R_div, KM, Q3 by exact NZ3; apply rl_0; lra|lra]. }
  assert (B2: rl 2 (Q2R (rg (rg (km / 3) + (625 # 1000)))) (y / 3 + 5 / 8)).
  { apply rl_c with (1 + 1); [ring|]. apply RG; [lra|rewrite Q2R_plus, Q5; apply rl_add; [exact B1|apply rl_w with 0; [exact U0|lra|apply rl_0; lra]]|lra]. }
  set (b2 := rg (rg (km / 3) + (625 # 1000))) in *.
  assert (YY: 16 * 1 <= (y / 3 + 5 / 8) * y) by (rewrite Rmult_comm; apply Rmult_le_compat; lra).
  assert (B3: rl 3 (Q2R (rg (b2 * km))) ((y / 3 + 5 / 8) * y)).
  { apply rl_c with ((2 + 0) + 1); [ring|]. apply RG; [lra|rewrite Q2R_mult, KM; apply rl_mul; [exact B2|apply rl_0; lra]|lra]. }
  set (b3 := rg (b2 * km)) in *.
  assert (B4: rl 4 (Q2R (rg (b3 + dlit (1 / 6)))) ((y / 3 + 5 / 8) * y + 1 / 6)).
  { apply rl_c with (3 + 1); [ring|]. apply RG; [lra|rewrite Q2R_plus; apply rl_add; [exact B3|apply rl_w with 1; [exact U0|lra|exact sixth]]|lra]. }
  set (b4 := rg (b3 + dlit (1 / 6))) in *.
  destruct (fdiv_rl g 3 b4 npq _ NR) as [-> D2].
  set (W := (y / 3 + 5 / 8) * y + 1 / 6) in *.
  assert (B5: rl 8 (Q2R (rg (b4 / npq))) (W / v)).
  { apply rl_c with ((4 + 3) + 1); [ring|]. apply RG; [lra|rewrite D2; apply rl_div; [exact B4|exact NR]|apply div_big; unfold W; lra]. }
  assert (WV: 0 < W / v) by (apply Rmult_lt_0_compat; [unfold W; lra|apply Rinv_0_lt_compat; lra]).
  assert (B6: rl 9 (Q2R (rg (rg (b4 / npq) + (1 # 2)))) (W / v + 1 / 2)).
  { apply rl_c with (8 + 1); [ring|]. apply RG; [lra|rewrite Q2R_plus, Qh; apply rl_add; [exact B5|apply rl_w with 0; [exact U0|lra|apply rl_0; lra]]|lra]. }
  eexists _, _. split; [reflexivity|]. split; [reflexivity|]. set (b6 := rg (rg (b4 / npq) + (1 # 2))) in *.
  assert (SE: sq_rho v y = y / v * (W / v + 1 / 2)) by reflexivity.
  assert (SB: e * e / 4 <= y / v * (W / v + 1 / 2)).
  { apply Rle_trans with (y / v * (1 / 2)); [|apply Rmult_le_compat_l; [apply Rmult_le_pos; [lra|apply Rlt_le, Rinv_0_lt_compat; lra]|lra]].
    replace (y / v * (1 / 2)) with (y / 2 / v) by (unfold Rdiv; ring). apply div_big; lra. }
  rewrite SE. apply rl_c with (((4 + 9) + 1) + 1); [ring|]. apply RF; [lra| |exact SB]. apply RG; [lra| |exact SB]. rewrite Q2R_mult. apply rl_mul; assumption.
Qed.

(* the squeezes of lines 345-347 *)
Local Notation Tq := (- sq_t v y).
Local Notation rh := (sq_rho v y).
Lemma tr_pos : 0 < Tq /\ 0 < rh /\ y / v <= 2 * rh.
Proof.
  destruct tt_rl as (q & _ & R & _). destruct rho_rl as (q1 & q2 & _ & _ & R' & _). split; [exact R|split; [exact R'|]].
  pose proof v_bd as V. pose proof y_facts as Y. unfold sq_rho. set (w := v) in *. assert (IV: 0 < / w) by (apply Rinv_0_lt_compat; lra).
  assert (B: 0 <= ((y / 3 + 5 / 8) * y + 1 / 6) / w). { apply Rmult_le_pos; [|lra]. assert (0 <= (y / 3 + 5 / 8) * y) by (apply Rmult_le_pos; lra). lra. }
  assert (A: 0 <= y / w) by (apply Rmult_le_pos; lra). pose proof (Rmult_le_pos _ _ A B). set (c := ((y / 3 + 5 / 8) * y + 1 / 6) / w) in *. set (a := y / w) in *. lra.
Qed.
Lemma sq_ok : exists q1 q2 tt, fdiv f md km npq = Some q1 /\
  fdiv g md (rg (rg (rg (rg (km / 3) + (625 # 1000)) * km) + dlit (1 / 6))) npq = Some q2 /\
  fdiv f md (rnd (- km * km)) (rnd (2 * npq)) = Some tt /\
  let ro := rnd (rg (q1 * rg (q2 + (1 # 2)))) in
  Rabs (Q2R (rnd (tt - ro)) - (sq_t v y - rh)) <= 64 * u * (Tq + rh) /\
  Rabs (Q2R (rnd (tt + ro)) - (sq_t v y + rh)) <= 64 * u * (Tq + rh) + u.
Proof.
  destruct tr_pos as (A0 & B0 & _). destruct tt_rl as (tt & ET & RT). destruct rho_rl as (q1 & q2 & E1' & E2' & RO).
  exists q1, q2, tt. split; [exact E1'|]. split; [exact E2'|]. split; [exact ET|]. intro ro. fold ro in RO.
  pose proof (rl_num u U0 U1 6 _ _ ltac:(lra) RT) as NT. pose proof (rl_num u U0 U1 15 _ _ ltac:(lra) RO) as NO.
  set (a := Tq) in *. set (b := rh) in *. assert (ES: sq_t v y = - a) by (unfold a; ring). rewrite ES.
  assert (UA: 0 < u * a <= a / 400000) by (split; [apply Rmult_lt_0_compat; lra|]; replace (a / 400000) with (1 / 400000 * a) by field; apply Rmult_le_compat_r; lra).
  assert (UB: 0 < u * b <= b / 400000) by (split; [apply Rmult_lt_0_compat; lra|]; replace (b / 400000) with (1 / 400000 * b) by field; apply Rmult_le_compat_r; lra).
  split.
  - assert (R: rl 16 (- Q2R (rnd (tt - ro))) (a + b)).
    { apply rl_c with (15 + 1); [ring|]. apply RFn; [lra| |].
      - rewrite Q2R_minus. replace (- (Q2R tt - Q2R ro)) with (- Q2R tt + Q2R ro) by ring. apply rl_add; [apply rl_w with 6; [exact U0|lra|exact RT]|exact RO].
      - pose proof y_facts as Y. pose proof v_bd as V. destruct T_facts as [T20 _]. apply Rle_trans with a; [|lra]. unfold a. rewrite sq_t_neg by lra.
        apply div_big; [lra|]. assert (16 * 16 <= y * y) by (apply Rmult_le_compat; lra). lra. }
    pose proof (rl_num u U0 U1 16 _ _ ltac:(lra) R) as N. apply Rabs_le. lra.
  - pose proof (rr f Hw f md (tt + ro) (a * (11 / 10) + b * (11 / 10)) ltac:(lia) ltac:(lia)) as R. rewrite Q2R_plus in R.
    assert (R1 : - (a * (11 / 10) + b * (11 / 10)) <= Q2R tt + Q2R ro) by lra. assert (R2 : Q2R tt + Q2R ro <= a * (11 / 10) + b * (11 / 10)) by lra.
    specialize (R R1 R2).
    assert (EA: e * a <= u * a) by (apply Rmult_le_compat_r; lra). assert (EB: e * b <= u * b) by (apply Rmult_le_compat_r; lra).
    assert (0 < e * a) by (apply Rmult_lt_0_compat; lra). assert (0 < e * b) by (apply Rmult_lt_0_compat; lra).
    apply Rabs_le. lra.
Qed.

(* the logarithms *)
Definition LL : R := 2 * ln (T + 1).
Definition WW : R := (T + 2) * (LL + 1).
Local Notation L := LL.
Local Notation W := WW.
Lemma L_pos : 0 <= L.
Proof. destruct T_facts as [T20 _]. unfold LL. assert (0 < ln (T + 1)) by (rewrite <- ln_1; apply ln_increasing; lra). lra. Qed.
Lemma W_big : 22 <= W /\ T + 2 <= W.
Proof. destruct T_facts as [T20 _]. pose proof L_pos. unfold WW. assert (0 <= (T + 2) * L) by (apply Rmult_le_pos; lra). lra. Qed.
Lemma ln_bd : forall X, 0 < X -> 1 <= X * ((T + 1) * (T + 1)) -> X <= (T + 1) * (T + 1) -> Rabs (ln X) <= L.
Proof.
  intros X X0 A B. destruct T_facts as [T20 _]. assert (E: L = ln ((T + 1) * (T + 1))) by (unfold LL; rewrite ln_mult by lra; ring).
  assert (TT: 0 < (T + 1) * (T + 1)) by (apply Rmult_lt_0_compat; lra).
  apply Rabs_le. rewrite E. split.
  - assert (0 <= ln (X * ((T + 1) * (T + 1)))). { rewrite <- ln_1. destruct (Req_dec 1 (X * ((T + 1) * (T + 1)))) as [<-|N]; [lra|]. left. apply ln_increasing; lra. }
    rewrite ln_mult in H by assumption. lra.
  - destruct (Req_dec X ((T + 1) * (T + 1))) as [->|N]; [lra|]. left. apply ln_increasing; lra.
Qed.
Lemma lg_ok : forall n x X, 0 <= n <= 4 -> representable f x -> rl n (Q2R x) X -> Rabs (ln X) <= L ->
  Rabs (Q2R (lg x) - ln X) <= K * e * (L + 1) + n * 2 * u /\ Rabs (Q2R (lg x)) <= 2 * (L + 1).
Proof.
  intros n x X N RX RL B. pose proof (rl_ln u _ _ _ RL) as E. pose proof (rl_pos _ _ _ _ RL) as XP.
  assert (X0: (0 < x)%Q). { apply Rlt_Qlt. rewrite Q2R_0. exact XP. } pose proof (HL x X0 RX) as H. pose proof L_pos as L0.
  assert (NU: n * (2 * u) <= 4 * (2 * u)) by (apply Rmult_le_compat_r; lra). assert (NU0: 0 <= n * (2 * u)) by (apply Rmult_le_pos; lra).
  assert (A: Rabs (ln (Q2R x)) <= L + 1). { apply Rabs_le_inv in E, B. apply Rabs_le. lra. }
  assert (KE: 0 <= K * e) by (apply Rmult_le_pos; lra).
  assert (C: K * e * Rabs (ln (Q2R x)) <= K * e * (L + 1)) by (apply Rmult_le_compat_l; assumption).
  assert (D: K * e * (L + 1) <= 1 / 8 * (L + 1)) by (apply Rmult_le_compat_r; lra).
  apply Rabs_le_inv in E, B, H, A. split; apply Rabs_le; lra.
Qed.
Lemma half_ok : forall z, (0 <= z <= t)%Z -> Rabs (Q2R (rg (inject_Z z + (1 # 2))) - (IZR z + 1 / 2)) <= u * (T + 2).
Proof.
  intros z H. assert (Z: 0 <= IZR z <= T) by (split; [apply (IZR_le 0)|apply IZR_le]; lia). assert (Qh: Q2R (1 # 2) = 1 / 2) by (unfold Q2R; cbn; field).
  pose proof (rr f Hw g md (inject_Z z + (1 # 2)) (T + 1) Pg Eg) as R. rewrite Q2R_plus, Q2R_Z, Qh in R. specialize (R ltac:(lra) ltac:(lra)).
  assert (e * (T + 2) <= u * (T + 2)) by (apply Rmult_le_compat_r; lra). apply Rabs_le. lra.
Qed.
Lemma term_ok : forall z n x X, (0 <= z <= t)%Z -> 0 <= n <= 4 -> representable f x -> rl n (Q2R x) X -> Rabs (ln X) <= L ->
  Rabs (Q2R (rg (inject_Z z + (1 # 2)) * lg x) - (IZR z + 1 / 2) * ln X) <= (10 * u + K * e) * W /\ Rabs ((IZR z + 1 / 2) * ln X) <= W.
Proof.
  intros z n x X Hz N RX RL B. destruct (lg_ok n x X N RX RL B) as [E1' E2']. pose proof (half_ok z Hz) as H. pose proof L_pos as L0. destruct T_facts as [T20 _].
  assert (Z: 0 <= IZR z <= T) by (split; [apply (IZR_le 0)|apply IZR_le]; lia). rewrite Q2R_mult. split.
  - eapply Rle_trans; [apply (prod_err _ _ _ _ _ _ _ (T + 1) H E1' E2'); apply Rabs_le; lra|].
    unfold WW. assert (A: (T + 1) * (K * e * (L + 1) + n * 2 * u) <= (T + 2) * (K * e * (L + 1) + 8 * u * (L + 1))).
    { assert (KE: 0 <= K * e * (L + 1)) by (apply Rmult_le_pos; [apply Rmult_le_pos|]; lra). assert (N0: 0 <= n * u <= 4 * u) by (split; [apply Rmult_le_pos|apply Rmult_le_compat_r]; lra).
      assert (0 <= u * L) by (apply Rmult_le_pos; lra). apply Rmult_le_compat; lra. }
    lra.
  - rewrite Rabs_mult, (Rabs_pos_eq (IZR z + 1 / 2)) by lra. unfold WW. apply Rmult_le_compat; [lra|apply Rabs_pos|lra|lra].
Qed.
Lemma term2_ok : forall x X, representable f x -> rl 1 (Q2R x) X -> Rabs (ln X) <= L ->
  Rabs (Q2R (inject_Z (t + 1) * lg x) - (T + 1) * ln X) <= (2 * u + K * e) * W /\ Rabs ((T + 1) * ln X) <= W.
Proof.
  intros x X RX RL B. destruct (lg_ok 1 x X ltac:(lra) RX RL B) as [E1' _]. pose proof L_pos as L0. destruct T_facts as [T20 _].
  rewrite Q2R_mult, Q2R_Z, plus_IZR. split.
  - rewrite <- Rmult_minus_distr_l, Rabs_mult, Rabs_pos_eq by lra. unfold WW.
    apply Rle_trans with ((T + 2) * (K * e * (L + 1) + 2 * u * (L + 1))); [|lra].
    assert (KE: 0 <= K * e * (L + 1)) by (apply Rmult_le_pos; [apply Rmult_le_pos|]; lra). assert (0 <= u * L) by (apply Rmult_le_pos; lra).
    apply Rmult_le_compat; [lra|apply Rabs_pos|lra|lra].
  - rewrite Rabs_mult, (Rabs_pos_eq (T + 1)) by lra. unfold WW. apply Rmult_le_compat; [lra|apply Rabs_pos|lra|lra].
Qed.
Lemma stp : forall h x X E B C, (prec f <= prec h)%Z -> (emin h <= emin f)%Z -> Rabs (Q2R x - X) <= E -> Rabs X <= B -> B + E + 1 <= C -> Rabs (Q2R (fround h md x) - X) <= E + e * C.
Proof.
  intros h x X E B C H1 H2 A H D. apply Rabs_le_inv in A, H. pose proof (rr f Hw h md x (B + E) H1 H2 ltac:(lra) ltac:(lra)) as R.
  assert (e * (B + E + 1) <= e * C) by (apply Rmult_le_compat_l; lra). apply Rabs_le. lra.
Qed.
Lemma sum_ok : forall w kp de a1 a2 a3 f1 f2 f3 f4 A1 A2 A3 J1 J2 J3 J4, 22 <= w -> 0 <= kp <= 1 / 8 -> 0 <= de <= 1 / 100 ->
  Rabs (Q2R a1 - A1) <= (10 * u + kp) * w -> Rabs A1 <= w -> Rabs (Q2R a2 - A2) <= (2 * u + kp) * w -> Rabs A2 <= w ->
  Rabs (Q2R a3 - A3) <= (10 * u + kp) * w -> Rabs A3 <= w ->
  Rabs (Q2R f1 - J1) <= de -> Rabs (Q2R f1) <= 1 / 5 -> Rabs (Q2R f2 - J2) <= de -> Rabs (Q2R f2) <= 1 / 5 ->
  Rabs (Q2R f3 - J3) <= de -> Rabs (Q2R f3) <= 1 / 5 -> Rabs (Q2R f4 - J4) <= de -> Rabs (Q2R f4) <= 1 / 5 ->
  let h := rnd (rg (rg (rg a1 + f1) + f2)) in
  Rabs (Q2R (rg (rg (rg (rnd (h + rnd a2) + rg a3) - f3) - f4)) - (A1 + J1 + J2 + A2 + A3 - J3 - J4)) <= (50 * u + 3 * kp) * w + 4 * de.
Proof.
  intros w kp de a1 a2 a3 f1 f2 f3 f4 A1 A2 A3 J1 J2 J3 J4 HW HK HD H1 B1 H2 B2 H3 B3 G1 C1 G2 C2 G3' C3 G4 C4 h.
  assert (UW: 0 < u * w <= w / 400000) by (split; [apply Rmult_lt_0_compat; lra|]; replace (w / 400000) with (1 / 400000 * w) by field; apply Rmult_le_compat_r; lra).
  assert (EW: 0 < e * w <= u * w) by (split; [apply Rmult_lt_0_compat; lra|]; apply Rmult_le_compat_r; lra).
  assert (KW: 0 <= kp * w <= w / 8) by (split; [apply Rmult_le_pos; lra|]; replace (w / 8) with (1 / 8 * w) by field; apply Rmult_le_compat_r; lra).
  apply Rabs_le_inv in G1, C1, G2, C2, G3', C3, G4, C4, B1, B2, B3.
  assert (PF: (prec f <= prec f)%Z) by lia. assert (EF: (emin f <= emin f)%Z) by lia.
  pose proof (stp g a1 A1 _ w (2 * w) Pg Eg H1 ltac:(apply Rabs_le; lra) ltac:(lra)) as S1. apply Rabs_le_inv in S1.
  pose proof (stp g (rg a1 + f1) (A1 + J1) ((10 * u + kp) * w + 2 * e * w + de) (w + 1 / 4) (2 * w) Pg Eg ltac:(rewrite Q2R_plus; apply Rabs_le; lra) ltac:(apply Rabs_le; lra) ltac:(lra)) as S2. apply Rabs_le_inv in S2.
  pose proof (stp g (rg (rg a1 + f1) + f2) (A1 + J1 + J2) ((10 * u + kp) * w + 4 * e * w + 2 * de) (w + 1 / 2) (2 * w) Pg Eg ltac:(rewrite Q2R_plus; apply Rabs_le; lra) ltac:(apply Rabs_le; lra) ltac:(lra)) as S3.
  pose proof (stp f (rg (rg (rg a1 + f1) + f2)) (A1 + J1 + J2) _ (w + 1 / 2) (2 * w) PF EF S3 ltac:(apply Rabs_le; lra) ltac:(lra)) as S4. fold h in S4. apply Rabs_le_inv in S4.
  pose proof (stp f a2 A2 _ w (2 * w) PF EF H2 ltac:(apply Rabs_le; lra) ltac:(lra)) as S5. apply Rabs_le_inv in S5.
  pose proof (stp f (h + rnd a2) (A1 + J1 + J2 + A2) ((12 * u + 2 * kp) * w + 10 * e * w + 2 * de) (2 * w + 1 / 2) (3 * w) PF EF ltac:(rewrite Q2R_plus; apply Rabs_le; lra) ltac:(apply Rabs_le; lra) ltac:(lra)) as S6. apply Rabs_le_inv in S6.
  pose proof (stp g a3 A3 _ w (2 * w) Pg Eg H3 ltac:(apply Rabs_le; lra) ltac:(lra)) as S7. apply Rabs_le_inv in S7.
  set (s6 := rnd (h + rnd a2)) in *.
  pose proof (stp g (s6 + rg a3) (A1 + J1 + J2 + A2 + A3) ((22 * u + 3 * kp) * w + 15 * e * w + 2 * de) (3 * w + 1 / 2) (4 * w) Pg Eg ltac:(rewrite Q2R_plus; apply Rabs_le; lra) ltac:(apply Rabs_le; lra) ltac:(lra)) as S8. apply Rabs_le_inv in S8.
  set (s8 := rg (s6 + rg a3)) in *.
  pose proof (stp g (s8 - f3) (A1 + J1 + J2 + A2 + A3 - J3) ((22 * u + 3 * kp) * w + 19 * e * w + 3 * de) (3 * w + 3 / 4) (4 * w) Pg Eg ltac:(rewrite Q2R_minus; apply Rabs_le; lra) ltac:(apply Rabs_le; lra) ltac:(lra)) as S9. apply Rabs_le_inv in S9.
  set (s9 := rg (s8 - f3)) in *.
  pose proof (stp g (s9 - f4) (A1 + J1 + J2 + A2 + A3 - J3 - J4) ((22 * u + 3 * kp) * w + 23 * e * w + 4 * de) (3 * w + 1) (4 * w) Pg Eg ltac:(rewrite Q2R_minus; apply Rabs_le; lra) ltac:(apply Rabs_le; lra) ltac:(lra)) as S10.
  eapply Rle_trans; [exact S10|]. lra.
Qed.

(* the final test of lines 349-357 *)
Local Notation nm := (T - IZR m + 1).
Local Notation nk := (T - IZR k + 1).
Lemma mk_R : 0 <= IZR m <= T /\ 0 <= IZR k <= T.
Proof. repeat split; try (apply (IZR_le 0); lia); apply IZR_le; lia. Qed.
Lemma TT_R : forall a, 0 <= a -> a * (T + 1) <= a * ((T + 1) * (T + 1)) /\ a <= a * (T + 1).
Proof.
  intros a A. destruct T_facts as [T20 _]. split; [|rewrite <- (Rmult_1_r a) at 1; apply Rmult_le_compat_l; lra].
  apply Rmult_le_compat_l; [exact A|]. rewrite <- (Rmult_1_r (T + 1)) at 1. apply Rmult_le_compat_l; lra.
Qed.
Lemma div_bd : forall a b, 0 < a -> 0 < b -> b <= a * ((T + 1) * (T + 1)) -> a <= b * ((T + 1) * (T + 1)) ->
  0 < a / b /\ 1 <= a / b * ((T + 1) * (T + 1)) /\ Rabs (ln (a / b)) <= L.
Proof.
  intros a b A B H1 H2. assert (IB: 0 < / b) by (apply Rinv_0_lt_compat; exact B). assert (Q0: 0 < a / b) by (apply Rmult_lt_0_compat; assumption).
  assert (S1: 1 <= a / b * ((T + 1) * (T + 1))). { apply Rmult_le_reg_r with b; [exact B|]. unfold Rdiv. replace (a * / b * ((T + 1) * (T + 1)) * b) with (a * ((T + 1) * (T + 1))) by (field; lra). lra. }
  split; [exact Q0|]. split; [exact S1|]. apply ln_bd; [exact Q0|exact S1|]. apply Rmult_le_reg_r with b; [exact B|]. replace (a / b * b) with a by (field; lra). lra.
Qed.
Lemma x1_ok : exists x, fdiv f md (inject_Z (m + 1)) (rnd (r * inject_Z (t - m + 1))) = Some x /\ representable f x /\
  rl 4 (Q2R x) ((IZR m + 1) / (rho * nm)) /\ Rabs (ln ((IZR m + 1) / (rho * nm))) <= L.
Proof.
  destruct mk_R as [M _]. destruct T_facts as [T20 _]. destruct rho_bd as [R1 R2].
  assert (RN: rho * 1 <= rho * nm <= 1 * (T + 1)) by (split; [apply Rmult_le_compat_l; lra|apply Rmult_le_compat; lra]).
  assert (BE: e * e / 4 <= rho * nm). { apply big_e. destruct (TT_R (rho * nm) ltac:(lra)). assert (rho * (T + 1) <= rho * nm * (T + 1)) by (apply Rmult_le_compat_r; lra). lra. }
  assert (B: rl 3 (Q2R (rnd (r * inject_Z (t - m + 1)))) (rho * nm)).
  { apply rl_c with (2 + 0 + 1); [ring|]. apply RF; [lra| |exact BE]. rewrite Q2R_mult, Q2R_Z, plus_IZR, minus_IZR. apply rl_mul; [exact RR|apply rl_0; lra]. }
  destruct (div_bd (IZR m + 1) (rho * nm)) as (C1 & C2 & C3); [lra|lra| | |].
  { destruct (TT_R (IZR m + 1) ltac:(lra)). assert (1 * (T + 1) <= (IZR m + 1) * (T + 1)) by (apply Rmult_le_compat_r; lra). lra. }
  { apply Rle_trans with (rho * ((T + 1) * (T + 1))); [|apply Rmult_le_compat_r; [apply Rmult_le_pos; lra|lra]].
    replace (rho * ((T + 1) * (T + 1))) with (rho * T * (T + 1) + rho * (T + 1)) by ring. assert (10 * (T + 1) <= rho * T * (T + 1)) by (apply Rmult_le_compat_r; lra). assert (0 <= rho * (T + 1)) by (apply Rmult_le_pos; lra). lra. }
  destruct (fdiv_rl f 3 (inject_Z (m + 1)) _ _ B) as [-> E]. eexists. split; [reflexivity|]. split; [apply rnd_repr; exact Hf|]. split; [|exact C3].
  apply rl_c with (0 + 3 + 1); [ring|]. apply RF; [lra| |apply big_e; exact C2]. rewrite E, Q2R_Z, plus_IZR. apply rl_div; [apply rl_0; lra|exact B].
Qed.
Lemma x2_ok : exists x, fdiv f md (inject_Z (t - m + 1)) (inject_Z (t - k + 1)) = Some x /\ representable f x /\ rl 1 (Q2R x) (nm / nk) /\ Rabs (ln (nm / nk)) <= L.
Proof.
  destruct mk_R as [M KK]. destruct T_facts as [T20 _].
  assert (B: rl 0 (Q2R (inject_Z (t - k + 1))) nk) by (rewrite Q2R_Z, plus_IZR, minus_IZR; apply rl_0; lra).
  destruct (div_bd nm nk) as (C1 & C2 & C3); [lra|lra| | |].
  { destruct (TT_R nm ltac:(lra)). assert (1 * (T + 1) <= nm * (T + 1)) by (apply Rmult_le_compat_r; lra). lra. }
  { destruct (TT_R nk ltac:(lra)). assert (1 * (T + 1) <= nk * (T + 1)) by (apply Rmult_le_compat_r; lra). lra. }
  destruct (fdiv_rl f 0 (inject_Z (t - m + 1)) _ _ B) as [-> E]. eexists. split; [reflexivity|]. split; [apply rnd_repr; exact Hf|]. split; [|exact C3].
  apply rl_c with (0 + 0 + 1); [ring|]. apply RF; [lra| |apply big_e; exact C2]. rewrite E. apply rl_div; [|exact B]. rewrite Q2R_Z, plus_IZR, minus_IZR. apply rl_0; lra.
Qed.
Lemma x3_ok : exists x, fdiv f md (rnd (inject_Z (t - k + 1) * r)) (inject_Z (k + 1)) = Some x /\ representable f x /\
  rl 4 (Q2R x) (nk * rho / (IZR k + 1)) /\ Rabs (ln (nk * rho / (IZR k + 1))) <= L.
Proof.
  destruct mk_R as [_ KK]. destruct T_facts as [T20 _]. destruct rho_bd as [R1 R2].
  assert (RN: 1 * rho <= nk * rho <= (T + 1) * 1) by (split; [apply Rmult_le_compat_r; lra|apply Rmult_le_compat; lra]).
  assert (BE: e * e / 4 <= nk * rho). { apply big_e. destruct (TT_R (nk * rho) ltac:(lra)). assert (rho * (T + 1) <= nk * rho * (T + 1)) by (apply Rmult_le_compat_r; lra). lra. }
  assert (A: rl 3 (Q2R (rnd (inject_Z (t - k + 1) * r))) (nk * rho)).
  { apply rl_c with (0 + 2 + 1); [ring|]. apply RF; [lra| |exact BE]. rewrite Q2R_mult, Q2R_Z, plus_IZR, minus_IZR. apply rl_mul; [apply rl_0; lra|exact RR]. }
  assert (B: rl 0 (Q2R (inject_Z (k + 1))) (IZR k + 1)) by (rewrite Q2R_Z, plus_IZR; apply rl_0; lra).
  destruct (div_bd (nk * rho) (IZR k + 1)) as (C1 & C2 & C3); [lra|lra| | |].
  { apply Rle_trans with (rho * ((T + 1) * (T + 1))); [|apply Rmult_le_compat_r; [apply Rmult_le_pos; lra|lra]].
    replace (rho * ((T + 1) * (T + 1))) with (rho * T * (T + 1) + rho * (T + 1)) by ring. assert (10 * (T + 1) <= rho * T * (T + 1)) by (apply Rmult_le_compat_r; lra). assert (0 <= rho * (T + 1)) by (apply Rmult_le_pos; lra). lra. }
  { destruct (TT_R (IZR k + 1) ltac:(lra)). assert (1 * (T + 1) <= (IZR k + 1) * (T + 1)) by (apply Rmult_le_compat_r; lra). lra. }
  destruct (fdiv_rl f 0 (rnd (inject_Z (t - k + 1) * r)) _ _ B) as [-> E]. eexists. split; [reflexivity|]. split; [apply rnd_repr; exact Hf|]. split; [|exact C3].
  apply rl_c with (3 + 0 + 1); [ring|]. apply RF; [lra| |apply big_e; exact C2]. rewrite E. apply rl_div; [exact A|exact B].
Qed.

(* sq_d is a rounding error *)
Local Notation d := (e * ((T + 1) * P)).
Lemma d_ok : 0 <= d <= 1 /\ d <= (T + 1) * P / 2 /\ d / v <= 21 / 10 * e.
Proof.
  pose proof P_half as PH. destruct T_facts as [T20 TE]. pose proof v_bd as V. pose proof TPR as PR. assert (TP0: 0 <= (T + 1) * P) by (apply Rmult_le_pos; lra).
  split; [split; [apply Rmult_le_pos; lra|]|split].
  - replace d with ((T + 1) * e * P) by ring. apply Rle_trans with (2 * (1 / 2)); [apply Rmult_le_compat; try lra; apply Rmult_le_pos; lra|lra].
  - apply Rle_trans with (1 / 524288 * ((T + 1) * P)); [apply Rmult_le_compat_r; lra|lra].
  - apply Rmult_le_reg_r with v; [lra|]. replace (d / v * v) with d by (unfold Rdiv; rewrite Rmult_assoc, Rinv_l by lra; ring).
    replace (21 / 10 * e * v) with (e * (21 / 10 * v)) by ring. apply Rmult_le_compat_l; [lra|].
    assert (T * P * (1 / 2) <= v) by (apply Rmult_le_compat_l; lra). assert (20 * P <= T * P) by (apply Rmult_le_compat_r; lra). lra.
Qed.
Lemma sqd_ok : sq_d v y d <= u * (3 * W + 5 * Tq + 13 * rh).
Proof.
  destruct d_ok as (D0 & _ & DV). destruct tr_pos as (A0 & B0 & YV). pose proof v_bd as V. pose proof y_facts as Y. destruct W_big as [_ W2].
  assert (IV: 0 < / v) by (apply Rinv_0_lt_compat; lra).
  assert (TE: y * y / v = 2 * Tq) by (rewrite sq_t_neg by lra; apply dbl_div; lra).
  unfold sq_d. replace (d * y / v + d * (y * y + (2 + d) * y) / (v * v)) with (d / v * (y + (y * y / v + (2 + d) * (y / v)))).
  2: { apply sqd_f. lra. }
  rewrite TE. assert (YD: 0 <= y / v) by (apply Rmult_le_pos; lra).
  assert (S: (2 + d) * (y / v) <= 3 * (2 * rh)) by (apply Rmult_le_compat; lra).
  assert (S0: 0 <= (2 + d) * (y / v)) by (apply Rmult_le_pos; lra).
  apply Rle_trans with (21 / 10 * u * (W + (2 * Tq + 6 * rh))).
  - apply Rmult_le_compat; [apply Rmult_le_pos; lra|lra|lra|lra].
  - assert (0 <= u * W) by (apply Rmult_le_pos; lra). assert (0 <= u * Tq) by (apply Rmult_le_pos; lra). assert (0 <= u * rh) by (apply Rmult_le_pos; lra). lra.
Qed.

Hypothesis MD : - d <= (T + 1) * P - IZR m <= 1 + d.
Local Notation LP k := (ln (Q2R (bpmf (Z.to_nat t) p (Z.to_nat k)))).
Lemma INRZ : forall z, (0 <= z)%Z -> INR (Z.to_nat z) = IZR z.
Proof. intros z H. rewrite INR_IZR_INZ, Z2Nat.id by exact H. reflexivity. Qed.
Definition far_err (lv : R) : R := (K * e + 500 * u) * Rabs lv + (140 * u + 3 * (K * e)) * W + / 10 ^ 9.
Lemma p_lt1 : (p < 1)%Q.
Proof. apply Qle_lt_trans with (1 # 2); [exact P1|reflexivity]. Qed.
Lemma far_squeeze : LP k - LP m <= sq_t v y + rh + sq_d v y d /\ (y + d <= (T + 1) * P / 2 -> sq_t v y - rh - sq_d v y d <= LP k - LP m).
Proof.
  destruct d_ok as (D0 & D1 & _). pose proof P_half as PH.
  assert (RY: Rabs (INR (Z.to_nat k) - INR (Z.to_nat m)) = y) by (rewrite !INRZ by lia; rewrite <- minus_IZR, abs_IZR; reflexivity).
  pose proof (squeeze (Z.to_nat t) p P0 p_lt1 (Z.to_nat m) (Z.to_nat k) d ltac:(lia) ltac:(lia) ltac:(lia) ltac:(lra) ltac:(lra)) as S.
  rewrite RY in S. rewrite !(INRZ t) in S by lia. rewrite !(INRZ m) in S by lia. specialize (S MD). destruct S as [S1 S2]. split; [apply S1; lra|exact S2].
Qed.
Lemma W_5 : 5 * (T + 2) <= W.
Proof.
  destruct T_facts as [T20 _]. unfold WW. rewrite (Rmult_comm 5). apply Rmult_le_compat_l; [lra|]. unfold LL.
  assert (2 < ln 16). { replace 16 with ((2 * 2) * (2 * 2)) by ring. rewrite !ln_mult by lra. pose proof ln_lt_2. lra. }
  assert (ln 16 < ln (T + 1)) by (apply ln_increasing; lra). lra.
Qed.
(* where the upper squeeze is below 0 the distance from the mode is at most 3 v *)
Lemma tr_small : rh <= 2 * Tq -> Tq + rh <= 9 / 10 * W.
Proof.
  intro H. destruct tr_pos as (A0 & B0 & _). pose proof v_bd as V. pose proof y_facts as Y. pose proof W_5 as W5.
  assert (IV: 0 < / v) by (apply Rinv_0_lt_compat; lra). assert (YV: 0 < y / v) by (apply Rmult_lt_0_compat; lra).
  assert (TE: Tq = y * (y / v) / 2) by (rewrite sq_t_neg by lra; apply half_div; lra).
  assert (RE: rh = y / v * (y * (y / v) / 3 + (5 / 8 * y + 1 / 6) / v + 1 / 2)) by (apply rho_f; lra).
  set (z := y / v) in *. assert (Z1: 0 <= (5 / 8 * y + 1 / 6) / v) by (apply Rmult_le_pos; lra).
  assert (RL: z * (y * z / 3) <= rh). { rewrite RE. apply Rmult_le_compat_l; lra. }
  assert (Z3: z <= 3).
  { apply Rmult_le_reg_r with (y * z / 3); [apply Rmult_lt_0_compat; [apply Rmult_lt_0_compat; lra|lra]|]. lra. }
  assert (y * z <= y * 3) by (apply Rmult_le_compat_l; lra). lra.
Qed.
Lemma far_ok : forall vv, (0 < vv)%Q -> representable f vv ->
  exists b, bn_accept_far f g md ti lg r npq t m k km vv = Some b /\
    if b then 2 * y + 2 <= (T + 1) * P -> ln (Q2R vv) <= LP k - LP m + far_err (ln (Q2R vv))
    else LP k - LP m <= ln (Q2R vv) + far_err (ln (Q2R vv)).
Proof.
  intros vv V0 VR. destruct sq_ok as (q1 & q2 & tt & EQ1 & EQ2 & EQ3 & SA & SB). unfold bn_accept_far. rewrite EQ1. cbn [bind]. rewrite EQ2. cbn [bind]. rewrite EQ3. cbn [bind].
  set (ro := rnd (rg (q1 * rg (q2 + (1 # 2))))) in *.
  destruct (Qle_bool vv 0) eqn:EV; [exfalso; apply Qle_bool_iff in EV; apply (Qlt_irrefl 0), Qlt_le_trans with vv; assumption|]. clear EV.
  pose proof (HL vv V0 VR) as HV. set (lv := ln (Q2R vv)) in *.
  destruct far_squeeze as [SQ1 SQ2]. pose proof sqd_ok as SD. destruct tr_pos as (A0 & B0 & _). destruct W_big as [W1 W2]. destruct d_ok as (D0 & _ & _).
  assert (KE: 0 <= K * e) by (apply Rmult_le_pos; lra).
  assert (N9: 0 < / 10 ^ 9) by (apply Rinv_0_lt_compat, pow_lt; lra).
  assert (PW: 0 <= u * W /\ 0 <= u * Tq /\ 0 <= u * rh /\ 0 <= K * e * W /\ 22 * u <= u * W).
  { repeat split; try (apply Rmult_le_pos; lra). rewrite Rmult_comm. apply Rmult_le_compat_l; lra. }
  apply Rabs_le_inv in HV, SA, SB. unfold far_err. pose proof tr_small as TS. set (tq := Tq) in *. assert (ES: sq_t v y = - tq) by (unfold tq; ring). rewrite ES in *. set (ri := rh) in *. pose proof (Rabs_pos lv) as AL. assert (AV: - Rabs lv <= lv <= Rabs lv) by (apply Rabs_le_inv; lra).
  assert (KL: 0 <= K * e * Rabs lv <= Rabs lv / 8) by (split; [apply Rmult_le_pos; lra|]; replace (Rabs lv / 8) with (1 / 8 * Rabs lv) by field; apply Rmult_le_compat_r; lra).
  assert (UL: 0 <= u * Rabs lv) by (apply Rmult_le_pos; lra).
  assert (UT: u * tq <= tq / 400000) by (replace (tq / 400000) with (1 / 400000 * tq) by field; apply Rmult_le_compat_r; lra).
  assert (UR: u * ri <= ri / 400000) by (replace (ri / 400000) with (1 / 400000 * ri) by field; apply Rmult_le_compat_r; lra).
  replace ((K * e + 500 * u) * Rabs lv) with (K * e * Rabs lv + 500 * (u * Rabs lv)) by ring. set (kl := K * e * Rabs lv) in *. set (al := Rabs lv) in *.
  unfold qlt at 1. destruct (Qle_bool (rnd (tt - ro)) (lg vv)) eqn:C1; cbn [negb].
  2: { exists true. split; [reflexivity|]. intro Y2. specialize (SQ2 ltac:(lra)). assert (G: (lg vv < rnd (tt - ro))%Q). { apply Qnot_le_lt. intro H. apply Qle_bool_iff in H. congruence. } apply Qlt_Rlt in G.
    assert (S: tq + ri <= 6 / 5 * al) by lra. assert (US: u * (tq + ri) <= u * (6 / 5 * al)) by (apply Rmult_le_compat_l; lra). lra. }
  unfold qlt at 1. destruct (Qle_bool (lg vv) (rnd (tt + ro))) eqn:C2; cbn [negb].
  2: { exists false. split; [reflexivity|]. assert (G: (rnd (tt + ro) < lg vv)%Q). { apply Qnot_le_lt. intro H. apply Qle_bool_iff in H. congruence. } apply Qlt_Rlt in G.
    destruct (Rle_or_lt ri (2 * tq)) as [C|C].
    - specialize (TS C). assert (US: u * (tq + ri) <= u * (9 / 10 * W)) by (apply Rmult_le_compat_l; lra). lra.
    - assert (S: tq + ri <= 4 * al + 4 * u) by lra. assert (US: u * (tq + ri) <= u * (4 * al + 4 * u)) by (apply Rmult_le_compat_l; lra).
      assert (UU: u * u <= 1 / 400000 * u) by (apply Rmult_le_compat_r; lra). lra. }
  assert (IM: (imin ti = - imax ti - 1)%Z) by (unfold imin, imax; rewrite Hs; lia).
  assert (AD: forall a b, (0 <= a + b <= t + 1)%Z -> addT ti a b = Some (a + b)%Z) by (intros; apply addT_in; [lia|exact Hti]).
  assert (SU: forall a, (0 <= a <= t)%Z -> subT ti t a = Some (t - a)%Z) by (intros; unfold subT; apply norm_in; [lia|exact Hti]).
  rewrite !SU by lia. cbn [bind]. rewrite !AD by lia. cbn [bind].
  assert (RI: forall z, (0 <= z <= t + 1)%Z -> rnd (inject_Z z) = inject_Z z) by (intros z Hz; exact (proj1 (intZ z Hz))). assert (GI: forall z, (0 <= z <= t + 1)%Z -> rg (inject_Z z) = inject_Z z) by (intros z Hz; exact (proj2 (intZ z Hz))).
  rewrite !RI by lia. rewrite !GI by lia.
  destruct x1_ok as (x1 & -> & XR1 & XL1 & XB1). destruct x2_ok as (x2 & -> & XR2 & XL2 & XB2). destruct x3_ok as (x3 & -> & XR3 & XL3 & XB3). cbn [bind].
  assert (FC: forall z, (0 <= z <= t)%Z -> exists q, bn_fc f md ti z = Some q /\ Rabs (Q2R q) <= 1 / 5 /\ Rabs (Q2R q - fcR (Q2R c2pi) (Z.to_nat z)) <= 5 * e + 101 / 10 ^ 12).
  { intros z Hz. apply fc_ok; try assumption; lia. }
  destruct (FC m ltac:(lia)) as (fm & -> & FM1 & FM2). destruct (FC (t - m)%Z ltac:(lia)) as (ftm & -> & FT1 & FT2).
  destruct (FC k ltac:(lia)) as (fk & -> & FK1 & FK2). destruct (FC (t - k)%Z ltac:(lia)) as (ftk & -> & FU1 & FU2). cbn [bind].
  destruct (term_ok m 4 x1 _ ltac:(lia) ltac:(lra) XR1 XL1 XB1) as [TA1 TB1]. destruct (term2_ok x2 _ XR2 XL2 XB2) as [TA2 TB2]. destruct (term_ok k 4 x3 _ ltac:(lia) ltac:(lra) XR3 XL3 XB3) as [TA3 TB3].
  assert (D12: 0 <= 5 * e + 101 / 10 ^ 12 <= 1 / 100) by (cbn [pow]; lra).
  pose proof (sum_ok W (K * e) (5 * e + 101 / 10 ^ 12) _ _ _ fm ftm fk ftk _ _ _ _ _ _ _ W1 ltac:(lra) D12 TA1 TB1 TA2 TB2 TA3 TB3 FM2 FM1 FT2 FT1 FK2 FK1 FU2 FU1) as S. cbv zeta in S.
  pose proof (lr_stir (Z.to_nat t) p (Z.to_nat k) (Z.to_nat m) P0 p_lt1 ltac:(lia) ltac:(lia)) as I. cbv zeta in I. rewrite !INRZ in I by lia.
  rewrite <- !Z2Nat.inj_sub in I by lia. rewrite <- I in S.
  match type of S with Rabs (Q2R ?x - _) <= _ => set (fin := x) in * end.
  apply Rabs_le_inv in S. assert (D9: 404 / 10 ^ 12 <= / 10 ^ 9) by (cbn [pow]; lra). cbn [pow] in *.
  eexists. split; [reflexivity|]. destruct (Qle_bool (lg vv) fin) eqn:C3.
  - intros _. apply Qle_bool_iff, Q2R_le in C3. lra.
  - assert (G: (fin < lg vv)%Q). { apply Qnot_le_lt. intro H. apply Qle_bool_iff in H. congruence. } apply Qlt_Rlt in G. lra.
Qed.
End S.
