(* bernoulli_distribution. *)
From Coq Require Import Lqa.
From Verif Require Import Base ProgModel ProgSpec ProgProofs UIntModel UIntSpec UIntProofs FloatModel FloatSpec FloatProofs RealModel RealSpec.
Open Scope Q_scope.
Ltac Zify.zify_post_hook ::= idtac.

Lemma qlt_iff : forall a b, qlt a b = true <-> a < b.
Proof.
  intros a b. unfold qlt. rewrite negb_true_iff. split.
  - intro H. apply Qnot_le_lt. intro C. apply Qle_bool_iff in C. congruence.
  - intro H. apply not_true_is_false. intro C. apply Qle_bool_iff in C. lra.
Qed.
Lemma qlt_false : forall a b, qlt a b = false <-> b <= a.
Proof. intros a b. unfold qlt. rewrite negb_false_iff. apply Qle_bool_iff. Qed.
Lemma qeqb_false : forall a b, ~ a == b -> Qeq_bool a b = false.
Proof. intros a b H. apply not_true_is_false. intro C. apply Qeq_bool_iff in C. contradiction. Qed.

Lemma psub_ok : forall tb bmin bmax v, eng_wf tb bmin bmax -> diff_fits tb bmin bmax ->
  (bmin <= v <= bmax)%Z -> psub tb v bmin = Some (v - bmin)%Z.
Proof.
  intros tb bmin bmax v (Hb & H1 & H2 & H3) Hd Hv. unfold psub, subT. apply norm_in. unfold diff_fits in Hd. unfold promo, inT in *.
  destruct (bits tb <? 32)%Z.
  - change (imin i32) with (-2147483648)%Z. change (imax i32) with 2147483647%Z. change (2 ^ 31)%Z with 2147483648%Z in Hd. lia.
  - split; [|lia]. unfold imin. destruct (sgn tb); [|lia]. pose proof (Z.pow_nonneg 2 (bits tb - 1)). lia.
Qed.

(* ---- counting ---- *)
Lemma zrange_len : forall (P : Z -> bool) bmin bmax,
  Z.of_nat (length (filter P (zrange bmin bmax))) =
  ssum (Z.to_nat (bmax - bmin + 1)) (fun i => if P (bmin + i)%Z then 1 else 0)%Z.
Proof.
  intros P bmin bmax. unfold zrange. generalize (Z.to_nat (bmax - bmin + 1)). intro m.
  induction m as [|m IH]; [reflexivity|].
  rewrite seq_S, map_app, filter_app, app_length, Nat2Z.inj_add, IH. cbn [ssum Nat.add map filter].
  destruct (P (bmin + Z.of_nat m)%Z); reflexivity.
Qed.

Open Scope Z_scope.
Lemma ssum_ge : forall m g c, (forall i, 0 <= i < Z.of_nat m -> 0 <= g i) ->
  c <= Z.of_nat m -> (forall i, 0 <= i < c -> i < Z.of_nat m -> 1 <= g i) -> c <= ssum m g.
Proof.
  induction m as [|m IH]; intros g c H0 Hc H; [simpl in *; lia|]. cbn [ssum].
  pose proof (H0 (Z.of_nat m) ltac:(lia)).
  destruct (Z.eq_dec c (Z.of_nat (S m))) as [E|E].
  - assert (c - 1 <= ssum m g) by (apply IH; [intros; apply H0; lia|lia|intros; apply H; lia]).
    pose proof (H (Z.of_nat m) ltac:(lia) ltac:(lia)). lia.
  - assert (c <= ssum m g) by (apply IH; [intros; apply H0; lia|lia|intros; apply H; lia]). lia.
Qed.
Lemma ssum_le : forall m g c, 0 <= c ->
  (forall i, 0 <= i < Z.of_nat m -> g i <= 1) -> (forall i, c <= i < Z.of_nat m -> g i <= 0) -> ssum m g <= c.
Proof.
  induction m as [|m IH]; intros g c H0 H1 H2; [simpl; lia|]. cbn [ssum].
  destruct (Z.le_gt_cases c (Z.of_nat m)) as [L|L].
  - pose proof (H2 (Z.of_nat m) ltac:(lia)). pose proof (IH g c H0). 
    assert (ssum m g <= c) by (apply IH; [exact H0|intros; apply H1; lia|intros; apply H2; lia]). lia.
  - pose proof (H1 (Z.of_nat m) ltac:(lia)).
    assert (ssum m g <= c - 1) by (apply IH; [lia|intros; apply H1; lia|intros; lia]). lia.
Qed.
Close Scope Z_scope.

Section B.
Variables (f : fmt) (md : rmode).
Hypothesis Hf : fmt_ok f.
Local Notation P := (prec f).
Local Notation rnd := (fround f md).
Variables (tb : ity) (bmin bmax : Z).
Hypothesis He : eng_wf tb bmin bmax.
Hypothesis Hd : diff_fits tb bmin bmax.
Local Notation R := (bmax - bmin)%Z.

Definition thr (p : Q) : Q := rnd (p * rnd (inject_Z R)).

Lemma bern_exec : forall p v ds, ~ p == 0 -> (bmin <= v <= bmax)%Z ->
  exec (bernoulli f md tb bmin bmax p) (v :: ds) = ORet (Qle_bool (rnd (inject_Z (v - bmin))) (thr p)) ds.
Proof using He Hd.
  intros p v ds Hp Hv. unfold bernoulli. rewrite (qeqb_false p 0 Hp). unfold draw. cbn [pbind exec].
  rewrite (psub_ok tb bmin bmax v He Hd Hv). rewrite (psub_ok tb bmin bmax bmax He Hd ltac:(destruct He as (_ & _ & _ & ?); lia)).
  reflexivity.
Qed.

Lemma bern_zero : forall p ds, p == 0 -> exec (bernoulli f md tb bmin bmax p) ds = ORet false ds.
Proof using. intros p ds Hp. unfold bernoulli. apply Qeq_eq_bool in Hp. rewrite Hp. reflexivity. Qed.

Lemma bern_one : forall p v ds, p == 1 -> (bmin <= v <= bmax)%Z ->
  exec (bernoulli f md tb bmin bmax p) (v :: ds) = ORet true ds.
Proof using Hf He Hd.
  intros p v ds Hp Hv. rewrite bern_exec by (try assumption; lra). f_equal. apply Qle_bool_iff. unfold thr.
  assert (L: rnd (inject_Z (v - bmin)) <= rnd (inject_Z R)) by (apply rnd_mono; [exact Hf|apply injZ_le; lia]).
  apply repr_rnd_ge; [exact Hf|apply rnd_repr; exact Hf|]. rewrite Hp. lra.
Qed.

Definition trueZ (p : Q) : Z := Z.of_nat (trues bmin bmax (bernoulli f md tb bmin bmax p)).

Lemma trueZ_ge : forall p c, ~ p == 0 -> (c <= R + 1)%Z ->
  (forall u, (0 <= u < c)%Z -> (u <= R)%Z -> rnd (inject_Z u) <= thr p) -> (c <= trueZ p)%Z.
Proof using He Hd.
  intros p c Hp Hc H. unfold trueZ, trues. rewrite zrange_len. destruct He as (_ & _ & _ & Hlt).
  apply ssum_ge.
  - intros i Hi. destruct (exec _ _) as [[|] [|]| | |]; lia.
  - lia.
  - intros i Hi Hi2. rewrite bern_exec by (try assumption; lia). replace (bmin + i - bmin)%Z with i by lia.
    pose proof (H i Hi ltac:(lia)) as K. apply Qle_bool_iff in K. rewrite K. lia.
Qed.

Lemma trueZ_le : forall p c, ~ p == 0 -> (0 <= c)%Z ->
  (forall u, (c <= u <= R)%Z -> thr p < rnd (inject_Z u)) -> (trueZ p <= c)%Z.
Proof using He Hd.
  intros p c Hp Hc H. unfold trueZ, trues. rewrite zrange_len. destruct He as (_ & _ & _ & Hlt).
  apply ssum_le; [exact Hc| |].
  - intros i Hi. destruct (exec _ _) as [[|] [|]| | |]; lia.
  - intros i Hi. rewrite bern_exec by (try assumption; lia). replace (bmin + i - bmin)%Z with i by lia.
    pose proof (H i ltac:(lia)) as K. destruct (Qle_bool (rnd (inject_Z i)) (thr p)) eqn:E; [|lia].
    apply Qle_bool_iff in E. lra.
Qed.

Section p.
Variable p : Q.
Hypothesis Hp0 : 0 < p.
Hypothesis Hp1 : p <= 1.
Hypothesis Hpr : representable f p.

Lemma R_pos : 1 <= inject_Z R.
Proof using He. destruct He as (_ & _ & _ & H). change 1 with (inject_Z 1). apply injZ_le. lia. Qed.
Lemma injR1 : inject_Z (R + 1) == inject_Z R + 1.
Proof using. rewrite inject_Z_plus. reflexivity. Qed.

(* the whole range is exact *)
Lemma thr_exact : (R <= 2 ^ P)%Z -> thr p == rnd (p * inject_Z R).
Proof using Hf He.
  intro HR. unfold thr. apply rnd_compat; [exact Hf|].
  rewrite (rnd_fix f md Hf (inject_Z R)); [reflexivity|]. apply repr_Z; [exact Hf|].
  destruct He as (_ & _ & _ & ?). rewrite Z.abs_eq by lia. exact HR.
Qed.

Lemma sharp_lower : (R <= 2 ^ P)%Z -> p * inject_Z (R + 1) - 1 <= inject_Z (trueZ p).
Proof using Hf He Hd Hp0 Hp1.
  intro HR. pose proof R_pos as RP. rewrite injR1.
  set (x := p * inject_Z R) in *. assert (Hx: x <= inject_Z R) by (unfold x; nra).
  assert (Hx0: 0 <= x) by (unfold x; nra).
  assert (FB := floor_bounds x).
  assert (F0: (0 <= Qfloor x)%Z) by (change 0%Z with (Qfloor 0); apply Qfloor_resp_le; exact Hx0).
  assert (F1: (Qfloor x <= R)%Z) by (rewrite <- (Qfloor_Z R); apply Qfloor_resp_le; exact Hx).
  assert (C: (Qfloor x + 1 <= trueZ p)%Z).
  { apply trueZ_ge; [lra|lia|]. intros u Hu _. rewrite thr_exact by exact HR.
    apply rnd_mono; [exact Hf|]. fold x. assert (L: (u <= Qfloor x)%Z) by lia. apply injZ_le in L. lra. }
  apply injZ_le in C. rewrite inject_Z_plus in C. change (inject_Z 1) with 1 in C.
  setoid_replace (p * (inject_Z R + 1)) with (x + p) by (unfold x; ring). lra.
Qed.

(* from a bound on the rounding error of p*R *)
Lemma sharp_upper_err : (R <= 2 ^ P)%Z -> rnd (p * inject_Z R) <= p * inject_Z R + p ->
  inject_Z (trueZ p) <= p * inject_Z (R + 1) + 1.
Proof using Hf He Hd Hp0 Hp1.
  intros HR HE. pose proof R_pos as RP. rewrite injR1.
  set (x := p * inject_Z R) in *. assert (Hx0: 0 <= x) by (unfold x; nra).
  set (t := rnd x) in *. assert (FB := floor_bounds t).
  assert (T0: 0 <= t) by (apply rnd_nonneg; exact Hx0).
  assert (F0: (0 <= Qfloor t)%Z) by (change 0%Z with (Qfloor 0); apply Qfloor_resp_le; exact T0).
  assert (C: (trueZ p <= Qfloor t + 1)%Z).
  { apply trueZ_le; [lra|lia|]. intros u Hu. rewrite thr_exact by exact HR. fold x. fold t.
    rewrite (rnd_fix f md Hf (inject_Z u)).
    - destruct Hu as [Hu _]. apply injZ_le in Hu. rewrite inject_Z_plus in Hu. change (inject_Z 1) with 1 in Hu. lra.
    - apply repr_Z; [exact Hf|]. rewrite Z.abs_eq by lia. lia. }
  apply injZ_le in C. rewrite inject_Z_plus in C. change (inject_Z 1) with 1 in C.
  setoid_replace (p * (inject_Z R + 1)) with (x + p) by (unfold x; ring). lra.
Qed.

Lemma ulp_p : forall k, (0 <= k)%Z -> (R <= 2 ^ k)%Z -> (k <= P)%Z ->
  p2 (fexp f (p * inject_Z R)) <= p * p2 (k + 1 - P) \/ p2 (fexp f (p * inject_Z R)) <= p.
Proof using He Hp0 Hpr.
  intros k Hk HR HkP. pose proof R_pos as RP. set (x := p * inject_Z R) in *. assert (Hx0: 0 <= x) by (unfold x; nra).
  destruct (Qlt_le_dec x (p2 (emin f + P - 1))) as [L|L].
  - right. rewrite ulp_small by assumption. apply repr_least with (f := f); assumption.
  - left. pose proof (ulp_rel f x L) as U. apply injZ_le in HR. rewrite <- p2_Z in HR by lia.
    replace (k + 1 - P)%Z with (k + (1 - P))%Z by lia. rewrite p2_add. pose proof (p2_pos (1 - P)).
    assert (x <= p * p2 k) by (unfold x; nra). nra.
Qed.

(* any rounding direction *)
Lemma sharp_upper : (R <= 2 ^ (P - 1))%Z -> inject_Z (trueZ p) <= p * inject_Z (R + 1) + 1.
Proof using Hf He Hd Hp0 Hp1 Hpr.
  intro HR. destruct Hf as [HP _]. assert ((2 ^ (P - 1) <= 2 ^ P)%Z) by (apply Z.pow_le_mono_r; lia).
  apply sharp_upper_err; [lia|]. pose proof (rnd_err f md (p * inject_Z R)) as [_ U].
  destruct (ulp_p (P - 1) ltac:(lia) HR ltac:(lia)) as [L|L]; [|lra].
  replace (P - 1 + 1 - P)%Z with 0%Z in L by lia. rewrite p2_0 in L. lra.
Qed.
End p.

(* any range *)
Lemma rel_err : forall z, (0 <= z)%Z -> 
  inject_Z z * (1 - p2 (1 - P)) <= rnd (inject_Z z) /\ rnd (inject_Z z) <= inject_Z z * (1 + p2 (1 - P)).
Proof using Hf.
  intros z Hz. destruct (Z.eq_dec z 0) as [->|Hz0].
  { change (inject_Z 0) with 0. rewrite (rnd_fix f md Hf 0 (repr_0 f Hf)). lra. }
  assert (L: 1 <= inject_Z z) by (change 1 with (inject_Z 1); apply injZ_le; lia).
  assert (U: p2 (fexp f (inject_Z z)) <= inject_Z z * p2 (1 - P)).
  { apply ulp_rel. destruct Hf as [_ HE]. apply Qle_trans with 1; [|exact L]. rewrite <- p2_0. apply p2_le. lia. }
  pose proof (rnd_err f md (inject_Z z)). lra.
Qed.

Lemma any_range : forall p, (3 <= P)%Z -> 0 < p -> p <= 1 -> representable f p ->
  let e := p2 (1 - P) in
  p * inject_Z (R + 1) * (1 - 5 * e) - 2 <= inject_Z (trueZ p) /\
  inject_Z (trueZ p) <= p * inject_Z (R + 1) * (1 + 5 * e) + 2.
Proof using Hf He Hd.
  intros p HP Hp0 Hp1 Hpr e. pose proof (R_pos) as RP. rewrite injR1.
  assert (E0: 0 < e) by apply p2_pos.
  assert (E1: e <= 1 # 4) by (change (1 # 4) with (p2 (-2)); apply p2_le; lia).
  assert (HR0: (0 <= R)%Z) by (destruct He as (_ & _ & _ & ?); lia).
  destruct (rel_err R HR0) as [RL RU]. fold e in RL, RU.
  set (r := inject_Z R) in *. set (r' := rnd r) in *.
  assert (Y0: 0 <= p * r') by (apply Qmult_le_0_compat; [lra|]; nra).
  pose proof (rnd_err f md (p * r')) as [TL TU]. pose proof (ulp_gen f (p * r') Y0) as UG. fold e in UG.
  pose proof (repr_least f p Hpr Hp0) as PL.
  assert (Et: thr p = rnd (p * r')) by reflexivity. set (t := thr p) in *. rewrite <- Et in TL, TU.
  assert (T0: 0 <= t) by (rewrite Et; apply rnd_nonneg; exact Y0).
  set (y := p * r') in *.
  assert (YL: p * r * (1 - e) <= y) by (unfold y; setoid_replace (p * r * (1 - e)) with (p * (r * (1 - e))) by ring; apply Qmult_le_l; assumption).
  assert (YU: y <= p * r * (1 + e)) by (unfold y; setoid_replace (p * r * (1 + e)) with (p * (r * (1 + e))) by ring; apply Qmult_le_l; assumption).
  assert (X0: 0 <= p * r) by nra.
  setoid_replace (p * (r + 1)) with (p * r + p) by ring.
  assert (XR: p * r <= r) by nra.
  set (x := p * r) in *.
  assert (TL2: x * (1 - e) * (1 - e) - p <= t) by nra.
  assert (TU2: t <= x * (1 + e) * (1 + e) + p) by nra.
  assert (A2: x * (1 - 3 * e) * (1 + e) <= x * (1 - e) * (1 - e)) by nra.
  assert (B2: x * (1 + e) * (1 + e) <= x * (1 + 5 * e) * (1 - e)) by nra.
  assert (Hthr: thr p = t) by reflexivity. assert (Hr: inject_Z R = r) by reflexivity.
  clearbody t y r' x r. clear Et TL TU UG YL YU.
  split.
  - (* t/(1+e) *)
    set (c0 := t / (1 + e)). assert (CE: c0 * (1 + e) == t) by (unfold c0; field; lra).
    assert (C0: 0 <= c0) by (unfold c0; apply Qle_shift_div_l; lra).
    set (c := Z.min (Qfloor c0 + 1) (R + 1)).
    assert (FB := floor_bounds c0).
    assert (C: (c <= trueZ p)%Z).
    { apply trueZ_ge; [lra|unfold c; lia|]. intros u Hu _. destruct (rel_err u ltac:(lia)) as [_ U]. fold e in U.
      assert (L: (u <= Qfloor c0)%Z) by (unfold c in Hu; lia). apply injZ_le in L. rewrite Hthr. nra. }
    apply injZ_le in C. unfold c in C.
    destruct (Z.min_spec (Qfloor c0 + 1) (R + 1)) as [[_ E]|[_ E]]; rewrite E in C; rewrite inject_Z_plus in C; change (inject_Z 1) with 1 in C.
    + assert (x * (1 - 3 * e) - p <= c0) by nra. nra.
    + rewrite Hr in C. nra.
  - set (c0 := t / (1 - e)). assert (CE: c0 * (1 - e) == t) by (unfold c0; field; lra).
    assert (C0: 0 <= c0) by (unfold c0; apply Qle_shift_div_l; lra).
    assert (FB := floor_bounds c0).
    assert (F0: (0 <= Qfloor c0)%Z) by (change 0%Z with (Qfloor 0); apply Qfloor_resp_le; exact C0).
    assert (C: (trueZ p <= Qfloor c0 + 1)%Z).
    { apply trueZ_le; [lra|lia|]. intros u Hu. destruct (rel_err u ltac:(lia)) as [U _]. fold e in U.
      destruct Hu as [L _]. apply injZ_le in L. rewrite inject_Z_plus in L. change (inject_Z 1) with 1 in L. rewrite Hthr. nra. }
    apply injZ_le in C. rewrite inject_Z_plus in C. change (inject_Z 1) with 1 in C.
    assert (c0 <= x * (1 + 5 * e) + 2 * p) by nra. nra.
Qed.
End B.

(* to nearest *)
Lemma sharp_upper_near : forall f tb bmin bmax p, fmt_ok f -> eng_wf tb bmin bmax -> diff_fits tb bmin bmax ->
  0 < p -> p <= 1 -> representable f p -> (bmax - bmin <= 2 ^ prec f)%Z ->
  inject_Z (trueZ f RNE tb bmin bmax p) <= p * inject_Z (bmax - bmin + 1) + 1.
Proof.
  intros f tb bmin bmax p Hf He Hd Hp0 Hp1 Hpr HR.
  apply (sharp_upper_err f RNE Hf tb bmin bmax He Hd p Hp0 Hp1 HR).
  pose proof (rnd_err_half f (p * inject_Z (bmax - bmin))) as [_ U]. destruct Hf as [HP HE].
  destruct (ulp_p f tb bmin bmax He p Hp0 Hpr (prec f) ltac:(lia) HR ltac:(lia)) as [L|L].
  - replace (prec f + 1 - prec f)%Z with 1%Z in L by lia. rewrite p2_1 in L. unfold Qdiv in U. change (/ 2) with (1 # 2) in U. lra.
  - unfold Qdiv in U. change (/ 2) with (1 # 2) in U. lra.
Qed.
