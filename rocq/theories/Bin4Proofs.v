(* binomial_distribution by inversion: constructor and operator(). *)
From Coq Require Import Lqa.
From Verif Require Import Base ProgModel ProgSpec ProgProofs UIntModel UIntSpec FloatModel FloatSpec FloatProofs RealModel UniProofs Disc4Proofs RDiscProofs RDisc5Proofs Piece2Proofs BinModel BinSpec BinProofs Bin2Proofs Bin3Proofs.
Ltac Zify.zify_post_hook ::= idtac.
Open Scope Q_scope.

Lemma u01_run : forall f md tb bmin bmax F ds, fmt_ok f -> eng_wf tb bmin bmax -> (bmax - bmin <= imax tb)%Z ->
  valid_draws bmin bmax ds -> (length ds < F)%nat ->
  exec (uniform_01 f md F tb bmin bmax) ds = OMore \/
  exists u rest, exec (uniform_01 f md F tb bmin bmax) ds = ORet u rest /\ 0 <= u /\ u < 1.
Proof.
  intros f md tb bmin bmax F ds Hf He HR Hv HF.
  pose proof (u01_wp f md Hf tb bmin bmax He F (length ds) HF HR) as W.
  destruct (wp_exec _ _ _ _ _ _ W Hv) as [E|(u & rest & E & (A & B & _) & _)]; [left; exact E|right].
  exists u, rest. repeat split; assumption.
Qed.

Lemma Qred_Z : forall z, Qred (inject_Z z) = inject_Z z.
Proof.
  intro z. unfold Qred, inject_Z. pose proof (Z.ggcd_gcd z 1) as G. pose proof (Z.ggcd_correct_divisors z 1) as D.
  destruct (Z.ggcd z 1) as [gg [aa bb]]. cbn [fst snd] in *. rewrite Z.gcd_1_r in G. subst gg. destruct D as [D1 D2].
  assert (Ea: aa = z) by lia. assert (Eb: bb = 1%Z) by lia. rewrite Ea, Eb. reflexivity.
Qed.

Lemma to_int_ok : forall ti x, (32 <= bits ti)%Z -> 0 <= x -> x < inject_Z (imax ti + 1) -> to_int ti x = Some (Qfloor x).
Proof.
  intros ti x Hti H0 H1. unfold to_int, qtrunc. apply Qle_bool_iff in H0. rewrite H0. apply Qle_bool_iff in H0.
  pose proof (imin_le_0 ti Hti). pose proof (floor_bounds x) as [F1 F2].
  assert (0 <= Qfloor x)%Z. { apply (Qfloor_resp_le 0 x) in H0. exact H0. }
  assert (Qfloor x < imax ti + 1)%Z by (rewrite Zlt_Qlt; lra).
  destruct (Z.leb_spec (imin ti) (Qfloor x)); [|lia]. destruct (Z.leb_spec (Qfloor x) (imax ti)); [reflexivity|lia].
Qed.

Section B.
Variable f : fmt.
Hypothesis Hf : fmt_ok f.
Hypothesis Hw : fmt_wide f.
Local Notation P := (prec f).
Local Notation e := (p2 (1 - P)).
Local Notation nu := (p2 (emin f + P)).

Lemma injZ_eq : forall md z, (Z.abs z <= 2 ^ P)%Z -> fround f md (inject_Z z) = inject_Z z.
Proof.
  intros md z H. rewrite <- (Qred_Z z) at 2. pose proof (injZ_rnd f Hf md z H) as E. unfold fround in *.
  rewrite Qred_correct in E. apply Qred_complete. exact E.
Qed.

Lemma small_ok : forall md p, representable f p -> 0 <= p -> p <= 1 -> (p == 0 \/ nu <= p) ->
  bn_small f md p == psmall p /\ representable f (bn_small f md p) /\ 0 <= bn_small f md p /\ bn_small f md p <= 1 # 2 /\
  (bn_small f md p == 0 \/ nu <= bn_small f md p).
Proof.
  intros md p Rp P0 P1 Pn. unfold bn_small, psmall. pose proof (qlt_spec (1 # 2) p) as C. unfold qlt in *.
  destruct (Qle_bool p (1 # 2)) eqn:EB; cbn [negb] in *.
  - split; [reflexivity|]. repeat split; assumption.
  - assert (R: representable f (1 - p) /\ (1 - p == 0 \/ nu <= 1 - p)).
    { destruct Rp as (m & k & Hk & Hm & E). destruct Hf as [HP HE].
      assert (KP: (- P <= k)%Z).
      { apply Z.nlt_ge. intro LT. assert (p <= 1 # 2); [|lra]. rewrite E. apply Qle_trans with (inject_Z (2 ^ P) * p2 k).
        - apply Qmult_le_compat_r; [apply injZ_le; lia|apply Qlt_le_weak, p2_pos].
        - rewrite <- p2_Z by lia. rewrite <- p2_add. change (1 # 2) with (p2 (-1)). apply p2_le. lia. }
      assert (X: p == inject_Z (m * 2 ^ (k + P)) * p2 (- P)).
      { rewrite inject_Z_mult, <- p2_Z by lia. rewrite <- Qmult_assoc, <- p2_add. replace (k + P + - P)%Z with k by lia. exact E. }
      assert (O: 1 == inject_Z (2 ^ P) * p2 (- P)).
      { rewrite <- p2_Z by lia. rewrite <- p2_add. replace (P + - P)%Z with 0%Z by lia. reflexivity. }
      set (M := (m * 2 ^ (k + P))%Z) in *. pose proof (p2_pos (- P)) as PP.
      assert (Y: 1 - p == inject_Z (2 ^ P - M) * p2 (- P)).
      { unfold Z.sub. rewrite inject_Z_plus, inject_Z_opp. rewrite X. rewrite O at 1. ring. }
      assert (M1: (M <= 2 ^ P)%Z). { rewrite Zle_Qle. apply (Qmult_lt_0_le_reg_r _ _ (p2 (- P)) PP). lra. }
      assert (M0: (0 <= M)%Z). { rewrite Zle_Qle. change (inject_Z 0) with 0. apply (Qmult_lt_0_le_reg_r _ _ (p2 (- P)) PP). lra. }
      split; [exists (2 ^ P - M)%Z, (- P)%Z; split; [lia|split; [lia|exact Y]]|].
      destruct (Z.eq_dec M (2 ^ P)) as [EM|NM].
      - left. rewrite Y, EM, Z.sub_diag. change (inject_Z 0) with 0. ring.
      - right. apply Qle_trans with (p2 (- P)); [apply p2_le; destruct Hw; lia|]. rewrite Y.
        assert (L: (1 <= 2 ^ P - M)%Z) by lia. apply injZ_le in L. change (inject_Z 1) with 1 in L.
        apply (Qmult_le_compat_r _ _ (p2 (- P))) in L; lra. }
    destruct R as [R N]. pose proof (rnd_fix f md Hf (1 - p) R) as RF.
    assert (EQ: fround f md (1 - p) == 1 - p) by exact RF.
    split; [exact EQ|]. split; [apply rnd_repr; exact Hf|]. rewrite EQ. split; [lra|]. split; [lra|]. exact N.
Qed.

Variables (ti : ity) (t : Z).
Hypothesis Hti : (32 <= bits ti)%Z.
Hypothesis T0 : (0 <= t)%Z.
Hypothesis T1 : (t < imax ti)%Z.
Hypothesis TP : (t + 1 <= 2 ^ P)%Z.

Lemma init_m : forall md p, 0 <= p -> p <= 1 # 2 ->
  to_int ti (fround f md (fround f md (inject_Z (t + 1)) * p)) = Some (Qfloor (fround f md (inject_Z (t + 1) * p))) /\
  (0 <= Qfloor (fround f md (inject_Z (t + 1) * p)) <= t + 1)%Z /\
  (inject_Z (t + 1) * p < 11 \/ (11 <= Qfloor (fround f md (inject_Z (t + 1) * p)))%Z).
Proof.
  intros md p P0 P12. rewrite injZ_eq by lia. set (y := inject_Z (t + 1) * p). set (x := fround f md y).
  assert (TQ: 1 <= inject_Z (t + 1)) by (change 1 with (inject_Z 1); apply injZ_le; lia).
  assert (Y0: 0 <= y) by (apply Qmult_le_0_compat; lra).
  assert (Y1: y <= inject_Z (t + 1)).
  { unfold y. assert (inject_Z (t + 1) * p <= inject_Z (t + 1) * 1); [|lra]. rewrite !(Qmult_comm (inject_Z (t + 1))). apply Qmult_le_compat_r; lra. }
  assert (X0: 0 <= x) by (apply rnd_nonneg; exact Y0).
  assert (X1: x <= inject_Z (t + 1)) by (apply repr_rnd_le; [exact Hf|apply repr_Z; [exact Hf|lia]|exact Y1]).
  split; [|split].
  - apply to_int_ok; [exact Hti|exact X0|]. apply Qle_lt_trans with (inject_Z (t + 1)); [exact X1|]. rewrite <- Zlt_Qlt. lia.
  - split; [apply (Qfloor_resp_le 0 x) in X0; exact X0|]. pose proof (Qfloor_resp_le _ _ X1) as H. rewrite Qfloor_Z in H. exact H.
  - destruct (Qlt_le_dec y 11) as [L|L]; [left; exact L|right].
    assert (X11: inject_Z 11 <= x). { apply repr_rnd_ge; [exact Hf|apply repr_Z; [exact Hf|]|exact L].
      destruct Hw as [W _]. pose proof (Z.pow_le_mono_r 2 4 P ltac:(lia) W). change (2 ^ 4)%Z with 16%Z in H. lia. }
    apply Qfloor_resp_le in X11. rewrite Qfloor_Z in X11. exact X11.
Qed.

(* the constructor, when inversion is chosen *)
Lemma init_inv : forall g md pw sq p d, 0 <= bn_small f md p -> bn_small f md p <= 1 # 2 ->
  bn_init f g md ti pw sq t p = Some d -> bn_inversion (bn_m d) = true ->
  bn_t d = t /\ bn_p d = p /\ bn_u d = UInv (pw (fround f md (1 - bn_small f md p)) (inject_Z t)) /\
  inject_Z (t + 1) * bn_small f md p < 11.
Proof.
  intros g md pw sq p d S0 S1 HI HM. unfold bn_init in HI. pose proof (imin_le_0 ti Hti).
  rewrite addT_in in HI by lia. cbn [bind] in HI.
  destruct (init_m md (bn_small f md p) S0 S1) as (E & B & C). rewrite E in HI. cbn [bind] in HI.
  set (m := Qfloor _) in *. destruct (bn_inversion m) eqn:EM.
  - injection HI as <-. cbn [bn_t bn_p bn_m bn_u] in *. rewrite (injZ_eq md t) by lia.
    split; [reflexivity|]. split; [reflexivity|]. split; [reflexivity|].
    destruct C as [C|C]; [exact C|]. unfold bn_inversion in EM. apply Z.ltb_lt in EM. lia.
  - destruct (bn_btrd f g md ti sq t (bn_small f md p)) as [b|]; [|discriminate]. cbn [bind] in HI. injection HI as <-.
    cbn [bn_m] in HM. congruence.
Qed.

Lemma pw_near : forall p n, 0 <= p -> p <= 1 # 2 -> qn n * e <= 1 ->
  near f (qn n) (Qpower (1 - p) (Z.of_nat n)) (Qpower (fround f RNE (1 - p)) (Z.of_nat n)).
Proof.
  intros p n P0 P12. destruct (e_small f Hw) as [E0 E8]. induction n as [|n IH]; intros HE.
  - apply near_compat with 1 1; [reflexivity|reflexivity|]. apply near_refl; [apply qn_nonneg|lra].
  - rewrite qn_S in HE. pose proof (qn_nonneg n) as N0. specialize (IH ltac:(lra)). rewrite Nat2Z.inj_succ. unfold Z.succ.
    apply near_compat with (Qpower (1 - p) (Z.of_nat n) * (1 - p)) (Qpower (fround f RNE (1 - p)) (Z.of_nat n) * fround f RNE (1 - p)).
    + rewrite Qpower_plus' by lia. reflexivity.
    + rewrite Qpower_plus' by lia. reflexivity.
    + apply near_mono with (qn n + 1); [rewrite qn_S; lra|]. apply near_prod; try lra; [exact IH|].
      apply near_rnd; [exact Hf|]. apply Qle_trans with (1 # 2); [|lra]. change (1 # 2) with (p2 (-1)). apply p2_le. destruct Hw. lia.
Qed.

Variables (K : Q) (pw : Q -> Q -> Q).
Hypothesis K0 : 0 <= K.
Hypothesis Hpw : pow_ok f K pw.
Hypothesis HK : (K + inject_Z t + 10 * (inject_Z (t + 1) * inject_Z (t + 1))) * e <= 1 # 8.
Local Notation tn := (Z.to_nat t).

Lemma qt : qn tn = inject_Z t /\ inject_Z (t + 1) == qn (S tn) /\ Z.of_nat tn = t.
Proof.
  assert (E: Z.of_nat tn = t) by (apply Z2Nat.id; exact T0). unfold qn. rewrite Nat2Z.inj_succ, E. unfold Z.succ. repeat split; reflexivity.
Qed.
Lemma HK' : (K + qn tn + 10 * (qn (S tn) * qn (S tn))) * e <= 1 # 8.
Proof. destruct qt as (E1 & E2 & _). rewrite E1, <- E2. exact HK. Qed.

Lemma qn0_ok : forall p, representable f p -> 0 <= p -> p <= 1 # 2 -> inject_Z (t + 1) * p < 11 ->
  let r := pw (fround f RNE (1 - p)) (inject_Z t) in
  representable f r /\ nu <= r /\ near f (K + qn tn) (bpmf tn p 0) r.
Proof.
  intros p Rp P0 P12 HT r. destruct qt as (E1 & E2 & E3). pose proof HK' as HK1. destruct (e_small f Hw) as [E0 E8].
  pose proof (qn_nonneg tn) as N0. pose proof (qn_pos (S tn) ltac:(lia)) as NS.
  assert (TT0: 0 <= qn (S tn) * qn (S tn) * e) by (apply Qmult_le_0_compat; [apply Qmult_le_0_compat|]; lra).
  assert (KE: 0 <= K * e) by (apply Qmult_le_0_compat; lra). assert (NE: 0 <= qn tn * e) by (apply Qmult_le_0_compat; lra).
  destruct (q_ok0 f Hf Hw p P0 P12) as (_ & Q1 & Q2 & _).
  set (q := fround f RNE (1 - p)) in *.
  pose proof (pw_near p tn P0 P12 ltac:(lra)) as N1. fold q in N1. rewrite E3 in N1.
  assert (PL: p2 (-45) <= Qpower (1 - p) t).
  { rewrite <- E3. apply pow_lower; try lra. assert (qn tn * p <= qn (S tn) * p) by (apply Qmult_le_compat_r; [rewrite qn_S; lra|lra]).
    rewrite E2 in HT. lra. }
  assert (X45: p2 (-45) == 8 * p2 (-48)) by reflexivity. pose proof (p2_pos (-48)) as P48.
  assert (NU: nu <= p2 (-48)) by (apply p2_le; destruct Hw; lia).
  assert (QL: 4 * p2 (-48) <= Qpower q t).
  { destruct N1 as (_ & _ & A & _). assert ((1 # 2) * Qpower (1 - p) t <= (1 - qn tn * e) * Qpower (1 - p) t) by (apply Qmult_le_compat_r; lra). lra. }
  destruct (Hpw q t) as [Rr Er]; [lra|lra|exact T0|lra|]. unfold qZ in *. fold r in Rr, Er.
  assert (N2: near f K (Qpower q t) r) by (apply near_abs; [lra|lra|lra|exact Er]).
  split; [exact Rr|]. split.
  - destruct N2 as (_ & _ & A & _). assert ((1 # 2) * Qpower q t <= (1 - K * e) * Qpower q t) by (apply Qmult_le_compat_r; lra). lra.
  - apply near_mono with (qn tn + K); [lra|]. apply near_trans with (Qpower q t); try lra; [|exact N2].
    apply near_compat with (Qpower (1 - p) t) (Qpower q t); [|reflexivity|exact N1].
    destruct (bpmf_0 p tn) as [B0|B0]; [rewrite B0, E3; reflexivity|lra].
Qed.

Lemma invert_acc : forall p F u01 ds, representable f p -> 0 <= p -> p <= 1 # 2 -> (p == 0 \/ nu <= p) -> inject_Z (t + 1) * p < 11 ->
  (tn + 1 < F)%nat ->
  (forall u rest, exec u01 ds = ORet u rest -> 0 <= u /\ u < 1) ->
  let r := pw (fround f RNE (1 - p)) (inject_Z t) in
  match exec u01 ds with
  | ORet u rest => exists y, exec (bn_invert f RNE ti F u01 t p r) ds = ORet (Z.of_nat y) rest /\ (y <= S tn)%nat /\
      inverts tn p ((2 * (K + inject_Z t) + 40 * inject_Z (t + 1) * p + 6 * (inject_Z (Z.of_nat y) + 1)) * e) u y
  | o => exec (bn_invert f RNE ti F u01 t p r) ds = match o with OMore => OMore | OUB => OUB | _ => OFuel end
  end.
Proof.
  intros p F u01 ds Rp P0 P12 Pn HT HF HU r. destruct (qn0_ok p Rp P0 P12 HT) as (Rr & R0 & NR). fold r in Rr, R0, NR.
  destruct qt as (E1 & E2 & E3). pose proof HK' as HK1.
  destruct (q_ok0 f Hf Hw p P0 P12) as (_ & Q1 & Q2 & _). pose proof (imin_le_0 ti Hti).
  unfold bn_invert. rewrite fdiv_ok by lra. rewrite plift_some. cbn [pbind]. rewrite addT_in, plift_some by lia. cbn [pbind].
  rewrite exec_bind_eq. destruct (exec u01 ds) as [u rest| | |]; try reflexivity. destruct (HU u rest eq_refl) as [U0 U1].
  pose proof (loop_acc f Hf Hw p tn ti Rp P0 P12 Pn Hti) as LA. rewrite E3 in LA. 
  destruct (LA ltac:(lia) ltac:(lia) K K0 HK1 (S tn) F r u 0%nat u) as (y & Y1 & Y2 & Y3); try assumption; try lra; try lia.
  - apply near_mono with (K + qn tn); [|exact NR]. unfold kap. change (qn 0) with 0.
    pose proof (qn_pos (S tn) ltac:(lia)). assert (Z: 0 * qn (S tn) / (qn (S tn) - 0) == 0) by (field; lra). rewrite Z. lra.
  - assert (Z: u + bcdf tn p 0 - u == 0) by (cbn [bcdf]; ring). rewrite Z. change (Qabs 0) with 0. unfold Err. cbn [bcdf wsum]. change (qn 0) with 0.
    pose proof (p2_pos (1 - P)). lra.
  - exists y. change (Z.of_nat 0) with 0%Z in Y1. rewrite Y1. split; [reflexivity|]. split; [exact Y2|]. unfold inverts. unfold fits in Y3.
    rewrite E1 in Y3. change (inject_Z (Z.of_nat y)) with (qn y). rewrite E2. exact Y3.
Qed.
End B.

Lemma bpmf_compat : forall t p p' k, p == p' -> bpmf t p k == bpmf t p' k.
Proof. induction t as [|t IH]; intros p p' [|k] H; cbn [bpmf]; try reflexivity; rewrite ?(IH p p' _ H), H; reflexivity. Qed.
Lemma bcdf_compat : forall t p p' k, p == p' -> bcdf t p k == bcdf t p' k.
Proof. intros t p p' k H. induction k as [|k IH]; cbn [bcdf]; [reflexivity|]. rewrite IH, (bpmf_compat t p p' k H). reflexivity. Qed.

Section O.
Variables (f g : fmt) (ti : ity) (pw : Q -> Q -> Q) (sq lg : Q -> Q) (tb : ity) (bmin bmax : Z) (F : nat).
Hypothesis Hf : fmt_ok f.
Hypothesis Hw : fmt_wide f.
Hypothesis Hti : (32 <= bits ti)%Z.
Hypothesis Hs : sgn ti = true.
Hypothesis He : eng_wf tb bmin bmax.
Hypothesis HR : (bmax - bmin <= imax tb)%Z.
Local Notation u01 := (uniform_01 f RNE F tb bmin bmax).

Lemma bn_range : forall t p d qn0 ds,
  (0 <= t < imax ti)%Z -> (t + 1 <= 2 ^ prec f)%Z -> representable f p -> 0 <= p -> p <= 1 -> (p == 0 \/ p2 (emin f + prec f) <= p) ->
  bn_init f g RNE ti pw sq t p = Some d -> bn_u d = UInv qn0 -> representable f qn0 -> p2 (emin f + prec f) <= qn0 ->
  valid_draws bmin bmax ds -> (length ds < F)%nat -> (Z.to_nat t + 1 < F)%nat ->
  exec (bn_op f g RNE ti lg F u01 d) ds = OMore \/
  exists k rest, exec (bn_op f g RNE ti lg F u01 d) ds = ORet k rest /\
    (if Qle_bool p (1 # 2) then (bn_min d <= k <= bn_max d + 1)%Z else (bn_min d - 1 <= k <= bn_max d)%Z).
Proof.
  intros t p d qn0 ds [T0 T1] TP Rp P0 P1 Pn HI HU Rq Q0 Hv HF HF2.
  destruct (small_ok f Hf Hw RNE p Rp P0 P1 Pn) as (SE & SR & S0 & S1 & SN).
  assert (HM: bn_inversion (bn_m d) = true).
  { unfold bn_init in HI. destruct (addT ti t 1) as [t1|]; [|discriminate]. cbn [bind] in HI.
    destruct (to_int ti _) as [m|]; [|discriminate]. cbn [bind] in HI. destruct (bn_inversion m) eqn:EM; [injection HI as <-; exact EM|].
    destruct (bn_btrd _ _ _ _ _ _ _) as [b|]; [|discriminate]. cbn [bind] in HI. injection HI as <-. discriminate. }
  destruct (init_inv f Hf Hw ti t Hti T0 T1 TP g RNE pw sq p d S0 S1 HI HM) as (E1 & E2 & _ & _).
  assert (INV: forall ps, representable f ps -> 0 <= ps -> ps <= 1 # 2 -> 
    exec (bn_invert f RNE ti F u01 t ps qn0) ds = OMore \/
    exists k rest, exec (bn_invert f RNE ti F u01 t ps qn0) ds = ORet k rest /\ (0 <= k <= t + 1)%Z).
  { intros ps Rs A0 A1. destruct (q_ok0 f Hf Hw ps A0 A1) as (_ & Q1 & Q2 & _). pose proof (imin_le_0 ti Hti).
    unfold bn_invert. rewrite fdiv_ok by lra. rewrite plift_some. cbn [pbind]. rewrite addT_in, plift_some by lia. cbn [pbind].
    rewrite exec_bind_eq. destruct (u01_run f RNE tb bmin bmax F ds Hf He HR Hv HF) as [E|(u & rest & E & U0 & U1)]; rewrite E; [left; reflexivity|right].
    set (s := fround f RNE (ps / fround f RNE (1 - ps))).
    destruct (loop_range f Hf Hw ti t s Hti T0 T1 TP) with (n := S (Z.to_nat t)) (fuel := F) (r := qn0) (u := u) (x := 0%Z) as (y & Y1 & Y2); try assumption; try lia; try lra.
    - apply rnd_repr. exact Hf.
    - apply rnd_nonneg. apply Qle_shift_div_l; lra.
    - apply repr_rnd_le; [exact Hf|apply repr_1; exact Hf|]. apply Qle_shift_div_r; lra.
    - exists y, rest. rewrite Y1. split; [reflexivity|lia]. }
  unfold bn_op. rewrite HU, E1, E2. unfold bn_min, bn_max. rewrite E1.
  unfold bn_small in *. unfold qlt. destruct (Qle_bool p (1 # 2)) eqn:EB; cbn [negb].
  - apply INV; [exact Rp|exact P0|]. apply Qle_bool_iff. exact EB.
  - unfold qlt in *. rewrite EB in *. cbn [negb] in *.
    rewrite exec_bind_eq. destruct (INV _ SR S0 S1) as [E|(k & rest & E & Hk)]; rewrite E; [left; reflexivity|right].
    unfold subT. pose proof (imin_neg ti Hti Hs). rewrite norm_in by lia. exists (t - k)%Z, rest. split; [reflexivity|lia].
Qed.

Lemma bn_accuracy : forall K t p d ds, 0 <= K -> pow_ok f K pw ->
  (0 <= t < imax ti)%Z -> (t + 1 <= 2 ^ prec f)%Z -> representable f p -> 0 <= p -> p <= 1 -> (p == 0 \/ p2 (emin f + prec f) <= p) ->
  (K + qZ t + 10 * (qZ (t + 1) * qZ (t + 1))) * p2 (1 - prec f) <= 1 # 8 ->
  bn_init f g RNE ti pw sq t p = Some d -> bn_inversion (bn_m d) = true ->
  valid_draws bmin bmax ds -> (length ds < F)%nat -> (Z.to_nat t + 1 < F)%nat ->
  exec u01 ds = OMore /\ exec (bn_op f g RNE ti lg F u01 d) ds = OMore \/
  exists u rest k, exec u01 ds = ORet u rest /\ exec (bn_op f g RNE ti lg F u01 d) ds = ORet k rest /\
    let x := if Qle_bool p (1 # 2) then k else (t - k)%Z in
    (0 <= x <= t + 1)%Z /\
    inverts (Z.to_nat t) (psmall p)
      ((2 * (K + qZ t) + 40 * qZ (t + 1) * psmall p + 6 * (qZ x + 1)) * p2 (1 - prec f)) u (Z.to_nat x).
Proof.
  intros K t p d ds K0 Hpw [T0 T1] TP Rp P0 P1 Pn HK HI HM Hv HF HF2. unfold qZ in *.
  destruct (small_ok f Hf Hw RNE p Rp P0 P1 Pn) as (SE & SR & S0 & S1 & SN).
  destruct (init_inv f Hf Hw ti t Hti T0 T1 TP g RNE pw sq p d S0 S1 HI HM) as (E1 & E2 & E3 & E4).
  pose proof (invert_acc f Hf Hw ti t Hti T0 T1 TP K pw K0 Hpw HK (bn_small f RNE p) F u01 ds SR S0 S1 SN E4 HF2) as IA.
  cbv zeta in IA. destruct (u01_run f RNE tb bmin bmax F ds Hf He HR Hv HF) as [E|(u & rest & E & U0 & U1)].
  - left. split; [exact E|]. rewrite E in IA. specialize (IA ltac:(intros; discriminate)).
    unfold bn_op. rewrite E3, E1, E2. unfold bn_small in *. destruct (qlt (1 # 2) p) eqn:EQ.
    + rewrite exec_bind_eq, IA. reflexivity.
    + exact IA.
  - right. rewrite E in IA. destruct IA as (y & Y1 & Y2 & Y3).
    { intros u' r' X. injection X as <- <-. split; assumption. }
    assert (INV: inverts (Z.to_nat t) (psmall p) ((2 * (K + inject_Z t) + 40 * inject_Z (t + 1) * psmall p + 6 * (inject_Z (Z.of_nat y) + 1)) * p2 (1 - prec f)) u (Z.to_nat (Z.of_nat y))).
    { rewrite Nat2Z.id. unfold inverts in *. rewrite <- !(bcdf_compat _ _ _ _ SE), <- SE. exact Y3. }
    unfold bn_op. rewrite E3, E1, E2. unfold qlt in *. unfold bn_small in Y1. unfold bn_small. unfold qlt in *.
    destruct (Qle_bool p (1 # 2)) eqn:EB; cbn [negb] in *.
    + exists u, rest, (Z.of_nat y). split; [exact E|]. split; [exact Y1|]. split; [lia|exact INV].
    + exists u, rest, (t - Z.of_nat y)%Z. split; [exact E|]. split.
      * rewrite exec_bind_eq, Y1. unfold subT. pose proof (imin_neg ti Hti Hs). rewrite norm_in by lia. reflexivity.
      * cbv zeta. replace (t - (t - Z.of_nat y))%Z with (Z.of_nat y) by lia. split; [lia|exact INV].
Qed.
End O.
