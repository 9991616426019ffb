(* The rejection algorithm: range of the results, and where the behaviour can be undefined. *)
From Coq Require Import Lqa.
From Verif Require Import Base ProgModel ProgSpec ProgProofs UIntModel UIntSpec FloatModel FloatSpec FloatProofs RealModel UniProofs Disc4Proofs RDiscProofs RDisc5Proofs BinModel BinSpec BinProofs Bin2Proofs Bin3Proofs Bin4Proofs Bin6Proofs.
Ltac Zify.zify_post_hook ::= idtac.
Open Scope Q_scope.

Lemma repr_opp : forall f x, representable f x -> representable f (- x).
Proof. intros f x (m & k & H1 & H2 & H3). exists (- m)%Z, k. split; [exact H1|]. split; [lia|]. rewrite H3, inject_Z_opp. ring. Qed.

Section D.
Variables (f g : fmt) (md : rmode) (ti : ity) (sq lg : Q -> Q) (t : Z) (p : Q).
Hypothesis Hf : fmt_ok f.
Hypothesis Hg : fmt_ok g.
Hypothesis Hw : fmt_wide f.
Hypothesis Pf : (20 <= prec f)%Z.
Hypothesis Pg : (prec f <= prec g)%Z.
Hypothesis Eg : (emin g <= emin f)%Z.
Hypothesis Hti : (32 <= bits ti)%Z.
Hypothesis Hs : sgn ti = true.
Hypothesis T0 : (0 <= t)%Z.
Hypothesis T1 : (t < imax ti)%Z.
Local Notation rnd := (fround f md).
Local Notation rg := (fround g md).
Local Notation P := (prec f).
Local Notation nu := (p2 (emin f + P)).
Local Notation N := (inject_Z t * p).
Hypothesis N0 : 104 # 10 <= N.
Hypothesis P0 : nu <= p.
Hypothesis P1 : p <= 1 # 2.
Variable b : btrd.
Hypothesis Hb : bfacts f md t p b.
Variable m : Z.
Hypothesis Hm : (0 <= m <= t)%Z.

Lemma em : (emin f <= -90)%Z.
Proof. destruct Hw. lia. Qed.
Lemma Rf : rel rnd.
Proof. apply rel_rnd; [exact Hf|exact Pf|pose proof em; lia]. Qed.
Lemma Rg : rel rg.
Proof. apply rel_rnd; [exact Hg|lia|pose proof em; lia]. Qed.
Lemma p_pos : 0 < p.
Proof. pose proof (p2_pos (emin f + P)). lra. Qed.
Lemma gf : forall x, representable f x -> representable g x.
Proof. intros x (n & k & H1 & H2 & H3). exists n, k. split; [lia|]. split; [|exact H3]. assert (2 ^ P <= 2 ^ prec g)%Z by (apply Z.pow_le_mono_r; lia). lia. Qed.
Lemma rf_half : representable f (1 # 2).
Proof. change (1 # 2) with (p2 (-1)). apply repr_p2; [exact Hf|]. pose proof em. lia. Qed.
Lemma both_le : forall x c, representable f c -> x <= c -> rnd (rg x) <= c.
Proof. intros x c Rc H. apply repr_rnd_le; [exact Hf|exact Rc|]. apply repr_rnd_le; [exact Hg|apply gf; exact Rc|exact H]. Qed.
Lemma both_ge : forall x c, representable f c -> c <= x -> c <= rnd (rg x).
Proof. intros x c Rc H. apply repr_rnd_ge; [exact Hf|exact Rc|]. apply repr_rnd_ge; [exact Hg|apply gf; exact Rc|exact H]. Qed.
Lemma rnd_Z_ge : forall z c, representable f (inject_Z c) -> (c <= z)%Z -> inject_Z c <= rnd (inject_Z z).
Proof. intros z c Rc H. apply repr_rnd_ge; [exact Hf|exact Rc|apply injZ_le; exact H]. Qed.
Lemma rnd_Z_ge1 : forall z, (1 <= z)%Z -> 1 <= rnd (inject_Z z).
Proof. intros z H. apply (rnd_Z_ge z 1); [apply repr_1; exact Hf|exact H]. Qed.

Definition us (u : Q) : Q := rnd (rg ((1 # 2) - Qabs u)).

Lemma us_ok : forall u, representable f u -> Qabs u <= 1 # 2 -> us u <= 1 # 2 /\ (us u == 0 \/ p2 (- P - 1) <= us u).
Proof.
  intros u Ru Hu. pose proof (Qabs_nonneg u) as U0. split; [apply both_le; [exact rf_half|lra]|].
  destruct (Qlt_le_dec (Qabs u) (1 # 2)) as [L|L].
  - right. apply both_ge; [apply repr_p2; [exact Hf|destruct Hw; lia]|].
    assert (RA: representable f (Qabs u)).
    { destruct (Qlt_le_dec u 0) as [L2|L2].
      - apply repr_compat with (- u); [rewrite Qabs_neg; lra|apply repr_opp; exact Ru].
      - apply repr_compat with u; [rewrite Qabs_pos; lra|exact Ru]. }
    pose proof (repr_scale f (Qabs u) 1 RA ltac:(lia)) as RS. change (p2 1) with 2 in RS.
    pose proof (repr_lt_1 f Hf _ RS ltac:(lra)) as X.
    assert (E: p2 (- P) == 2 * p2 (- P - 1)). { replace (- P)%Z with (1 + (- P - 1))%Z at 1 by lia. rewrite p2_add. reflexivity. } lra.
  - left. unfold us. assert (Z: (1 # 2) - Qabs u == 0) by lra.
    rewrite (rnd_compat f md Hf _ _ (rnd_compat g md Hg _ _ Z)).
    assert (Z0: rg 0 == 0) by (apply rnd_fix; [exact Hg|apply repr_0; exact Hg]).
    rewrite (rnd_compat f md Hf _ _ Z0). apply rnd_fix; [exact Hf|apply repr_0; exact Hf].
Qed.

Lemma pick_ok : forall u01 v ds bmin bmax, valid_draws bmin bmax ds ->
  (exec u01 ds = OMore \/ exists w rest, exec u01 ds = ORet w rest /\ 0 <= w /\ w < 1) -> 0 <= v -> (b_urvr b <= v) ->
  exec (bn_pick f g md u01 b v) ds = OMore \/
  exists u v' rest, exec (bn_pick f g md u01 b v) ds = ORet (u, v') rest /\ valid_draws bmin bmax rest /\ (length rest <= length ds)%nat /\
    representable f u /\ Qabs u <= 1 # 2 /\ 0 <= v'.
Proof.
  intros u01 v ds bmin bmax Hv HU V0 V1. unfold bn_pick. pose proof Rf as RF. pose proof Rg as RG.
  destruct Hb as [_ _ _ _ _ B1 B2 B3 B4 _ _ _ _].
  destruct (Qle_bool (b_vr b) v) eqn:EV.
  - rewrite exec_bind_eq. destruct HU as [E|(w & rest & E & W0 & W1)]; rewrite E; [left; reflexivity|right].
    destruct (exec_suffix _ _ _ _ _ _ _ E Hv) as [X1 X2].
    exists (rnd (rg (w - (1 # 2)))), v, rest. split; [reflexivity|]. split; [exact X1|]. split; [exact X2|]. split; [apply rnd_repr; exact Hf|]. split; [|exact V0].
    apply abs_le.
    + apply both_ge; [apply repr_opp; exact rf_half|lra].
    + apply both_le; [exact rf_half|lra].
  - assert (VL: v < b_vr b). { apply Qnot_le_lt. intro Z. apply Qle_bool_iff in Z. congruence. }
    rewrite fdiv_ok by lra. rewrite plift_some. cbn [pbind].
    assert (X1: 0 <= v / b_vr b) by (apply Qle_shift_div_l; lra). assert (X2: v / b_vr b <= 1) by (apply Qle_shift_div_r; lra).
    assert (D0: 0 <= rnd (v / b_vr b)) by (apply rnd_nonneg; lra). assert (D1: rnd (v / b_vr b) <= 1) by (apply repr_rnd_le; [exact Hf|apply repr_1; exact Hf|lra]).
    set (d := rnd (v / b_vr b)) in *. set (k93 := dlit (93 # 100)). assert (K: 92999 # 100000 <= k93 /\ k93 <= 93001 # 100000) by (split; vm_compute; discriminate). clearbody k93.
    assert (U1: rnd (rg (d - k93)) <= 1 # 2) by (apply both_le; [exact rf_half|lra]).
    assert (U2: - (1) <= rnd (rg (d - k93))) by (apply both_ge; [apply repr_opp; apply repr_1; exact Hf|lra]).
    set (u1 := rnd (rg (d - k93))) in *. set (u := rnd (rg ((if qlt u1 0 then - (1 # 2) else 1 # 2) - u1))).
    assert (UB: Qabs u <= 1 # 2).
    { unfold u. pose proof (qlt_spec u1 0) as QS. destruct (qlt u1 0).
      - apply abs_le; [apply both_ge; [apply repr_opp; exact rf_half|lra]|apply both_le; [exact rf_half|lra]].
      - apply abs_le; [apply both_ge; [apply repr_opp; exact rf_half|lra]|apply both_le; [exact rf_half|lra]]. }
    rewrite exec_bind_eq. destruct HU as [E|(w & rest & E & W0 & W1)]; rewrite E; [left; reflexivity|right].
    destruct (exec_suffix _ _ _ _ _ _ _ E Hv) as [Y1 Y2].
    exists u, (rnd (w * b_vr b)), rest. split; [reflexivity|]. split; [exact Y1|]. split; [exact Y2|]. split; [apply rnd_repr; exact Hf|]. split; [exact UB|].
    apply rnd_nonneg. apply Qmult_le_0_compat; lra.
Qed.

Lemma subT_ok : forall x y, (0 <= x <= t)%Z -> (0 <= y <= t)%Z -> subT ti x y = Some (x - y)%Z.
Proof. intros x y H1 H2. unfold subT. pose proof (imin_neg ti Hti Hs). apply norm_in; [|exact Hti]. assert (imin ti = - imax ti - 1)%Z by (unfold imin, imax; rewrite Hs; lia). lia. Qed.
Lemma addT_ok : forall x y, (0 <= x + y <= t + 1)%Z -> addT ti x y = Some (x + y)%Z.
Proof. intros x y H. pose proof (imin_le_0 ti Hti). apply addT_in; [lia|exact Hti]. Qed.

Lemma scale_ok : forall v w, 0 <= v -> p2 (- P - 1) <= w -> exists y, bn_scale f md b v w = Some y /\ 0 <= y.
Proof.
  intros v w V0 W0. pose proof (p2_pos (- P - 1)) as X0. unfold bn_scale.
  destruct Hb as [(s & S0 & S1 & S2 & B1 & B2) A1 A2 _ _ _ _ _ _ _ AL _ _].
  assert (Q1: p2 (- P - 1 + (- P - 1)) <= rnd (w * w)).
  { apply repr_rnd_ge; [exact Hf|apply repr_p2; [exact Hf|destruct Hw; lia]|]. rewrite p2_add.
    assert (p2 (- P - 1) * p2 (- P - 1) <= w * p2 (- P - 1)) by (apply Qmult_le_compat_r; lra).
    assert (w * p2 (- P - 1) <= w * w) by (rewrite !(Qmult_comm w); apply Qmult_le_compat_r; lra). lra. }
  pose proof (p2_pos (- P - 1 + (- P - 1))) as X1.
  rewrite fdiv_ok by lra. cbn [bind].
  assert (W1: 0 <= rnd (b_a b / rnd (w * w))) by (apply rnd_nonneg; apply Qle_shift_div_l; lra).
  set (a1 := rnd (b_a b / rnd (w * w))) in *. assert (1 <= rnd (a1 + b_b b)) by (apply repr_rnd_ge; [exact Hf|apply repr_1; exact Hf|lra]).
  rewrite fdiv_ok by lra. eexists. split; [reflexivity|]. 
  apply rnd_nonneg. apply Qle_shift_div_l; [lra|]. rewrite Qmult_0_l.
  apply rnd_nonneg. apply Qmult_le_0_compat; assumption.
Qed.

Lemma prod_total : forall n i k r nr acc, (0 <= i)%Z -> (i < k)%Z -> (k <= t)%Z -> (k - i <= Z.of_nat n)%Z ->
  exists y, bn_prod f md ti n nr r acc i k = PRet y.
Proof.
  induction n as [|n IH]; intros i k r nr acc H0 H1 H2 H3; [lia|]. cbn [bn_prod].
  rewrite addT_ok, plift_some by lia. cbn [pbind]. pose proof (rnd_Z_ge1 (i + 1) ltac:(lia)).
  rewrite fdiv_ok by lra. rewrite plift_some. cbn [pbind]. destruct (Z.eqb_spec (i + 1) k); [eexists; reflexivity|]. apply IH; lia.
Qed.
Lemma near_total : forall k v, (0 <= k <= t)%Z -> (Z.abs (k - m) <= 15)%Z -> exists o, bn_accept_near f md ti (b_r b) (b_nr b) m k v = PRet o.
Proof.
  intros k v Hk HA. unfold bn_accept_near. destruct (Z.ltb_spec m k); [|destruct (Z.ltb_spec k m); [|eexists; reflexivity]].
  - destruct (prod_total 16 m k (b_r b) (b_nr b) 1) as [y ->]; [lia|lia|lia|lia|]. cbn [pbind]. eexists. reflexivity.
  - destruct (prod_total 16 k m (b_r b) (b_nr b) v) as [y ->]; [lia|lia|lia|lia|]. cbn [pbind]. eexists. reflexivity.
Qed.
Lemma fc_total : forall k, (0 <= k <= t)%Z -> exists y, bn_fc f md ti k = Some y.
Proof.
  intros k Hk. unfold bn_fc. destruct (Z.ltb_spec k 10) as [L|L].
  - destruct (Z.leb_spec 0 k); [|lia]. destruct (nth_error bn_table (Z.to_nat k)) eqn:E; [eexists; reflexivity|].
    apply nth_error_None in E. change (length bn_table) with 10%nat in E. lia.
  - rewrite addT_ok by lia. cbn [bind]. pose proof (rnd_Z_ge1 (k + 1) ltac:(lia)). rewrite fdiv_ok by lra. cbn [bind]. eexists. reflexivity.
Qed.
Lemma r_ge : nu <= b_r b.
Proof.
  destruct Hb as [_ _ _ _ _ _ _ _ _ _ _ -> _]. pose proof p_pos as PP.
  assert (Q1: 1 # 2 <= rnd (1 - p)) by (apply repr_rnd_ge; [exact Hf|exact rf_half|lra]).
  assert (Q2: rnd (1 - p) <= 1) by (apply repr_rnd_le; [exact Hf|apply repr_1; exact Hf|lra]).
  apply repr_rnd_ge; [exact Hf|apply repr_p2; [exact Hf|destruct Hf; lia]|]. apply Qle_shift_div_l; [lra|].
  pose proof (p2_pos (emin f + P)). assert (rnd (1 - p) * nu <= 1 * nu) by (apply Qmult_le_compat_r; lra). lra.
Qed.
Lemma far_total : forall k km v, (0 <= k <= t)%Z -> exists o, bn_accept_far f g md ti lg (b_r b) (b_npq b) t m k km v = Some o.
Proof.
  intros k km v Hk. unfold bn_accept_far. pose proof r_ge as RG. pose proof (p2_pos (emin f + P)) as NP.
  destruct Hb as [_ _ _ _ _ _ _ _ _ B10 _ _ _]. pose proof (bf_n f md t p b Hb) as BN.
  rewrite !fdiv_ok by lra. cbn [bind].
  assert (1 <= rnd (2 * b_npq b)) by (apply repr_rnd_ge; [exact Hf|apply repr_1; exact Hf|lra]).
  rewrite fdiv_ok by lra. cbn [bind]. destruct (Qle_bool v 0); [eexists; reflexivity|].
  destruct (qlt _ _); [eexists; reflexivity|]. destruct (qlt _ _); [eexists; reflexivity|].
  rewrite !subT_ok by lia. cbn [bind]. rewrite !addT_ok by lia. cbn [bind].
  pose proof (rnd_Z_ge1 (t - m + 1) ltac:(lia)) as Z1. pose proof (rnd_Z_ge1 (t - k + 1) ltac:(lia)) as Z2. pose proof (rnd_Z_ge1 (k + 1) ltac:(lia)) as Z3.
  assert (X: nu <= rnd (b_r b * rnd (inject_Z (t - m + 1)))).
  { apply repr_rnd_ge; [exact Hf|apply repr_p2; [exact Hf|destruct Hf; lia]|].
    assert (b_r b * 1 <= b_r b * rnd (inject_Z (t - m + 1))); [|lra]. rewrite !(Qmult_comm (b_r b)). apply Qmult_le_compat_r; lra. }
  rewrite !fdiv_ok by lra. cbn [bind].
  destruct (fc_total m Hm) as [y1 ->]. cbn [bind]. destruct (fc_total (t - m) ltac:(lia)) as [y2 ->]. cbn [bind].
  destruct (fc_total k Hk) as [y3 ->]. cbn [bind]. destruct (fc_total (t - k) ltac:(lia)) as [y4 ->]. cbn [bind]. eexists. reflexivity.
Qed.

(* one pass *)
Lemma try_ok : forall u01 ds bmin bmax F, valid_draws bmin bmax ds -> (length ds < F)%nat ->
  (forall ds', valid_draws bmin bmax ds' -> (length ds' < F)%nat -> exec u01 ds' = OMore \/ exists w rest, exec u01 ds' = ORet w rest /\ 0 <= w /\ w < 1) ->
  match exec (bn_try f g md ti lg u01 b t m) ds with
  | OMore => True
  | ORet None rest => valid_draws bmin bmax rest /\ (length rest <= length ds)%nat
  | ORet (Some k) _ => (0 <= k <= t)%Z
  | OUB => exists u, Qabs u <= 1 # 2 /\ bn_hat f md ti b u (us u) = None /\ us u * inject_Z (imax ti) < inject_Z t
  | OFuel => False
  end.
Proof.
  intros u01 ds bmin bmax F Hv HF HU. unfold bn_try. rewrite exec_bind_eq. pose proof p_pos as PP.
  destruct (HU ds Hv HF) as [E|(v & rest & E & V0 & V1)]; rewrite E; [exact I|].
  destruct (exec_suffix _ _ _ _ _ _ _ E Hv) as [X1 X2].
  destruct (Qle_bool v (b_urvr b)) eqn:EV.
  - apply Qle_bool_iff in EV. destruct (quick_ok f g md ti t p Rf Rg T0 N0 PP P1 b v Hti T1 Hb V0 EV) as (k & -> & HK). rewrite plift_some. cbn [pbind exec]. exact HK.
  - assert (EL: b_urvr b <= v). { apply Qlt_le_weak. apply Qnot_le_lt. intro Z. apply Qle_bool_iff in Z. congruence. }
    rewrite exec_bind_eq. destruct (pick_ok u01 v rest bmin bmax X1 (HU rest X1 ltac:(lia)) V0 EL) as [E2|(u & v' & rest2 & E2 & Y1 & Y2 & RU & U1 & V2)]; rewrite E2; [exact I|].
    fold (us u). cbv zeta. destruct (us_ok u RU U1) as [S1 S2].
    destruct (bn_hat f md ti b u (us u)) as [k|] eqn:EH.
    + rewrite plift_some. cbn [pbind]. destruct ((k <? 0) || (t <? k))%Z eqn:EK; [cbn [exec]; split; [exact Y1|lia]|].
      apply orb_false_iff in EK. destruct EK as [K1 K2]. apply Z.ltb_ge in K1, K2.
      destruct S2 as [S2|S2]; [unfold bn_hat in EH; unfold fdiv in EH; apply Qeq_eq_bool in S2; rewrite S2 in EH; discriminate EH|].
      destruct (scale_ok v' (us u) V2 S2) as (y & -> & _). rewrite plift_some. cbn [pbind]. rewrite subT_ok by lia. rewrite plift_some. cbn [pbind].
      assert (ACC: exists o, (if Qle_bool (rnd (inject_Z (Z.abs (k - m)))) 15 then bn_accept_near f md ti (b_r b) (b_nr b) m k y
        else plift (bn_accept_far f g md ti lg (b_r b) (b_npq b) t m k (rnd (inject_Z (Z.abs (k - m)))) y)) = PRet o).
      { destruct (Qle_bool (rnd (inject_Z (Z.abs (k - m)))) 15) eqn:EA.
        - apply near_total; [lia|]. destruct (Z_le_gt_dec (Z.abs (k - m)) 15) as [L|L]; [exact L|]. exfalso. apply Qle_bool_iff in EA.
          assert (X16: inject_Z 16 <= rnd (inject_Z (Z.abs (k - m)))).
          { apply rnd_Z_ge; [|lia]. change (inject_Z 16) with (p2 4). apply repr_p2; [exact Hf|pose proof em; lia]. }
          change (inject_Z 16) with 16 in X16. lra.
        - destruct (far_total k (rnd (inject_Z (Z.abs (k - m)))) y ltac:(lia)) as [o ->]. exists o. reflexivity. }
      destruct ACC as [o ->]. cbn [pbind exec]. destruct o; [lia|]. split; [exact Y1|lia].
    + cbn [plift pbind exec]. exists u. split; [exact U1|]. split; [exact EH|].
      destruct (Qlt_le_dec (us u * inject_Z (imax ti)) (inject_Z t)) as [L|L]; [exact L|]. exfalso.
      destruct S2 as [S2|S2].
      * rewrite S2 in L. pose proof (t_ge t p T0 N0 PP P1). lra.
      * pose proof (p2_pos (- P - 1)). destruct (hat_ok f md ti t p Rf T0 N0 PP P1 b u (us u) Hti Hs T1 Hb U1 ltac:(lra) S1 L) as [k K]. congruence.
Qed.
End D.

Section E.
Variables (f g : fmt) (md : rmode) (ti : ity) (pw : Q -> Q -> Q) (sq lg : Q -> Q) (t : Z) (p : Q).
Hypothesis Hf : fmt_ok f.
Hypothesis Hg : fmt_ok g.
Hypothesis Hw : fmt_wide f.
Hypothesis Pf : (20 <= prec f)%Z.
Hypothesis Pg : (prec f <= prec g)%Z.
Hypothesis Eg : (emin g <= emin f)%Z.
Hypothesis Hti : (32 <= bits ti)%Z.
Hypothesis Hs : sgn ti = true.
Hypothesis T0 : (0 <= t)%Z.
Hypothesis T1 : (t < imax ti)%Z.
Hypothesis Rp : representable f p.
Hypothesis P0 : 0 <= p.
Hypothesis P1 : p <= 1.
Hypothesis Pn : p == 0 \/ p2 (emin f + prec f) <= p.
Hypothesis Hsq : forall x, 1 <= x -> 0 <= sq x /\ Qabs (sq x * sq x - x) <= (1 # 1000) * x.
Local Notation ps := (bn_small f md p).
Local Notation nu := (p2 (emin f + prec f)).

Lemma init_btrd : forall d b, bn_init f g md ti pw sq t p = Some d -> bn_u d = UBtrd b ->
  bn_t d = t /\ bn_p d = p /\ (11 <= bn_m d <= t)%Z /\ 104 # 10 <= inject_Z t * ps /\ nu <= ps /\ ps <= 1 # 2 /\ representable f ps /\ ps == psmall p /\
  bfacts f md t ps b.
Proof.
  intros d b HI HU. destruct (small_ok f Hf Hw md p Rp P0 P1 Pn) as (SE & SR & S0 & S1 & SN).
  assert (RF: rel (fround f md)) by (apply rel_rnd; [exact Hf|exact Pf|destruct Hw; lia]).
  assert (RG: rel (fround g md)) by (apply rel_rnd; [exact Hg|lia|destruct Hw; lia]).
  unfold bn_init in HI. pose proof (imin_le_0 ti Hti) as I0. rewrite addT_in in HI by lia. cbn [bind] in HI.
  set (x := fround f md (fround f md (inject_Z (t + 1)) * ps)) in *.
  assert (TQ: 0 <= inject_Z (t + 1)) by (change 0 with (inject_Z 0); apply injZ_le; lia).
  assert (X0: 0 <= x) by (apply rnd_nonneg; apply Qmult_le_0_compat; [apply rnd_nonneg; exact TQ|exact S0]).
  destruct (to_int ti x) as [m|] eqn:EM; [|discriminate]. cbn [bind] in HI.
  assert (MX: m = Qfloor x).
  { unfold to_int, qtrunc in EM. apply Qle_bool_iff in X0. rewrite X0 in EM. destruct (_ && _); [injection EM as <-; reflexivity|discriminate]. }
  destruct (bn_inversion m) eqn:EI; [injection HI as <-; discriminate HU|].
  destruct (bn_btrd f g md ti sq t ps) as [b'|] eqn:EB; [|discriminate]. cbn [bind] in HI. injection HI as <-. cbn in HU. injection HU as ->.
  unfold bn_inversion in EI. apply Z.ltb_ge in EI. cbn [bn_t bn_p bn_m].
  assert (XM: inject_Z m <= x) by (rewrite MX; apply Qfloor_le). assert (X11: 11 <= x) by (apply Qle_trans with (inject_Z m); [apply (injZ_le 11 m); exact EI|exact XM]).
  assert (T1Q: 1 <= inject_Z (t + 1)) by (apply (injZ_le 1); lia).
  destruct (rel_pos _ (inject_Z (t + 1)) RF ltac:(lra)) as [A1 A2]. set (tr := fround f md (inject_Z (t + 1))) in *.
  assert (Y1: tr * ps <= (1 + (1 # 262144)) * inject_Z (t + 1) * ps) by (apply Qmult_le_compat_r; lra).
  assert (Y0: 0 <= tr * ps) by (apply Qmult_le_0_compat; lra).
  destruct (rel_abs _ (tr * ps) (tr * ps + 1) RF) as [A3 A4]; try lra. fold x in A3, A4.
  assert (TE: inject_Z (t + 1) == inject_Z t + 1) by (rewrite inject_Z_plus; reflexivity).
  assert (Y2: inject_Z (t + 1) * ps <= inject_Z (t + 1) * (1 # 2)). { rewrite !(Qmult_comm (inject_Z (t + 1))). apply Qmult_le_compat_r; lra. }
  assert (Y3: inject_Z (t + 1) * ps == inject_Z t * ps + ps) by (rewrite TE; ring).
  assert (NN: 104 # 10 <= inject_Z t * ps) by lra.
  assert (SP: nu <= ps). { destruct SN as [Z|Z]; [|exact Z]. exfalso. rewrite Z in NN. lra. }
  pose proof (p2_pos (emin f + prec f)) as NP.
  assert (TG: 20 <= inject_Z t) by (apply (t_ge t ps); assumption || lra).
  assert (MT: (m <= t)%Z). { rewrite MX. apply fl_hi. lra. }
  split; [reflexivity|]. split; [reflexivity|]. split; [lia|]. split; [exact NN|]. split; [exact SP|]. split; [exact S1|]. split; [exact SR|]. split; [exact SE|].
  apply (btrd_facts f g md ti sq t ps RF RG T0 NN ltac:(lra) S1 Hsq b Hti T1 EB).
Qed.

Lemma retry_cases : forall (att : prog (option Z)) bmin bmax F F0 ds (UB : Prop) (R : Z -> Prop), valid_draws bmin bmax ds -> (length ds < F0)%nat ->
  (forall ds', valid_draws bmin bmax ds' -> (length ds' < F0)%nat ->
    match exec att ds' with
    | OMore => True
    | ORet None rest => valid_draws bmin bmax rest /\ (length rest <= length ds')%nat
    | ORet (Some k) _ => R k
    | OUB => UB
    | OFuel => False
    end) ->
  match exec (retry F att) ds with ORet k _ => R k | OUB => UB | _ => True end.
Proof.
  intros att bmin bmax F F0 ds UB R Hv HL H. revert ds Hv HL. induction F as [|F IH]; intros ds Hv HL; [exact I|]. cbn [retry].
  rewrite exec_bind_eq. specialize (H ds Hv HL). destruct (exec att ds) as [[k|] rest| | |]; try exact I.
  - exact H.
  - destruct H as [H1 H2]. apply IH; [exact H1|lia].
  - exact H.
Qed.

Lemma btrd_op : forall d b tb bmin bmax F ds, eng_wf tb bmin bmax -> (bmax - bmin <= imax tb)%Z ->
  bn_init f g md ti pw sq t p = Some d -> bn_u d = UBtrd b -> valid_draws bmin bmax ds -> (length ds < F)%nat ->
  match exec (bn_op f g md ti lg F (uniform_01 f md F tb bmin bmax) d) ds with
  | ORet k _ => (0 <= k <= t)%Z
  | OUB => exists u, Qabs u <= 1 # 2 /\
      let us := fround f md (fround g md ((1 # 2) - Qabs u)) in bn_hat f md ti b u us = None /\ us * inject_Z (imax ti) < inject_Z t
  | _ => True
  end.
Proof.
  intros d b tb bmin bmax F ds He HR HI HU Hv HF. destruct (init_btrd d b HI HU) as (E1 & E2 & M & NN & SP & S1 & SR & SE & BF).
  unfold bn_op. rewrite HU, E1, E2.
  assert (G: match exec (bn_generate f g md ti lg F (uniform_01 f md F tb bmin bmax) b t (bn_m d)) ds with
    | ORet k _ => (0 <= k <= t)%Z
    | OUB => exists u, Qabs u <= 1 # 2 /\
        let us := fround f md (fround g md ((1 # 2) - Qabs u)) in bn_hat f md ti b u us = None /\ us * inject_Z (imax ti) < inject_Z t
    | _ => True end).
  { unfold bn_generate. apply (retry_cases _ bmin bmax F F ds _ (fun k => (0 <= k <= t)%Z) Hv HF). intros ds' Hv' HF'.
    apply (try_ok f g md ti lg t ps Hf Hg Hw Pf Pg Eg Hti Hs T0 T1 NN SP S1 b BF (bn_m d) ltac:(lia) _ ds' bmin bmax F Hv' HF').
    intros ds2 V2 L2. apply u01_run; assumption. }
  destruct (qlt (1 # 2) p); [|exact G]. rewrite exec_bind_eq.
  destruct (exec (bn_generate f g md ti lg F (uniform_01 f md F tb bmin bmax) b t (bn_m d)) ds) as [k rest| | |]; try exact G.
  unfold subT. pose proof (imin_le_0 ti Hti). rewrite norm_in by lia. cbn [plift exec]. lia.
Qed.
End E.
