(* Lemmas for SphProps.v: the points of the circle, the sphere and the n-sphere *)
From Coq Require Import Lqa Reals Lra Qreals.
From Verif Require Import Base ProgModel ProgSpec ProgProofs FloatModel FloatSpec FloatProofs RealModel RealSpec RealProofs PoisRSpec Pois3Proofs InvModel InvSpec Bin9Proofs SphModel SphSpec SphProofs Sph2Proofs.
Ltac Zify.zify_post_hook ::= idtac.
Open Scope R_scope.

Lemma norm2_nn : forall l, 0 <= norm2 l.
Proof. induction l as [|x l IH]; cbn [norm2]; [lra|]. pose proof (Rle_0_sqr (Q2R x)) as Q. unfold Rsqr in Q. lra. Qed.

Section F.
Variables (f : fmt) (md : rmode) (sq : Q -> Q) (K : R).
Hypothesis Hf : fmt_ok f.
Hypothesis Hd : fmt_deep f.
Hypothesis K0 : 0 <= K.
Hypothesis Hsq : sqrt_all f K sq.
Local Notation e := (eps f).
Local Notation rnd := (fround f md).
Local Notation D := (prec f).

(* the square root of a rounded number *)
Lemma sqrt_rn : forall m s S, K * e <= 1 / 2 -> (0 <= s)%Q -> representable f s -> rn e m (Q2R s) S -> rn e (m / 2 + K) (Q2R (sq s)) (sqrt S).
Proof.
  intros m s S KE S0 RS H. apply (rn_err e (e_pos' f) K _ (sqrt (Q2R s))); [exact K0|exact KE|apply rn_sqrt; exact H|]. apply Hsq; assumption.
Qed.
Lemma norm_up : forall vs, Forall (fun v => Qabs v <= p2 D)%Q vs -> norm2 vs <= INR (length vs) * P (2 * D).
Proof.
  induction 1 as [|v vs H _ IH]; cbn [norm2 length]; [cbn; lra|]. rewrite S_INR. apply Qle_Rle in H. rewrite Q2R_abs in H.
  replace (2 * D)%Z with (D + D)%Z in * by lia. rewrite P_add in *. rewrite <- (abs_sq (Q2R v)).
  assert (Rabs (Q2R v) * Rabs (Q2R v) <= P D * P D) by (apply Rmult_le_compat; try apply Rabs_pos; exact H). lra.
Qed.
Lemma coord_rn : forall m v inv S, 0 < S -> rn e m (Q2R inv) (/ sqrt S) -> not_small f v -> (inv == 0)%Q \/ (p2 (- (D + 17)) <= Qabs inv)%Q ->
  rn e (m + 1) (Rabs (Q2R (rnd (v * inv)))) (Rabs (Q2R v) * / sqrt S).
Proof.
  intros m v inv S SP H HV HI. destruct Hd as [D20 H3]. pose proof (big_mul f (D + 3) (D + 17) v inv ltac:(lia) HV HI) as B.
  apply (rn_rnd_abs f md Hf Hd); [apply (to_big f (D + 3 + (D + 17))); [lia|exact B]|]. rewrite Q2R_mult, Rabs_mult. rewrite (Rabs_pos_eq (Q2R inv)) by (apply (rn_pos e _ _ _ H)).
  replace m with (0 + m) by ring. apply rn_mul; [apply rn_0, Rabs_pos|exact H].
Qed.
Lemma sgn_dist : forall v inv w, (0 <= inv)%Q -> 0 <= w -> Rabs (Q2R (rnd (v * inv)) - Q2R v * w) = Rabs (Rabs (Q2R (rnd (v * inv))) - Rabs (Q2R v) * w).
Proof.
  intros v inv w I W. destruct (Qlt_le_dec v 0) as [L|L].
  - assert (A: (rnd (v * inv) <= 0)%Q). { apply repr_rnd_le; [exact Hf|apply repr_0; exact Hf|]. assert (0 <= (- v) * inv)%Q by (apply Qmult_le_0_compat; ql). ql. }
    apply Qle_Rle in A. apply Qlt_Rlt in L. rewrite RMicromega.Q2R_0 in *. rewrite (Rabs_left1 (Q2R v)) by lra. rewrite (Rabs_left1 (Q2R (rnd _))) by lra.
    rewrite <- (Rabs_Ropp (Q2R (rnd _) - _)). f_equal. ring.
  - assert (A: (0 <= rnd (v * inv))%Q) by (apply rnd_nonneg, Qmult_le_0_compat; assumption).
    apply Qle_Rle in A. apply Qle_Rle in L. rewrite RMicromega.Q2R_0 in *. rewrite (Rabs_pos_eq (Q2R v)) by lra. rewrite (Rabs_pos_eq (Q2R (rnd _))) by lra. reflexivity.
Qed.
Lemma norm_ok : forall vs s m, Forall (not_small f) vs -> Forall (fun v => Qabs v <= p2 D)%Q vs -> (Z.of_nat (length vs) <= 2 ^ 32)%Z ->
  (0 < s)%Q -> representable f s -> rn e m (Q2R s) (norm2 vs) -> 0 <= m -> (m + 2 * K + 4) * (2 * e) <= 1 / 2 ->
  exists rs, sp_mapn f md sq vs s = Some rs /\ length rs = length vs /\ rn e (m + 2 * K + 4) (norm2 rs) 1 /\ 0 < norm2 vs /\
    Forall2 (fun v r => Rabs (Q2R r - Q2R v * / sqrt (norm2 vs)) <= 4 * (m / 2 + K + 2) * e * (Rabs (Q2R v) * / sqrt (norm2 vs))) vs rs.
Proof.
  intros vs s m HV HU HL S0 RS H M0 HM. pose proof (e_pos' f) as E0. destruct Hd as [D20 H3].
  assert (ME: 0 <= m * e) by (apply Rmult_le_pos; lra). assert (KE: 0 <= K * e) by (apply Rmult_le_pos; lra).
  set (S := norm2 vs) in *. assert (SP: 0 < S).
  { destruct (Rle_lt_or_eq_dec 0 S (norm2_nn vs)) as [L|L]; [exact L|]. exfalso. destruct H as (_ & _ & U). rewrite <- L, Rmult_0_r in U. apply Qlt_Rlt in S0. rewrite RMicromega.Q2R_0 in S0. lra. }
  assert (QP: 0 < sqrt S) by (apply sqrt_lt_R0; exact SP).
  pose proof (sqrt_rn m s S ltac:(lra) ltac:(ql) RS H) as R. set (r := sq s) in *.
  pose proof (rn_half e E0 (m / 2 + K) _ _ ltac:(lra) ltac:(lra) R) as [R1 R2]. assert (RP: 0 < Q2R r) by lra.
  assert (RQ: (0 < r)%Q) by (apply Rlt_Qlt; rewrite RMicromega.Q2R_0; exact RP).
  assert (SU: sqrt S <= P (D + 16)).
  { rewrite <- (sqrt_square (P (D + 16))) by (left; apply P_pos). apply sqrt_le_1_alt. unfold S. eapply Rle_trans; [apply norm_up; exact HU|].
    rewrite <- P_add. replace (D + 16 + (D + 16))%Z with (32 + 2 * D)%Z by lia. rewrite P_add. apply Rmult_le_compat_r; [left; apply P_pos|].
    rewrite INR_IZR_INZ. eapply Rle_trans; [apply IZR_le; exact HL|]. unfold P. rewrite (Qeq_eqR _ _ (p2_Z 32 ltac:(lia))). unfold Q2R, inject_Z. cbn [Qnum Qden]. lra. }
  assert (BI: (1 / r == 0)%Q \/ (p2 (- (D + 17)) <= Qabs (1 / r))%Q).
  { right. rewrite Qabs_pos by (apply Qle_shift_div_l; ql). apply Rle_Qle. unfold Qdiv. rewrite Q2R_mult, RMicromega.Q2R_1, Rmult_1_l, Q2R_inv by ql.
    fold (P (- (D + 17))). rewrite <- P_inv. apply Rinv_le_contravar; [exact RP|]. replace (D + 17)%Z with (D + 16 + 1)%Z by lia. rewrite P_add. replace (P 1) with 2 by (unfold P, p2, Q2R; cbn; lra). lra. }
  set (inv := rnd (1 / r)). assert (IN: rn e (m / 2 + K + 1) (Q2R inv) (/ sqrt S)).
  { unfold inv. apply (rn_rnd f md Hf Hd); [apply (to_big f (D + 17)); [lia|exact BI]|]. unfold Qdiv. rewrite Q2R_mult, RMicromega.Q2R_1, Rmult_1_l, Q2R_inv by ql. apply rn_inv; assumption. }
  pose proof (rnd_big f md Hf (- (D + 17)) _ ltac:(lia) BI) as BJ. fold inv in BJ.
  assert (I0: (0 <= inv)%Q) by (unfold inv; apply rnd_nonneg, Qle_shift_div_l; ql).
  assert (W0: 0 <= / sqrt S) by (left; apply Rinv_0_lt_compat; exact QP).
  exists (map (fun v => rnd (v * inv)) vs). split; [|split; [apply map_length|split; [|split; [exact SP|]]]].
  - unfold sp_mapn, fsqrt. replace (qlt s 0) with false by (symmetry; apply qlt_false; ql). cbn [bind]. fold r. unfold fdiv.
    destruct (Qeq_bool r 0) eqn:E; [apply Qeq_bool_iff in E; ql|]. cbn [bind]. reflexivity.
  - assert (G: rn e (m + 2 * K + 4) (norm2 (map (fun v => rnd (v * inv)) vs)) (S * / S)).
    { unfold S at 1. clear HU HL H. clearbody S. induction HV as [|v l Hv Hl IH]; cbn [map norm2]; [rewrite Rmult_0_l; apply (rn_w e E0 0); [lra|apply rn_0; lra]|].
      rewrite Rmult_plus_distr_r. apply rn_add; [|exact IH]. pose proof (coord_rn _ v inv S SP IN Hv BJ) as Q. pose proof (rn_mul e _ _ _ _ _ _ Q Q) as QQ. rewrite abs_sq in QQ.
      replace (m + 2 * K + 4) with (m / 2 + K + 1 + 1 + (m / 2 + K + 1 + 1)) by field.
      replace (Q2R v * Q2R v * / S) with (Rabs (Q2R v) * / sqrt S * (Rabs (Q2R v) * / sqrt S)); [exact QQ|].
      rewrite <- (sqrt_sqrt S) at 3 by lra. rewrite Rinv_mult. rewrite <- (abs_sq (Q2R v)). ring. }
    rewrite Rinv_r in G by lra. exact G.
  - clear HU HL. clearbody S. induction HV as [|v l Hv Hl IH]; cbn [map]; constructor; [|exact IH].
    rewrite sgn_dist by assumption. pose proof (coord_rn _ v inv S SP IN Hv BJ) as Q. replace (m / 2 + K + 1 + 1) with (m / 2 + K + 2) in Q by ring.
    apply (rn_dist e E0); [lra|lra|exact Q].
Qed.

(* the sphere *)
Lemma map3_ok : forall x y, (x == 0)%Q \/ (p2 (- D) <= Qabs x)%Q -> (y == 0)%Q \/ (p2 (- D) <= Qabs y)%Q -> (sp_sq2 f md x y <= 1)%Q -> (2 * K + 7) * (2 * e) <= 1 / 2 ->
  exists mult a b c, sp_map3 f md sq x y = Some [a; b; c] /\ (0 <= mult)%Q /\ a = rnd (x * mult) /\ b = rnd (y * mult) /\
    rn e (2 * K + 7) (norm2 [a; b; c]) 1 /\ Rabs (Q2R c - (2 * (Q2R x * Q2R x + Q2R y * Q2R y) - 1)) <= 20 * e.
Proof.
  intros x y HX HY S1 HM. pose proof (e_pos' f) as E0. pose proof (e_small f Hd) as ES. destruct Hd as [D20 H3]. assert (KE: 0 <= K * e) by (apply Rmult_le_pos; lra).
  assert (W: forall z, (z == 0)%Q \/ (p2 (- D) <= Qabs z)%Q -> not_small f z). { intros z [Z|Z]; [left; exact Z|right]. eapply Qle_trans; [|exact Z]. apply p2_le. lia. }
  destruct (sq2_ok f md Hf Hd x y (W x HX) (W y HY)) as (S & S0 & BS & RS). unfold sp_map3. set (s := sp_sq2 f md x y) in *. cbv zeta.
  set (X := Q2R x * Q2R x + Q2R y * Q2R y) in *.
  assert (B1: (1 - s == 0)%Q \/ (p2 (- D) <= Qabs (1 - s))%Q). { destruct (diff_big f Hd s RS S0) as [B|B]; [left; ql|right]. setoid_replace (1 - s)%Q with (- (s - 1))%Q by ring. rewrite Qabs_opp. exact B. }
  assert (T0: (0 <= 1 - s)%Q) by ql. set (t := rnd (1 - s)). assert (TN: (0 <= t)%Q) by (apply rnd_nonneg; exact T0).
  assert (QS: 0 <= Q2R s <= 1). { apply Qle_Rle in S0, S1. rewrite RMicromega.Q2R_0 in S0. rewrite RMicromega.Q2R_1 in S1. lra. }
  assert (T: rn e 1 (Q2R t) (1 - Q2R s)).
  { replace 1 with (0 + 1) at 1 by ring. apply (rn_rnd f md Hf Hd); [apply (to_big f D); [lia|exact B1]|]. rewrite Q2R_minus, RMicromega.Q2R_1. apply rn_0. lra. }
  assert (BT: (t == 0)%Q \/ (p2 (- D) <= Qabs t)%Q) by (apply rnd_big; [exact Hf|lia|exact B1]).
  unfold fsqrt. replace (qlt t 0) with false by (symmetry; apply qlt_false; exact TN). cbn [bind].
  pose proof (sqrt_rn 1 t _ ltac:(lra) TN ltac:(apply rnd_repr; exact Hf) T) as R. set (r := sq t) in *.
  assert (QT: sqrt (Q2R t) <= 1).
  { rewrite <- sqrt_1. apply sqrt_le_1_alt. rewrite <- RMicromega.Q2R_1. apply Qle_Rle. apply repr_rnd_le; [exact Hf|apply repr_1; exact Hf|ql]. }
  (* the size of the root *)
  assert (BR: (2 * r == 0)%Q \/ (p2 (- D) <= Qabs (2 * r))%Q).
  { assert (HS := Hsq t TN ltac:(apply rnd_repr; exact Hf)). fold r in HS. destruct BT as [Z|B].
    - left. apply Qeq_eqR in Z. rewrite Z, RMicromega.Q2R_0, sqrt_0, Rmult_0_r, Rminus_0_r in HS. assert (Q2R r = 0) by (destruct (Req_dec (Q2R r) 0) as [Q|Q]; [exact Q|apply Rabs_pos_lt in Q; lra]).
      assert (Z': (r == 0)%Q) by (apply eqR_Qeq; rewrite RMicromega.Q2R_0; assumption). rewrite Z'. ring.
    - right. apply Rle_Qle. rewrite Q2R_abs, Q2R_mult. fold (P (- D)). apply Qle_Rle in B. rewrite Q2R_abs in B. fold (P (- D)) in B. apply Qle_Rle in TN. rewrite RMicromega.Q2R_0 in TN. rewrite Rabs_pos_eq in B by exact TN.
      assert (A: Q2R t <= sqrt (Q2R t)). { rewrite <- (sqrt_sqrt (Q2R t)) at 1 by exact TN. pose proof (Rmult_le_compat_l (sqrt (Q2R t)) _ _ (sqrt_pos _) QT). lra. }
      apply Rabs_le_inv in HS. assert (KQ: K * e * sqrt (Q2R t) <= (1 / 2) * sqrt (Q2R t)) by (apply Rmult_le_compat_r; [apply sqrt_pos|lra]).
      replace (Q2R 2) with 2 by (unfold Q2R; cbn; lra). rewrite Rabs_pos_eq; lra. }
  set (mult := rnd (2 * r)). assert (MU: rn e (1 / 2 + K + 1) (Q2R mult) (2 * sqrt (1 - Q2R s))).
  { apply (rn_rnd f md Hf Hd); [apply (to_big f D); [lia|exact BR]|]. rewrite Q2R_mult. replace (Q2R 2) with 2 by (unfold Q2R; cbn; lra). replace (1 / 2 + K) with (0 + (1 / 2 + K)) by ring. apply rn_mul; [apply rn_0; lra|exact R]. }
  assert (BM: (mult == 0)%Q \/ (p2 (- D) <= Qabs mult)%Q) by (apply rnd_big; [exact Hf|lia|exact BR]).
  assert (M0: (0 <= mult)%Q). { apply Rle_Qle. rewrite RMicromega.Q2R_0. apply (rn_pos e _ _ _ MU). }
  assert (CO: forall z, (z == 0)%Q \/ (p2 (- D) <= Qabs z)%Q -> rn e (2 * K + 5) (Q2R (rnd (z * mult)) * Q2R (rnd (z * mult))) (Q2R z * Q2R z * (4 * (1 - Q2R s)))).
  { intros z HZ. pose proof (big_mul f D D z mult ltac:(lia) HZ BM) as B.
    assert (Q: rn e (1 / 2 + K + 1 + 1) (Rabs (Q2R (rnd (z * mult)))) (Rabs (Q2R z) * (2 * sqrt (1 - Q2R s)))).
    { apply (rn_rnd_abs f md Hf Hd); [apply (to_big f (D + D)); [lia|exact B]|]. rewrite Q2R_mult, Rabs_mult. rewrite (Rabs_pos_eq (Q2R mult)) by (apply (rn_pos e _ _ _ MU)).
      replace (1 / 2 + K + 1) with (0 + (1 / 2 + K + 1)) by ring. apply rn_mul; [apply rn_0, Rabs_pos|exact MU]. }
    pose proof (rn_mul e _ _ _ _ _ _ Q Q) as QQ. rewrite abs_sq in QQ. replace (2 * K + 5) with (1 / 2 + K + 1 + 1 + (1 / 2 + K + 1 + 1)) by field.
    replace (Q2R z * Q2R z * (4 * (1 - Q2R s))) with (Rabs (Q2R z) * (2 * sqrt (1 - Q2R s)) * (Rabs (Q2R z) * (2 * sqrt (1 - Q2R s)))); [exact QQ|].
    rewrite <- (abs_sq (Q2R z)). rewrite <- (sqrt_sqrt (1 - Q2R s)) at 3 by lra. ring. }
  (* the third coordinate *)
  assert (R2: representable f (2 * s)). { destruct RS as (m & k & KK & MM & E). exists m, (k + 1)%Z. split; [lia|]. split; [exact MM|]. rewrite p2_add, E. change (p2 1) with 2%Q. ring. }
  assert (E2: (rnd (2 * s) == 2 * s)%Q) by (apply rnd_fix; assumption).
  pose proof (diff_big f Hd (rnd (2 * s)) ltac:(apply rnd_repr; exact Hf) ltac:(ql)) as BC. set (c := rnd (rnd (2 * s) - 1)).
  assert (EQ: Q2R (rnd (2 * s) - 1) = 2 * Q2R s - 1). { rewrite Q2R_minus. apply Qeq_eqR in E2. rewrite E2, Q2R_mult. unfold Q2R at 1 3. cbn. lra. }
  assert (BC': big f (rnd (2 * s) - 1)) by (apply (to_big f D); [lia|exact BC]).
  assert (C: rn e 1 (Rabs (Q2R c)) (Rabs (2 * Q2R s - 1))). { replace 1 with (0 + 1) at 1 by ring. apply (rn_rnd_abs f md Hf Hd); [exact BC'|]. rewrite EQ. apply rn_0, Rabs_pos. }
  pose proof (rn_mul e _ _ _ _ _ _ C C) as CC. rewrite !abs_sq in CC.
  exists mult, (rnd (x * mult)), (rnd (y * mult)), c. split; [reflexivity|]. split; [exact M0|]. split; [reflexivity|]. split; [reflexivity|]. split.
  - cbn [norm2]. pose proof (rn_add e _ _ _ _ _ (CO x HX) (CO y HY)) as AB. rewrite <- Rmult_plus_distr_r in AB. fold X in AB.
    pose proof (rn_mul e _ _ _ _ _ _ (rn_sym e _ _ _ S) (rn_0 e (4 * (1 - Q2R s)) ltac:(lra))) as SX. pose proof (rn_trans e _ _ _ _ _ AB SX) as AB'.
    pose proof (rn_add e _ _ _ _ _ (rn_w e E0 (2 * K + 5 + (2 + 0)) (2 * K + 7) _ _ ltac:(lra) AB') (rn_w e E0 (1 + 1) (2 * K + 7) _ _ ltac:(lra) CC)) as Q.
    replace 1 with (Q2R s * (4 * (1 - Q2R s)) + (2 * Q2R s - 1) * (2 * Q2R s - 1)) at 1 by ring. rewrite Rplus_0_r, <- Rplus_assoc. exact Q.
  - assert (A1: Rabs (Q2R c - (2 * Q2R s - 1)) <= e). { pose proof (rnd_rel f md Hf _ BC') as Q. fold c in Q. rewrite EQ in Q. assert (A: Rabs (2 * Q2R s - 1) <= 1) by (apply Rabs_le; lra). apply Rmult_le_compat_l with (r := e) in A; lra. }
    pose proof (rn_dist e E0 2 (Q2R s) X ltac:(lra) ltac:(lra) S) as A2. pose proof (rn_half e E0 2 (Q2R s) X ltac:(lra) ltac:(lra) S) as A3.
    assert (A4: 4 * 2 * e * X <= 4 * 2 * e * (1 + 1 / 8)). 
    { apply Rmult_le_compat_l; [lra|]. pose proof (rn_dist e E0 2 X (Q2R s) ltac:(lra) ltac:(lra) (rn_sym e _ _ _ S)) as A5. apply Rabs_le_inv in A5.
      assert (4 * 2 * e * Q2R s <= 4 * 2 * e * 1) by (apply Rmult_le_compat_l; lra). lra. }
    apply Rabs_le_inv in A1, A2. apply Rabs_le. lra.
Qed.
End F.
