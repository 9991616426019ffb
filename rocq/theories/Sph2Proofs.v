(* Lemmas for SphProps.v: coordinates, sums of squares, division by the norm *)
From Coq Require Import Lqa Reals Lra Qreals.
From Verif Require Import Base ProgModel ProgSpec ProgProofs FloatModel FloatSpec FloatProofs RealModel RealSpec RealProofs PoisRSpec Pois3Proofs InvModel InvSpec Bin9Proofs SphModel SphSpec SphProofs.
Ltac Zify.zify_post_hook ::= idtac.
Open Scope R_scope.
Ltac ql := Lqa.lra.

Definition P (k : Z) : R := Q2R (p2 k).
Lemma P_add : forall a b, P (a + b) = P a * P b.
Proof. intros a b. unfold P. rewrite <- Q2R_mult. apply Qeq_eqR, p2_add. Qed.
Lemma P_pos : forall a, 0 < P a.
Proof. intro a. unfold P. rewrite <- RMicromega.Q2R_0. apply Qlt_Rlt, p2_pos. Qed.
Lemma P_le : forall a b, (a <= b)%Z -> P a <= P b.
Proof. intros a b H. apply Qle_Rle, p2_le, H. Qed.
Lemma P_0 : P 0 = 1.
Proof. unfold P, p2, Q2R. cbn. lra. Qed.
Lemma P_m1 : P (-1) = 1 / 2.
Proof. unfold P, p2, Q2R. cbn. lra. Qed.
Lemma P_inv : forall a, / P a = P (- a).
Proof. intro a. pose proof (P_pos a). apply Rmult_eq_reg_l with (P a); [|lra]. rewrite Rinv_r by lra. rewrite <- P_add, Z.add_opp_diag_r, P_0. reflexivity. Qed.

Section F.
Variables (f : fmt) (md : rmode).
Hypothesis Hf : fmt_ok f.
Hypothesis Hd : fmt_deep f.
Local Notation e := (eps f).
Local Notation rnd := (fround f md).
Local Notation D := (prec f).

Lemma repr_grid : forall q, representable f q -> (1 # 2 <= q)%Q -> exists k, (q == inject_Z k * p2 (- D))%Q.
Proof.
  intros q (m & k & K & M & E) Q. destruct Hd as [D20 _]. destruct (Z_le_gt_dec (- D) k) as [L|L].
  - exists (m * 2 ^ (k + D))%Z. rewrite E. replace k with ((k + D) + - D)%Z at 1 by lia. rewrite p2_add, inject_Z_mult. rewrite <- (p2_Z (k + D)) by lia. ring.
  - exists (2 ^ (D - 1))%Z. assert (A: (q <= 1 # 2)%Q).
    { rewrite E. apply Qle_trans with (inject_Z (2 ^ D) * p2 (- D - 1))%Q.
      - apply Qle_trans with (inject_Z (2 ^ D) * p2 k)%Q; [apply Qmult_le_compat_r; [rewrite <- Zle_Qle; lia|apply Qlt_le_weak, p2_pos]|]. rewrite !(Qmult_comm (inject_Z _)).
        apply Qmult_le_compat_r; [apply p2_le; lia|]. rewrite <- (Zle_Qle 0). apply Z.pow_nonneg. lia.
      - rewrite <- p2_Z by lia. rewrite <- p2_add. replace (D + (- D - 1))%Z with (-1)%Z by lia. discriminate. }
    assert (Z: (q == 1 # 2)%Q) by ql. rewrite Z, <- p2_Z by lia. rewrite <- p2_add. replace (D - 1 + - D)%Z with (-1)%Z by lia. reflexivity.
Qed.
(* a - 1 is zero or not small *)
Lemma diff_big : forall a, representable f a -> (0 <= a)%Q -> (a - 1 == 0)%Q \/ (p2 (- D) <= Qabs (a - 1))%Q.
Proof.
  intros a R A. destruct Hd as [D20 _]. destruct (Qlt_le_dec a (1 # 2)) as [L|L].
  - right. apply Qle_trans with (p2 (-1)); [apply p2_le; lia|]. assert (p2 (-1) == 1 # 2)%Q by reflexivity. rewrite Qabs_neg by ql. ql.
  - destruct (repr_grid a R L) as (k & K). assert (E: (a - 1 == inject_Z (k - 2 ^ D) * p2 (- D))%Q).
    { unfold Z.sub. rewrite inject_Z_plus, inject_Z_opp, <- p2_Z by lia. rewrite K. assert (Q: (p2 D * p2 (- D) == 1)%Q) by (rewrite <- p2_add, Z.add_opp_diag_r; reflexivity).
      rewrite <- Q. ring. }
    destruct (Z.eq_dec k (2 ^ D)) as [Z|N]; [left; rewrite E, Z, Z.sub_diag; ring|right].
    rewrite E, Qabs_Qmult. rewrite (Qabs_pos (p2 (- D))) by (apply Qlt_le_weak, p2_pos). rewrite <- (Qmult_1_l (p2 (- D))) at 1. apply Qmult_le_compat_r; [|apply Qlt_le_weak, p2_pos].
    change (Qabs (inject_Z (k - 2 ^ D))) with (inject_Z (Z.abs (k - 2 ^ D))). change 1%Q with (inject_Z 1). rewrite <- Zle_Qle. lia.
Qed.
Lemma repr_mp2 : forall k, (emin f <= k)%Z -> representable f (- p2 k)%Q.
Proof. intros k K. exists (-1)%Z, k. split; [exact K|]. split; [cbn; apply (Z.pow_le_mono_r 2 0); destruct Hf; lia|]. change (inject_Z (-1)) with (-1)%Q. ring. Qed.
Lemma rnd_big : forall k x, (emin f <= k)%Z -> (x == 0)%Q \/ (p2 k <= Qabs x)%Q -> (rnd x == 0)%Q \/ (p2 k <= Qabs (rnd x))%Q.
Proof.
  intros k x K [Z|B]; [left; rewrite (rnd_compat f md Hf x 0%Q Z); apply rnd_fix; [exact Hf|apply repr_0; exact Hf]|right].
  destruct (Qlt_le_dec x 0) as [L|L].
  - rewrite (Qabs_neg x) in B by ql. assert (A: (rnd x <= - p2 k)%Q) by (apply repr_rnd_le; [exact Hf|apply repr_mp2; exact K|ql]). pose proof (p2_pos k). rewrite Qabs_neg by ql. ql.
  - rewrite (Qabs_pos x) in B by ql. assert (A: (p2 k <= rnd x)%Q) by (apply repr_rnd_ge; [exact Hf|apply repr_p2; try assumption|ql]). pose proof (p2_pos k). rewrite Qabs_pos by ql. exact A.
Qed.
Lemma coord_ok : forall u, (0 <= u)%Q -> (u <= 1)%Q -> representable f u ->
  let x := rnd (rnd (u * 2) - 1) in
  representable f x /\ (-1 <= x)%Q /\ (x <= 1)%Q /\ ((x == 0)%Q \/ (p2 (- D) <= Qabs x)%Q) /\ Rabs (Q2R x - (2 * Q2R u - 1)) <= e.
Proof.
  intros u U0 U1 R x. destruct Hd as [D20 H3].
  assert (R2: representable f (u * 2)). { destruct R as (m & k & K & M & E). exists m, (k + 1)%Z. split; [lia|]. split; [exact M|]. rewrite p2_add, E. change (p2 1) with 2%Q. ring. }
  assert (E2: (rnd (u * 2) == u * 2)%Q) by (apply rnd_fix; assumption).
  assert (RR: representable f (rnd (u * 2))) by (apply rnd_repr; exact Hf).
  pose proof (diff_big (rnd (u * 2)) RR ltac:(ql)) as B.
  split; [apply rnd_repr; exact Hf|]. split; [apply repr_rnd_ge; [exact Hf|change (-1)%Q with (- p2 0)%Q; apply repr_mp2; lia|ql]|]. split; [apply repr_rnd_le; [exact Hf|apply repr_1; exact Hf|ql]|].
  split; [apply rnd_big; [lia|exact B]|].
  assert (BB: big f (rnd (u * 2) - 1)). { destruct B as [B|B]; [left; exact B|right]. eapply Qle_trans; [|exact B]. apply p2_le. lia. }
  pose proof (rnd_rel f md Hf _ BB) as Q. fold x in Q. assert (EQ: Q2R (rnd (u * 2) - 1) = 2 * Q2R u - 1).
  { rewrite Q2R_minus. apply Qeq_eqR in E2. rewrite E2, Q2R_mult. unfold Q2R at 2 3. cbn. lra. }
  rewrite EQ in Q. pose proof (e_pos' f). assert (A: Rabs (2 * Q2R u - 1) <= 1).
  { apply Qle_Rle in U0, U1. rewrite RMicromega.Q2R_0 in U0. rewrite RMicromega.Q2R_1 in U1. apply Rabs_le. lra. }
  apply Rmult_le_compat_l with (r := e) in A; lra.
Qed.

Lemma big_mul : forall a b x y, (emin f + D <= - (a + b))%Z -> (x == 0)%Q \/ (p2 (- a) <= Qabs x)%Q -> (y == 0)%Q \/ (p2 (- b) <= Qabs y)%Q ->
  (x * y == 0)%Q \/ (p2 (- (a + b)) <= Qabs (x * y))%Q.
Proof.
  intros a b x y _ [X|X] [Y|Y]; try (left; rewrite X; ring); try (left; rewrite Y; ring).
  right. rewrite Qabs_Qmult. replace (- (a + b))%Z with (- a + - b)%Z by lia. rewrite p2_add. pose proof (p2_pos (- a)). pose proof (p2_pos (- b)).
  apply Qle_trans with (Qabs x * p2 (- b))%Q; [apply Qmult_le_compat_r; ql|]. rewrite !(Qmult_comm (Qabs x)). apply Qmult_le_compat_r; ql.
Qed.
Lemma to_big : forall a x, (emin f + D <= - a)%Z -> (x == 0)%Q \/ (p2 (- a) <= Qabs x)%Q -> big f x.
Proof. intros a x A [X|X]; [left; exact X|right]. eapply Qle_trans; [|exact X]. apply p2_le. exact A. Qed.
Lemma abs_sq : forall x, Rabs x * Rabs x = x * x.
Proof. intro x. rewrite <- Rabs_mult. apply Rabs_pos_eq. apply Rle_0_sqr. Qed.

(* the square of a coordinate *)
Definition sqbig (s : Q) : Prop := (s == 0)%Q \/ (p2 (- (2 * D + 6)) <= Qabs s)%Q.
Lemma sq_ok : forall x, not_small f x -> rn e 1 (Q2R (rnd (x * x))) (Q2R x * Q2R x) /\ (0 <= rnd (x * x))%Q /\ sqbig (rnd (x * x)).
Proof.
  intros x H. destruct Hd as [D20 H3]. pose proof (big_mul (D + 3) (D + 3) x x ltac:(lia) H H) as B. replace (D + 3 + (D + 3))%Z with (2 * D + 6)%Z in B by lia.
  pose proof (to_big (2 * D + 6) _ ltac:(lia) B) as BB. split; [|split].
  - replace 1 with (0 + 1) by ring. apply (rn_rnd f md Hf Hd); [exact BB|]. rewrite Q2R_mult. apply rn_0. apply Rle_0_sqr.
  - apply rnd_nonneg. destruct (Qlt_le_dec x 0); [setoid_replace (x * x)%Q with ((- x) * (- x))%Q by ring|]; apply Qmult_le_0_compat; ql.
  - apply rnd_big; [lia|exact B].
Qed.
Lemma add_ok : forall n s t S T, rn e n (Q2R s) S -> rn e n (Q2R t) T -> (0 <= s)%Q -> (0 <= t)%Q -> sqbig s -> sqbig t ->
  rn e (n + 1) (Q2R (rnd (s + t))) (S + T) /\ (0 <= rnd (s + t))%Q /\ sqbig (rnd (s + t)) /\ representable f (rnd (s + t)).
Proof.
  intros n s t S T HS HT S0 T0 BS BT. destruct Hd as [D20 H3].
  assert (B: (s + t == 0)%Q \/ (p2 (- (2 * D + 6)) <= Qabs (s + t))%Q).
  { rewrite (Qabs_pos (s + t)) by ql. destruct BS as [BS|BS]; [|right; rewrite Qabs_pos in BS by ql; ql]. destruct BT as [BT|BT]; [left; ql|right; rewrite Qabs_pos in BT by ql; ql]. }
  split; [|split; [|split]].
  - apply (rn_rnd f md Hf Hd); [apply (to_big (2 * D + 6)); [lia|exact B]|]. rewrite Q2R_plus. apply rn_add; assumption.
  - apply rnd_nonneg; ql.
  - apply rnd_big; [lia|exact B].
  - apply rnd_repr. exact Hf.
Qed.
Lemma sq2_ok : forall x y, not_small f x -> not_small f y -> let s := sp_sq2 f md x y in
  rn e 2 (Q2R s) (Q2R x * Q2R x + Q2R y * Q2R y) /\ (0 <= s)%Q /\ sqbig s /\ representable f s.
Proof.
  intros x y HX HY s. destruct (sq_ok x HX) as (A & B & C), (sq_ok y HY) as (A' & B' & C'). replace 2 with (1 + 1) by ring. unfold s, sp_sq2. apply add_ok; assumption.
Qed.
Definition sp_acc (s : Q) (vs : list Q) : Q := fold_left (fun s v => rnd (s + rnd (v * v))) vs s.
Lemma acc_ok : forall vs m s S, 1 <= m -> Forall (not_small f) vs -> rn e m (Q2R s) S -> (0 <= s)%Q -> sqbig s -> representable f s ->
  let t := sp_acc s vs in rn e (m + INR (length vs)) (Q2R t) (S + norm2 vs) /\ (0 <= t)%Q /\ sqbig t /\ representable f t.
Proof.
  induction vs as [|v vs IH]; intros m s S M H HS S0 BS RS; cbn zeta.
  - cbn. rewrite !Rplus_0_r. repeat split; try assumption; apply HS.
  - inversion H as [|? ? HV H']. subst. destruct (sq_ok v HV) as (A & B & C).
    destruct (add_ok m s (rnd (v * v)) S _ HS (rn_w e (e_pos' f) 1 m _ _ M A) S0 B BS C) as (X1 & X2 & X3 & X4).
    specialize (IH (m + 1) (rnd (s + rnd (v * v))) (S + Q2R v * Q2R v) ltac:(lra) H' X1 X2 X3 X4). cbn zeta in IH.
    change (sp_acc s (v :: vs)) with (sp_acc (rnd (s + rnd (v * v))) vs). cbn [norm2 length]. rewrite S_INR.
    replace (m + (INR (length vs) + 1)) with (m + 1 + INR (length vs)) by ring. replace (S + (Q2R v * Q2R v + norm2 vs)) with (S + Q2R v * Q2R v + norm2 vs) by ring. exact IH.
Qed.
End F.
