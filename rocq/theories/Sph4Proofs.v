(* Lemmas for SphProps.v: running the operator *)
From Coq Require Import Lqa Reals Lra Qreals.
From Verif Require Import Base ProgModel ProgSpec ProgProofs UIntModel UIntSpec FloatModel FloatSpec FloatProofs RealModel RealSpec RealProofs UniProofs Disc4Proofs BinSpec IfpModel IfpSpec Ifp2Proofs Inv1Proofs GamSpec
  PoisRSpec Pois3Proofs InvModel InvSpec Bin9Proofs ZigTable ZigModel ZigSpec Zig1Proofs Zig2Proofs Zig5Proofs Zig6Proofs Zig7Proofs SphModel SphSpec SphProofs Sph2Proofs Sph3Proofs.
Ltac Zify.zify_post_hook ::= idtac.
Open Scope R_scope.

Section N.
Variables (f : fmt) (md : rmode) (ex : Q -> Q) (K : R).
Hypothesis Hf : fmt_ok f.
Hypothesis Hw : fmt_wide f.
Hypothesis Pf : (20 <= prec f)%Z.
Hypothesis HK : 0 <= K.
Hypothesis HE : exp_ok f K ex.
Hypothesis Hd : fmt_deep f.
Variables (bmin bmax : Z) (FU : nat) (pair : prog (Q * Z)) (u01 : prog Q).
Hypothesis HP : forall ds, valid_draws bmin bmax ds -> (length ds < FU)%nat -> exec pair ds = OMore \/
  exists q b rest, exec pair ds = ORet (q, b) rest /\ (0 <= b < 256)%Z /\ (0 <= q <= 1)%Q /\ (length rest < length ds)%nat.
Hypothesis HG : forall ds q b rest, valid_draws bmin bmax ds -> (length ds < FU)%nat -> exec pair ds = ORet (q, b) rest -> (q == 0)%Q \/ (p2 (- prec f) <= q)%Q.
Hypothesis HU : forall ds, valid_draws bmin bmax ds -> (length ds < FU)%nat -> exec u01 ds = OMore \/
  exists u rest, exec u01 ds = ORet u rest /\ (0 <= u <= 1)%Q.
Local Notation rnd := (fround f md).
Local Notation D := (prec f).

Lemma nm_low : forall i, (0 <= i < 128)%Z -> (1 # 8 <= nx nm_x i)%Q.
Proof.
  intros i Hi. assert (A: forallb (fun x => Qle_bool (1 # 8) x) (firstn 128 nm_x) = true) by (vm_compute; reflexivity).
  assert (LN: length nm_x = 129%nat) by (vm_compute; reflexivity).
  assert (LF: length (firstn 128 nm_x) = 128%nat) by (rewrite firstn_length, LN; reflexivity).
  assert (EN: nth (Z.to_nat i) nm_x 0%Q = nth (Z.to_nat i) (firstn 128 nm_x) 0%Q) by (rewrite <- (firstn_skipn 128 nm_x) at 1; apply app_nth1; rewrite LF; lia).
  rewrite forallb_forall in A. apply Qle_bool_iff, A. unfold nx. rewrite EN. apply nth_In. rewrite LF. lia.
Qed.
Lemma sgn_small : forall x b, representable f x -> (0 <= x)%Q -> (x == 0)%Q \/ (p2 (- (D + 3)) <= x)%Q -> not_small f (rnd (x * sgn b)).
Proof.
  intros x b RX X0 B. pose proof (rnd_sgn f md Hf x b RX) as E. unfold not_small. rewrite E. rewrite Qabs_Qmult.
  assert (A: (Qabs (sgn b) == 1)%Q) by (unfold sgn; destruct (Z.odd b); reflexivity). rewrite A, Qmult_1_r, (Qabs_pos x) by exact X0. destruct B as [B|B]; [left; rewrite B; ring|right; exact B].
Qed.
Lemma try_low : forall n ds v rest, (FU <= n)%nat -> valid_draws bmin bmax ds -> (length ds < FU)%nat -> exec (nz_try f md ex pair u01 n) ds = ORet (Some v) rest -> not_small f v.
Proof.
  intros n ds v rest HN Hv HF. unfold nz_try. rewrite exec_bind_eq.
  destruct (HP ds Hv HF) as [E|(q & b & r1 & E & Hb & Hq & L1)]; rewrite E; [discriminate|]. pose proof (HG ds q b r1 Hv HF E) as QG.
  destruct (exec_suffix _ _ _ _ _ _ _ E Hv) as [V1 _]. rewrite sgn_eq. cbv zeta. set (i := Z.shiftr b 1).
  assert (Hi: (0 <= i < 128)%Z). { unfold i. rewrite Z.shiftr_div_pow2 by lia. change (2 ^ 1)%Z with 2%Z. split; [apply Z.div_pos; lia|apply Z.div_lt_upper_bound; lia]. }
  rewrite (nm_tx i), (nm_tx (i + 1)) by lia. cbn [plift pbind]. pose proof (nm_low i Hi) as XL. set (xi := nx nm_x i) in *.
  destruct (zx_facts f md Hf q xi Hq ltac:(ql)) as (RX & X0 & _).
  assert (XB: (zg_x f md q xi == 0)%Q \/ (p2 (- (D + 3)) <= zg_x f md q xi)%Q).
  { destruct Hd as [_ H3]. unfold zg_x. assert (RL: (1 # 8 <= rnd xi)%Q) by (apply repr_rnd_ge; [exact Hf|change (1 # 8)%Q with (p2 (-3)); apply repr_p2; [exact Hf|lia]|exact XL]).
    destruct QG as [Z|G].
    - left. rewrite (rnd_compat f md Hf _ 0%Q) by (rewrite Z; ring). apply rnd_fix; [exact Hf|apply repr_0; exact Hf].
    - right. apply repr_rnd_ge; [exact Hf|apply repr_p2; [exact Hf|lia]|]. replace (- (D + 3))%Z with (- D + -3)%Z by lia. rewrite p2_add. change (p2 (-3)) with (1 # 8)%Q. pose proof (p2_pos (- D)).
      apply Qle_trans with (q * (1 # 8))%Q; [apply Qmult_le_compat_r; ql|]. rewrite !(Qmult_comm q). apply Qmult_le_compat_r; ql. }
  set (x := zg_x f md q xi) in *. destruct (qlt x _).
  - cbn [exec]. intro H. inversion H. apply sgn_small; assumption.
  - destruct (Z.eqb_spec i 0) as [I0|N].
    + rewrite exec_bind_eq. destruct (tail_run f md ex K Hf Hw Pf HK HE bmin bmax FU pair u01 HP HU n r1 HN V1 ltac:(lia)) as [M|(t & r2 & M & L2 & T0 & RT)]; rewrite M; [discriminate|].
      cbn [exec]. intro H. inversion H. assert (S1: (1 <= rnd (nx nm_x 1))%Q) by (apply s1; assumption). apply sgn_small; [exact RT|ql|]. right. apply Qle_trans with (p2 0); [apply p2_le; lia|]. change (p2 0) with 1%Q. ql.
    + rewrite exec_bind_eq. destruct (exec u01 r1) as [y r2| | |] eqn:EU; try discriminate. rewrite exec_bind_eq.
      destruct (nz_test f md ex i x y) as [[|]|]; cbn [plift exec]; try discriminate. intro H. inversion H. apply sgn_small; assumption.
Qed.
Lemma unit_low : forall n ds v rest, (FU <= n)%nat -> valid_draws bmin bmax ds -> (length ds < FU)%nat -> exec (nz_unit f md ex pair u01 n) ds = ORet v rest -> not_small f v.
Proof.
  intros n ds v rest HN. unfold nz_unit. generalize n at 1 as k. intro k. revert ds. induction k as [|k IH]; intros ds Hv HF; [discriminate|]. cbn [retry]. rewrite exec_bind_eq.
  destruct (exec (nz_try f md ex pair u01 n) ds) as [[a|] r| | |] eqn:E; try discriminate.
  - cbn [exec]. intro H. inversion H. subst a. apply (try_low n ds v r HN Hv HF E).
  - destruct (exec_suffix _ _ _ _ _ _ _ E Hv) as [V1 L1]. apply (IH r V1). lia.
Qed.
End N.

(* generate_int_float_pair does not return very small numbers *)
Lemma pair_grid : forall f md fuel tb bmin bmax, fmt_ok f -> fmt_wide f -> (20 <= prec f)%Z -> eng_wf tb bmin bmax -> (32 <= bits tb <= 64)%Z -> no_full_last (prec f) (digit_bits bmin bmax) 8 ->
  (digit_bits bmin bmax - 8 mod digit_bits bmin bmax <= prec f)%Z ->
  forall ds q b rest, valid_draws bmin bmax ds -> (length ds < fuel)%nat -> exec (int_float_pair f md fuel 8 tb bmin bmax) ds = ORet (q, b) rest -> (q == 0)%Q \/ (p2 (- prec f) <= q)%Q.
Proof.
  intros f md fuel tb bmin bmax Hf Hw Pf He HB HN HL ds q b rest Hv HF E. assert (EM: (emin f + 64 <= 0)%Z) by (destruct Hw; lia).
  destruct (pair_run f md fuel tb bmin bmax 8 Hf EM He HB ltac:(lia) HN ds Hv HF) as [M|(q' & b' & r' & M & _ & _ & FR)]; rewrite M in E; [discriminate|]. inversion E. subst.
  destruct (FR HL) as (V & VR & EQ). destruct (Z.eq_dec V 0) as [Z|N]; [left; rewrite EQ, Z; ring|right]. rewrite EQ. rewrite <- (Qmult_1_l (p2 (- prec f))) at 1.
  apply Qmult_le_compat_r; [|apply Qlt_le_weak, p2_pos]. change 1%Q with (inject_Z 1). rewrite <- Zle_Qle. lia.
Qed.

Section R.
Variables (f : fmt) (md : rmode) (sq : Q -> Q) (bmin bmax : Z) (F : nat) (u01 nrm : prog Q) (R : Q -> Prop).
Hypothesis Hf : fmt_ok f.
Hypothesis Hd : fmt_deep f.
Hypothesis HU : source bmin bmax F u01 (fun u => (0 <= u < 1)%Q /\ representable f u).
Hypothesis HN : source bmin bmax F nrm R.
Local Notation rnd := (fround f md).
Local Notation D := (prec f).

(* a coordinate of a point of the square *)
Definition sq_coord (x : Q) : Prop := exists u, (0 <= u < 1)%Q /\ representable f u /\ x = rnd (rnd (u * 2) - 1).
Lemma coord_run : source bmin bmax F (sp_coord f md u01) sq_coord.
Proof.
  intros ds Hv HF. unfold sp_coord. rewrite exec_bind_eq. destruct (HU ds Hv HF) as [E|(u & r & E & L & U & RU)]; rewrite E; [left; reflexivity|]. right. eexists. exists r. split; [reflexivity|]. split; [exact L|].
  exists u. split; [exact U|]. split; [exact RU|reflexivity].
Qed.
Lemma coord_facts : forall x, sq_coord x -> representable f x /\ (-1 <= x)%Q /\ (x <= 1)%Q /\ ((x == 0)%Q \/ (p2 (- D) <= Qabs x)%Q).
Proof. intros x (u & [U0 U1] & RU & ->). destruct (coord_ok f md Hf Hd u U0 ltac:(ql) RU) as (A & B & C & E & _). split; [exact A|]. split; [exact B|]. split; [exact C|exact E]. Qed.
Lemma coord_small : forall x, sq_coord x -> not_small f x /\ (Qabs x <= p2 D)%Q.
Proof.
  intros x H. destruct (coord_facts x H) as (_ & A & B & C). destruct Hd as [D20 _]. split.
  - destruct C as [C|C]; [left; exact C|right]. eapply Qle_trans; [|exact C]. apply p2_le. lia.
  - apply Qle_trans with (p2 0); [|apply p2_le; lia]. change (p2 0) with 1%Q. apply Qabs_Qle_condition. split; ql.
Qed.
Lemma try2_run : forall ds, valid_draws bmin bmax ds -> (length ds < F)%nat -> exec (sp_try2 f md u01) ds = OMore \/
  exists x y rest, exec (sp_try2 f md u01) ds = ORet (if Qeq_bool (sp_sq2 f md x y) 0 || qlt 1 (sp_sq2 f md x y) then None else Some (x, y)) rest /\ (length rest < length ds)%nat /\ sq_coord x /\ sq_coord y.
Proof.
  intros ds Hv HF. unfold sp_try2. rewrite exec_bind_eq. destruct (coord_run ds Hv HF) as [E|(x & r & E & L & X)]; rewrite E; [left; reflexivity|].
  destruct (exec_suffix _ _ _ _ _ _ _ E Hv) as [V1 _]. rewrite exec_bind_eq. destruct (coord_run r V1 ltac:(lia)) as [E2|(y & r2 & E2 & L2 & Y)]; rewrite E2; [left; reflexivity|].
  right. exists x, y, r2. split; [reflexivity|]. split; [lia|]. split; assumption.
Qed.
Lemma try3_run : forall ds, valid_draws bmin bmax ds -> (length ds < F)%nat -> exec (sp_try3 f md u01) ds = OMore \/
  exists x y rest, exec (sp_try3 f md u01) ds = ORet (if qlt 1 (sp_sq2 f md x y) then None else Some (x, y)) rest /\ (length rest < length ds)%nat /\ sq_coord x /\ sq_coord y.
Proof.
  intros ds Hv HF. unfold sp_try3. rewrite exec_bind_eq. destruct (coord_run ds Hv HF) as [E|(x & r & E & L & X)]; rewrite E; [left; reflexivity|].
  destruct (exec_suffix _ _ _ _ _ _ _ E Hv) as [V1 _]. rewrite exec_bind_eq. destruct (coord_run r V1 ltac:(lia)) as [E2|(y & r2 & E2 & L2 & Y)]; rewrite E2; [left; reflexivity|].
  right. exists x, y, r2. split; [reflexivity|]. split; [lia|]. split; assumption.
Qed.
Lemma fill_run : forall n s ds, valid_draws bmin bmax ds -> (length ds < F)%nat -> exec (sp_fill f md nrm n s) ds = OMore \/
  exists vs rest, exec (sp_fill f md nrm n s) ds = ORet (vs, sp_acc f md s vs) rest /\ (n + length rest <= length ds)%nat /\ length vs = n /\ Forall R vs.
Proof.
  induction n as [|n IH]; intros s ds Hv HF; cbn [sp_fill].
  - right. exists [], ds. split; [reflexivity|]. split; [lia|]. split; [reflexivity|constructor].
  - rewrite exec_bind_eq. destruct (HN ds Hv HF) as [E|(v & r & E & L & RV)]; rewrite E; [left; reflexivity|]. destruct (exec_suffix _ _ _ _ _ _ _ E Hv) as [V1 _].
    rewrite exec_bind_eq. destruct (IH (rnd (s + rnd (v * v))) r V1 ltac:(lia)) as [E2|(vs & r2 & E2 & L2 & LV & FV)]; rewrite E2; [left; reflexivity|].
    right. exists (v :: vs), r2. split; [reflexivity|]. split; [lia|]. split; [cbn; lia|constructor; assumption].
Qed.
Lemma write_full : forall vs c, length vs = length c -> sp_write vs c = Some vs.
Proof.
  intros vs c H. unfold sp_write. replace (Nat.ltb (length c) (length vs)) with false by (symmetry; apply Nat.ltb_ge; lia). rewrite skipn_all2 by lia. rewrite app_nil_r. reflexivity.
Qed.
End R.
