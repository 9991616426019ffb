(* The tables of the ziggurats. *)
From Coq Require Import Reals Lra Qreals.
From Verif Require Import Base FloatModel BinModel ZigTable ZigSpec RExpProofs Pois3Proofs.
Ltac Zify.zify_post_hook ::= idtac.
Open Scope R_scope.

(* elo and ehi for one = 2^s with shifts *)
Fixpoint hlo2 (s x : Z) (n : nat) (h : Z) : Z :=
  match n with O => h | S m => hlo2 s x m (2 ^ s + Z.shiftr (x * h) s / Z.of_nat n)%Z end.
Fixpoint hhi2 (s x : Z) (n : nat) (h : Z) : Z :=
  match n with O => h | S m => hhi2 s x m (2 ^ s + - (Z.shiftr (- (x * h)) s / Z.of_nat n))%Z end.
Fixpoint slo2 (s : Z) (j : nat) (h : Z) : Z := match j with O => h | S i => slo2 s i (Z.shiftr (h * h) s) end.
Fixpoint shi2 (s : Z) (j : nat) (h : Z) : Z := match j with O => h | S i => shi2 s i (- Z.shiftr (- (h * h)) s)%Z end.
Lemma shiftr_dd : forall s a n, (0 <= s)%Z -> (0 < n)%Z -> (Z.shiftr a s / n = a / (n * 2 ^ s))%Z.
Proof. intros s a n S N. rewrite Z.shiftr_div_pow2 by exact S. rewrite Z.div_div by lia. f_equal. ring. Qed.
Lemma hlo2_eq : forall s x n h, (0 <= s)%Z -> hlo2 s x n h = hlo (2 ^ s) x n h.
Proof. intros s x n. induction n as [|n IH]; intros h S; [reflexivity|]. cbn [hlo2 hlo]. rewrite shiftr_dd by lia. apply IH. exact S. Qed.
Lemma hhi2_eq : forall s x n h, (0 <= s)%Z -> hhi2 s x n h = hhi (2 ^ s) x n h.
Proof. intros s x n. induction n as [|n IH]; intros h S; [reflexivity|]. cbn [hhi2 hhi]. unfold cdiv. rewrite shiftr_dd by lia. apply IH. exact S. Qed.
Lemma slo2_eq : forall s j h, (0 <= s)%Z -> slo2 s j h = slo (2 ^ s) j h.
Proof. intros s j. induction j as [|j IH]; intros h S; [reflexivity|]. cbn [slo2 slo]. rewrite Z.shiftr_div_pow2 by exact S. apply IH. exact S. Qed.
Lemma shi2_eq : forall s j h, (0 <= s)%Z -> shi2 s j h = shi (2 ^ s) j h.
Proof. intros s j. induction j as [|j IH]; intros h S; [reflexivity|]. cbn [shi2 shi]. unfold cdiv. rewrite Z.shiftr_div_pow2 by exact S. apply IH. exact S. Qed.

(* |y - exp (- a)| <= d by fixed point arithmetic *)
Definition exp_chk (s : Z) (n j : nat) (a y d : Q) : bool :=
  let z := (Z.shiftl (Qnum a) (s - Z.of_nat j) / QDen a)%Z in
  let lo := slo2 s j (hlo2 s z n (2 ^ s)) in let hi := shi2 s j (hhi2 s (z + 1) n (2 * 2 ^ s)) in
  ((0 <=? s) && (0 <=? s - Z.of_nat j) && (0 <=? z) && (2 * (z + 1) <=? Z.of_nat (S n) * 2 ^ s) && (0 <? lo))%Z &&
  Qle_bool ((y - d) * inject_Z hi) (inject_Z (2 ^ s)) && Qle_bool (inject_Z (2 ^ s)) ((y + d) * inject_Z lo).
Lemma exp_chk_ok : forall s n j a y d, exp_chk s n j a y d = true -> Rabs (Q2R y - exp (- Q2R a)) <= Q2R d.
Proof.
  intros s n j a y d H. unfold exp_chk in H. set (z := (Z.shiftl (Qnum a) (s - Z.of_nat j) / QDen a)%Z) in *.
  apply andb_true_iff in H. destruct H as [H H4]. apply andb_true_iff in H. destruct H as [H H3].
  apply andb_true_iff in H. destruct H as [H L0]. apply andb_true_iff in H. destruct H as [H Z1]. apply andb_true_iff in H. destruct H as [H Z0]. apply andb_true_iff in H. destruct H as [S0 S1].
  apply Z.ltb_lt in L0. apply Z.leb_le in Z0, Z1, S0, S1. apply Qle_bool_iff in H3, H4.
  rewrite slo2_eq, hlo2_eq in * by exact S0. rewrite shi2_eq, hhi2_eq in * by exact S0.
  set (one := (2 ^ s)%Z) in *. assert (O0: (0 < one)%Z) by (apply Z.pow_pos_nonneg; lia).
  change (slo one j (hlo one z n one)) with (elo one n j z) in *. change (shi one j (hhi one (z + 1) n (2 * one))) with (ehi one n j (z + 1)) in *.
  pose proof (elo_ok one z O0 Z0 n j) as EL. pose proof (ehi_ok one (z + 1) O0 ltac:(lia) n j Z1) as EH.
  assert (UP: 0 < IZR one) by (apply IZR_lt; exact O0).
  assert (EA: 2 ^ j * (IZR z / IZR one) <= Q2R a /\ Q2R a <= 2 ^ j * (IZR (z + 1) / IZR one)).
  { assert (PJ: IZR one = IZR (2 ^ (s - Z.of_nat j)) * 2 ^ j).
    { rewrite pow_IZR, <- mult_IZR, <- Z.pow_add_r by lia. unfold one. f_equal. f_equal. lia. }
    assert (P2J: 0 < 2 ^ j) by (apply pow_lt; lra). set (w := (2 ^ (s - Z.of_nat j))%Z) in *. assert (WP: 0 < IZR w) by (apply IZR_lt, Z.pow_pos_nonneg; lia).
    assert (EZ: forall t, 2 ^ j * (t / IZR one) = t / IZR w) by (intro t; rewrite PJ; field; lra). rewrite !EZ.
    pose proof (Z.mul_div_le (Qnum a * w) (QDen a) ltac:(lia)) as D1. pose proof (Z.mul_succ_div_gt (Qnum a * w) (QDen a) ltac:(lia)) as D2.
    assert (ZE: z = (Qnum a * w / QDen a)%Z) by (unfold z; rewrite Z.shiftl_mul_pow2 by exact S1; reflexivity). rewrite <- ZE in D1, D2.
    apply IZR_le in D1. apply Z.lt_le_incl, IZR_le in D2. rewrite !mult_IZR in D1, D2. unfold Z.succ in D2.
    assert (DP: 0 < IZR (QDen a)) by (apply IZR_lt; lia). unfold Q2R. split.
    - apply Rmult_le_reg_r with (IZR w * IZR (QDen a)); [apply Rmult_lt_0_compat; assumption|].
      replace (IZR z / IZR w * (IZR w * IZR (QDen a))) with (IZR (QDen a) * IZR z) by (field; lra). replace (IZR (Qnum a) * / IZR (QDen a) * (IZR w * IZR (QDen a))) with (IZR (Qnum a) * IZR w) by (field; lra). exact D1.
    - apply Rmult_le_reg_r with (IZR w * IZR (QDen a)); [apply Rmult_lt_0_compat; assumption|].
      replace (IZR (z + 1) / IZR w * (IZR w * IZR (QDen a))) with (IZR (QDen a) * IZR (z + 1)) by (field; lra). replace (IZR (Qnum a) * / IZR (QDen a) * (IZR w * IZR (QDen a))) with (IZR (Qnum a) * IZR w) by (field; lra). exact D2. }
  assert (MON: forall u v, u <= v -> exp u <= exp v) by (intros u v [L| ->]; [left; apply exp_increasing; exact L|lra]).
  destruct EA as [EA1 EA2]. apply MON in EA1, EA2.
  assert (EL': IZR (elo one n j z) <= exp (Q2R a) * IZR one) by (apply Rle_trans with (1 := EL); apply Rmult_le_compat_r; lra).
  assert (EH': exp (Q2R a) * IZR one <= IZR (ehi one n j (z + 1))) by (refine (Rle_trans _ _ _ _ EH); apply Rmult_le_compat_r; lra).
  apply Q2R_le in H3, H4. rewrite Q2R_mult, Q2R_minus, !Q2R_Z in H3. rewrite Q2R_mult, Q2R_plus, !Q2R_Z in H4.
  set (lo := IZR (elo one n j z)) in *. set (hi := IZR (ehi one n j (z + 1))) in *. assert (L0': 0 < lo) by (apply IZR_lt; exact L0).
  set (U := IZR one) in *. pose proof (exp_pos (Q2R a)) as EP. set (E := exp (Q2R a)) in *.
  rewrite exp_Ropp. fold E. assert (HP: 0 < hi) by (pose proof (Rmult_lt_0_compat _ _ EP UP); lra).
  assert (A: Q2R y - Q2R d <= / E).
  { destruct (Rle_dec (Q2R y - Q2R d) 0) as [N|N]; [pose proof (Rinv_0_lt_compat _ EP); lra|].
    apply Rmult_le_reg_r with (E * U); [apply Rmult_lt_0_compat; assumption|]. replace (/ E * (E * U)) with U by (field; lra).
    apply Rle_trans with ((Q2R y - Q2R d) * hi); [apply Rmult_le_compat_l; lra|exact H3]. }
  assert (B: / E <= Q2R y + Q2R d).
  { assert (P: 0 <= Q2R y + Q2R d). { apply Rmult_le_reg_r with lo; [exact L0'|]. lra. }
    apply Rmult_le_reg_r with (E * U); [apply Rmult_lt_0_compat; assumption|]. replace (/ E * (E * U)) with U by (field; lra).
    apply Rle_trans with ((Q2R y + Q2R d) * lo); [exact H4|apply Rmult_le_compat_l; lra]. }
  apply Rabs_le. lra.
Qed.

Definition Qmin1 (a : Q) : Q := if Qle_bool a 1 then a else 1%Q.
(* all layers; [arg x] is minus the logarithm of the curve *)
Definition lay_chk (arg sl : Q -> Q) (V d : Q) (p : Q * Q * (Q * Q)) : bool :=
  let '(xi, yi, (xj, yj)) := p in
  (negb (Qle_bool xi xj) && negb (Qle_bool yj yi) && Qle_bool (xi * (yj - yi) - V) d && Qle_bool (- d) (xi * (yj - yi) - V) && exp_chk 80 14 8 (arg xj) yj (d * Qmin1 (yj * (1 + sl xj))))%bool.
Definition tab_chk2 (N : nat) (arg sl : Q -> Q) (V d : Q) (lx ly : list Q) : bool :=
  (Nat.eqb (length lx) (S N) && Nat.eqb (length ly) (S N) && Qeq_bool (nth N lx 0%Q) 0 && Qeq_bool (nth N ly 0%Q) 1 && Qeq_bool (nth 0 ly 0%Q) 0 &&
   forallb (lay_chk arg sl V d) (combine (combine lx ly) (tl (combine lx ly))))%bool.
Lemma nth_combine_tl : forall (l : list (Q * Q)) i, (S i < length l)%nat -> In (nth i l (0, 0)%Q, nth (S i) l (0, 0)%Q) (combine l (tl l)).
Proof.
  induction l as [|a l IH]; intros i H; [cbn in H; lia|]. cbn [tl]. destruct l as [|b l]; [cbn in H; lia|]. destruct i as [|i]; [left; reflexivity|].
  right. apply (IH i). cbn in H |- *. lia.
Qed.
Lemma Qlt_of : forall a b, Qle_bool a b = false -> Q2R b < Q2R a.
Proof. intros a b H. apply Qlt_Rlt. apply Qnot_le_lt. intro L. apply Qle_bool_iff in L. congruence. Qed.
Lemma Qmin1_le : forall d a, 0 <= Q2R d -> Q2R (d * Qmin1 a) <= Q2R d /\ Q2R (d * Qmin1 a) <= Q2R d * Q2R a.
Proof.
  intros d a D. rewrite Q2R_mult. unfold Qmin1. destruct (Qle_bool a 1) eqn:E.
  - apply Qle_bool_iff, Q2R_le in E. rewrite Q2R_1 in E. split; [|apply Rle_refl]. rewrite <- (Rmult_1_r (Q2R d)) at 2. apply Rmult_le_compat_l; assumption.
  - apply Qlt_of in E. rewrite Q2R_1 in E |- *. split; [lra|]. apply Rmult_le_compat_l; lra.
Qed.
Lemma tab_chk2_ok : forall N arg sl F G V d lx ly, (forall x, F (Q2R x) = exp (- Q2R (arg x))) -> (forall x, G (Q2R x) = Q2R (sl x)) -> (0 <= d)%Q ->
  tab_chk2 N arg sl V d lx ly = true -> zig_table N F lx ly (Q2R V) (Q2R d) /\ zig_close N F G lx ly (Q2R d).
Proof.
  intros N arg sl F G V d lx ly HF HG D0 H. unfold tab_chk2 in H. apply Q2R_le in D0. rewrite Q2R_0 in D0.
  apply andb_true_iff in H. destruct H as [H H5]. apply andb_true_iff in H. destruct H as [H H4]. apply andb_true_iff in H. destruct H as [H H3]. apply andb_true_iff in H. destruct H as [H H2].
  apply andb_true_iff in H. destruct H as [L1 L2]. apply Nat.eqb_eq in L1, L2. apply Qeq_bool_eq in H2, H3, H4. rewrite forallb_forall in H5.
  assert (LL: length (combine lx ly) = S N) by (rewrite combine_length, L1, L2; apply Nat.min_id).
  assert (A: forall i, (i < N)%nat -> lay_chk arg sl V d (nth i lx 0%Q, nth i ly 0%Q, (nth (S i) lx 0%Q, nth (S i) ly 0%Q)) = true).
  { intros i Hi. rewrite <- !combine_nth by (rewrite L1, L2; reflexivity). apply H5. apply nth_combine_tl. lia. }
  assert (C: forall i, (1 <= i <= N)%nat -> Rabs (Q2R (nth i ly 0%Q) - F (Q2R (nth i lx 0%Q))) <= Q2R (d * Qmin1 (nth i ly 0%Q * (1 + sl (nth i lx 0%Q))))).
  { intros i [Hi Hi2]. destruct i as [|i]; [lia|]. specialize (A i ltac:(lia)). unfold lay_chk in A. apply andb_true_iff in A. destruct A as [_ E]. apply exp_chk_ok in E. rewrite HF. exact E. }
  split; [|intros i Hi; cbv zeta; apply Rle_trans with (1 := C i Hi); rewrite HG; pose proof (proj2 (Qmin1_le d (nth i ly 0%Q * (1 + sl (nth i lx 0%Q))) D0)) as M; rewrite (Q2R_mult (nth i ly 0%Q)), (Q2R_plus 1), Q2R_1 in M; exact M].
  split; [exact L1|]. split; [exact L2|]. cbv zeta. apply Qeq_eqR in H2, H3, H4. rewrite Q2R_0 in H2, H4. rewrite Q2R_1 in H3.
  split; [exact H2|]. split; [exact H3|]. split; [exact H4|]. split.
  - intros i Hi. specialize (A i Hi). unfold lay_chk in A.
    apply andb_true_iff in A. destruct A as [A E5]. apply andb_true_iff in A. destruct A as [A E4]. apply andb_true_iff in A. destruct A as [A E3]. apply andb_true_iff in A. destruct A as [E1 E2].
    apply negb_true_iff in E1, E2. apply Qlt_of in E1, E2. apply Qle_bool_iff in E3, E4. apply Q2R_le in E3, E4. rewrite Q2R_opp in E4. rewrite !Q2R_minus, !Q2R_mult, !Q2R_minus in E3, E4.
    split; [exact E1|]. split; [exact E2|]. apply Rabs_le. lra.
  - intros i Hi. apply Rle_trans with (1 := C i Hi). apply Qmin1_le. exact D0.
Qed.

Definition ex_V : Q := dlit (39496598225815571993 # 10000000000000000000000).
Definition nm_V : Q := dlit (99125630353364610791 # 10000000000000000000000).
Definition d53 : Q := 1 # 9007199254740992.
Lemma ex_tables : zig_table 256 fexp1 ex_x ex_y (Q2R ex_V) (Q2R d53) /\ zig_close 256 fexp1 (fun x => x) ex_x ex_y (Q2R d53).
Proof. apply (tab_chk2_ok 256 (fun x => x) (fun x => x)); [reflexivity|reflexivity|discriminate|vm_compute; reflexivity]. Qed.
Lemma nm_tables : zig_table 128 fnorm nm_x nm_y (Q2R nm_V) (Q2R d53) /\ zig_close 128 fnorm (fun x => x * x) nm_x nm_y (Q2R d53).
Proof.
  apply (tab_chk2_ok 128 (fun x => x * x / 2)%Q (fun x => x * x)%Q); [|intro x; symmetry; apply Q2R_mult|discriminate|vm_compute; reflexivity].
  intro x. unfold fnorm. f_equal. f_equal. rewrite Q2R_div by discriminate. rewrite Q2R_mult. f_equal. unfold Q2R. cbn. field.
Qed.
Lemma ex_table : zig_table 256 fexp1 ex_x ex_y (Q2R ex_V) (Q2R d53).
Proof. apply ex_tables. Qed.
Lemma nm_table : zig_table 128 fnorm nm_x nm_y (Q2R nm_V) (Q2R d53).
Proof. apply nm_tables. Qed.
