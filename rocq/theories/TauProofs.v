(* The periods of the linear feedback shift registers of taus88 and of taus88. *)
From Coq Require Import NArith ZArith List Lia Znumtheory Bool.
From Verif Require Import Base StreamModel ArithModel LfsModel LfsSpec LfsProofs AdaptModel AdaptProofs LfProofs LcgProofs NumProofs OrdProofs Ord2Proofs PerSpec PerProofs Per2Proofs GfProofs.
Import ListNotations. Open Scope Z_scope.

Definition pa : positive := 2147483647. Definition pb : positive := 536870911. Definition pc : positive := 268435455.

Lemma pos_prime : forall l : list (Z * N), forallb (fun p => (1 <? p) && trial (Z.to_nat (Z.sqrt p + 1)) 2 p)%bool (map fst l) = true ->
  forall q, In q (map fst l) -> prime q.
Proof. intros l. apply forall_prime. Qed.

(* what is needed of a register *)
Definition full_reg (p : lfp) (M : positive) : Prop :=
  lfs_params p /\ lW p = lw p /\ lw p <= lk p + (lk p - lq p - ls p) /\ Z.gcd (Z.pos M) (ls p) = 1 /\
  forall a : bseq, recur (Z.to_nat (lk p)) (Z.to_nat (lq p)) a -> (exists n, a n = true) -> forall n, per a n <-> (Z.pos M | Z.of_nat n).

Lemma full_a : full_reg t88_a pa.
Proof.
  split; [exact (proj1 t88_params)|]. split; [reflexivity|]. split; [cbn; lia|]. split; [reflexivity|].
  intros a HR HN. apply (per_full 31 13 pa [(2147483647, 2147475456%N)] a HR HN).
  - intros q [<-|[]]. exact prime_2147483647.
  - reflexivity.
  - vm_compute. reflexivity.
Qed.
Lemma full_b : full_reg t88_b pb.
Proof.
  split; [exact (proj1 (proj2 t88_params))|]. split; [reflexivity|]. split; [cbn; lia|]. split; [reflexivity|].
  intros a HR HN. apply (per_full 29 2 pb [(233, 166316410%N); (1103, 185447446%N); (2089, 317348523%N)] a HR HN).
  - apply pos_prime. vm_compute. reflexivity.
  - reflexivity.
  - vm_compute. reflexivity.
Qed.
Lemma full_c : full_reg t88_c pc.
Proof.
  split; [exact (proj2 (proj2 t88_params))|]. split; [reflexivity|]. split; [cbn; lia|]. split; [reflexivity|].
  intros a HR HN. apply (per_full 28 3 pc [(3, 201413087%N); (5, 135300520%N); (29, 99118671%N); (43, 220580552%N); (113, 4290707%N); (127, 152044070%N)] a HR HN).
  - apply pos_prime. vm_compute. reflexivity.
  - reflexivity.
  - vm_compute. reflexivity.
Qed.

Lemma word_eq w x y : 0 <= w -> 0 <= x < 2 ^ w -> 0 <= y < 2 ^ w -> (forall j, 0 <= j < w -> Z.testbit x (w - 1 - j) = Z.testbit y (w - 1 - j)) -> x = y.
Proof.
  intros Hw Hx Hy H. apply Z.bits_inj'. intros i Hi. destruct (Z_lt_ge_dec i w) as [Hl|Hl].
  - specialize (H (w - 1 - i) ltac:(lia)). replace (w - 1 - (w - 1 - i)) with i in H by lia. exact H.
  - rewrite <- (Z.mod_small x (2 ^ w)), <- (Z.mod_small y (2 ^ w)), !Z.mod_pow2_bits_high by lia. reflexivity.
Qed.

Lemma lfs_iter_range p v n : lfs_params p -> 0 <= v < 2 ^ lW p -> 0 <= iter n (lfs_next p) v < 2 ^ lW p.
Proof. intros HP Hv. induction n as [|n IH]; [exact Hv|]. rewrite iter_succ_r. apply next_range; assumption. Qed.

(* the words from the first call on *)
Definition words (p : lfp) (v : Z) (n : nat) : Z := iter (S n) (lfs_next p) v.

Lemma words_period p M v : full_reg p M -> 0 <= v < 2 ^ lW p -> ~ lfs_dead p v -> forall P, per (words p v) P <-> (Z.pos M | Z.of_nat P).
Proof.
  intros (HP & HW & HL & HG & HF) Hv HD. pose proof HP as (H1 & H2 & H3 & H4 & H5).
  destruct (run_word p v HP) as (a & Ha & HA).
  assert (HWD: forall t j, 0 <= j < lw p -> Z.testbit (words p v t) (lw p - 1 - j) = a (Z.of_nat (S t) * ls p + j)).
  { intros t j Hj. unfold words. apply (HA (S t)). unfold lfs_len. rewrite Nat2Z.inj_succ. nia. }
  (* the sequence from the first call on *)
  set (b := fun n : nat => a (ls p + Z.of_nat n)).
  assert (HR: recur (Z.to_nat (lk p)) (Z.to_nat (lq p)) b).
  { intros n. unfold b. rewrite !Nat2Z.inj_add, !Z2Nat.id, !Z.add_assoc by lia. apply Ha. lia. }
  assert (HN: exists n, b n = true).
  { destruct (existsb b (seq 0 (Z.to_nat (lk p)))) eqn:EB.
    - apply existsb_exists in EB. destruct EB as [n [_ Hn]]. exists n. exact Hn.
    - exfalso. apply HD. apply (next_dead p v HP). intros j Hj. change (lfs_next p v) with (words p v 0). rewrite HWD by lia.
      destruct (a (Z.of_nat 1 * ls p + j)) eqn:E; [|reflexivity]. exfalso.
      assert (EB': existsb b (seq 0 (Z.to_nat (lk p))) = true); [|congruence].
      apply existsb_exists. exists (Z.to_nat j). split; [apply in_seq; lia|]. unfold b. rewrite Z2Nat.id by lia. rewrite <- E. f_equal. lia. }
  pose proof (HF b HR HN) as HB.
  assert (EQ: forall P, per (words p v) P <-> per b (P * Z.to_nat (ls p))).
  { intros P. split.
    - intros HPer n. set (t := (n / Z.to_nat (ls p))%nat). set (j := (n mod Z.to_nat (ls p))%nat).
      pose proof (Nat.div_mod n (Z.to_nat (ls p)) ltac:(lia)) as E. fold t in E. fold j in E.
      pose proof (Nat.mod_upper_bound n (Z.to_nat (ls p)) ltac:(lia)) as HJ. fold j in HJ.
      pose proof (HWD t (Z.of_nat j) ltac:(lia)) as W1. pose proof (HWD (t + P)%nat (Z.of_nat j) ltac:(lia)) as W2.
      rewrite HPer, W1 in W2. unfold b.
      assert (EZ: Z.of_nat n = ls p * Z.of_nat t + Z.of_nat j) by (rewrite E, Nat2Z.inj_add, Nat2Z.inj_mul, Z2Nat.id by lia; reflexivity).
      rewrite Nat2Z.inj_add, Nat2Z.inj_mul, Z2Nat.id, EZ by lia.
      etransitivity; [|etransitivity; [symmetry; exact W2|]]; f_equal; lia.
    - intros HPer t. apply (word_eq (lw p)); [lia| | |].
      + rewrite <- HW. apply lfs_iter_range; assumption.
      + rewrite <- HW. apply lfs_iter_range; assumption.
      + intros j Hj. rewrite !HWD by exact Hj. specialize (HPer (t * Z.to_nat (ls p) + Z.to_nat j)%nat). unfold b in HPer.
        rewrite !Nat2Z.inj_add, !Nat2Z.inj_mul, !Z2Nat.id in HPer by lia.
        etransitivity; [|etransitivity; [exact HPer|]]; f_equal; lia. }
  intros P. rewrite EQ, HB, Nat2Z.inj_mul, Z2Nat.id by lia. split.
  - intros HDv. rewrite Z.mul_comm in HDv. apply Gauss in HDv; [exact HDv|]. apply Zgcd_1_rel_prime. exact HG.
  - intros HDv. apply Z.divide_mul_l. exact HDv.
Qed.

(* ---- one register as an engine ---- *)
Lemma lfs_eng_repeats p M v P : full_reg p M -> 0 <= v < 2 ^ lW p -> ~ lfs_dead p v -> (out_repeats (lfs_eng p) v P <-> (Z.pos M | Z.of_nat P)).
Proof.
  intros HF Hv HD. rewrite <- (words_period p M v HF Hv HD).
  rewrite (out_repeats_iff (lfs_eng p) (lfs_next p) (lfs_next p) (fun _ => True)) by auto.
  unfold per, words. split; intros H n; specialize (H n); rewrite !iter_succ_r in *; exact H.
Qed.

(* ---- exclusive or of sequences with coprime periods ---- *)
Lemma lxor_cancel x y z : Z.lxor x y = Z.lxor x z -> y = z.
Proof. intros H. apply (f_equal (Z.lxor x)) in H. rewrite <- !Z.lxor_assoc, Z.lxor_nilpotent, !Z.lxor_0_l in H. exact H. Qed.

Lemma xor_periods (u v : nat -> Z) (A B : positive) : Z.gcd (Z.pos A) (Z.pos B) = 1 ->
  (forall P, per u P <-> (Z.pos A | Z.of_nat P)) -> (forall P, per v P <-> (Z.pos B | Z.of_nat P)) ->
  forall P, per (fun n => Z.lxor (u n) (v n)) P <-> (Z.pos (A * B) | Z.of_nat P).
Proof.
  intros HG HU HV P.
  assert (HR: rel_prime (Z.pos A) (Z.pos B)) by (apply Zgcd_1_rel_prime; exact HG).
  split.
  - intros HP.
    assert (HA: (Z.pos A | Z.of_nat P)).
    { apply (Gauss _ (Z.pos B)); [|exact HR]. rewrite Z.mul_comm, <- (positive_nat_Z B), <- Nat2Z.inj_mul. apply HU. intros n.
      pose proof (per_mul _ _ (Pos.to_nat B) HP n) as E. cbn beta in E.
      assert (EV: v (n + P * Pos.to_nat B)%nat = v n).
      { apply HV. rewrite Nat2Z.inj_mul, positive_nat_Z. apply Z.divide_factor_r. }
      rewrite EV, !(Z.lxor_comm _ (v n)) in E. apply lxor_cancel in E. exact E. }
    assert (HB: (Z.pos B | Z.of_nat P)).
    { apply (Gauss _ (Z.pos A)); [|apply rel_prime_sym; exact HR]. rewrite Z.mul_comm, <- (positive_nat_Z A), <- Nat2Z.inj_mul. apply HV. intros n.
      pose proof (per_mul _ _ (Pos.to_nat A) HP n) as E. cbn beta in E.
      assert (EU: u (n + P * Pos.to_nat A)%nat = u n).
      { apply HU. rewrite Nat2Z.inj_mul, positive_nat_Z. apply Z.divide_factor_r. }
      rewrite EU in E. apply lxor_cancel in E. exact E. }
    destruct HA as [q Hq]. rewrite Hq in HB. rewrite Z.mul_comm in HB. apply Gauss in HB; [|apply rel_prime_sym; exact HR].
    destruct HB as [r Hr]. exists r. rewrite Hq, Hr, Pos2Z.inj_mul. ring.
  - intros [q Hq] n. rewrite Pos2Z.inj_mul in Hq. f_equal; [apply HU; exists (q * Z.pos B)|apply HV; exists (q * Z.pos A)]; rewrite Hq; ring.
Qed.

(* ---- taus88 ---- *)
Definition t88_g (s : (Z * Z) * Z) : (Z * Z) * Z := ((lfs_next t88_a (fst (fst s)), lfs_next t88_b (snd (fst s))), lfs_next t88_c (snd s)).
Definition t88_o (s : (Z * Z) * Z) : Z := Z.lxor (Z.lxor (lfs_next t88_a (fst (fst s))) (lfs_next t88_b (snd (fst s)))) (lfs_next t88_c (snd s)).
Definition t88_live (s : (Z * Z) * Z) : Prop := ~ lfs_dead t88_a (fst (fst s)) /\ ~ lfs_dead t88_b (snd (fst s)) /\ ~ lfs_dead t88_c (snd s).

Lemma t88_step s : t88_ok s -> taus88_next s = Some (t88_o s, t88_g s) /\ t88_ok (t88_g s).
Proof.
  intros H. destruct (taus88_ok s H) as (v & s' & E & H' & _ & E1 & E2). subst s'. rewrite E. split; [|exact H'].
  f_equal. f_equal. rewrite E2. reflexivity.
Qed.
Lemma t88_iter n s : iter n t88_g s = ((iter n (lfs_next t88_a) (fst (fst s)), iter n (lfs_next t88_b) (snd (fst s))), iter n (lfs_next t88_c) (snd s)).
Proof. revert s. induction n as [|n IH]; intros [[x y] z]; [reflexivity|]. cbn [iter]. rewrite IH. reflexivity. Qed.

Lemma taus88_repeats s P : t88_ok s -> t88_live s -> (out_repeats taus88_next s P <-> (Z.pos (pa * pb * pc) | Z.of_nat P)).
Proof.
  intros HO (LA & LB & LC). pose proof HO as (HA & HB & HC).
  rewrite (out_repeats_iff taus88_next t88_o t88_g t88_ok t88_step s P HO).
  pose proof (words_period _ _ _ full_a HA LA) as WA. pose proof (words_period _ _ _ full_b HB LB) as WB. pose proof (words_period _ _ _ full_c HC LC) as WC.
  assert (G1: Z.gcd (Z.pos pa) (Z.pos pb) = 1) by (vm_compute; reflexivity).
  assert (G2: Z.gcd (Z.pos (pa * pb)) (Z.pos pc) = 1) by (vm_compute; reflexivity).
  rewrite <- (xor_periods _ _ _ _ G2 (xor_periods _ _ _ _ G1 WA WB) WC P).
  unfold per, words. split; intros H n; specialize (H n); unfold t88_o in *; rewrite !t88_iter in *; cbn [fst snd] in *; rewrite !iter_succ_r in *; exact H.
Qed.

(* the word after a call obeys the recurrence in all of its digits *)
Lemma word_after p v n : lfs_params p -> lw p <= lk p + (lk p - lq p - ls p) -> word_obeys p (iter (S n) (lfs_next p) v).
Proof.
  intros HP HL. pose proof HP as (H1 & H2 & H3 & H4 & H5). destruct (full_thm p v HP) as (a & Ha & HA).
  assert (HW: word_at (lw p) (lw p) a (Z.of_nat (S n) * ls p) (iter (S n) (lfs_next p) v)) by (apply HA; rewrite Nat2Z.inj_succ; nia).
  intros j Hj. rewrite !HW by lia. rewrite !Z.add_assoc, Ha by lia. reflexivity.
Qed.
