(* The Sobol and Niederreiter lattices satisfy the hypotheses of net_abs. *)
From Coq Require Import NArith Ring.
From Verif Require Import Base BitsProofs QrngSpec PolySpec PolyProofs MtJumpProofs NetSpec Gf2Proofs NetProofs Net2Proofs Net3Proofs
  SobolModel SobolSpec SobolProofs SobolTable SobolTableProofs NiedTable NiedModel NiedSpec NiedTableProofs NiedProofs.
Open Scope nat_scope.
Open Scope gf_scope.
Ltac Zify.zify_post_hook ::= idtac.

(* ---- Niederreiter ---- *)
Definition vfull (p : N) (e q : nat) : nat -> bool := vseq (gpow p (S q)) (S q * e) (q * e).
Lemma crow_full : forall w p e b k, 1 <= w -> 1 <= e -> has_deg p e -> b < e * (w / e) -> crow w p e b k = vfull p e (b / e) (k + b mod e).
Proof.
  intros w p e b k Hw E1 PD Hb. unfold crow, vfull. assert (b / e < w / e) by (apply Nat.div_lt_upper_bound; lia).
  destruct (full_block w p e PD (b / e)) as [A B]; [|rewrite A, B; reflexivity]. unfold csize. rewrite Nat.mul_comm. apply Nat.mul_lt_mono_pos_l; lia.
Qed.
Lemma vfull_rows : forall p e, irreducible p -> has_deg p e -> rows_ok p e (nrow e (vfull p e)).
Proof.
  intros p e PI PD. apply nied_rows_ok; try assumption; unfold vfull.
  - intros q r L. rewrite vseq_eq. unfold vnext. destruct (Nat.ltb_spec r (q * e)); [reflexivity|lia].
  - intros q r L1 L2. rewrite vseq_eq. unfold vnext. destruct (Nat.ltb_spec r (q * e)); [lia|]. destruct (Nat.ltb_spec r (S q * e)); [reflexivity|lia].
  - intros q. apply vseq_ann; [apply gpow_deg; exact PD|lia].
Qed.

Lemma nied_net : forall W w T D, 1 <= w -> 1 <= D -> (Z.of_nat D <= n_maxdim T)%Z -> ntable_ok W T D -> (forall i k, i < k -> k < D -> n_poly T i <> n_poly T k) ->
  exists lat, nied_lattice W w T D = LOk lat /\ ts_sequence w (total D (fun dim => ndeg T dim - 1)) D (coord lat D w).
Proof.
  intros W w T D Hw HD HM HT HN. destruct (nied_lattice_ok W w T D Hw HD HM HT) as (lat & E & L & H). exists lat. split; [exact E|].
  apply (net_abs D (n_poly T) (ndeg T) (fun dim => nrow (ndeg T dim) (vfull (n_poly T dim) (ndeg T dim)))) with (dirs := direction lat D).
  - intros i Hi. destruct (HT i Hi) as [_ I]. apply vfull_rows; [exact I|]. apply irr_deg. exact I.
  - intros i k L1 L2. apply irr_distinct; [apply HT; lia|apply HT; lia|apply HN; assumption].
  - intros i k Hi Hk. apply H; assumption.
  - intros i b k Hi Hb Hk. destruct (HT i Hi) as [_ I]. destruct (irr_deg _ I) as [PD E1]. fold (ndeg T i) in *. destruct (H i k Hi Hk) as [_ B].
    rewrite B. 2: { pose proof (Nat.mul_div_le w (ndeg T i) ltac:(lia)). lia. } rewrite crow_full by assumption. reflexivity.
Qed.

(* ---- Sobol ---- *)
Definition spoly (T : stables) (dim : nat) : N := match dim with O => 2%N | S i => Z.to_N (t_poly T i) end.
Definition sdeg (T : stables) (dim : nat) : nat := N.to_nat (N.log2 (spoly T dim)).
Definition smi (T : stables) (dim : nat) : nat -> Z :=
  match dim with O => fun _ => 1%Z | S i => mseq (t_poly T i) (Z.to_nat (Z.log2 (t_poly T i))) (t_minit T i) end.

Lemma sdeg_S : forall T i, (2 <= t_poly T i)%Z -> sdeg T (S i) = Z.to_nat (Z.log2 (t_poly T i)) /\ Z.of_N (spoly T (S i)) = t_poly T i.
Proof.
  intros T i H. assert (E : Z.of_N (spoly T (S i)) = t_poly T i) by (cbn [spoly]; apply Z2N.id; lia). split; [|exact E]. unfold sdeg. rewrite <- E at 1. rewrite log2_N. lia.
Qed.
Lemma smi_rows : forall T dim, irreducible (spoly T dim) -> (dim = 0 \/ 1 <= dim /\ (2 <= t_poly T (dim - 1))%Z /\ odd_bounded (t_minit T (dim - 1)) (Z.to_nat (Z.log2 (t_poly T (dim - 1))))) ->
  rows_ok (spoly T dim) (sdeg T dim) (srow (smi T dim)).
Proof.
  intros T dim I HT. destruct (irr_deg _ I) as [PD E1]. fold (sdeg T dim) in *. apply sobol_rows_ok; [exact PD|exact E1| |].
  - destruct dim as [|i]; cbn [smi].
    + intros n k Hk. split; [reflexivity|]. split; [lia|]. apply Z.lt_le_trans with (2 ^ 1)%Z; [reflexivity|]. apply Z.pow_le_mono_r; lia.
    + destruct HT as [HT|(_ & P & B)]; [lia|]. replace (S i - 1) with i in * by lia. destruct (sdeg_S T i P) as [SD _]. rewrite SD in E1. apply mseq_ob; assumption.
  - destruct dim as [|i]; cbn [smi].
    + intros j Hj. reflexivity.
    + destruct HT as [HT|(_ & P & B)]; [lia|]. replace (S i - 1) with i in * by lia. destruct (sdeg_S T i P) as [SD SP]. rewrite SP. rewrite SD in *. intros j Hj. rewrite mseq_eq by lia. unfold mnext.
      destruct (Nat.ltb_spec j (Z.to_nat (Z.log2 (t_poly T i)))); [lia|reflexivity].
Qed.
Lemma smi_agree : forall poly init m w, (2 <= poly)%Z -> sobol_numbers poly init m w -> forall k, k < w -> m k = mseq poly (Z.to_nat (Z.log2 poly)) init k.
Proof.
  intros poly init m w P [A B]. assert (E1 : 1 <= Z.to_nat (Z.log2 poly)). { assert (1 <= Z.log2 poly)%Z by (apply Z.log2_le_pow2; [lia|change (2 ^ 1)%Z with 2%Z; lia]). lia. }
  intros k. induction k as [k IH] using lt_wf_ind. intros Hk. rewrite mseq_eq by exact E1. unfold mnext. destruct (Nat.ltb_spec k (Z.to_nat (Z.log2 poly))) as [L|G]; [apply A; exact L|].
  rewrite B by lia. fold (s_next poly (Z.to_nat (Z.log2 poly)) k m). apply s_next_ext; [lia|]. intros i Hi. apply IH; lia.
Qed.

Lemma sobol_net : forall W w T D, 1 <= w -> (Z.of_nat w <= W)%Z -> 1 <= D -> (Z.of_nat D <= t_maxdim T)%Z -> table_ok W w T D ->
  (forall dim, dim < D -> irreducible (spoly T dim)) -> (forall i k, i < k -> k < D -> spoly T i <> spoly T k) ->
  exists lat, sobol_lattice W w T D = LOk lat /\ ts_sequence w (total D (fun dim => sdeg T dim - 1)) D (coord lat D w).
Proof.
  intros W w T D Hw HW HD HM HT HI HN. destruct (sobol_lattice_ok W w T D Hw HW HD HM HT) as (lat & m & E & L & M0 & H). exists lat. split; [exact E|].
  assert (MM : forall i k, i < D -> k < w -> m i k = smi T i k).
  { intros [|i] k Hi Hk; cbn [smi]; [apply M0; exact Hk|]. destruct (H (S i) Hi) as [A _]. specialize (A ltac:(lia)). replace (S i - 1) with i in A by lia. apply (smi_agree _ _ _ w); [|exact A|exact Hk].
    destruct (HT (S i) ltac:(lia)) as [B _]. replace (S i - 1) with i in B by lia. lia. }
  apply (net_abs D (spoly T) (sdeg T) (fun dim => srow (smi T dim))) with (dirs := direction lat D).
  - intros i Hi. apply smi_rows; [apply HI; exact Hi|]. destruct i as [|i]; [left; reflexivity|right]. destruct (HT (S i) ltac:(lia)) as (A & B & C). split; [lia|]. split; [lia|exact C].
  - intros i k L1 L2. apply irr_distinct; [apply HI; lia|apply HI; lia|apply HN; assumption].
  - intros i k Hi Hk. destruct (H i Hi) as (_ & B & DR). rewrite DR by exact Hk. destruct (B k Hk) as [_ B1].
    split; [apply Z.mul_nonneg_nonneg; [lia|apply Z.pow_nonneg; lia]|]. replace (Z.of_nat w) with (Z.of_nat k + 1 + Z.of_nat (w - 1 - k))%Z by lia. rewrite Z.pow_add_r by lia.
    apply Z.mul_lt_mono_pos_r; [apply Z.pow_pos_nonneg; lia|lia].
  - intros i b k Hi Hb Hk. destruct (H i Hi) as (_ & B & DR). rewrite DR by exact Hk. unfold srow. rewrite <- MM by assumption. destruct (irr_deg _ (HI i Hi)) as [PD E1]. fold (sdeg T i) in *.
    pose proof (Nat.mul_div_le w (sdeg T i) ltac:(lia)). rewrite Z.mul_pow2_bits by lia. f_equal. lia.
Qed.

(* ---- the tables ---- *)
Fixpoint sublist (a b : list N) : bool :=
  match b with
  | [] => match a with [] => true | _ => false end
  | y :: b' => match a with [] => true | x :: a' => if (x =? y)%N then sublist a' b' else sublist a b' end
  end.
Lemma sublist_in : forall b a, sublist a b = true -> forall x, In x a -> In x b.
Proof.
  induction b as [|y b IH]; intros a H x I; cbn [sublist] in H.
  - destruct a; [exact I|discriminate H].
  - destruct a as [|z a]; [destruct I|]. destruct (N.eqb_spec z y) as [->|N].
    + destruct I as [->|I]; [left; reflexivity|right; apply (IH a); assumption].
    + right. apply (IH (z :: a)); assumption.
Qed.
Definition sobol_list : list N := 2%N :: map (fun r => Z.to_N (fst r)) sobol_rows.
Lemma sobol_sub : sublist sobol_list nied_polys = true.
Proof. vm_compute. reflexivity. Qed.
Lemma sobol_inc : increasing 1 sobol_list = true.
Proof. vm_compute. reflexivity. Qed.
Lemma sobol_len : length sobol_list = Z.to_nat 3667.
Proof. vm_compute. reflexivity. Qed.
Lemma spoly_list : forall dim, spoly sobol_tables dim = nth dim sobol_list 0%N.
Proof.
  intros [|i]; [reflexivity|]. unfold spoly, sobol_list, sobol_tables, t_poly. cbn [nth]. change 0%N with ((fun r : Z * list Z => Z.to_N (fst r)) (0%Z, [])). rewrite map_nth. reflexivity.
Qed.
Lemma sobol_irr : forall dim, dim < Z.to_nat 3667 -> irreducible (spoly sobol_tables dim).
Proof. intros dim H. rewrite spoly_list. apply nied_irreducible, (sublist_in _ _ sobol_sub), nth_In. rewrite sobol_len. exact H. Qed.
Lemma sobol_dist : forall i k, i < k -> k < Z.to_nat 3667 -> spoly sobol_tables i <> spoly sobol_tables k.
Proof.
  intros i k L H E. rewrite !spoly_list in E. pose proof sobol_len as SL. pose proof (proj2 (increasing_nth _ _ sobol_inc i ltac:(rewrite SL; lia)) k) as K. rewrite E in K.
  assert (i < k < length sobol_list) by (rewrite SL; lia). specialize (K H0). lia.
Qed.
