(* sparse_mod, mod_pow_x and class polynomial. *)
From Coq Require Import NArith Ring Sorted.
From Verif Require Import Base PolyModel PolySpec PolyProofs Poly2Proofs Poly3Proofs Poly4Proofs.
Open Scope nat_scope.
Open Scope gf_scope.
Ltac Zify.zify_post_hook ::= idtac.

(* sums of powers *)
Fixpoint xs (l : list nat) : N := match l with [] => 0%N | i :: t => X i (+) xs t end.
Lemma xs_app : forall a b, xs (a ++ b) = xs a (+) xs b.
Proof. induction a as [|i a IH]; intro b; cbn [app xs]; [symmetry; apply xor_0_l|]. rewrite IH. ring. Qed.
Lemma xs_filter : forall M n, xs (filter (coef M) (seq 0 n)) = (M mod 2 ^ N.of_nat n)%N.
Proof.
  intros M n. induction n as [|n IH]; [symmetry; apply mod_0|]. rewrite seq_S, filter_app, xs_app, IH, mod_S. cbn [plus filter]. f_equal.
  destruct (coef M n); cbn [xs]; [apply xor_0_r|reflexivity].
Qed.

(* congruence *)
Definition cg (m a b : N) : Prop := exists q, a (+) b = q (x) m.
Lemma cg_refl : forall m a, cg m a a. Proof. intros. exists 0%N. apply xor_nil. Qed.
Lemma cg_sym : forall m a b, cg m a b -> cg m b a. Proof. intros m a b (q & H). exists q. rewrite <- H. ring. Qed.
Lemma cg_trans : forall m a b c, cg m a b -> cg m b c -> cg m a c.
Proof. intros m a b c (q & H) (r & K). exists (q (+) r). transitivity ((a (+) b) (+) (b (+) c)); [ring|]. rewrite H, K. ring. Qed.
Lemma cg_mul : forall m a b c d, cg m a b -> cg m c d -> cg m (a (x) c) (b (x) d).
Proof. intros m a b c d (q & H) (r & K). exists (q (x) c (+) b (x) r). transitivity ((a (+) b) (x) c (+) b (x) (c (+) d)); [ring|]. rewrite H, K. ring. Qed.
Lemma cg_xor : forall m a q, cg m (a (+) q (x) m) a.
Proof. intros. exists q. ring. Qed.
Lemma cg_congruent : forall m a b, congruent m a b <-> cg m a b.
Proof.
  intros m a b. split.
  - intros (q & c & P & E). exists q. apply product_gm in P. congruence.
  - intros (q & E). exists q, (q (x) m). split; [apply gm_product|exact E].
Qed.

Section Mod.
Variable W : nat.
Hypothesis HW : 1 <= W.
Local Notation dg := (dg W).
Local Notation reg := (reg W).
Local Notation frame := (frame W).

(* the divisor is the polynomial M of degree d *)
Definition sm_of (sm : smod) (M : N) (d : nat) : Prop :=
  sm_rem sm = d /\ 1 <= sm_block sm <= d + 1 /\ deg_lt (M mod 2 ^ N.of_nat d) (d + 1 - sm_block sm) /\
  xs (sm_bits sm) = (M mod 2 ^ N.of_nat d)%N /\ Forall (fun i => i < d) (sm_bits sm) /\
  length (sm_pq sm) = ceil (sm_block sm) W /\ dg (sm_pq sm).
(* the block size: the distance from the leading coefficient to the next one *)
Definition block_of (M : N) (d b : nat) : Prop :=
  (b = d + 1 /\ (M mod 2 ^ N.of_nat d = 0)%N) \/ (1 <= b <= d /\ coef M (d - b) = true /\ forall k, d - b < k < d -> coef M k = false).

Lemma removelast_last : forall (A : Type) (l : list A) x, removelast (l ++ [x]) = l.
Proof using HW. intros. rewrite removelast_app by discriminate. cbn. apply app_nil_r. Qed.
Lemma sparse_mod_ok : forall div d, dg div -> d < W * length div -> coef (pval W div) d = true ->
  exists sm, sparse_mod W div (d + 1) = Some sm /\ sm_of sm (pval W div) d /\ block_of (pval W div) d (sm_block sm).
Proof using HW.
  intros div d Dd Hd HT. set (M := pval W div) in *. unfold sparse_mod.
  match goal with |- context [floop ?b 0 (d + 1) []] => destruct (floop_inv (list nat) (fun i idx => idx = filter (coef M) (seq 0 i)) b (d + 1) []) as (idx & E & EI) end.
  - reflexivity.
  - intros i idx Hi ->. destruct (divmod i W HW) as [EI MI]. rewrite rd_at by nia. cbn [bind]. rewrite dshl_ok by exact MI. cbn [bind].
    rewrite bit_test by exact MI. eexists. split; [reflexivity|]. rewrite seq_S, filter_app. cbn [plus filter].
    assert (EC: coef M i = coef (at_ div (i / W)) (i mod W)) by (apply coef_pval'; assumption). rewrite EC.
    destruct (coef (at_ div (i / W)) (i mod W)); cbn [negb]; [reflexivity|symmetry; apply app_nil_r].
  - rewrite E. cbn [bind]. replace (d + 1) with (S d) in EI by lia. rewrite seq_S, filter_app in EI. cbn [plus filter] in EI. rewrite HT in EI.
    set (lw := filter (coef M) (seq 0 d)) in *. rewrite EI. rewrite app_length. cbn [length]. destruct (Nat.eqb_spec (length lw + 1) 0); [lia|]. rewrite removelast_last.
    pose proof (xs_filter M d) as HX. fold lw in HX.
    assert (HF: Forall (fun i => i < d) lw). { apply Forall_forall. intros i Hi. apply filter_In in Hi. destruct Hi as [Hi _]. apply in_seq in Hi. lia. }
    eexists. split; [reflexivity|]. cbn [sm_block].
    destruct (Nat.eqb_spec (length lw) 0) as [Z|NZ].
    + assert (LN: lw = []) by (destruct lw; [reflexivity|discriminate]). assert (MZ: (M mod 2 ^ N.of_nat d)%N = 0%N) by (rewrite <- HX, LN; reflexivity).
      split; [|left; split; [reflexivity|exact MZ]].
      unfold sm_of. cbn [sm_rem sm_block sm_bits sm_pq]. rewrite repeat_length. repeat split; try lia; try assumption; [rewrite MZ; apply deg_0|apply dg_repeat].
    + assert (LN: lw <> []) by (destruct lw; [cbn in NZ; lia|discriminate]). destruct (exists_last LN) as (pre & s & ES).
      assert (EL: last lw 0 = s) by (rewrite ES; apply last_last). rewrite EL.
      assert (Hs: In s lw) by (rewrite ES; apply in_or_app; right; left; reflexivity). pose proof Hs as Hs'. apply filter_In in Hs. destruct Hs as [Hs1 Hs2]. apply in_seq in Hs1.
      assert (HI: forall k, s < k < d -> coef M k = false).
      { intros k Hk. destruct (coef M k) eqn:CK; [|reflexivity]. exfalso.
        assert (StronglySorted lt lw).
        { unfold lw. clear. generalize 0 as a. induction d as [|d IH]; intro a; cbn [seq filter]; [constructor|]. destruct (coef M a); [|apply IH]. constructor; [apply IH|].
          apply Forall_forall. intros x Hx. apply filter_In in Hx. destruct Hx as [Hx _]. apply in_seq in Hx. lia. }
        assert (IK: In k lw) by (apply filter_In; split; [apply in_seq; lia|exact CK]). rewrite ES in IK, H. apply in_app_or in IK. destruct IK as [IK|[->|[]]]; [|lia].
        clear - H IK Hk. induction pre as [|x pre IH]; [destruct IK|]. cbn [app] in H. apply StronglySorted_inv in H. destruct H as [H1 H2].
        destruct IK as [->|IK]; [|apply IH; assumption]. rewrite Forall_forall in H2. specialize (H2 s ltac:(apply in_or_app; right; left; reflexivity)). lia. }
      split.
      * unfold sm_of. cbn [sm_rem sm_block sm_bits sm_pq]. rewrite repeat_length. repeat split; try lia; try assumption; [|apply dg_repeat].
        intros k Hk. rewrite coef_mod. destruct (Nat.ltb_spec k d); [apply HI; lia|reflexivity].
      * right. split; [lia|]. replace (d - (d + 1 - s - 1)) with s by lia. split; assumption.
Qed.

(* no access beyond the L digits of the dividend *)
Definition sm_fits (L d block db : nat) : Prop :=
  forall t, let b := Nat.max (db - t * block) d in let s := Nat.max (db - S t * block) d in
    d < b -> ceil s W + ceil (b - s) W <= L.
Lemma fits_step : forall L d block db, d < db -> sm_fits L d block db -> sm_fits L d block (Nat.max (db - block) d).
Proof using HW.
  intros L d block db Hd H t. specialize (H (S t)). cbn zeta in *.
  replace (Nat.max (Nat.max (db - block) d - t * block) d) with (Nat.max (db - S t * block) d) by (cbn [Nat.mul]; generalize (t * block); intro; lia).
  replace (Nat.max (Nat.max (db - block) d - S t * block) d) with (Nat.max (db - S (S t) * block) d) by (cbn [Nat.mul]; generalize (t * block); intro; lia). exact H.
Qed.

Lemma pval_reg1 : forall l, pval W l = reg l 0 (length l + 1).
Proof using HW. intros. rewrite reg_split, reg_first, pval_reg. cbn [plus]. rewrite at_out by lia. rewrite gm_0_r. symmetry. apply xor_0_r. Qed.

Lemma add_at_bit : forall size lhs dv pos, size <= length lhs -> ceil pos W + size <= length dv -> dg lhs -> dg dv ->
  exists dv', add_shifted W size lhs 0 dv (pos / W) (pos mod W) = Some dv' /\ length dv' = length dv /\ dg dv' /\
    pval W dv' = pval W dv (+) X pos (x) reg lhs 0 size.
Proof using HW.
  intros size lhs dv pos Hs Hp Dl Dd. rewrite ceil_div in Hp by exact HW. destruct (divmod pos W HW) as [EP MP].
  destruct (add_shifted_ok W size lhs 0 dv (pos / W) (pos mod W) MP ltac:(lia) ltac:(lia) Dl Dd) as (o & E & F & R).
  pose proof F as (FL & _ & FD). exists o. split; [exact E|]. split; [exact FL|]. split; [apply FD; exact Dd|]. rewrite !pval_reg1, FL.
  assert (R': reg o (0 + pos / W) (size + 1) = reg dv (0 + pos / W) (size + 1) (+) X (pos mod W) (x) reg lhs 0 size) by exact R.
  rewrite (reg_sub W dv o 0 (length dv + 1) (pos / W) (size + 1) _ F ltac:(destruct (pos mod W =? 0); lia) R'). rewrite gm_assoc, <- X_add, <- EP. reflexivity.
Qed.

Lemma sm_apply_ok : forall M d, coef M d = true -> deg_lt M (d + 1) ->
  forall fuel sm dv db, db - d <= fuel -> sm_of sm M d -> dg dv -> deg_lt (pval W dv) (Nat.max db d) -> sm_fits (length dv) d (sm_block sm) db -> db <= W * length dv ->
  exists dv' sm', sm_apply W fuel sm dv db = Some (dv', sm') /\ sm_of sm' M d /\ sm_block sm' = sm_block sm /\ length dv' = length dv /\ dg dv' /\ 
    deg_lt (pval W dv') d /\ cg M (pval W dv') (pval W dv).
Proof using HW.
  intros M d HT HM. induction fuel as [|fuel IH]; intros sm dv db Hf Hsm Dd HV HF HB; pose proof Hsm as (S1 & S2 & S3 & S4 & S5 & S6 & S7).
  - cbn [sm_apply]. rewrite S1. destruct (Nat.leb_spec db d); [|lia]. exists dv, sm. do 5 (split; [first [reflexivity|assumption]|]). split; [|apply cg_refl]. apply (deg_mono _ _ _ HV). lia.
  - cbn [sm_apply]. rewrite S1. destruct (Nat.leb_spec db d) as [L|L].
    + exists dv, sm. do 5 (split; [first [reflexivity|assumption]|]). split; [|apply cg_refl]. apply (deg_mono _ _ _ HV). lia.
    + set (bs := Nat.max (db - sm_block sm) d). set (size := (db - bs + W - 1) / W). change ((db - bs + W - 1) / W) with (ceil (db - bs) W) in size.
      assert (HBS: bs <= db /\ d <= bs /\ db - bs <= sm_block sm) by (unfold bs; lia).
      assert (HSZ: size <= length (sm_pq sm)). { rewrite S6. unfold size. apply ceil_le; [exact HW|]. pose proof (ceil_ge (sm_block sm) W HW). lia. }
      destruct (copy_bits_ok W HW dv bs db (sm_pq sm) Dd S7 ltac:(lia) ltac:(lia) HSZ) as (pq & E1 & F1 & R1). fold size in F1, R1. rewrite E1. cbn [bind].
      pose proof F1 as (FL1 & _ & FD1). assert (Dpq: dg pq) by (apply FD1; exact S7).
      set (q := reg pq 0 size) in *.
      assert (HQ: pval W dv = (pval W dv mod 2 ^ N.of_nat bs)%N (+) X bs (x) q).
      { rewrite (split_at (pval W dv) bs) at 1. f_equal. f_equal. rewrite R1. symmetry. apply mod_deg. apply shr_deg. apply (deg_mono _ _ _ HV). lia. }
      assert (DQ: deg_lt q (db - bs)) by (rewrite R1; apply deg_mod).
      assert (FIT: ceil bs W + size <= length dv).
      { specialize (HF 0). cbn zeta in HF. replace (db - 0 * sm_block sm) with db in HF by lia. replace (db - 1 * sm_block sm) with (db - sm_block sm) in HF by lia. 
        replace (Nat.max db d) with db in HF by lia. apply HF. lia. }
      match goal with |- context [floop ?b 0 (length (sm_bits sm)) dv] => destruct (floop_inv (list N) (fun i o => length o = length dv /\ dg o /\
          pval W o = pval W dv (+) X (bs - d) (x) q (x) xs (firstn i (sm_bits sm))) b (length (sm_bits sm)) dv) as (o & E2 & L2 & D2 & R2) end.
      * split; [reflexivity|]. split; [exact Dd|]. cbn [firstn xs]. rewrite gm_0_r. symmetry. apply xor_0_r.
      * intros i o Hi (L2 & D2 & R2). unfold rd. destruct (nth_error (sm_bits sm) i) as [b|] eqn:EB; [|apply nth_error_None in EB; lia]. cbn [bind].
        assert (Hb: b < d). { rewrite Forall_forall in S5. apply S5. apply nth_error_In with i. exact EB. }
        replace (b + bs - d) with (b + (bs - d)) by lia.
        assert (CB: ceil (b + (bs - d)) W <= ceil bs W). { apply ceil_le; [exact HW|]. pose proof (ceil_ge bs W HW). lia. }
        destruct (add_at_bit size pq o (b + (bs - d)) ltac:(lia) ltac:(lia) Dpq D2) as (o' & E' & L' & D' & R'). exists o'. split; [exact E'|]. split; [lia|]. split; [exact D'|].
        rewrite R', R2, X_add. fold q. 
        assert (EF: firstn (S i) (sm_bits sm) = firstn i (sm_bits sm) ++ [b]).
        { clear - EB. revert i EB. induction (sm_bits sm) as [|h t IHt]; intros i EB; [destruct i; discriminate|]. destruct i; [cbn in EB; inversion EB; reflexivity|]. cbn [firstn app]. f_equal. apply IHt. exact EB. }
        rewrite EF, xs_app. cbn [xs]. ring.
      * rewrite E2. cbn [bind]. rewrite firstn_all, S4 in R2.
        destruct (add_at_bit size pq o bs ltac:(lia) ltac:(lia) Dpq D2) as (o' & E3 & L3 & D3 & R3). rewrite E3. cbn [bind]. fold q in R3.
        assert (EM: M = X d (+) (M mod 2 ^ N.of_nat d)%N).
        { pose proof (mod_S M d) as MS. rewrite HT in MS. rewrite (mod_deg M (S d)) in MS by (replace (S d) with (d + 1) by lia; exact HM). rewrite MS at 1. ring. }
        assert (VM: pval W o' = pval W dv (+) X (bs - d) (x) q (x) M).
        { rewrite EM, R3, R2. replace (X bs) with (X (bs - d + d)) by (f_equal; lia). rewrite X_add. ring. }
        assert (VD: deg_lt (pval W o') bs).
        { rewrite R3, R2. rewrite HQ at 1. 
          replace (_ (+) _) with ((pval W dv mod 2 ^ N.of_nat bs)%N (+) X (bs - d) (x) (q (x) (M mod 2 ^ N.of_nat d)%N)) by ring.
          apply deg_xor; [apply deg_mod|]. apply (deg_mono _ ((bs - d) + d)); [|lia]. apply deg_Xm. apply (deg_gm' _ _ (db - bs) (d + 1 - sm_block sm)); [exact DQ|exact S3|lia]. }
        destruct (IH (Smod pq d (sm_block sm) (sm_bits sm)) o' bs) as (dv' & sm' & A1 & A2 & A3 & A4 & A5 & A6 & A7).
        { lia. } { unfold sm_of. cbn. repeat split; auto; try lia. }
        { exact D3. } { apply (deg_mono _ _ _ VD). lia. }
        { cbn [sm_block]. rewrite L3, L2. apply fits_step; assumption. } { rewrite L3, L2. lia. }
        exists dv', sm'. split; [exact A1|]. split; [exact A2|]. split; [rewrite A3; reflexivity|]. split; [lia|]. split; [exact A5|]. split; [exact A6|].
        apply (cg_trans _ _ _ _ A7). rewrite VM. apply cg_xor.
Qed.
End Mod.
