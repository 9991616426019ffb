(* mixmax: output sequence, save/restore, big skip *)
From Verif Require Import Base StreamModel RingModel MixSpec MixSkipModel MixModel MixProofs WinProofs.
From Coq Require Import Setoid Morphisms Znumtheory.
Ltac Zify.zify_post_hook ::= idtac.

Lemma state_good : forall n v st, mm_state n v st <-> good n v st.
Proof. intros. unfold mm_state, good, inU. rewrite (cg_mod st). reflexivity. Qed.

Theorem refresh_thm : forall n s v st, 0 <= s <= 60 -> (1 <= n)%nat -> Z.of_nat n < 2 ^ 31 -> mm_state n v st ->
  mm_state n (fst (mx_iterate s v st)) (snd (mx_iterate s v st)) /\
  red (fst (mx_iterate s v st)) = mm_apply s v.
Proof.
  intros n s v st Hs Hn HN H. apply state_good in H. rewrite state_good.
  assert (HN': Z.of_nat n < 2 ^ 32) by (change (2 ^ 31) with 2147483648 in HN; change (2 ^ 32) with 4294967296; lia).
  destruct (iterate_good n s v st Hs Hn HN' H) as (A & B & _). split; assumption.
Qed.

Lemma nth_red : forall v i, nth i (red v) 0 = nth i v 0 mod p61.
Proof. intros v i. unfold red. rewrite <- (map_nth (fun a => a mod p61)). rewrite Zmod_0_l. reflexivity. Qed.

Lemma get_nth : forall v i, (i < length v)%nat -> get v i = Some (nth i v 0).
Proof. intros v i H. unfold get. apply nth_error_nth'. exact H. Qed.

Lemma inU_nth : forall v i, inU v -> (i < length v)%nat -> 0 <= nth i v 0 <= U + 1.
Proof. intros v i H Hi. unfold inU in H. rewrite Forall_forall in H. apply H. apply nth_In. exact Hi. Qed.

Definition mx_ok (n : nat) (e : mxst) : Prop := good n (mxV e) (mxsum e) /\ 1 <= mxcnt e <= Z.of_nat n.

Lemma div_small_nat : forall a b, (a < b)%nat -> (a / b = 0)%nat /\ (a mod b = a)%nat.
Proof. intros a b H. split; [apply Nat.div_small|apply Nat.mod_small]; exact H. Qed.

Lemma out_shift : forall n s v v' i, (2 <= n)%nat -> red v' = mm_apply s v ->
  mm_out n s v (n - 1 + i) = mm_out n s v' i.
Proof.
  intros n s v v' i Hn Hv. unfold mm_out. replace (n - 1 + i)%nat with (i + 1 * (n - 1))%nat by lia.
  rewrite Nat.div_add, Nat.mod_add by lia. replace (i / (n - 1) + 1)%nat with (S (i / (n - 1))) by lia.
  cbn [iter]. rewrite <- !nth_red. rewrite (iter_red s (i / (n - 1)) (mm_apply s v) v'); [reflexivity|].
  rewrite apply_is_red. symmetry. exact Hv.
Qed.

Lemma next_ok : forall n s e, (2 <= n)%nat -> 0 <= s <= 60 -> Z.of_nat n < 2 ^ 31 -> mx_ok n e ->
  exists x e', mx_next n s e = Some (x, e') /\ mx_ok n e' /\ 0 <= x <= U + 1 /\
    x mod p61 = mm_out n s (mxV e) (Z.to_nat (mxcnt e - 1)) /\
    forall i, mm_out n s (mxV e') (Z.to_nat (mxcnt e' - 1) + i) = mm_out n s (mxV e) (Z.to_nat (mxcnt e - 1) + S i).
Proof.
  intros n s [V sum cnt] Hn Hs HN [HG HC]. cbn [mxV mxsum mxcnt] in *. unfold mx_next. cbn [mxV mxsum mxcnt].
  destruct (Z.leb_spec cnt (Z.of_nat n - 1)) as [L|L].
  - destruct (Z.ltb_spec cnt 0); [lia|]. destruct HG as (G1 & G2 & G3).
    assert (HI: (Z.to_nat cnt < length V)%nat) by lia.
    rewrite get_nth by exact HI. cbn [bind].
    exists (nth (Z.to_nat cnt) V 0), (Mx V sum (cnt + 1)). split; [reflexivity|]. cbn [mxV mxsum mxcnt].
    split; [split; [split; [exact G1|split; [exact G2|exact G3]]|cbn [mxcnt]; lia]|].
    split; [apply inU_nth; assumption|]. split.
    + unfold mm_out. destruct (div_small_nat (Z.to_nat (cnt - 1)) (n - 1) ltac:(lia)) as [-> ->]. cbn [iter].
      replace (1 + Z.to_nat (cnt - 1))%nat with (Z.to_nat cnt) by lia. reflexivity.
    + intros i. f_equal. lia.
  - assert (EC: cnt = Z.of_nat n) by lia. subst cnt.
    assert (HN': Z.of_nat n < 2 ^ 32) by (change (2 ^ 31) with 2147483648 in HN; change (2 ^ 32) with 4294967296; lia).
    destruct (iterate_good n s V sum Hs ltac:(lia) HN' HG) as (A & B & _).
    destruct (mx_iterate s V sum) as [Y st]. cbn [fst snd] in *.
    destruct A as (A1 & A2 & A3). rewrite get_nth by lia. cbn [bind].
    exists (nth 1 Y 0), (Mx Y st 2). split; [reflexivity|]. cbn [mxV mxsum mxcnt].
    split; [split; [split; [exact A1|split; [exact A2|exact A3]]|cbn [mxcnt]; lia]|].
    split; [apply inU_nth; [assumption|lia]|]. split.
    + replace (Z.to_nat (Z.of_nat n - 1)) with (n - 1 + 0)%nat by lia. rewrite (out_shift n s V Y 0 Hn B).
      unfold mm_out. rewrite Nat.div_0_l, Nat.mod_0_l by lia. reflexivity.
    + intros i. replace (Z.to_nat (Z.of_nat n - 1) + S i)%nat with (n - 1 + S i)%nat by lia.
      rewrite (out_shift n s V Y (S i) Hn B). reflexivity.
Qed.

Theorem output_thm : forall n s k e, (2 <= n)%nat -> 0 <= s <= 60 -> Z.of_nat n < 2 ^ 31 -> mx_ok n e ->
  exists xs e', run (mx_next n s) k e = Some (xs, e') /\ mx_ok n e' /\ length xs = k /\
    Forall (fun x => 0 <= x <= U + 1) xs /\
    (forall i, (i < k)%nat -> nth i xs 0 mod p61 = mm_out n s (mxV e) (Z.to_nat (mxcnt e - 1) + i)).
Proof.
  intros n s k. induction k as [|k IH]; intros e Hn Hs HN H.
  - exists [], e. cbn [run]. repeat split; try (apply H); [constructor|intros; lia].
  - destruct (next_ok n s e Hn Hs HN H) as (x & e1 & E1 & H1 & R1 & O1 & F1).
    destruct (IH e1 Hn Hs HN H1) as (xs & e2 & E2 & H2 & L2 & R2 & O2).
    exists (x :: xs), e2. cbn [run]. rewrite E1. cbn [bind fst snd]. rewrite E2. cbn [bind fst snd].
    split; [reflexivity|]. split; [exact H2|]. split; [cbn [length]; lia|]. split; [constructor; assumption|].
    intros [|i] Hi; cbn [nth]; [rewrite Nat.add_0_r; exact O1|]. rewrite O2 by lia. apply F1.
Qed.

Lemma discard_run : forall n s z e, mx_discard n s z e = (r <- run (mx_next n s) z e;; Some (snd r)).
Proof.
  intros n s z. induction z as [|z IH]; intros e; [reflexivity|]. unfold mx_discard in *. cbn [iterM run].
  destruct (mx_next n s e) as [[x e1]|]; cbn [bind fst snd]; [|reflexivity]. rewrite IH.
  destruct (run (mx_next n s) z e1) as [[xs e2]|]; reflexivity.
Qed.

(* the map is injective *)
Lemma cg_sub_r : forall a b c d, cg (a + c) (b + d) -> cg a b -> cg c d.
Proof. intros a b c d [k E] [l F]. exists (k - l). rewrite F in E. rewrite Z.mul_sub_distr_r. lia. Qed.
Lemma al_inj : forall s u v P Q V W, cg P Q -> cg V W -> red (al s u P V) = red (al s v Q W) -> red u = red v.
Proof.
  intros s u. induction u as [|a u IH]; intros [|b v] P Q V W CP CV H; try discriminate; [reflexivity|].
  cbn [al] in H. apply red_cons_inv in H. destruct H as [H1 H2].
  assert (CA: cg a b).
  { assert (C2: cg (V + 2 ^ s * P + P) (W + 2 ^ s * Q + Q)) by (rewrite CP, CV; reflexivity).
    rewrite !Z.add_assoc in H1. exact (cg_sub_r _ _ _ _ H1 C2). }
  apply red_cons; [exact CA|]. eapply IH; [| |exact H2]; [rewrite CP, CA; reflexivity|exact H1].
Qed.
Lemma apply_inj : forall s u v, mm_apply s u = mm_apply s v -> red u = red v.
Proof.
  intros s u v H. assert (HL: length u = length v) by (rewrite <- (apply_length s u), H; apply apply_length).
  destruct u as [|a u], v as [|b v]; try discriminate HL; [reflexivity|].
  rewrite <- !apply_al in H by (cbn [length]; lia). apply red_cons_inv in H. destruct H as [H1 H2]. cbn [tl] in H2.
  assert (E: red u = red v) by (eapply al_inj; [| |exact H2]; [reflexivity|exact H1]).
  apply red_cons; [|exact E]. rewrite !vsum_cons in H1. rewrite (Z.add_comm a), (Z.add_comm b) in H1.
  apply (cg_sub_r _ _ _ _ H1). apply dot_red. exact E.
Qed.
Theorem refresh_inj : forall n s u v a b, 0 <= s <= 60 -> (1 <= n)%nat -> Z.of_nat n < 2 ^ 31 ->
  mm_state n u a -> mm_state n v b ->
  red (fst (mx_iterate s u a)) = red (fst (mx_iterate s v b)) -> red u = red v.
Proof.
  intros n s u v a b Hs Hn HN Hu Hv H. apply (apply_inj s).
  rewrite <- (proj2 (refresh_thm n s u a Hs Hn HN Hu)), <- (proj2 (refresh_thm n s v b Hs Hn HN Hv)). exact H.
Qed.

(* text *)
Lemma get_u64 : forall v ts, 0 <= v < 2 ^ 64 -> get_int u64 (good_in (TInt v :: ts)) = (Some v, good_in ts).
Proof.
  intros v ts H. unfold get_int, good_in. cbn [failb toks]. change (imin u64) with 0. change (imax u64) with (2 ^ 64 - 1).
  destruct (Z.leb_spec 0 v); [|lia]. destruct (Z.leb_spec v (2 ^ 64 - 1)); [|lia]. reflexivity.
Qed.
Lemma read_vec_spec : forall v sum ts, Forall (fun a => 0 <= a < 2 ^ 64) v ->
  mx_read_vec (length v) sum (good_in (map TInt v ++ ts)) = Some (v, fold_left mx_modadd v sum, good_in ts).
Proof.
  induction v as [|a v IH]; intros sum ts H; [reflexivity|]. inversion H as [|? ? Ha Hv]; subst.
  cbn [length mx_read_vec map app]. rewrite get_u64 by exact Ha. cbn [bind].
  rewrite (IH _ ts Hv). cbn [bind fold_left]. reflexivity.
Qed.
Theorem read_write : forall n e e0 ts, length (mxV e) = n -> Forall (fun a => 0 <= a < 2 ^ 64) (mxV e) ->
  0 <= mxcnt e < 2 ^ 64 -> 0 <= mxsum e < 2 ^ 64 -> Z.of_nat n < 2 ^ 31 ->
  mx_read n e0 (good_in (mx_write n e ++ ts)) =
  Some (if (mx_sumtot (mxV e) =? mxsum e) && (0 <? mxcnt e) && (mxcnt e <? Z.of_nat n)
        then (e, good_in ts) else (e0, set_fail (good_in ts))).
Proof.
  intros n [V sum cnt] e0 ts HL HV HC HS HN. cbn [mxV mxsum mxcnt] in *. unfold mx_read, mx_write. cbn [mxV mxsum mxcnt map app].
  assert (HN': 0 <= Z.of_nat n < 2 ^ 64).
  { change (2 ^ 31) with 2147483648 in HN. change (2 ^ 64) with 18446744073709551616. lia. }
  rewrite get_u64 by exact HN'. cbn [bind]. rewrite Z.eqb_refl. cbn [negb].
  rewrite get_u64 by exact HC. cbn [bind]. rewrite get_u64 by exact HS. cbn [bind].
  rewrite <- HL at 1. rewrite read_vec_spec by exact HV. cbn [bind]. fold (mx_sumtot V).
  destruct ((mx_sumtot V =? sum) && (0 <? cnt) && (cnt <? Z.of_nat n)); reflexivity.
Qed.

Lemma eqV_true : forall u v, mx_eqV u v = true <-> u = v.
Proof.
  induction u as [|a u IH]; intros [|b v]; cbn [mx_eqV]; try (split; congruence).
  rewrite andb_true_iff, IH, Z.eqb_eq. split; [intros [-> ->]; reflexivity|intros E; split; congruence].
Qed.
Theorem eq_thm : forall a b, mx_eq a b = true <-> a = b.
Proof.
  intros [V1 s1 c1] [V2 s2 c2]. unfold mx_eq. cbn [mxV mxsum mxcnt].
  rewrite !andb_true_iff, eqV_true, !Z.eqb_eq. split; [intros [[-> ->] ->]; reflexivity|intros E; repeat split; congruence].
Qed.

(* the stored sum is the sum the reader computes *)
Lemma sumtot_M : forall v a, Forall (fun x => 0 <= x <= U - 1) v -> 0 <= a <= U - 1 -> 0 <= fold_left mx_modadd v a <= U - 1.
Proof.
  induction v as [|x v IH]; intros a H Ha; [exact Ha|]. inversion H; subst. cbn [fold_left]. apply IH; [assumption|].
  apply modadd_M; lia.
Qed.
Lemma sumtot_pos : forall v a, Forall (fun x => 0 <= x <= U - 1) v -> 0 <= a <= U - 1 ->
  fold_left mx_modadd v a = 0 -> a = 0 /\ Forall (fun x => x = 0) v.
Proof.
  induction v as [|x v IH]; intros a H Ha E; [split; [exact E|constructor]|]. inversion H as [|? ? Hx Hv]; subst. cbn [fold_left] in E.
  destruct (IH (mx_modadd a x) Hv (modadd_M a x Ha Hx) E) as [E1 E2].
  destruct (modadd_spec a x) as (q & r & A1 & A2 & A3 & A4); try lia.
  { change (2 ^ 64) with (8 * U). unfold U in *. lia. }
  rewrite A4 in E1. assert (q = 0 /\ r = 0) as [-> ->] by lia.
  split; [lia|constructor; [lia|exact E2]].
Qed.
Lemma vsum_nonneg : forall v, Forall (fun x => 0 <= x) v -> 0 <= vsum v.
Proof. induction v as [|x v IH]; intros H; [reflexivity|]. inversion H; subst. rewrite vsum_cons. specialize (IH H3). lia. Qed.
Lemma vsum_zero : forall v, Forall (fun x => x = 0) v -> vsum v = 0.
Proof. induction v as [|x v IH]; intros H; [reflexivity|]. inversion H; subst. rewrite vsum_cons, (IH H3). reflexivity. Qed.

(* a refreshed sum is 0 only for the zero vector *)
Lemma loop_zero : forall n s Y st, 0 <= s <= 60 -> (1 <= n)%nat -> Z.of_nat n < 2 ^ 32 -> good n Y st ->
  snd (mx_iterate s Y st) = 0 -> vsum (fst (mx_iterate s Y st)) = 0.
Proof.
  intros n s Y st Hs Hn HN (G1 & G2 & G3 & G4) HZ. destruct Y as [|y0 ys]; [cbn in G1; lia|].
  inversion G2 as [|? ? H0 Hys]; subst. unfold mx_iterate in *. cbn [tl] in *. cbn [length] in HN.
  assert (W64: 2 ^ 64 = 8 * U) by reflexivity. assert (UP: 1000 * 2 ^ 32 < U) by reflexivity.
  change (2 ^ 32) with 4294967296 in *.
  pose proof (loop_spec s ys 0 st 0 (vsum (y0 :: ys)) st 0 Hs Hys ltac:(lia) ltac:(lia) ltac:(reflexivity) G4 ltac:(lia) ltac:(lia)) as L.
  change (2 ^ 32) with 4294967296 in L. specialize (L ltac:(lia)).
  destruct (mx_iter_loop s ys 0 st st 0) as [[l st1] ov]. destruct L as (L1 & L2 & L3 & L4 & L5). cbn [fst snd] in *.
  rewrite Z.shiftl_mul_pow2 in HZ by lia. change (2 ^ 3) with 8 in HZ.
  rewrite (wrap64 (ov * 8)) in HZ by lia.
  destruct (mod_spec st1 L3) as (q & r & A1 & A2 & A3 & A4). rewrite A4 in HZ.
  rewrite (wrap64 (r + q + ov * 8)) in HZ by lia.
  destruct (mod_spec (r + q + ov * 8) ltac:(lia)) as (q2 & r2 & B1 & B2 & B3 & B4). rewrite B4 in HZ.
  assert (q2 = 0 /\ r2 = 0) as [-> ->] by lia. assert (q = 0 /\ r = 0 /\ ov = 0) as (-> & -> & ->) by lia.
  rewrite vsum_cons. lia.
Qed.

Lemma cg_range : forall a b, 0 <= a <= U - 1 -> 0 <= b <= U - 1 -> cg a b -> a = b \/ (a = 0 /\ b = U - 1) \/ (a = U - 1 /\ b = 0).
Proof. intros a b Ha Hb [k E]. rewrite p61_U in E. unfold U in *. lia. Qed.

Lemma refresh_sum : forall n s Y st, 0 <= s <= 60 -> (1 <= n)%nat -> Z.of_nat n < 2 ^ 32 -> good n Y st ->
  let Y' := fst (mx_iterate s Y st) in
  Forall (fun x => 0 <= x <= U - 1) Y' -> mx_sumtot Y' = snd (mx_iterate s Y st).
Proof.
  intros n s Y st Hs Hn HN HG Y' HC. pose proof (iterate_good n s Y st Hs Hn HN HG) as (A & _ & B).
  pose proof (loop_zero n s Y st Hs Hn HN HG) as LZ. fold Y' in A, LZ.
  pose proof (proj1 (proj2 (proj2 (proj1 (iterate_good n s Y st Hs Hn HN HG))))) as B0.
  set (st' := snd (mx_iterate s Y st)) in *. destruct A as (A1 & A2 & A3 & A4).
  pose proof (sumtot_good n Y' A1 A2) as (_ & _ & _ & S4).
  pose proof (sumtot_M Y' 0 HC ltac:(unfold U; lia)) as SM. fold (mx_sumtot Y') in SM.
  assert (C: cg (mx_sumtot Y') st') by (rewrite S4, A4; reflexivity).
  assert (NN: Forall (fun x => 0 <= x) Y') by (eapply Forall_impl; [|exact HC]; cbn beta; lia).
  destruct (cg_range _ st' SM (conj (proj1 B0) B) C) as [E|[[E1 E2]|[E1 E2]]]; [exact E| |]; exfalso.
  - unfold mx_sumtot in E1. apply sumtot_pos in E1; [|exact HC|unfold U; lia]. destruct E1 as [_ E1].
    (* the vector is zero, so the exact sum is 0 *)
    assert (Z0: vsum Y' = 0) by (apply vsum_zero; exact E1).
    rewrite E2 in *. clear LZ. revert E2. subst st' Y'.
    destruct HG as (G1 & G2 & G3 & G4). destruct Y as [|y0 ys]; [cbn in G1; lia|].
    inversion G2 as [|? ? H0 Hys]; subst. unfold mx_iterate in *. cbn [tl] in *. cbn [length] in HN.
    assert (W64: 2 ^ 64 = 8 * U) by reflexivity. assert (UP: 1000 * 2 ^ 32 < U) by reflexivity.
    change (2 ^ 32) with 4294967296 in *.
    pose proof (loop_spec s ys 0 st 0 (vsum (y0 :: ys)) st 0 Hs Hys ltac:(lia) ltac:(lia) ltac:(reflexivity) G4 ltac:(lia) ltac:(lia)) as L.
    change (2 ^ 32) with 4294967296 in L. specialize (L ltac:(lia)).
    destruct (mx_iter_loop s ys 0 st st 0) as [[l st1] ov]. destruct L as (L1 & L2 & L3 & L4 & L5). cbn [fst snd] in *.
    rewrite vsum_cons in Z0. assert (st1 = 0 /\ ov = 0) as [-> ->] by lia. intros E. vm_compute in E. discriminate E.
  - specialize (LZ E2). rewrite <- S4 in *.
    assert (ZA: Forall (fun x => x = 0) Y').
    { clear - LZ NN. induction Y' as [|x v IH]; [constructor|]. inversion NN as [|? ? Hx Hv]; subst. rewrite vsum_cons in LZ.
      pose proof (vsum_nonneg v Hv). constructor; [lia|]. apply IH; [lia|exact Hv]. }
    assert (ZS: mx_sumtot Y' = 0).
    { clear - ZA. unfold mx_sumtot. induction Y' as [|x v IH]; [reflexivity|]. inversion ZA; subst. cbn [fold_left]. exact (IH H2). }
    rewrite ZS in E1. discriminate E1.
Qed.
