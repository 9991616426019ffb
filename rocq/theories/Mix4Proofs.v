(* mixmax: apply_bigskip computes A^(2^512 id) e_0 *)
From Verif Require Import Base MixSpec MixSkipModel MixModel MixProofs Mix2Proofs Mix3Proofs MixTabProofs WinProofs.
From Coq Require Import Setoid Morphisms Znumtheory.
Ltac Zify.zify_post_hook ::= idtac.

(* the loops of apply_bigskip *)
Lemma accum_spec : forall c cum Y, 0 <= c <= U - 1 -> inU cum -> inU Y -> length cum = length Y ->
  inU (mx_accum c cum Y) /\ red (mx_accum c cum Y) = red (axpy c cum Y) /\ length (mx_accum c cum Y) = length Y.
Proof.
  intros c cum. induction cum as [|a cum IH]; intros [|y Y] Hc H1 H2 HL; try discriminate.
  - repeat split; constructor.
  - inversion H1; subst. inversion H2; subst. cbn [mx_accum axpy].
    destruct (fmodmul_spec a c y ltac:(assumption) Hc ltac:(assumption)) as [F1 F2].
    destruct (IH Y Hc ltac:(assumption) ltac:(assumption) ltac:(cbn in HL; lia)) as (I1 & I2 & I3).
    split; [constructor; assumption|]. split; [apply red_cons; assumption|]. cbn [length]. lia.
Qed.
Lemma poly_spec : forall n s row cum Y st, 0 <= s <= 60 -> (1 <= n)%nat -> Z.of_nat n < 2 ^ 32 ->
  Forall (fun c => 0 <= c <= U - 1) row -> inU cum -> length cum = n -> good n Y st ->
  inU (mx_poly s row cum Y st) /\ length (mx_poly s row cum Y st) = n /\
  red (mx_poly s row cum Y st) = red (pact s row cum Y).
Proof.
  intros n s row. induction row as [|c row IH]; intros cum Y st Hs Hn HN HR HC HL HG.
  - cbn [mx_poly pact]. repeat split; assumption.
  - inversion HR as [|? ? Hc Hrow]; subst. cbn [mx_poly pact]. pose proof HG as (G1 & G2 & G3 & G4).
    destruct (accum_spec c cum Y Hc HC G2 ltac:(lia)) as (A1 & A2 & A3).
    destruct (iterate_good (length cum) s Y st Hs Hn HN HG) as (B1 & B2 & _).
    destruct (mx_iterate s Y st) as [Y' st']. cbn [fst snd] in *.
    destruct (IH (mx_accum c cum Y) Y' st' Hs Hn HN Hrow A1 ltac:(lia) B1) as (I1 & I2 & I3).
    split; [exact I1|]. split; [exact I2|]. rewrite I3. apply pact_red.
    + rewrite A3. destruct B1 as [B1 _]. lia.
    + exact A2.
    + rewrite B2. symmetry. apply apply_is_red.
Qed.

Definition at_pos (st : list Z * Z) (m : nat) : Prop :=
  good 17 (fst st) (snd st) /\ red (fst st) = red (iter m (mm_apply 36) e0).
Lemma zv_inU : forall n, inU (zv n).
Proof. intros n. unfold inU, zv. apply Forall_forall. intros x Hx. apply repeat_spec in Hx. subst. unfold U. lia. Qed.
Lemma skip_row_spec : forall r st m, (r < 128)%nat -> at_pos st m ->
  at_pos (mx_skip_row 17 36 (nth r mx_skipMat []) st) (m + Z.to_nat (2 ^ (512 + Z.of_nat r))).
Proof.
  intros r [Y sum] m Hr [HG HY]. cbn [fst snd] in *. unfold mx_skip_row. cbn [fst snd].
  destruct (poly_spec 17 36 (nth r mx_skipMat []) (zv 17) Y sum ltac:(lia) ltac:(lia) ltac:(reflexivity) (row_small r) (zv_inU 17) (zv_length 17) HG) as (P1 & P2 & P3).
  fold (zv 17). split; cbn [fst snd].
  - apply sumtot_good; assumption.
  - rewrite P3. destruct HG as [HL _]. rewrite <- HL at 1. fold (pa 36 (nth r mx_skipMat []) Y).
    rewrite (pa_red 36 _ _ _ HY), pa_iter. pose proof (row_reps r Hr) as R. unfold reps in R. rewrite (iter_red 36 m _ _ R).
    rewrite (Nat.add_comm m), iter_plus. reflexivity.
Qed.

Lemma skip_bits_spec : forall id r st m, (r + Pos.to_nat (Pos.of_nat (Pos.size_nat id)) <= 128)%nat -> at_pos st m ->
  at_pos (mx_skip_bits 17 36 id r st) (m + Z.to_nat (Zpos id * 2 ^ (512 + Z.of_nat r))).
Proof.
  assert (SZ: forall p, Pos.to_nat (Pos.of_nat (Pos.size_nat p)) = Pos.size_nat p).
  { intros p. apply Nat2Pos.id. destruct p; discriminate. }
  assert (EP: forall r, 2 ^ (512 + Z.of_nat (S r)) = 2 * 2 ^ (512 + Z.of_nat r)).
  { intros r. rewrite Nat2Z.inj_succ, <- Z.pow_succ_r by lia. f_equal. lia. }
  intros id. induction id as [id IH|id IH|]; intros r st m Hr HP; rewrite SZ in Hr; cbn [Pos.size_nat] in Hr; cbn [mx_skip_bits].
  - pose proof (skip_row_spec r st m ltac:(lia) HP) as HP1.
    specialize (IH (S r) _ _ ltac:(rewrite SZ; lia) HP1). rewrite EP in IH.
    assert (0 <= 2 ^ (512 + Z.of_nat r)) by (apply Z.pow_nonneg; lia). set (K := 2 ^ (512 + Z.of_nat r)) in *.
    rewrite <- Nat.add_assoc in IH. rewrite <- Z2Nat.inj_add in IH by (try apply Z.mul_nonneg_nonneg; lia).
    replace (Z.pos id~1 * K) with (K + Z.pos id * (2 * K)) by (rewrite Pos2Z.inj_xI; ring). exact IH.
  - specialize (IH (S r) st m ltac:(rewrite SZ; lia) HP). rewrite EP in IH.
    set (K := 2 ^ (512 + Z.of_nat r)) in *.
    replace (Z.pos id~0 * K) with (Z.pos id * (2 * K)) by (rewrite (Pos2Z.inj_xO id); ring). exact IH.
  - rewrite Z.mul_1_l. apply skip_row_spec; [lia|exact HP].
Qed.
Lemma size_bound : forall p k, Zpos p < 2 ^ Z.of_nat k -> (Pos.size_nat p <= k)%nat.
Proof.
  induction p as [p IH|p IH|]; intros k H; destruct k as [|k]; try (cbn in H; lia); cbn [Pos.size_nat]; try lia.
  - apply le_n_S, IH. rewrite Nat2Z.inj_succ, Z.pow_succ_r in H by lia. lia.
  - apply le_n_S, IH. rewrite Nat2Z.inj_succ, Z.pow_succ_r in H by lia. lia.
Qed.
Lemma skip_id_spec : forall id idx st m, 0 <= id < 2 ^ 32 -> (idx <= 3)%nat -> at_pos st m ->
  at_pos (mx_skip_id 17 36 id idx st) (m + Z.to_nat (id * 2 ^ (512 + Z.of_nat (idx * 32)))).
Proof.
  intros [|p|p] idx st m H Hi HP; cbn [mx_skip_id].
  - rewrite Z.mul_0_l. change (Z.to_nat 0) with 0%nat. rewrite Nat.add_0_r. exact HP.
  - apply skip_bits_spec; [|exact HP]. rewrite Nat2Pos.id by (destruct p; discriminate).
    pose proof (size_bound p 32 (proj2 H)). lia.
  - lia.
Qed.

Lemma exp_gen : forall K a b c d p q r, 0 <= K -> 0 <= a -> 0 <= b -> 0 <= c -> 0 <= d -> 0 <= p -> 0 <= q -> 0 <= r ->
  (0 + Z.to_nat (a * K) + Z.to_nat (b * (K * p)) + Z.to_nat (c * (K * q)) + Z.to_nat (d * (K * r)))%nat =
  Z.to_nat (K * (a + p * b + q * c + r * d)).
Proof.
  intros K a b c d p q r HK Ha Hb Hc Hd Hp Hq Hr. rewrite Nat.add_0_l.
  pose proof (Z.mul_nonneg_nonneg a K Ha HK) as M1.
  pose proof (Z.mul_nonneg_nonneg b (K * p) Hb (Z.mul_nonneg_nonneg K p HK Hp)) as M2.
  pose proof (Z.mul_nonneg_nonneg c (K * q) Hc (Z.mul_nonneg_nonneg K q HK Hq)) as M3.
  pose proof (Z.mul_nonneg_nonneg d (K * r) Hd (Z.mul_nonneg_nonneg K r HK Hr)) as M4.
  rewrite <- (Z2Nat.inj_add (a * K)) by assumption.
  rewrite <- (Z2Nat.inj_add (a * K + b * (K * p))) by (try assumption; apply Z.add_nonneg_nonneg; assumption).
  rewrite <- (Z2Nat.inj_add (a * K + b * (K * p) + c * (K * q))) by
    (try assumption; repeat apply Z.add_nonneg_nonneg; assumption).
  f_equal. ring.
Qed.
Lemma exp_eq : forall a b c d, 0 <= a -> 0 <= b -> 0 <= c -> 0 <= d ->
  (0 + Z.to_nat (a * 2 ^ (512 + 0)) + Z.to_nat (b * 2 ^ (512 + 32)) + Z.to_nat (c * 2 ^ (512 + 64)) + Z.to_nat (d * 2 ^ (512 + 96)))%nat =
  Z.to_nat (2 ^ 512 * (a + 2 ^ 32 * b + 2 ^ 64 * c + 2 ^ 96 * d)).
Proof.
  intros a b c d Ha Hb Hc Hd. rewrite Z.add_0_r. rewrite (Z.pow_add_r 2 512 32), (Z.pow_add_r 2 512 64), (Z.pow_add_r 2 512 96) by lia.
  apply exp_gen; try assumption; apply Z.pow_nonneg; lia.
Qed.

Theorem seed4_thm : forall cl ma ru sm, 0 <= cl < 2 ^ 32 -> 0 <= ma < 2 ^ 32 -> 0 <= ru < 2 ^ 32 -> 0 <= sm < 2 ^ 32 ->
  let e := mx_seed4 cl ma ru sm in
  mm_state 17 (mxV e) (mxsum e) /\ mxcnt e = 1 /\ mxsum e = mx_sumtot (mxV e) /\
  red (mxV e) = red (iter (Z.to_nat (2 ^ 512 * (sm + 2 ^ 32 * ru + 2 ^ 64 * ma + 2 ^ 96 * cl))) (mm_apply 36) (unit0 17)).
Proof.
  intros cl ma ru sm Hcl Hma Hru Hsm e. unfold e, mx_seed4, mx_bigskip.
  assert (H0: at_pos (mx_vielbein0 17, mx_sumtot (mx_vielbein0 17)) 0).
  { split; cbn [fst snd]; [|reflexivity]. apply sumtot_good; [reflexivity|].
    unfold inU, mx_vielbein0. constructor; [unfold U; lia|]. exact (zv_inU 16). }
  pose proof (skip_id_spec sm 0 _ _ Hsm ltac:(lia) H0) as H1.
  pose proof (skip_id_spec ru 1 _ _ Hru ltac:(lia) H1) as H2.
  pose proof (skip_id_spec ma 2 _ _ Hma ltac:(lia) H2) as H3.
  pose proof (skip_id_spec cl 3 _ _ Hcl ltac:(lia) H3) as H4. clear H0 H1 H2 H3.
  set (st := mx_skip_id 17 36 cl 3 _) in *. destruct H4 as [HG HR]. cbn [mxV mxsum mxcnt].
  destruct HG as (G1 & G2 & _).
  split; [apply state_good, sumtot_good; assumption|]. split; [reflexivity|]. split; [reflexivity|].
  rewrite HR. unfold e0. f_equal. f_equal.
  change (Z.of_nat (0 * 32)) with 0. change (Z.of_nat (1 * 32)) with 32.
  change (Z.of_nat (2 * 32)) with 64. change (Z.of_nat (3 * 32)) with 96.
  apply exp_eq; lia.
Qed.

(* without the position (no use of the machine integers) *)
Lemma skip_row_good : forall r st, good 17 (fst st) (snd st) ->
  good 17 (fst (mx_skip_row 17 36 (nth r mx_skipMat []) st)) (snd (mx_skip_row 17 36 (nth r mx_skipMat []) st)).
Proof.
  intros r [Y sum] HG. cbn [fst snd] in *. unfold mx_skip_row. cbn [fst snd].
  destruct (poly_spec 17 36 (nth r mx_skipMat []) (zv 17) Y sum ltac:(lia) ltac:(lia) ltac:(reflexivity) (row_small r) (zv_inU 17) (zv_length 17) HG) as (P1 & P2 & _).
  fold (zv 17). apply sumtot_good; assumption.
Qed.
Lemma skip_bits_good : forall id r st, good 17 (fst st) (snd st) ->
  good 17 (fst (mx_skip_bits 17 36 id r st)) (snd (mx_skip_bits 17 36 id r st)).
Proof.
  induction id as [id IH|id IH|]; intros r st H; cbn [mx_skip_bits]; [apply IH, skip_row_good, H|apply IH, H|apply skip_row_good, H].
Qed.
Lemma skip_id_good : forall id idx st, good 17 (fst st) (snd st) ->
  good 17 (fst (mx_skip_id 17 36 id idx st)) (snd (mx_skip_id 17 36 id idx st)).
Proof. intros [|p|p] idx st H; cbn [mx_skip_id]; [exact H|apply skip_bits_good, H|exact H]. Qed.
Lemma seed4_good : forall cl ma ru sm, let e := mx_seed4 cl ma ru sm in
  good 17 (mxV e) (mxsum e) /\ mxcnt e = 1 /\ mxsum e = mx_sumtot (mxV e).
Proof.
  intros cl ma ru sm e. unfold e, mx_seed4, mx_bigskip. cbn [mxV mxsum mxcnt]. split; [|split; reflexivity].
  assert (H0: good 17 (fst (mx_vielbein0 17, mx_sumtot (mx_vielbein0 17))) (snd (mx_vielbein0 17, mx_sumtot (mx_vielbein0 17)))).
  { cbn [fst snd]. apply sumtot_good; [reflexivity|]. unfold inU, mx_vielbein0. constructor; [unfold U; lia|]. exact (zv_inU 16). }
  pose proof (skip_id_good cl 3 _ (skip_id_good ma 2 _ (skip_id_good ru 1 _ (skip_id_good sm 0 _ H0)))) as (G1 & G2 & _).
  apply sumtot_good; assumption.
Qed.
