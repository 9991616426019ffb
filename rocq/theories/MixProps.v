(* Properties C31, C32 and C49: mixmax.hpp *)
From Verif Require Import Base StreamModel MixSpec MixModel MixProofs Mix2Proofs Mix4Proofs Mix5Proofs.

(* ---- C31 ---- *)
(* one block refresh *)
Theorem C31_mixmax_refresh :
  forall n s v sum, 0 <= s <= 60 -> (1 <= n)%nat -> Z.of_nat n < 2 ^ 31 -> mm_state n v sum ->
  mm_state n (fst (mx_iterate s v sum)) (snd (mx_iterate s v sum)) /\
  red (fst (mx_iterate s v sum)) = mm_apply s v.
Proof. exact refresh_thm. Qed.
Print Assumptions C31_mixmax_refresh.
(* elements that are not canonical *)
Example C31_refresh_case : mm_state 4 [2 ^ 61; 2 ^ 61 + 1; 5; 2 ^ 61 - 1] 8 /\
  mx_iterate 36 [2 ^ 61; 2 ^ 61 + 1; 5; 2 ^ 61 - 1] 8 = ([8; 10; 137438953489; 618475290648], 755914244155) /\
  mm_apply 36 [2 ^ 61; 2 ^ 61 + 1; 5; 2 ^ 61 - 1] = [8; 10; 137438953489; 618475290648].
Proof. split; [split; [reflexivity|split; [|vm_compute; repeat split; congruence]]|vm_compute; split; reflexivity].
  repeat constructor; vm_compute; congruence. Qed.

(* the whole output sequence, for any starting state and any number of calls *)
Theorem C31_mixmax_outputs :
  forall n s k v sum c, (2 <= n)%nat -> 0 <= s <= 60 -> Z.of_nat n < 2 ^ 31 ->
  mm_state n v sum -> 1 <= c <= Z.of_nat n ->
  exists xs v' sum' c', run (mx_next n s) k (Mx v sum c) = Some (xs, Mx v' sum' c') /\
    mm_state n v' sum' /\ 1 <= c' <= Z.of_nat n /\ length xs = k /\
    Forall (fun x => 0 <= x <= 2 ^ 61 + 1) xs /\
    (forall i, (i < k)%nat -> nth i xs 0 mod p61 = mm_out n s v (Z.to_nat (c - 1) + i)).
Proof.
  intros n s k v sum c Hn Hs HN HG HC.
  destruct (output_thm n s k (Mx v sum c) Hn Hs HN (conj (proj1 (state_good n v sum) HG) HC)) as (xs & [v' sum' c'] & E & [G C] & L & R & F).
  exists xs, v', sum', c'. split; [exact E|split; [apply state_good; exact G|split; [exact C|split; [exact L|split; [exact R|exact F]]]]].
Qed.
Print Assumptions C31_mixmax_outputs.

(* the refresh never merges two states; in particular a state that is not zero
   stays so *)
Theorem C31_mixmax_injective :
  forall n s u v a b, 0 <= s <= 60 -> (1 <= n)%nat -> Z.of_nat n < 2 ^ 31 -> mm_state n u a -> mm_state n v b ->
  red (fst (mx_iterate s u a)) = red (fst (mx_iterate s v b)) -> red u = red v.
Proof. exact refresh_inj. Qed.
Print Assumptions C31_mixmax_injective.

(* the 64-bit multiplication used for seeding *)
Theorem C31_mixmax_fmodmul :
  forall cum s a, 0 <= cum <= 2 ^ 61 + 1 -> 0 <= s <= 2 ^ 61 - 1 -> 0 <= a <= 2 ^ 61 + 1 ->
  0 <= mx_fmodmul cum s a <= 2 ^ 61 + 1 /\ mx_fmodmul cum s a mod p61 = (cum + s * a) mod p61.
Proof.
  intros cum s a H1 H2 H3. destruct (fmodmul_spec cum s a H1 H2 H3) as [A B]. split; [exact A|apply cg_mod; exact B].
Qed.
Print Assumptions C31_mixmax_fmodmul.
Example C31_fmodmul_case : mx_fmodmul 1 (2 ^ 61 - 2) (2 ^ 61 + 1) = 2 ^ 61 - 2.
Proof. vm_compute. reflexivity. Qed.

(* The outputs do not always lie in [min(), max()]: the stored elements may be
   2^61, from a state whose elements are all canonical and which operator>>
   accepts. *)
Definition c31_v : list Z := [2 ^ 36 - 2; 1; 2 ^ 61 - 2 ^ 36 - 1] ++ repeat 0 14.
Theorem C31_mixmax_range_refuted :
  exists e xs e', mm_state 17 (mxV e) (mxsum e) /\ Forall (fun a => 0 <= a <= mx_max) (mxV e) /\
    (forall e0 ts, mx_read 17 e0 (good_in (mx_write 17 e ++ ts)) = Some (e, good_in ts)) /\
    run (mx_next 17 36) 3 e = Some (xs, e') /\ ~ Forall (fun x => mx_min <= x <= mx_max) xs.
Proof.
  exists (Mx c31_v (2 ^ 61 - 2) 16), [0; 2 ^ 61 - 1; 2 ^ 61]. eexists.
  split; [split; [reflexivity|split; [apply forall_le; vm_compute; reflexivity|vm_compute; repeat split; congruence]]|].
  split; [apply forall_le; vm_compute; reflexivity|].
  split.
  { intros e0 ts. rewrite read_write; [reflexivity|reflexivity|apply forall_lt64; vm_compute; reflexivity| | |reflexivity];
      vm_compute; split; congruence. }
  split; [vm_compute; reflexivity|]. intros H. rewrite Forall_forall in H.
  specialize (H (2 ^ 61) ltac:(right; right; left; reflexivity)). vm_compute in H. destruct H as [_ H]. apply H. reflexivity.
Qed.
Print Assumptions C31_mixmax_range_refuted.

(* ---- C32 ---- *)
(* Partial: the counter must not be 17, and the elements must be canonical. *)
Theorem C32_mixmax_restore_partial :
  forall cl ma ru sm k xs e e0 ts,
  0 <= cl < 2 ^ 32 -> 0 <= ma < 2 ^ 32 -> 0 <= ru < 2 ^ 32 -> 0 <= sm < 2 ^ 32 ->
  run (mx_next 17 36) k (mx_seed4 cl ma ru sm) = Some (xs, e) ->
  mxcnt e < 17 -> Forall (fun a => a <= 2 ^ 61 - 1) (mxV e) ->
  mx_read 17 e0 (good_in (mx_write 17 e ++ ts)) = Some (e, good_in ts).
Proof. exact restore_thm. Qed.
Print Assumptions C32_mixmax_restore_partial.
Example C32_case : exists xs e, run (mx_next 17 36) 20 (mx_seed4 0 0 0 0) = Some (xs, e) /\
  mxcnt e < 17 /\ Forall (fun a => a <= 2 ^ 61 - 1) (mxV e).
Proof.
  eexists _, _. split; [vm_compute; reflexivity|]. split; [reflexivity|].
  apply forall_hi. vm_compute. reflexivity.
Qed.

(* every state with the counter at the end of the block is rejected *)
Theorem C32_mixmax_restore_fails :
  forall n e e0 ts, Z.of_nat n < 2 ^ 31 -> mm_state n (mxV e) (mxsum e) -> mxcnt e = Z.of_nat n ->
  mx_read n e0 (good_in (mx_write n e ++ ts)) = Some (e0, IStr ts true).
Proof. exact restore_fail. Qed.
Print Assumptions C32_mixmax_restore_fails.

(* such a state is reached by 16 calls on an engine constructed with seed 0 *)
Theorem C32_mixmax_restore_refuted :
  exists xs e, run (mx_next 17 36) 16 (mx_seed 0) = Some (xs, e) /\
  forall e0 ts, mx_read 17 e0 (good_in (mx_write 17 e ++ ts)) = Some (e0, IStr ts true).
Proof.
  eexists _, _. split; [vm_compute; reflexivity|]. intros e0 ts. apply restore_fail; [reflexivity| |reflexivity].
  split; [reflexivity|]. split; [apply forall_le; vm_compute; reflexivity|vm_compute; repeat split; congruence].
Qed.
Print Assumptions C32_mixmax_restore_refuted.

Theorem C32_mixmax_equal : forall a b, mx_eq a b = true <-> a = b.
Proof. exact eq_thm. Qed.
Print Assumptions C32_mixmax_equal.

(* ---- C49 ---- *)
(* seeding with four 32-bit numbers jumps 2^512 * id steps of the recurrence
   from the unit vector *)
Theorem C49_mixmax_seed :
  forall cl ma ru sm, 0 <= cl < 2 ^ 32 -> 0 <= ma < 2 ^ 32 -> 0 <= ru < 2 ^ 32 -> 0 <= sm < 2 ^ 32 ->
  let e := mx_seed4 cl ma ru sm in
  mm_state 17 (mxV e) (mxsum e) /\ mxcnt e = 1 /\ mxsum e = mx_sumtot (mxV e) /\
  red (mxV e) = red (iter (Z.to_nat (2 ^ 512 * (sm + 2 ^ 32 * ru + 2 ^ 64 * ma + 2 ^ 96 * cl))) (mm_apply 36) (unit0 17)).
Proof. exact seed4_thm. Qed.
Print Assumptions C49_mixmax_seed.

(* seed(value) with a 64-bit value *)
Theorem C49_mixmax_seed_value :
  forall x, 0 <= x < 2 ^ 64 ->
  mxcnt (mx_seed x) = 1 /\ red (mxV (mx_seed x)) = red (iter (Z.to_nat (2 ^ 512 * x)) (mm_apply 36) (unit0 17)).
Proof. exact seed_value_thm. Qed.
Print Assumptions C49_mixmax_seed_value.

(* the numbers delivered after seeding *)
Theorem C49_mixmax_seeded_outputs :
  forall cl ma ru sm k, 0 <= cl < 2 ^ 32 -> 0 <= ma < 2 ^ 32 -> 0 <= ru < 2 ^ 32 -> 0 <= sm < 2 ^ 32 ->
  exists xs e, run (mx_next 17 36) k (mx_seed4 cl ma ru sm) = Some (xs, e) /\ length xs = k /\
    Forall (fun x => 0 <= x <= 2 ^ 61 + 1) xs /\
    forall i, (i < k)%nat -> nth i xs 0 mod p61 =
      mm_out 17 36 (iter (Z.to_nat (2 ^ 512 * (sm + 2 ^ 32 * ru + 2 ^ 64 * ma + 2 ^ 96 * cl))) (mm_apply 36) (unit0 17)) i.
Proof. exact seeded_outputs. Qed.
Print Assumptions C49_mixmax_seeded_outputs.
(* the seed 5 of the second word *)
Example C49_case : 0 <= 5 < 2 ^ 32 /\ 5 + 2 ^ 32 * 1 = 4294967301 /\ mx_seed (2 ^ 32) = mx_seed4 0 0 1 0.
Proof. repeat split; lia. Qed.
