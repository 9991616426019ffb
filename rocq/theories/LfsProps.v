(* C24: linear_feedback_shift_engine *)
From Verif Require Import Base LfsModel LfsSpec LfsProofs.

(* Partial: word types of exactly w bits, as in taus88; refuted below for wider
   ones.  The outputs are [iter (n+1)] of the seeded value. *)
Theorem C24_lfs_range_partial :
  forall p v n, lfs_params p -> lW p = lw p -> 0 <= v < 2 ^ lW p ->
  lfs_min <= iter n (lfs_next p) v <= lfs_max p.
Proof. exact range_thm. Qed.
Print Assumptions C24_lfs_range_partial.

(* uint64_t with w = 32 *)
Theorem C24_lfs_range_refuted :
  exists p s0 v n, lfs_params p /\ lW p = 64 /\ lfs_seed p s0 = Some v /\ lfs_max p < iter n (lfs_next p) v.
Proof. exact wide_wrong. Qed.
Print Assumptions C24_lfs_range_refuted.

(* For all word types: there is one bit sequence with a(n+k) = a(n) xor a(n+q)
   whose digits from position t*s on are the leading digits of the t-th word.
   At least the k leading digits obey it, and k-q-s more with every step.
   Partial: says nothing about the remaining digits, see the refutation. *)
Theorem C24_lfs_tausworthe_partial :
  forall p v, lfs_params p -> exists a, tausworthe (lk p) (lq p) a /\
  forall t, word_at (lw p) (lfs_len p t) a (Z.of_nat t * ls p) (iter t (lfs_next p) v).
Proof. exact run_word. Qed.
Print Assumptions C24_lfs_tausworthe_partial.

(* hence all digits of all words after the first few if s < k-q *)
Theorem C24_lfs_tausworthe_full :
  forall p v, lfs_params p -> exists a, tausworthe (lk p) (lq p) a /\
  forall t, lw p <= lk p + Z.of_nat t * (lk p - lq p - ls p) ->
  word_at (lw p) (lw p) a (Z.of_nat t * ls p) (iter t (lfs_next p) v).
Proof. exact full_thm. Qed.
Print Assumptions C24_lfs_tausworthe_full.

Example C24_taus_case : lfs_params (taus_a 32) /\ lw (taus_a 32) <= lk (taus_a 32) + 1 * (lk (taus_a 32) - lq (taus_a 32) - ls (taus_a 32)).
Proof. split; [apply taus_a_params|vm_compute; discriminate]. Qed.
Example C24_taus_run : lfs_seed (taus_a 32) 341 = Some 341 /\ map (fun n => iter n (lfs_next (taus_a 32)) 341) [1; 2; 3]%nat = [1392645; 1409307906; 89140180].
Proof. vm_compute. split; reflexivity. Qed.

(* successive words, digit by digit from the left, for all digits, word types and states *)
Theorem C24_lfs_successive :
  forall p v j, lfs_params p -> 0 <= j < lw p ->
  Z.testbit (lfs_next p v) (lw p - 1 - j) =
  if j <? lk p - ls p then Z.testbit v (lw p - 1 - (j + ls p))
  else xorb (Z.testbit v (lw p - 1 - (j - (lk p - ls p)))) (Z.testbit v (lw p - 1 - (j - (lk p - ls p) + lq p))).
Proof. exact next_bit. Qed.
Print Assumptions C24_lfs_successive.

(* if s = k-q the trailing digits of the seed disturb the recurrence for good *)
Theorem C24_lfs_tausworthe_refuted :
  exists p s0 v, lfs_params p /\ lW p = lw p /\ lfs_seed p s0 = Some v /\ ~ word_obeys p (iter 50 (lfs_next p) v).
Proof. exact low_digits_wrong. Qed.
Print Assumptions C24_lfs_tausworthe_refuted.

(* a register seeded with any value never dies.  Partial: w-k <= 30. *)
Theorem C24_lfs_never_stuck_partial :
  forall p s0, lfs_params p -> lw p - lk p <= 30 ->
  exists v, lfs_seed p s0 = Some v /\ 0 <= v < 2 ^ lw p /\ forall n, ~ lfs_dead p (iter n (lfs_next p) v).
Proof. exact live_thm. Qed.
Print Assumptions C24_lfs_never_stuck_partial.

(* what the seeded value is *)
Theorem C24_lfs_seed_partial :
  forall p s0, lfs_params p -> lw p - lk p <= 30 ->
  exists v, lfs_seed p s0 = Some v /\ ~ lfs_dead p v /\
    (v = s0 mod 2 ^ lw p \/ v = s0 mod 2 ^ lw p + 2 ^ (lw p - lk p)).
Proof. exact seed_thm. Qed.
Print Assumptions C24_lfs_seed_partial.

(* a dead register, on the other hand, stays dead *)
Theorem C24_lfs_dead_stays : forall p v n, lfs_params p -> lfs_dead p v -> lfs_dead p (iter n (lfs_next p) v).
Proof. exact dead_thm. Qed.
Print Assumptions C24_lfs_dead_stays.
Example C24_dead_case : lfs_dead (taus_a 32) 1 /\ iter 4 (lfs_next (taus_a 32)) 1 = 0.
Proof. split; [|vm_compute; reflexivity]. intros j Hj. cbn [taus_a lw lk] in *. apply (BitsProofs.bits_above 1 1); lia. Qed.

(* w-k = 31: "1 << (w-k)" is negative, and seed(2^31) gives the dead state *)
Theorem C24_lfs_seed_stuck_refuted :
  exists p s0 v, lfs_params p /\ lW p = 64 /\ 0 <= s0 < 2 ^ lw p /\ lfs_seed p s0 = Some v /\ lfs_dead p v.
Proof. exact wide_seed_wrong. Qed.
Print Assumptions C24_lfs_seed_stuck_refuted.
(* w-k > 31: seeding is undefined *)
Theorem C24_lfs_seed_undefined_refuted :
  exists p, lfs_params p /\ lW p = lw p /\ forall s0, lfs_seed p s0 = None.
Proof. exact seed_undefined. Qed.
Print Assumptions C24_lfs_seed_undefined_refuted.
