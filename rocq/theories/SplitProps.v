(* C29, C30: splitmix64 *)
From Verif Require Import Base SplitModel SplitSpec SplitProofs.

(* ================= C29 ================= *)

(* from any state, each 64-bit value is returned by exactly one of the next 2^64
   calls.  (After k calls the engine is again in some state, so this is true of
   any 2^64 consecutive calls.) *)
Theorem C29_splitmix_each_value_once :
  forall s v, word64 s -> word64 v ->
  exists n, Z.of_nat n < 2 ^ 64 /\ sm_out s n = v /\ forall m, Z.of_nat m < 2 ^ 64 -> sm_out s m = v -> m = n.
Proof. exact period_thm. Qed.
Print Assumptions C29_splitmix_each_value_once.

(* the period is 2^64 *)
Theorem C29_splitmix_period : forall s n, word64 s -> sm_out s (n + Z.to_nat (2 ^ 64)) = sm_out s n.
Proof. exact period_exact. Qed.
Print Assumptions C29_splitmix_period.

(* the outputs are those of the published algorithm *)
Theorem C29_splitmix_output : forall s n, word64 s -> sm_out s n = sm_mix (sm_counter s (Z.of_nat n + 1)).
Proof. exact out_n. Qed.
Print Assumptions C29_splitmix_output.

Theorem C29_splitmix_range : forall s n, word64 s -> sm_min <= sm_out s n <= sm_max.
Proof. exact out_range. Qed.
Print Assumptions C29_splitmix_range.

(* discard(z) is z calls, generate stores successive outputs *)
Theorem C29_splitmix_discard : forall z s n, sm_out (sm_discard z s) n = sm_out s (z + n).
Proof. exact discard_thm. Qed.
Print Assumptions C29_splitmix_discard.
Theorem C29_splitmix_generate : forall n s, sm_generate n s = (map (sm_out s) (seq 0 n), sm_discard n s).
Proof. exact generate_thm. Qed.
Print Assumptions C29_splitmix_generate.

Theorem C29_splitmix_seed :
  forall v, word64 v -> word64 (sm_seed v) /\ (v <> 0 -> sm_seed v = v) /\ sm_seed 0 = 0xA164B43C8F634A13.
Proof. exact seed_thm. Qed.
Print Assumptions C29_splitmix_seed.
Theorem C29_splitmix_seed_seq :
  forall a b, 0 <= a < 2 ^ 32 -> 0 <= b < 2 ^ 32 -> sm_concatenate a b = a * 2 ^ 32 + b.
Proof. exact concat_thm. Qed.
Print Assumptions C29_splitmix_seed_seq.

(* the value that test_splitmix64.cpp expects of the 10000th call *)
Example C29_validation_case : sm_out (sm_seed_int 0) (Z.to_nat 9999) = 542758903869407163.
Proof. vm_compute. reflexivity. Qed.
Example C29_word_case : word64 (sm_seed_int (-1)) /\ sm_seed_int (-1) = 2 ^ 64 - 1.
Proof. split; [unfold word64, M64; vm_compute; split; congruence|reflexivity]. Qed.

(* ================= C30 ================= *)

(* Partial: the text that follows must not contain a digit. *)
Theorem C30_splitmix_restore_partial :
  forall s t, word64 s -> dec_digits t = [] ->
  exists i, sm_read (Cstr (sm_write s ++ t) false) = (s, i) /\ sm_eq (fst (sm_read (Cstr (sm_write s ++ t) false))) s = true.
Proof. exact text_restored. Qed.
Print Assumptions C30_splitmix_restore_partial.
(* " abc;" *)
Example C30_case : word64 1234567 /\ dec_digits [32; 97; 98; 99; 59] = [] /\
  sm_write 1234567 = [49; 50; 51; 52; 53; 54; 55].
Proof. vm_compute. repeat split; congruence. Qed.

(* exactly when the state is restored *)
Theorem C30_splitmix_restore_iff :
  forall s t, word64 s ->
  (fst (sm_read (Cstr (sm_write s ++ t) false)) = s <->
   dec_digits t = [] \/ s = 2 ^ 64 - 1 \/ (s = 0 /\ dec_value (dec_digits t) = 0)).
Proof. exact text_iff. Qed.
Print Assumptions C30_splitmix_restore_iff.

(* all digits of the rest of the stream are read into the state, the rest of
   the stream is consumed, and the stream is left in the failed state *)
Theorem C30_splitmix_reads_all :
  forall s t, word64 s ->
  sm_read (Cstr (sm_write s ++ t) false) =
  (Z.min (2 ^ 64 - 1) (s * 10 ^ Z.of_nat (length (dec_digits t)) + dec_value (dec_digits t)), Cstr [] true).
Proof. exact text_thm. Qed.
Print Assumptions C30_splitmix_reads_all.

(* two engines written one after the other, with a blank between them *)
Theorem C30_splitmix_restore_refuted :
  exists s t, word64 s /\ fst (sm_read (Cstr (sm_write s ++ 32 :: sm_write t) false)) <> s.
Proof. exists 12, 34. vm_compute. repeat split; congruence. Qed.
Print Assumptions C30_splitmix_restore_refuted.
(* reading what was written always makes the stream fail *)
Theorem C30_splitmix_stream_fails_refuted :
  exists s, word64 s /\ cfail (snd (sm_read (Cstr (sm_write s) false))) = true.
Proof. exists 1. vm_compute. repeat split; congruence. Qed.
Print Assumptions C30_splitmix_stream_fails_refuted.
(* a stream that has failed before sets the state to 0 *)
Theorem C30_splitmix_failed_stream : forall l, sm_read (Cstr l true) = (0, Cstr l true).
Proof. exact text_failed. Qed.
Print Assumptions C30_splitmix_failed_stream.
