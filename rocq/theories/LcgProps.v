(* C06-C13: congruential engines *)
From Verif Require Import Base ArithSpec ArithModel ArithProofs ConstModProofs StreamModel LcgModel
  InvertProofs LcgProofs Lcg2Proofs Lcg3Proofs LcgExtra NumProofs.
From Coq Require Import Znumtheory.

(* ================= C06: recurrence ================= *)

(* Partial: the multiplication by a modulo m must be one of the exact ones
   ([exact_mult]: every m up to 2^32, every power of two incl. m = 0, every m
   with [safe_mod], small products, Schrage).  For the other moduli the claim is
   refuted below. *)
Theorem C06_lcg_recurrence_partial :
  forall t a c m n x, lcg_wf t a c m -> exact_mult t m a -> 0 <= x < cmod t m ->
  iterM n (lcg_next t a c m) x = Some (nth_state (lcg_spec a c (cmod t m)) x n).
Proof. exact (fun t a c m n x H1 H2 H3 => proj1 (lcg_iter t a c m n x H1 H2 H3)). Qed.
Print Assumptions C06_lcg_recurrence_partial.

Theorem C06_exact_small_moduli : forall m, 0 <= m <= 2 ^ 32 -> exact_mod m.
Proof. exact exact_small. Qed.
Theorem C06_exact_power_of_two : forall t m, cm_wf t m -> is_pow2 (cmod t m) -> exact_mod m.
Proof. exact exact_pow2. Qed.
Print Assumptions C06_exact_small_moduli.
Print Assumptions C06_exact_power_of_two.

Example C06_minstd_case : lcg_wf u32 16807 0 2147483647 /\ exact_mult u32 2147483647 16807 /\ 0 <= 12345 < cmod u32 2147483647.
Proof. split; [apply minstd_wf; lia|]. split; [left; apply exact_small; lia|vm_compute; split; congruence]. Qed.
(* Knuth's MMIX generator, m = 2^64 *)
Example C06_mmix_case : lcg_wf u64 6364136223846793005 1442695040888963407 0 /\ exact_mult u64 0 6364136223846793005.
Proof.
  split; [|left; left; reflexivity]. unfold lcg_wf, cm_wf, wf_ity, cmod. cbn [bits sgn u64 Z.eqb].
  repeat split; try lia.
Qed.

Theorem C06_lcg_recurrence_refuted :
  exists t a c m x, lcg_wf t a c m /\ 0 <= x < cmod t m /\
    lcg_next t a c m x <> Some (lcg_spec a c (cmod t m) x).
Proof. exact lcg_next_wrong. Qed.
Print Assumptions C06_lcg_recurrence_refuted.

(* ================= C07: range ================= *)

(* Partial: with increment 0 the multiplier must be coprime to the modulus
   (always the case for the documented prime moduli). *)
Theorem C07_lcg_range_partial :
  forall t a c m x, lcg_wf t a c m -> exact_mult t m a -> c <> 0 \/ Z.gcd a (cmod t m) = 1 ->
  lcg_reach t a c m x ->
  exists y, lcg_next t a c m x = Some y /\ lcg_min c <= y <= lcg_max t m.
Proof. exact lcg_reach_range. Qed.
Print Assumptions C07_lcg_range_partial.

Theorem C07_lcg_max_is_modulus_minus_1 : forall t m, cm_wf t m -> lcg_max t m = cmod t m - 1.
Proof. exact lcg_max_ok. Qed.
Print Assumptions C07_lcg_max_is_modulus_minus_1.

Example C07_case : lcg_reach u32 48271 0 2147483647 1 /\ Z.gcd 48271 (cmod u32 2147483647) = 1.
Proof.
  split; [|reflexivity]. apply (lr_seed u32 48271 0 2147483647 0); [vm_compute; split; discriminate|reflexivity].
Qed.

Theorem C07_lcg_range_refuted :
  exists t a c m x0 x y, lcg_wf t a c m /\ exact_mod m /\ lcg_seed t a c m x0 = Some x /\
    iterM 2 (lcg_next t a c m) x = Some y /\ y < lcg_min c.
Proof. exact lcg_zero_wrong. Qed.
Print Assumptions C07_lcg_range_refuted.

(* ================= C08: discard ================= *)

(* Exact characterisation: for multipliers >= 2 whose powers do not vanish (or a
   power-of-two modulus, or no increment), discard is right for all states and
   counts if and only if c*h = c modulo M, where g = gcd(a-1,M) and
   h = gcd((a-1)/g, M). *)
Theorem C08_lcg_discard_partial :
  forall t a c m, lcg_wf t a c m -> exact_mod m -> 2 <= a ->
  (disc_g a (cmod t m) = 1 -> c = 0 \/ is_pow2 (cmod t m) \/ forall z, 0 <= z -> a ^ z mod cmod t m <> 0) ->
  ((forall z x, 0 <= z -> 0 <= x < cmod t m ->
     lcg_discard t a c m z x = iterM (Z.to_nat z) (lcg_next t a c m) x)
   <-> eqm (cmod t m) (c * disc_h a (cmod t m)) c).
Proof. exact lcg_discard_iff. Qed.
Print Assumptions C08_lcg_discard_partial.

(* prime moduli (minstd_rand, minstd_rand0, ecuyer1988 components) *)
Theorem C08_lcg_discard_prime :
  forall t a c m z x, lcg_wf t a c m -> exact_mod m -> 2 <= a -> prime (cmod t m) ->
  0 <= z -> 0 <= x < cmod t m ->
  lcg_discard t a c m z x = iterM (Z.to_nat z) (lcg_next t a c m) x.
Proof. exact lcg_discard_prime. Qed.
Print Assumptions C08_lcg_discard_prime.

(* power-of-two moduli, including m = 0 *)
Theorem C08_lcg_discard_pow2 :
  forall t a c m z x, lcg_wf t a c m -> 2 <= a -> is_pow2 (cmod t m) ->
  0 <= z -> 0 <= x < cmod t m ->
  lcg_discard t a c m z x = iterM (Z.to_nat z) (lcg_next t a c m) x.
Proof. exact lcg_discard_pow2. Qed.
Print Assumptions C08_lcg_discard_pow2.

Example C08_case_prime : lcg_wf u32 48271 0 2147483647 /\ exact_mod 2147483647 /\ prime (cmod u32 2147483647).
Proof. split; [apply minstd_wf; lia|]. split; [apply exact_small; lia|exact prime_2147483647]. Qed.
Example C08_case_pow2 : is_pow2 (cmod u64 0).
Proof. exists 64. split; [lia|reflexivity]. Qed.

(* a full-period generator on which discard(1) differs from one call *)
Theorem C08_lcg_discard_refuted :
  exists t a c m x z, lcg_wf t a c m /\ exact_mod m /\ 2 <= a /\
  0 <= x < cmod t m /\ 0 <= z /\
  lcg_discard t a c m z x <> iterM (Z.to_nat z) (lcg_next t a c m) x.
Proof. exact lcg_discard_wrong_full_period. Qed.
Print Assumptions C08_lcg_discard_refuted.

(* the hypothesis on vanishing powers is needed too *)
Theorem C08_lcg_discard_nilpotent_refuted :
  exists t a c m x z, lcg_wf t a c m /\ exact_mod m /\ 2 <= a /\ disc_g a (cmod t m) = 1 /\
  0 <= x < cmod t m /\ 0 <= z /\
  lcg_discard t a c m z x <> iterM (Z.to_nat z) (lcg_next t a c m) x.
Proof. exact lcg_discard_wrong_nilpotent. Qed.
Print Assumptions C08_lcg_discard_nilpotent_refuted.

(* multiplier 1 (legal for the class): discard divides by zero for every z *)
Theorem C08_lcg_discard_multiplier_one_refuted :
  forall t c m z x, lcg_wf t 1 c m -> lcg_discard t 1 c m z x = None.
Proof. exact lcg_discard_a1. Qed.
Print Assumptions C08_lcg_discard_multiplier_one_refuted.
Example C08_case_one : lcg_wf u32 1 7 2147483647.
Proof. unfold lcg_wf, cm_wf, wf_ity, cmod, imax. cbn [bits sgn u32 Z.eqb]. repeat split; try lia. Qed.

(* ================= C09: seeding ================= *)

Theorem C09_lcg_seed :
  forall t a c m x0, lcg_wf t a c m -> inT t x0 ->
  lcg_seed t a c m x0 = Some (lcg_seed_spec c (cmod t m) x0) /\ lcg_in c (cmod t m) (lcg_seed_spec c (cmod t m) x0).
Proof. exact (fun t a c m x0 H1 H2 => conj (lcg_seed_ok t a c m x0 H1 H2) (lcg_seed_in c (cmod t m) x0 (proj1 (proj2 H1)))). Qed.
Print Assumptions C09_lcg_seed.

Example C09_case : lcg_seed i32 16807 0 2147483647 (-5) = Some 2147483642 /\ inT i32 (-5).
Proof. vm_compute. repeat split; discriminate. Qed.

(* ================= C10: streaming ================= *)

Theorem C10_lcg_save_restore :
  forall t c m x y rest, cm_wf t m -> lcg_in c (cmod t m) x ->
  lcg_read t c m y (good_in (lcg_write x ++ rest)) = (x, good_in rest).
Proof. exact lcg_read_write. Qed.
Print Assumptions C10_lcg_save_restore.

(* any input: either a number in range was read and nothing else consumed, or
   the stream is failed and the engine unchanged *)
Theorem C10_lcg_bad_input :
  forall t c m y s, cm_wf t m ->
  let '(y', s') := lcg_read t c m y s in
  (failb s' = false /\ exists rest, toks s = TInt y' :: rest /\ toks s' = rest /\ lcg_in c (cmod t m) y') \/
  (failb s' = true /\ y' = y).
Proof. exact lcg_read_cases. Qed.
Print Assumptions C10_lcg_bad_input.

Example C10_case : lcg_in 0 (cmod u32 2147483647) 77 /\
  lcg_read u32 0 2147483647 77 (good_in [TInt 2147483647]) = (77, IStr [] true).
Proof. vm_compute. repeat split; try discriminate. Qed.

(* ================= C11: rand48 ================= *)

Theorem C11_rand48_posix :
  forall x n s, 0 <= x < 2 ^ 32 -> r48_seed x = Some s ->
  run r48_next n s =
    Some (map (fun i => posix_lrand48 (nth_state posix_step (posix_seed x) i)) (seq 1 n),
          nth_state posix_step (posix_seed x) n).
Proof. exact r48_run_ok. Qed.
Print Assumptions C11_rand48_posix.

Theorem C11_rand48_seed_total : forall x, 0 <= x < 2 ^ 32 -> r48_seed x = Some (posix_seed x) /\ 0 <= posix_seed x < 2 ^ 48.
Proof. exact r48_seed_ok. Qed.
Print Assumptions C11_rand48_seed_total.

Theorem C11_rand48_range :
  forall x n, 0 <= posix_lrand48 (nth_state posix_step (posix_seed x) (S n)) <= 0x7FFFFFFF.
Proof. exact r48_out_range. Qed.
Print Assumptions C11_rand48_range.

Theorem C11_rand48_discard :
  forall z X, 0 <= z -> 0 <= X < 2 ^ 48 ->
  r48_discard z X = Some (nth_state posix_step X (Z.to_nat z)).
Proof. exact r48_discard_ok. Qed.
Print Assumptions C11_rand48_discard.

(* the 10000th value of the test suite (test/test_rand48.cpp) *)
Example C11_case : (s <- r48_seed 1;; s <- r48_discard 9999 s;; r <- r48_next s;; Some (fst r)) = Some 1993516219.
Proof. vm_compute. reflexivity. Qed.

(* ================= C12: inversive congruential ================= *)

Theorem C12_icg_recurrence :
  forall t a b p x, lcg_wf t a b p -> exact_mult t p a -> 0 <= x < cmod t p ->
  exists i, icg_next t a b p x = Some ((a * i + b) mod cmod t p) /\ 0 <= i < cmod t p /\
    (x = 0 -> i = 0) /\ (Z.gcd x (cmod t p) = 1 -> i * x mod cmod t p = 1).
Proof. exact icg_next_ok. Qed.
Print Assumptions C12_icg_recurrence.

Theorem C12_icg_range :
  forall t a b p x n, lcg_wf t a b p -> exact_mult t p a -> prime (cmod t p) -> a <> 0 -> lcg_in b (cmod t p) x ->
  exists y, iterM n (icg_next t a b p) x = Some y /\ lcg_in b (cmod t p) y.
Proof. exact icg_range. Qed.
Print Assumptions C12_icg_range.

(* the inverse itself, any modulus, including composite ones and m = 0 *)
Theorem C12_invert :
  forall t m c, cm_wf t m -> 1 < cmod t m -> 0 < c < cmod t m ->
  exists r, cm_invert t m c = Some r /\ is_inv (cmod t m) c r.
Proof. exact cm_invert_spec. Qed.
Print Assumptions C12_invert.

(* hellekalek1995: inversive_congruential.hpp:256-257 *)
Example C12_case : lcg_wf u32 9102 2110599482 2147483647 /\ exact_mult u32 2147483647 9102 /\
  prime (cmod u32 2147483647) /\ icg_next u32 9102 2110599482 2147483647 1 = Some 2110608584.
Proof.
  split; [apply minstd_wf; lia|]. split; [left; apply exact_small; lia|].
  split; [exact prime_2147483647|reflexivity].
Qed.

(* operator>> accepts any number of the type, also outside [min(),max()] *)
Theorem C12_icg_read_refuted :
  exists t p x s x', prime p /\ fst (icg_read t x s) = x' /\ failb (snd (icg_read t x s)) = false /\
  ~ (0 <= x' < p).
Proof. exact icg_read_wrong. Qed.
Print Assumptions C12_icg_read_refuted.

(* ================= C13: additive_combine ================= *)

(* Partial: needs m2 <= m1 (as in ecuyer1988); refuted otherwise. *)
Theorem C13_additive_combine_partial :
  forall t a1 m1 a2 m2, lcg_wf t a1 0 m1 -> lcg_wf t a2 0 m2 -> exact_mult t m1 a1 -> exact_mult t m2 a2 ->
  0 < m2 <= m1 -> Z.gcd a1 m1 = 1 -> Z.gcd a2 m2 = 1 ->
  forall n s1 s2, 1 <= s1 < m1 -> 1 <= s2 < m2 ->
  exists outs, run (ac_next t a1 m1 a2 m2) n (s1, s2) =
      Some (outs, (nth_state (lcg_spec a1 0 m1) s1 n, nth_state (lcg_spec a2 0 m2) s2 n)) /\
    length outs = n /\
    forall i r, nth_error outs i = Some r -> 1 <= r <= m1 - 1 /\
      eqm (m1 - 1) r (nth_state (lcg_spec a1 0 m1) s1 (S i) - nth_state (lcg_spec a2 0 m2) s2 (S i)).
Proof. exact ac_run_ok. Qed.
Print Assumptions C13_additive_combine_partial.

(* ecuyer1988 from any 32-bit seed, for any number of calls *)
Theorem C13_ecuyer1988 :
  forall x0 n, 0 <= x0 < 2 ^ 32 ->
  exists s1 s2 outs s', ac_seed u32 ec_a1 ec_m1 ec_a2 ec_m2 x0 = Some (s1, s2) /\
    run (ac_next u32 ec_a1 ec_m1 ec_a2 ec_m2) n (s1, s2) = Some (outs, s') /\
    length outs = n /\
    forall i r, nth_error outs i = Some r -> acomb_min <= r <= acomb_max u32 ec_m1 /\
      eqm (ec_m1 - 1) r (nth_state (lcg_spec ec_a1 0 ec_m1) (lcg_seed_spec 0 ec_m1 x0) (S i)
                       - nth_state (lcg_spec ec_a2 0 ec_m2) (lcg_seed_spec 0 ec_m2 x0) (S i)).
Proof. exact ecuyer_all. Qed.
Print Assumptions C13_ecuyer1988.

Theorem C13_additive_combine_discard :
  forall t a1 m1 a2 m2 z s1 s2,
  lcg_wf t a1 0 m1 -> lcg_wf t a2 0 m2 -> exact_mod m1 -> exact_mod m2 ->
  2 <= a1 -> 2 <= a2 -> prime (cmod t m1) -> prime (cmod t m2) ->
  0 <= z -> 0 <= s1 < cmod t m1 -> 0 <= s2 < cmod t m2 ->
  ac_discard t a1 m1 a2 m2 z (s1, s2) =
    Some (nth_state (lcg_spec a1 0 (cmod t m1)) s1 (Z.to_nat z), nth_state (lcg_spec a2 0 (cmod t m2)) s2 (Z.to_nat z)).
Proof. exact ac_discard_ok. Qed.
Print Assumptions C13_additive_combine_discard.

Theorem C13_additive_combine_save_restore :
  forall t m1 m2 s1 s2 y rest, cm_wf t m1 -> cm_wf t m2 -> lcg_in 0 (cmod t m1) s1 -> lcg_in 0 (cmod t m2) s2 ->
  ac_read t m1 m2 y (good_in (ac_write (s1, s2) ++ rest)) = ((s1, s2), good_in rest).
Proof. exact ac_read_write. Qed.
Print Assumptions C13_additive_combine_save_restore.

(* a text that ends early: the missing component keeps its state, failbit is set *)
Theorem C13_additive_combine_short_text :
  forall t m1 m2 s v, cm_wf t m1 -> lcg_in 0 (cmod t m1) v ->
  ac_read t m1 m2 s (good_in [TInt v]) = ((v, snd s), IStr [] true).
Proof. exact ac_short_read. Qed.
Print Assumptions C13_additive_combine_short_text.

Example C13_case : prime ec_m1 /\ prime ec_m2 /\ lcg_wf u32 ec_a1 0 ec_m1 /\ lcg_wf u32 ec_a2 0 ec_m2.
Proof. split; [exact prime_2147483563|]. split; [exact prime_2147483399|exact ec_wf]. Qed.

Theorem C13_additive_combine_refuted :
  exists t m1 m2 v1 v2 r, 1 < m1 <= imax t /\ 1 <= v1 < m1 /\ 1 <= v2 < m2 /\
  m2 <= imax t /\ acomb t m1 v1 v2 = Some r /\ ~ (acomb_min <= r <= acomb_max t m1).
Proof. exact acomb_wrong. Qed.
Print Assumptions C13_additive_combine_refuted.
