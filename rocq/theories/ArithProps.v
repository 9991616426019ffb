(* C47: the 64-bit multiply-divide helper *)
From Verif Require Import Base ArithSpec ArithModel ArithProofs ArithExtra.

(* C47, positive part.  a*b/m and a*b mod m are exact if a is reduced and either
   the digits of the (normalised) modulus satisfy [safe_mod] or a*b is at most
   (2^32-2)*m (for instance if b is below 2^32-1).  Missing for the full
   statement: see the refutations below. *)
Theorem C47_muldivmod_exact_partial :
  forall a b m, 0 < m < 2 ^ 64 -> 0 <= a < m -> 0 <= b < 2 ^ 64 ->
  safe_mod m \/ a * b <= m * (2 ^ 32 - 2) ->
  muldivmod a b m = Some (a * b / m, a * b mod m).
Proof. exact muldivmod_quot. Qed.
Print Assumptions C47_muldivmod_exact_partial.

Example C47_case_small_b :
  muldivmod (2 ^ 61 - 2) 1000003 (2 ^ 61 - 1) = Some ((2 ^ 61 - 2) * 1000003 / (2 ^ 61 - 1), (2 ^ 61 - 2) * 1000003 mod (2 ^ 61 - 1)).
Proof. vm_compute. reflexivity. Qed.
Example C47_case_safe : safe_mod (5 * 2 ^ 40) /\ safe_mod (2 ^ 40) /\ safe_mod (2 ^ 64 - 2 ^ 32).
Proof. repeat split; vm_compute; discriminate. Qed.

(* C47 fails for a modulus such as the Mersenne prime 2^61-1 *)
Theorem C47_muldivmod_refuted :
  exists a b m, 0 <= a < m /\ 0 <= b < m /\ 0 < m < 2 ^ 64 /\
    muldivmod a b m <> Some (a * b / m, a * b mod m).
Proof. exact muldivmod_wrong. Qed.
Print Assumptions C47_muldivmod_refuted.

(* C47 fails for every modulus of at least 33 bits whose normalised digit sum
   exceeds 2^32 by at least 2^shift: the hypothesis of the positive theorem is
   not an artefact of the proof *)
Theorem C47_muldivmod_unsafe_refuted :
  forall m, 2 ^ 32 <= m < 2 ^ 64 ->
  2 ^ 32 + 2 ^ nshift m <= nmod m / 2 ^ 32 + nmod m mod 2 ^ 32 ->
  exists a b, 0 <= a < m /\ 0 <= b < 2 ^ 64 /\ mulmod a b m <> Some (a * b mod m).
Proof. exact mulmod_unsafe_ex. Qed.
Print Assumptions C47_muldivmod_unsafe_refuted.

Example C47_unsafe_case : 2 ^ 32 + 2 ^ nshift (2 ^ 61 - 1) <= nmod (2 ^ 61 - 1) / 2 ^ 32 + nmod (2 ^ 61 - 1) mod 2 ^ 32.
Proof. vm_compute. discriminate. Qed.

(* C47 with m = 0 standing for 2^64: the quotient is wrong *)
Theorem C47_muldivmod_zero_refuted :
  exists a b, 0 <= a < 2 ^ 64 /\ 0 <= b < 2 ^ 64 /\
    muldiv a b 0 <> Some (a * b / 2 ^ 64).
Proof. exact muldiv_zero_wrong. Qed.
Print Assumptions C47_muldivmod_zero_refuted.
