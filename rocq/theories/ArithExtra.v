From Verif Require Import Base ArithSpec ArithModel ArithProofs.

Lemma muldivmod_wrong : exists a b m, 0 <= a < m /\ 0 <= b < m /\ 0 < m < 2 ^ 64 /\
    muldivmod a b m <> Some (a * b / m, a * b mod m).
Proof.
  exists (2 ^ 61 - 2), (2 ^ 32), (2 ^ 61 - 1). repeat split; try lia.
  vm_compute. discriminate.
Qed.

Lemma mulmod_unsafe_ex m : 2 ^ 32 <= m < 2 ^ 64 ->
  2 ^ 32 + 2 ^ nshift m <= nmod m / 2 ^ 32 + nmod m mod 2 ^ 32 ->
  exists a b, 0 <= a < m /\ 0 <= b < 2 ^ 64 /\ mulmod a b m <> Some (a * b mod m).
Proof.
  intros Hm Hu. exists (m - 1), (2 ^ 32). split; [lia|]. split; [lia|]. apply mulmod_unsafe; assumption.
Qed.

Lemma muldiv_zero_wrong : exists a b, 0 <= a < 2 ^ 64 /\ 0 <= b < 2 ^ 64 /\
    muldiv a b 0 <> Some (a * b / 2 ^ 64).
Proof.
  exists (2 ^ 63), 2. repeat split; try lia. vm_compute. discriminate.
Qed.
