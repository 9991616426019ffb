(* Small number theory library: primality by trial division, coprimality *)
From Verif Require Import Base.
From Coq Require Import Znumtheory.

Fixpoint trial (k : nat) (d p : Z) : bool :=
  match k with
  | O => p <? d * d
  | S k' => if p <? d * d then true else if p mod d =? 0 then false else trial k' (d + 1) p
  end.

Lemma trial_ok k d p :
  0 < d -> trial k d p = true -> forall n, d <= n -> n * n <= p -> ~ (n | p).
Proof.
  revert d. induction k as [|k IH]; intros d Hd H n Hn Hnn Hdiv; cbn [trial] in H.
  - apply Z.ltb_lt in H. nia.
  - destruct (Z.ltb_spec p (d * d)); [nia|].
    destruct (Z.eqb_spec (p mod d) 0) as [|Hmod]; [discriminate|].
    destruct (Z.eq_dec n d) as [->|Hne].
    + apply Hmod. apply Z.mod_divide; [lia|assumption].
    + apply (IH (d + 1) ltac:(lia) H n); try assumption; lia.
Qed.

Lemma trial_prime k p : 1 < p -> trial k 2 p = true -> prime p.
Proof.
  intros Hp H. apply prime_alt. split; [assumption|]. intros n Hn Hdiv.
  pose proof Hdiv as [e He].
  assert (0 < e) by nia.
  destruct (Z.le_gt_cases (n * n) p).
  - apply (trial_ok k 2 p ltac:(lia) H n); try assumption; lia.
  - assert (e * e <= p) by nia. assert (2 <= e) by nia.
    apply (trial_ok k 2 p ltac:(lia) H e); try assumption. exists n. lia.
Qed.

Lemma prime_2147483647 : prime 2147483647.
Proof. apply (trial_prime (Z.to_nat 46400)); [lia|]. vm_compute. reflexivity. Qed.
Lemma prime_2147483563 : prime 2147483563.
Proof. apply (trial_prime (Z.to_nat 46400)); [lia|]. vm_compute. reflexivity. Qed.
Lemma prime_2147483399 : prime 2147483399.
Proof. apply (trial_prime (Z.to_nat 46400)); [lia|]. vm_compute. reflexivity. Qed.

Lemma prime_gcd_small p x : prime p -> 0 < x < p -> Z.gcd x p = 1.
Proof.
  intros Hp Hx. apply Zgcd_1_rel_prime. apply rel_prime_le_prime; [assumption|lia].
Qed.
