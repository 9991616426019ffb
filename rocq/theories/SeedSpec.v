(* What seeding from 32-bit words is specified to do. *)
From Verif Require Import Base.

(* little-endian combination of words *)
Fixpoint le_value (l : list Z) : Z :=
  match l with [] => 0 | e :: r => e + 2 ^ 32 * le_value r end.

(* k is the least number of 32-bit words that can hold every residue modulo M *)
Definition words_for (M : Z) (k : nat) : Prop :=
  (1 <= k)%nat /\ 2 ^ (32 * (Z.of_nat k - 1)) < M <= 2 ^ (32 * Z.of_nat k).

Definition word (e : Z) : Prop := 0 <= e < 2 ^ 32.

(* n numbers of w bits, each made of c consecutive elements of l *)
Fixpoint chunks (c : nat) (w : Z) (n : nat) (l : list Z) : list Z :=
  match n with
  | O => []
  | S n' => le_value (firstn c l) mod 2 ^ w :: chunks c w n' (skipn c l)
  end.

(* c 32-bit words are needed for w bits: c = ceil(w/32) *)
Definition words_per (w : Z) (c : nat) : Prop := 32 * (Z.of_nat c - 1) < w <= 32 * Z.of_nat c.

(* n numbers below 2^w *)
Definition below (w : Z) (n : nat) (x : list Z) : Prop :=
  length x = n /\ (forall v, In v x -> 0 <= v < 2 ^ w).

(* the n words x(1), x(2), ... of the sequence x(i) = a x(i-1) mod M *)
Definition mlcg_words (a M x : Z) (n : nat) : list Z := map (fun i => a ^ Z.of_nat (S i) * x mod M) (seq 0 n).
