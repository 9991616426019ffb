(* Subtract with carry as a linear congruential generator. *)
From Verif Require Import Base SwcModel SwcSpec AdaptSpec.

(* x(0) + x(1) b + x(2) b^2 + ... *)
Fixpoint digits (b : Z) (l : list Z) : Z := match l with [] => 0 | x :: l => x + b * digits b l end.

(* b^r - b^s + 1, b = 2^w *)
Definition swc_modulus (w : Z) (s r : nat) : Z := 2 ^ (w * Z.of_nat r) - 2 ^ (w * Z.of_nat s) + 1.

(* the state of the congruential generator that goes with the last r values,
   oldest first, and the carry *)
Definition swc_lcg (w : Z) (s r : nat) (st : swc) : Z :=
  digits (2 ^ w) (swc_history st) - digits (2 ^ w) (skipn (r - s) (swc_history st)) + cy st.

(* the state of an engine after n calls *)
Definition eng_after {S} (f : S -> Z * S) (n : nat) (s : S) : S := iter n (fun x => snd (f x)) s.

(* the k-th output of the congruential generator with modulus m and multiplier
   1/b, started in x: the k-th state is the number y below m with b^k y = x, the
   output is -y mod b *)
Definition lcg_output (b m x : Z) (k : Z) (v : Z) : Prop :=
  exists y, 0 < y < m /\ (b ^ k * y) mod m = x /\ v = (- y) mod b.

(* outputs repeat with period p *)
Definition repeats {S} (f : S -> Z * S) (s : S) (p : nat) : Prop := forall n, eng_out f s (n + p) = eng_out f s n.
