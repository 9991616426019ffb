(* What the lagged Fibonacci engines are specified to do. *)
From Verif Require Import Base LfModel.

Definition lf_params (p q : nat) : Prop := (1 <= q < p)%nat /\ Z.of_nat p <= 2 ^ 32 - 1.

(* p values below 2^w and the position of the next one *)
Definition lf_wf (w : Z) (p : nat) (st : lf) : Prop :=
  length (lx st) = p /\ 0 <= li st < 2 ^ 32 /\ (forall v, In v (lx st) -> 0 <= v < 2 ^ w).

(* X(0), X(1), ... is the sequence x(n) = x(n-p) + x(n-q) mod 2^w that starts with x *)
Definition lf_sequence (w : Z) (p q : nat) (x : list Z) (X : nat -> Z) : Prop :=
  (forall j, (j < p)%nat -> X j = nth j x 0) /\
  (forall n, (p <= n)%nat -> X n = (X (n - p)%nat + X (n - q)%nat) mod 2 ^ w).

Definition lf_outputs (op : Z -> Z -> option Z) (p q n : nat) (st : lf) : option (list Z) :=
  r <- run (lf_next op p q) n st;; Some (fst r).
Definition lf_same_future (op : Z -> Z -> option Z) (p q : nat) (a b : lf) : Prop :=
  forall n, lf_outputs op p q n a = lf_outputs op p q n b.
