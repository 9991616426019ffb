(* What generate_int_float_pair should do. *)
From Verif Require Import Base ProgModel ProgSpec FloatModel FloatSpec.
Open Scope Z_scope.

(* the number of n-tuples of engine outputs after exactly which the program
   returns a real number in the set P and the bucket b *)
Definition pair_count (bmin bmax : Z) (p : prog (Q * Z)) (n : nat) (P : Q -> bool) (b : Z) : nat :=
  length (filter (fun ds => match exec p ds with
                            | ORet (q, c) [] => P q && (c =? b)
                            | _ => false
                            end) (tuples bmin bmax n)).

(* the number of random bits taken from one engine output *)
Definition digit_bits (bmin bmax : Z) : Z := Z.log2 (bmax - bmin + 1).

(* Of the first real digit m - w mod m bits are left.  The other digits have m
   bits; the last one must not be a full one. *)
Definition no_full_last (D m w : Z) : Prop :=
  D <= m - w mod m \/ (D - (m - w mod m)) mod m <> 0.

Definition same_fraction (D N : Z) (q : Q) : bool := Qeq_bool q (inject_Z N * p2 (- D))%Q.
