(* Periods. *)
From Verif Require Import Base.
From Coq Require Import ZArith List.
Open Scope Z_scope.

(* from every x in [lo,hi] the engine comes back after n steps exactly if the
   size of [lo,hi] divides n, and in a run of that size it is in every y of
   [lo,hi] exactly once *)
Definition full_cycle (f : Z -> option Z) (lo hi : Z) : Prop :=
  forall x, lo <= x <= hi ->
  (forall n, iterM n f x = Some x <-> (hi - lo + 1 | Z.of_nat n)) /\
  (forall y, lo <= y <= hi -> exists n, Z.of_nat n < hi - lo + 1 /\ iterM n f x = Some y /\
     forall k, Z.of_nat k < hi - lo + 1 -> iterM k f x = Some y -> k = n).

(* the outputs of an engine that does not fail *)
Definition no_fail {S} (f : S -> option (Z * S)) (s : S) : Prop := forall n, run f n s <> None.
Definition nth_out {S} (f : S -> option (Z * S)) (s : S) (n : nat) (v : Z) : Prop :=
  exists outs s', run f (Datatypes.S n) s = Some (outs, s') /\ nth n outs 0 = v.
Definition out_repeats {S} (f : S -> option (Z * S)) (s : S) (p : nat) : Prop :=
  forall n v, nth_out f s (n + p) v <-> nth_out f s n v.
