(* What reading and writing the elements of a vector has to satisfy. *)
From Verif Require Import Base.

Definition blank (c : Z) : Prop := 9 <= c <= 13 \/ c = 32.
(* the value v is written, and read back when a blank or a bracket follows *)
Definition elem_ok {T} (put : T -> list Z) (num : list Z -> option T * list Z) (v : T) : Prop :=
  (exists c r, put v = c :: r /\ ~ blank c) /\ forall c r, c = 32 \/ c = 93 -> num (put v ++ c :: r) = (Some v, c :: r).
(* no number starts with a bracket *)
Definition bracket_ok {T} (num : list Z -> option T * list Z) : Prop := forall r, num (93 :: r) = (None, 93 :: r).
(* what is left is the end of what was there; a number takes at least one character *)
Definition num_wf {T} (num : list Z -> option T * list Z) : Prop := forall l v r, num l = (v, r) ->
  exists u, l = u ++ r /\ (v <> None -> u <> []).
