(* What the subtract-with-carry engines are specified to do. *)
From Verif Require Import Base SwcModel.

(* parameters for which the engine can be instantiated *)
Definition swc_params (s r : nat) : Prop := (1 <= s <= r)%nat.

(* states: r values below 2^w, a position in the buffer, a carry bit *)
Definition swc_wf (w : Z) (r : nat) (st : swc) : Prop :=
  length (xs st) = r /\ (kk st < r)%nat /\ (forall v, In v (xs st) -> 0 <= v < 2 ^ w) /\ (cy st = 0 \/ cy st = 1).

(* the last r terms of the sequence, oldest first, in a ring buffer whose next
   entry to be replaced is k *)
Definition swc_history (st : swc) : list Z :=
  map (fun j => nth ((kk st + j) mod length (xs st)) (xs st) 0) (seq 0 (length (xs st))).

(* h = x(0), x(1), ... and cs = c(r-1), c(r), ... obey
     x(n) = x(n-s) - x(n-r) - c(n-1) mod 2^w,  c(n) = 1 iff the difference is negative *)
Definition swc_recurrence (w : Z) (s r : nat) (h cs : list Z) : Prop :=
  forall n, (r <= n < length h)%nat ->
    let d := nth (n - s) h 0 - nth (n - r) h 0 - nth (n - r) cs 0 in
    nth n h 0 = d mod 2 ^ w /\ nth (S (n - r)) cs 0 = (if d <? 0 then 1 else 0).

(* a generator produces the values outs when called length outs times *)
Definition swc_outputs (up : list Z -> nat -> nat -> Z -> option (list Z * Z)) (s r n : nat) (st : swc)
  : option (list Z) := q <- run (swc_next up s r) n st;; Some (fst q).
Definition swc_same_future (up : list Z -> nat -> nat -> Z -> option (list Z * Z)) (s r : nat) (a b : swc) : Prop :=
  forall n, swc_outputs up s r n a = swc_outputs up s r n b /\ swc_outputs up s r n a <> None.
