(* Specification of the quasi-random engines *)
From Verif Require Import Base.

(* z successive calls; None when one of them throws *)
Fixpoint calls {S A : Type} (call : S -> option (S * A)) (z : nat) (s : S) : option (S * list A) :=
  match z with
  | O => Some (s, [])
  | S k =>
      match call s with
      | Some (s1, v) => match calls call k s1 with Some (s2, l) => Some (s2, v :: l) | None => None end
      | None => None
      end
  end.

(* the Gray code of n *)
Definition gray (n : Z) : Z := Z.lxor n (n / 2).

(* the sum over GF(2) of the direction numbers d k, for the bits k < w of n *)
Fixpoint xsum (d : Z -> Z) (w : nat) (n : Z) : Z :=
  match w with
  | O => 0
  | S k => Z.lxor (xsum d k n) (if Z.testbit n (Z.of_nat k) then d (Z.of_nat k) else 0)
  end.

(* direction number k of coordinate j in a lattice of dimension D, stored by rows *)
Definition direction (lat : list Z) (D : nat) (j : nat) (k : Z) : Z := nth (Z.to_nat k * D + j) lat 0.

(* point number n: one coordinate, all coordinates *)
Definition coord (lat : list Z) (D w : nat) (n : Z) (j : nat) : Z := xsum (direction lat D j) w (gray n).
Definition point (lat : list Z) (D w : nat) (n : Z) : list Z := map (coord lat D w n) (seq 0 D).
