(* Points of a sphere. *)
From Coq Require Import Reals Qreals.
From Verif Require Import Base FloatModel FloatSpec PoisRSpec.
Open Scope R_scope.

(* the square of the Euclidean norm *)
Fixpoint norm2 (l : list Q) : R := match l with [] => 0 | x :: r => Q2R x * Q2R x + norm2 r end.
(* lexicographical comparison of containers *)
Fixpoint lex_lt (a b : list Q) : Prop :=
  match a, b with
  | _, [] => False
  | [], _ :: _ => True
  | x :: a', y :: b' => (x < y)%Q \/ ((x == y)%Q /\ lex_lt a' b')
  end.
(* the exponent range is wide enough for products of three differences of numbers of [0, 1] *)
Definition fmt_deep (f : fmt) : Prop := (20 <= prec f)%Z /\ (emin f + 3 * prec f + 30 <= 0)%Z.
(* a number that is not too small for its square *)
Definition not_small (f : fmt) (x : Q) : Prop := (x == 0)%Q \/ (p2 (- (prec f + 3)) <= Qabs x)%Q.
