(* What the tables of a ziggurat should be, and the error of exp. *)
From Coq Require Import Reals Qreals.
From Verif Require Import Base FloatModel FloatSpec ZigTable PoisRSpec.
Open Scope R_scope.

(* the density of the exponential distribution, and that of the normal distribution without its constant factor *)
Definition fexp1 (x : R) : R := exp (- x).
Definition fnorm (x : R) : R := exp (- (x * x / 2)).

(* std::exp on [-oo, 0], relative error at most K epsilon *)
Definition exp_ok (f : fmt) (K : R) (ex : Q -> Q) : Prop := forall y, (y <= 0)%Q -> representable f y ->
  Rabs (Q2R (ex y) - exp (Q2R y)) <= K * eps f * exp (Q2R y).

(* N layers: layer i reaches from the height y(i) to y(i+1) and up to x(i); the
   curve F passes through the points (x(i), y(i)), and all the layers have the
   area V.  Layer 0 is x(0) * y(1), where x(0) is not on the curve. *)
Definition zig_table (N : nat) (F : R -> R) (lx ly : list Q) (V d : R) : Prop :=
  length lx = S N /\ length ly = S N /\
  let x i := Q2R (nth i lx 0%Q) in let y i := Q2R (nth i ly 0%Q) in
  x N = 0 /\ y N = 1 /\ y O = 0 /\
  (forall i, (i < N)%nat -> x (S i) < x i /\ y i < y (S i) /\ Rabs (x i * (y (S i) - y i) - V) <= d) /\
  (forall i, (1 <= i <= N)%nat -> Rabs (y i - F (x i)) <= d).
(* relative to the height; [sl x] is the relative change of F for a relative change of x *)
Definition zig_close (N : nat) (F sl : R -> R) (lx ly : list Q) (d : R) : Prop :=
  let x i := Q2R (nth i lx 0%Q) in let y i := Q2R (nth i ly 0%Q) in
  forall i, (1 <= i <= N)%nat -> Rabs (y i - F (x i)) <= d * (y i * (1 + sl (x i))).

(* the height of a point in layer i, a fraction t of the way up *)
Definition height (ly : list Q) (i : Z) (t : Q) : R :=
  let y k := Q2R (nth k ly 0%Q) in y (Z.to_nat i) + Q2R t * (y (S (Z.to_nat i)) - y (Z.to_nat i)).
(* the rounding errors of the tests, in units of epsilon of RealType plus epsilon of double *)
Definition unit_err (f : fmt) : R := eps f + / 2 ^ 52.

(* x1 added k times to s *)
Fixpoint shifts (f : fmt) (md : rmode) (k : nat) (s : Q) : Q :=
  match k with O => s | S j => shifts f md j (fround f md (s + fround f md (nth 1 ex_x 0%Q))) end.
(* v is the abscissa x of a point of a layer, shifted by x1 some number of times; the point is below the curve up to c *)
Definition ez_point (f : fmt) (md : rmode) (c : R) (s v : Q) : Prop :=
  exists k i x t, (0 <= i < 256)%Z /\ (0 <= t <= 1)%Q /\ (0 <= x)%Q /\ (x <= fround f md (nth (Z.to_nat i) ex_x 0%Q))%Q /\ representable f x /\
    (v == fround f md (shifts f md k s + x))%Q /\ height ex_y i t <= fexp1 (Q2R x) + c.
(* m is the abscissa of a point of a layer below the curve up to c, or a number of the tail *)
Definition nz_point (f : fmt) (md : rmode) (c : R) (m : Q) : Prop := representable f m /\ (0 <= m)%Q /\
  ((exists i t, (0 <= i < 128)%Z /\ (0 <= t <= 1)%Q /\ (m <= fround f md (nth (Z.to_nat i) nm_x 0%Q))%Q /\ height nm_y i t <= fnorm (Q2R m) + c) \/
   (fround f md (nth 1 nm_x 0%Q) <= m)%Q).
(* a point of a layer above the curve up to c *)
Definition nz_above (f : fmt) (md : rmode) (c : R) : Prop := exists i m t, (1 <= i < 128)%Z /\ (0 <= t <= 1)%Q /\ representable f m /\
  (nth (S (Z.to_nat i)) nm_x 0%Q <= m)%Q /\ (m <= fround f md (nth (Z.to_nat i) nm_x 0%Q))%Q /\ fnorm (Q2R m) - c <= height nm_y i t.
(* the sign that belongs to the bucket b *)
Definition sgn (b : Z) : Q := if Z.odd b then 1 else (-1)%Q.
