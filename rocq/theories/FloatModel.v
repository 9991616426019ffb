(* Binary floating-point numbers, for the distributions that return reals.

   A finite floating-point number is the rational number it denotes.  An
   arithmetic operation computes the exact result and rounds it ([fround]), in
   any of the four rounding directions of IEEE 754, for any precision and any
   least exponent (so underflow is gradual).  Simplification: exponents have no
   upper bound; the modelled functions compute with numbers far from it, except
   generate_uniform_real, whose guard against overflow is modelled. *)
From Coq Require Export QArith Qround Qabs Qpower.
From Verif Require Import Base.
Open Scope Q_scope.

(* prec = std::numeric_limits<RealType>::digits; 2^emin is the least positive number *)
Record fmt := Fmt { prec : Z; emin : Z }.
Definition ieee_single := Fmt 24 (-149).
Definition ieee_double := Fmt 53 (-1074).

Inductive rmode := RNE | RUP | RDN | RZR.

Definition p2 (e : Z) : Q := Qpower 2 e.

(* rounding to an integer *)
Definition rint (md : rmode) (x : Q) : Z :=
  match md with
  | RDN => Qfloor x
  | RUP => Qceiling x
  | RZR => if Qle_bool 0 x then Qfloor x else Qceiling x
  | RNE =>
      let f := Qfloor x in
      match Qcompare (x - inject_Z f) (1 # 2) with
      | Lt => f
      | Gt => (f + 1)%Z
      | Eq => if Z.even f then f else (f + 1)%Z
      end
  end.

(* floor(log2 x) for x > 0 *)
Definition qlog2 (x : Q) : Z :=
  let k := (Z.log2 (Qnum x) - Z.log2 (Zpos (Qden x)))%Z in
  if Qle_bool (p2 k) x then k else (k - 1)%Z.

(* exponent of the last digit of the numbers near x *)
Definition fexp (f : fmt) (x : Q) : Z :=
  if Qeq_bool x 0 then emin f else Z.max (emin f) (qlog2 (Qabs x) - prec f + 1).

Definition fround (f : fmt) (md : rmode) (x : Q) : Q :=
  let e := fexp f x in Qred (inject_Z (rint md (x / p2 e)) * p2 e).
