(* exponential_distribution.hpp and normal_distribution.hpp.

   RealType is the format [f] and every operation and conversion rounds in
   direction [md].  The tables are of type double, and so are the differences of
   two table entries.  std::exp is a parameter.  Reading outside of a table is
   undefined.  [pair] is generate_int_float_pair<RealType, 8>(eng) and [u01] is
   uniform_01<RealType>()(eng). *)
From Verif Require Import Base ProgModel FloatModel RealModel BinModel ZigTable.
Open Scope Q_scope.

(* table[i] *)
Definition tab (l : list Q) (i : Z) : option Q := if (0 <=? i)%Z then nth_error l (Z.to_nat i) else None.

Section Z.
Variables (f : fmt) (md : rmode) (ex : Q -> Q) (pair : prog (Q * Z)) (u01 : prog Q).
Let rnd := fround f md.
(* RealType(a - b), where a and b are of type double *)
Definition dsub (a b : Q) : Q := rnd (fround ieee_double md (a - b)).

(* exponential_distribution.hpp:191 and normal_distribution.hpp:131: x *)
Definition zg_x (q xi : Q) : Q := rnd (q * rnd xi).
(* exponential_distribution.hpp:199 and normal_distribution.hpp:136: y *)
Definition zg_y (y01 yi yj : Q) : Q := rnd (rnd yi + rnd (y01 * dsub yj yi)).
(* exponential_distribution.hpp:203: y_above_ubound; the same expression in
   normal_distribution.hpp:158 and 162 *)
Definition zg_diag (x y01 xi xj : Q) : Q := rnd (rnd (dsub xi xj * y01) - rnd (rnd xi - x)).
(* exponential_distribution.hpp:219-222 *)
Definition ez_f (x : Q) : Q := ex (- x).
(* exponential_distribution.hpp:198-213 *)
Definition ez_test (i : Z) (x y01 : Q) : option bool :=
  xi <- tab ex_x i;; xj <- tab ex_x (i + 1);; yi <- tab ex_y i;; yj <- tab ex_y (i + 1);;
  let y := zg_y y01 yi yj in
  let ub := zg_diag x y01 xi xj in
  let lb := rnd (y - rnd (rnd yj + rnd (rnd (rnd xj - x) * rnd yj))) in
  Some (qlt ub 0 && (qlt lb 0 || qlt y (ez_f x))).
(* exponential_distribution.hpp:188-217 *)
Fixpoint ez_loop (fuel : nat) (shift : Q) : prog Q :=
  match fuel with
  | O => PFuel
  | S n =>
      vals <~ pair;;
      let '(q, i) := vals in
      xi <~ plift (tab ex_x i);;
      xj <~ plift (tab ex_x (i + 1));;
      let x := zg_x q xi in
      if qlt x (rnd xj) then PRet (rnd (shift + x))
      else if (i =? 0)%Z then (x1 <~ plift (tab ex_x 1);; ez_loop n (rnd (shift + rnd x1)))
      else
        y01 <~ u01;;
        ok <~ plift (ez_test i x y01);;
        if ok : bool then PRet (rnd (x + shift)) else ez_loop n shift
  end.
(* exponential_distribution.hpp:184-218 *)
Definition ez_unit (fuel : nat) : prog Q := ez_loop fuel 0.
(* exponential_distribution.hpp:332-337 *)
Definition ez_op (fuel : nat) (lambda : Q) : prog Q := x <~ ez_unit fuel;; plift (fdiv f md x lambda).
(* exponential_distribution.hpp:296-303: the assertion of the constructor *)
Definition ez_ctor (lambda : Q) : bool := qlt 0 lambda.
(* exponential_distribution.hpp:311-312 *)
Definition ez_min : Q := 0.

(* normal_distribution.hpp:178-181 *)
Definition nz_f (x : Q) : Q := ex (- rnd (rnd (x * x) / 2)).
(* normal_distribution.hpp:159 and 163: y minus the tangent at table_x[i] *)
Definition nz_tan (x y xi yi : Q) : Q := rnd (y - rnd (rnd yi + rnd (rnd (rnd (rnd xi - x) * rnd yi) * rnd xi))).
(* normal_distribution.hpp:135-173 *)
Definition nz_test (i : Z) (x y01 : Q) : option bool :=
  xi <- tab nm_x i;; xj <- tab nm_x (i + 1);; yi <- tab nm_y i;; yj <- tab nm_y (i + 1);;
  let y := zg_y y01 yi yj in
  let '(ub, lb) := if Qle_bool 1 xi then (zg_diag x y01 xi xj, nz_tan x y xi yi)
                   else (nz_tan x y xi yi, zg_diag x y01 xi xj) in
  Some (qlt ub 0 && (qlt lb 0 || qlt y (nz_f x))).
(* normal_distribution.hpp:193-198: one pass of the loop of generate_tail; None is continue *)
Definition nz_tail_try (fuel : nat) (start : Q) : prog (option Q) :=
  x <~ ez_op fuel start;;
  y <~ ez_op fuel 1;;
  PRet (if qlt (rnd (x * x)) (rnd (2 * y)) then Some (rnd (x + start)) else None).
(* normal_distribution.hpp:188-200: generate_tail *)
Definition nz_tail (fuel : nat) : prog Q :=
  x1 <~ plift (tab nm_x 1);;
  let start := rnd x1 in
  retry fuel (nz_tail_try fuel start).
(* normal_distribution.hpp:127-175: one pass of the loop *)
Definition nz_try (fuel : nat) : prog (option Q) :=
  vals <~ pair;;
  let '(q, b) := vals in
  let sign := inject_Z (Z.land b 1 * 2 - 1) in
  let i := Z.shiftr b 1 in
  xi <~ plift (tab nm_x i);;
  xj <~ plift (tab nm_x (i + 1));;
  let x := zg_x q xi in
  if qlt x xj then PRet (Some (rnd (x * sign)))
  else if (i =? 0)%Z then (t <~ nz_tail fuel;; PRet (Some (rnd (t * sign))))
  else
    y01 <~ u01;;
    ok <~ plift (nz_test i x y01);;
    PRet (if ok : bool then Some (rnd (x * sign)) else None).
(* normal_distribution.hpp:122-177 *)
Definition nz_unit (fuel : nat) : prog Q := retry fuel (nz_try fuel).
(* normal_distribution.hpp:320-325 *)
Definition nz_op (fuel : nat) (mean sigma : Q) : prog Q :=
  x <~ nz_unit fuel;; PRet (rnd (rnd (x * sigma) + mean)).
End Z.
