(* bernoulli_distribution.hpp, uniform_01.hpp, uniform_real_distribution.hpp,
   generate_canonical.hpp.

   RealType is the format [f] with rounding direction [md]; every operation and
   every conversion to RealType rounds.  An integral engine has result_type tb
   and range [bmin,bmax].  A floating-point engine has a result_type with format
   [fe]; its outputs are [val i], where i is the number drawn from the program's
   point of view, and its range is [gmin,gmax].  BOOST_ASSERTs are not modelled;
   division by zero is undefined. *)
From Verif Require Import Base ProgModel UIntModel FloatModel.
Open Scope Q_scope.

(* the type in which x - y is computed for x, y of type t: types narrower than
   int are promoted to int ([conv.prom], [expr.arith.conv]) *)
Definition promo (t : ity) : ity := if (bits t <? 32)%Z then i32 else t.
Definition psub (t : ity) (x y : Z) : option Z := subT (promo t) x y.

Section F.
Variables (f : fmt) (md : rmode).
Let rnd := fround f md.
Let ofZ (z : Z) : Q := rnd (inject_Z z).

(* a / b *)
Definition fdiv (a b : Q) : option Q := if Qeq_bool b 0 then None else Some (rnd (a / b)).
(* a < b *)
Definition qlt (a b : Q) : bool := negb (Qle_bool b a).

(* bernoulli_distribution.hpp:137-144, integral engine *)
Definition bernoulli (tb : ity) (bmin bmax : Z) (p : Q) : prog bool :=
  if Qeq_bool p 0 then PRet false
  else
    v <~ draw;;
    x <~ plift (psub tb v bmin);;
    r <~ plift (psub tb bmax bmin);;
    PRet (Qle_bool (ofZ x) (rnd (p * ofZ r))).

(* bernoulli_distribution.hpp:137-144, floating-point engine *)
Definition bernoulli_real (fe : fmt) (val : Z -> Q) (gmin gmax : Q) (p : Q) : prog bool :=
  if Qeq_bool p 0 then PRet false
  else
    v <~ draw;;
    PRet (Qle_bool (rnd (fround fe md (val v - gmin))) (rnd (p * rnd (fround fe md (gmax - gmin))))).

(* uniform_01.hpp:92-103, new_uniform_01::operator(), the body of the loop, and
   uniform_01.hpp:129-156, backward_compatible_uniform_01, which computes the
   factor in the constructor; integral engine.  [conv] is base_result(...) in
   the former, absent in the latter. *)
Definition u01_factor (conv : Z -> Z) (tb : ity) (bmin bmax : Z) : option Q :=
  r <- psub tb bmax bmin;; fdiv 1 (rnd (ofZ (conv r) + 1)).
Definition u01_scale (conv : Z -> Z) (tb : ity) (bmin : Z) (factor : Q) (v : Z) : option (option Q) :=
  x <- psub tb v bmin;;
  let result := rnd (ofZ (conv x) * factor) in
  Some (if qlt result 1 then Some result else None).
Definition uniform_01 (fuel : nat) (tb : ity) (bmin bmax : Z) : prog Q :=
  retry fuel (factor <~ plift (u01_factor (cast tb) tb bmin bmax);;
              v <~ draw;; plift (u01_scale (cast tb) tb bmin factor v)).
Definition uniform_01_old (fuel : nat) (tb : ity) (bmin bmax : Z) : prog Q :=
  factor <~ plift (u01_factor (fun z => z) tb bmin bmax);;
  retry fuel (v <~ draw;; plift (u01_scale (fun z => z) tb bmin factor v)).

(* uniform_01.hpp:92-103, floating-point engine *)
Definition uniform_01_real (fuel : nat) (fe : fmt) (val : Z -> Q) (gmin gmax : Q) : prog Q :=
  retry fuel (factor <~ plift (fdiv 1 (rnd (rnd (fround fe md (gmax - gmin)) + 0)));;
              v <~ draw;;
              let result := rnd (rnd (fround fe md (val v - gmin)) * factor) in
              PRet (if qlt result 1 then Some result else None)).

(* uniform_real_distribution.hpp:41-44 and 58-61: the end of the loop body *)
Definition ur_tail (num dvs a b : Q) : option (option Q) :=
  d <- fdiv num dvs;;
  let result := rnd (rnd (d * rnd (b - a)) + a) in
  Some (if qlt result b then Some result else None).

(* uniform_real_distribution.hpp:48-63, integral engine *)
Definition ur_int (fuel : nat) (tb : ity) (bmin bmax : Z) (a b : Q) : prog Q :=
  retry fuel (v <~ draw;;
              x <~ plift (usub tb v bmin);;
              r <~ plift (usub tb bmax bmin);;
              plift (ur_tail (ofZ x) (rnd (ofZ r + 1)) a b)).

(* uniform_real_distribution.hpp:32-46, floating-point engine *)
Definition ur_real (fuel : nat) (fe : fmt) (val : Z -> Q) (gmin gmax : Q) (a b : Q) : prog Q :=
  retry fuel (v <~ draw;;
              plift (ur_tail (rnd (fround fe md (val v - gmin))) (rnd (fround fe md (gmax - gmin))) a b)).

(* uniform_real_distribution.hpp:65-73; [inner] is the overload chosen in line
   71, [fmax] is std::numeric_limits<T>::max(); [depth] bounds the recursion *)
Fixpoint ur_wrap (depth : nat) (inner : Q -> Q -> prog Q) (fmax : Q) (a b : Q) : prog Q :=
  match depth with
  | O => PFuel
  | S d =>
      if qlt (rnd (fmax / 2)) (rnd (rnd (b / 2) - rnd (a / 2)))
      then r <~ ur_wrap d inner fmax (rnd (a / 2)) (rnd (b / 2));; PRet (rnd (2 * r))
      else inner a b
  end.
Definition uniform_real (fuel : nat) (tb : ity) (bmin bmax : Z) (fmax a b : Q) : prog Q :=
  ur_wrap 2 (ur_int fuel tb bmin bmax) fmax a b.
Definition uniform_real_real (fuel : nat) (fe : fmt) (val : Z -> Q) (gmin gmax : Q) (fmax a b : Q) : prog Q :=
  ur_wrap 2 (ur_real fuel fe val gmin gmax) fmax a b.

(* generate_canonical.hpp:30-48; pow(RealType(2), n) is taken to be exact *)
Fixpoint gc_loop (fuel : nat) (tb : ity) (bmin : Z) (limit r s mult : Q) : prog Q :=
  match fuel with
  | O => PFuel
  | S k =>
      if qlt mult limit then
        v <~ draw;;
        x <~ plift (usub tb v bmin);;
        gc_loop k tb bmin limit r (rnd (s + rnd (ofZ x * mult))) (rnd (mult * r))
      else plift (fdiv s mult)
  end.
Definition gc_R (bmin bmax : Z) : Q := rnd (rnd (ofZ bmax - ofZ bmin) + 1).
Definition gc_limit (bits : Z) : Q := rnd (p2 (Z.min bits (prec f))).
Definition gc_int (fuel : nat) (bits : Z) (tb : ity) (bmin bmax : Z) : prog Q :=
  let r := gc_R bmin bmax in
  v <~ draw;;
  x <~ plift (usub tb v bmin);;
  gc_loop fuel tb bmin (gc_limit bits) r (ofZ x) r.

(* generate_canonical.hpp:50-70; eb = generator_bits<URNG>::value(), gmin = 0;
   floor of a floating-point number is exact *)
Fixpoint gcr_loop (fuel : nat) (val : Z -> Q) (limit r s mult : Q) : prog Q :=
  match fuel with
  | O => PFuel
  | S k =>
      if qlt mult limit then
        v <~ draw;;
        let inc := inject_Z (Qfloor (rnd (rnd (rnd (val v) - 0) * r))) in
        gcr_loop k val limit r (rnd (s + rnd (inc * mult))) (rnd (mult * r))
      else plift (fdiv s mult)
  end.
Definition gc_real (fuel : nat) (bits eb : Z) (fe : fmt) (val : Z -> Q) : prog Q :=
  let r := rnd (p2 eb) in
  v <~ draw;;
  gcr_loop fuel val (gc_limit bits) r (rnd (fround fe md (val v - 0))) r.

(* generate_canonical.hpp:81-89; epsilon = 2^(1-digits) *)
Definition gc_fix (result : Q) : Q :=
  if Qeq_bool result 1 then rnd (result - rnd (p2 (1 - prec f) / 2)) else result.
Definition generate_canonical (fuel : nat) (bits : Z) (tb : ity) (bmin bmax : Z) : prog Q :=
  r <~ gc_int fuel bits tb bmin bmax;; PRet (gc_fix r).
Definition generate_canonical_real (fuel : nat) (bits eb : Z) (fe : fmt) (val : Z -> Q) : prog Q :=
  r <~ gc_real fuel bits eb fe val;; PRet (gc_fix r).
End F.
