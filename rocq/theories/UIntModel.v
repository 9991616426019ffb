(* uniform_int_distribution.hpp, uniform_smallint.hpp, random_number_generator.hpp,
   detail/signed_unsigned_tools.hpp.  Integer types have any width >= 2 here:
   for types narrower than int the promoted arithmetic of the code never leaves
   the narrow type except where it is stored back, so the results agree. *)
From Verif Require Import Base ProgModel.

(* signed_unsigned_tools.hpp:27-51, subtract<T>()(x,y); result unsigned *)
Definition usub (t : ity) (x y : Z) : option Z :=
  if sgn t then
    if 0 <=? y then Some (to_uns t (to_uns t x - to_uns t y))
    else if 0 <=? x then
      (y1 <- addT t y 1;; ny <- subT t 0 y1;;
       Some (to_uns t (to_uns t x + to_uns t ny + 1)))
    else d <- subT t x y;; Some (to_uns t d)
  else Some (to_uns t (x - y)).

(* std::numeric_limits<T>::digits *)
Definition digits (t : ity) : Z := if sgn t then bits t - 1 else bits t.

(* signed_unsigned_tools.hpp:57-82, add<T1,T2>()(x,y) with T1 unsigned of width
   w1 and T2 = t *)
Definition uadd (w1 : Z) (t : ity) (x y : Z) : option Z :=
  if sgn t && (digits t <=? w1) then
    if 0 <=? y then addT t (cast t x) y
    else
      y1 <- addT t y 1;; ny <- subT t 0 y1;;
      if wrap w1 ny <? x then Some (cast t (wrap w1 (wrap w1 (x - wrap w1 ny) - 1)))
      else addT t (cast t x) y
  else addT t (cast t x) y.

(* range_type for T *)
Definition utype (t : ity) : ity := Ity (bits t) false.

(* uniform_int_distribution.hpp:96-138: the while loop.  Left: line 123 was
   reached (value returned at once), right: (result, mult) after the loop. *)
Fixpoint digit_loop (fuel : nat) (tb : ity) (bmin wr range brange limit result mult : Z)
  : prog (Z + Z * Z) :=
  match fuel with
  | O => PFuel
  | S f =>
      if mult <=? limit then
        v <~ draw;;
        x <~ plift (usub tb v bmin);;
        let result := wrap wr (result + wrap wr (wrap wr x * mult)) in
        if wrap wr (mult * wrap wr brange) =? wrap wr (wrap wr (range - mult) + 1)
        then PRet (inl result)
        else digit_loop f tb bmin wr range brange limit result
               (wrap wr (mult * wrap wr (wrap wr brange + 1)))
      else PRet (inr (result, mult))
  end.

(* uniform_int_distribution.hpp:79-86 *)
Definition ui_limit (wr range brange : Z) : option Z :=
  let d := wrap wr (wrap wr brange + 1) in
  if d =? 0 then None else
  if range =? 2 ^ wr - 1 then
    Some (if range mod d =? wrap wr brange then wrap wr (range / d + 1) else range / d)
  else Some (wrap wr (range + 1) / d).

(* uniform_int_distribution.hpp:73-187, one iteration of the outer loop, with
   the recursive call (lines 165-170) passed in.  The recursive call has T =
   range_type and min_value = 0.  Simplification: the fuel of the inner loop is
   bits+1, which is shown to be enough. *)
Definition ui_attempt (tb : ity) (bmin : Z) (t : ity) (min range brange : Z)
    (sub_gen : Z -> prog Z) : prog (option Z) :=
  let wr := bits t in
  limit <~ plift (ui_limit wr range brange);;
  r <~ digit_loop (S (Z.to_nat wr)) tb bmin wr range brange limit 0 1;;
  match r with
  | inl result => PRet (Some (cast t result))
  | inr (result, mult) =>
      if mult =? 0 then PUB else
      inc <~ sub_gen (range / mult);;
      if (2 ^ wr - 1) / mult <? inc then PRet None else
      let inc := wrap wr (inc * mult) in
      let result := wrap wr (result + inc) in
      if result <? inc then PRet None else
      if range <? result then PRet None else
      v <~ plift (uadd wr t result min);; PRet (Some v)
  end.

(* uniform_int_distribution.hpp:198-217 *)
Definition ui_bucket (wb range brange : Z) : option Z :=
  let r1 := wrap wb (wrap wb range + 1) in
  if r1 =? 0 then None else
  if brange =? 2 ^ wb - 1 then
    Some (if brange mod r1 =? wrap wb range then wrap wb (brange / r1 + 1) else brange / r1)
  else Some (wrap wb (brange + 1) / r1).

(* uniform_int_distribution.hpp:219-225, one iteration *)
Definition ui_bucket_attempt (tb : ity) (bmin : Z) (t : ity) (min range bucket : Z) : prog (option Z) :=
  let wb := bits tb in
  v <~ draw;;
  x <~ plift (usub tb v bmin);;
  if bucket =? 0 then PUB else
  let result := x / bucket in
  if result <=? wrap wb range then
    (r <~ plift (uadd wb t result min);; PRet (Some r))
  else PRet None.

(* uniform_int_distribution.hpp:49-228.  [depth] bounds the recursion, [fuel]
   the number of rejections.  The mixed_range_type is base_unsigned (compilers
   with explicit conversion operators). *)
Fixpoint gen_uint (depth : nat) (fuel : nat) (tb : ity) (bmin bmax : Z) (t : ity) (min max : Z) : prog Z :=
  match depth with
  | O => PFuel
  | S depth' =>
      range <~ plift (usub t max min);;
      brange <~ plift (usub tb bmax bmin);;
      if range =? 0 then PRet min
      else if brange =? range then
        v <~ draw;;
        x <~ plift (usub tb v bmin);;
        plift (uadd (bits tb) t x min)
      else if brange <? range then
        retry fuel (ui_attempt tb bmin t min range brange
          (fun r => gen_uint depth' fuel tb bmin bmax (utype t) 0 r))
      else
        bucket <~ plift (ui_bucket (bits tb) range brange);;
        retry fuel (ui_bucket_attempt tb bmin t min range bucket)
  end.

(* uniform_int_distribution.hpp:243-249 and 369-371 (integral engines);
   the recursion is at most two deep (shown in the proofs) *)
Definition uniform_int (fuel : nat) (tb : ity) (bmin bmax : Z) (t : ity) (a b : Z) : prog Z :=
  gen_uint 2 fuel tb bmin bmax t a b.

(* random_number_generator.hpp:55-59 (IntType t) *)
Definition random_number_generator (fuel : nat) (tb : ity) (bmin bmax : Z) (t : ity) (n : Z) : prog Z :=
  b <~ plift (subT t n 1);; uniform_int fuel tb bmin bmax t 0 b.

(* uniform_smallint.hpp:238-273 (integral engines) *)
Definition uniform_smallint (tb : ity) (bmin bmax : Z) (t : ity) (min max : Z) : prog Z :=
  let wb := bits tb in
  let wr := bits t in
  range <~ plift (usub t max min);;
  base_range <~ plift (usub tb bmax bmin);;
  v <~ draw;;
  val <~ plift (usub tb v bmin);;
  if base_range <=? range then plift (uadd wr t (wrap wr val) min)
  else
    let modulus := wrap wb (wrap wb range + 1) in
    if modulus =? 0 then PUB
    else plift (uadd wr t (wrap wr (val mod modulus)) min).
