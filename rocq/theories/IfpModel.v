(* detail/int_float_pair.hpp and detail/uniform_int_float.hpp.

   RealType has the format [f] and rounds in direction [md]; digits = prec f.
   base_unsigned has W = bits tb bits, 32 or more, so that there are no integer
   promotions.  Shift amounts are std::size_t: a negative amount stands for one
   that has wrapped, and both are undefined. *)
From Verif Require Import Base ProgModel UIntModel IbModel FloatModel RealModel.
Open Scope Z_scope.

(* x << s in base_unsigned *)
Definition shlU (W x s : Z) : option Z :=
  if (0 <=? s) && (s <? W) then Some (wrap W (x * 2 ^ s)) else None.
(* x << s in int; undefined if the result is not an int *)
Definition shlI (x s : Z) : option Z :=
  if (0 <=? s) && (s <? 32) then mulT i32 x (2 ^ s) else None.

Section Ifp.
Variables (f : fmt) (md : rmode) (fuel : nat).
Local Notation rnd := (fround f md).
Local Notation ofZ z := (fround f md (inject_Z z)).

(* int_float_pair.hpp:32-48, generate_one_digit(eng, m) *)
Definition gen_digit (tb : ity) (bmin bmax m : Z) : prog Z :=
  let W := bits tb in
  range <~ plift (usub tb bmax bmin);;
  s <~ plift (shlU W 2 (m - 1));;
  let mask := wrap W (s - 1) in
  let y0 := Z.ldiff (wrap W (range + 1)) mask in
  retry fuel
    (v <~ draw;;
     u <~ plift (usub tb v bmin);;
     PRet (if negb (y0 =? 0) && (wrap W (y0 - 1) <? u) then None else Some (Z.land u mask))).

(* int_float_pair.hpp:59-62: m *)
Definition ifp_m (W range : Z) : Z :=
  if range =? 2 ^ W - 1 then W else integer_log2 W (wrap W (range + 1)).

(* int_float_pair.hpp:66-69: c iterations of the loop for full digits *)
Fixpoint ifp_full (tb : ity) (bmin bmax m : Z) (c : nat) (bucket : Z) : prog Z :=
  match c with
  | O => PRet bucket
  | S c' =>
      u <~ gen_digit tb bmin bmax m;;
      b <~ plift (shlI bucket m);;
      ifp_full tb bmin bmax m c' (cast i32 (Z.lor b u))
  end.

(* int_float_pair.hpp:75-76: the bucket after the split digit u; s = w%m *)
Definition ifp_bucket (W s bucket u : Z) : option Z :=
  x <- shlU W 1 s;;
  b <- shlI bucket s;;
  Some (cast i32 (Z.lor b (Z.land (wrap W (x - 1)) u))).

(* int_float_pair.hpp:77-82: r after the split digit u *)
Definition ifp_first (W m s u : Z) : option Q :=
  x <- shlU W 1 (m - s);;
  mult <- fdiv f md 1 (ofZ x);;
  u' <- (if prec f <? m - s then (y <- shlU W 1 (m - prec f);; Some (Z.ldiff u y)) else Some u);;
  Some (rnd (ofZ (Z.shiftr u' s) * mult)%Q).

(* int_float_pair.hpp:84-88; [k] bounds the number of iterations (digits are
   enough) *)
Fixpoint ifp_mid (tb : ity) (bmin bmax m : Z) (k : nat) (i : Z) (r : Q) : prog Q :=
  if i + m <? prec f then
    match k with
    | O => PFuel
    | S k' =>
        u <~ gen_digit tb bmin bmax m;;
        x <~ plift (shlU (bits tb) 1 (m - 1));;
        mult <~ plift (fdiv f md (1 # 2) (ofZ x));;
        ifp_mid tb bmin bmax m k' (i + m) (rnd (rnd (r + ofZ u) * mult)%Q)
    end
  else PRet r.

(* int_float_pair.hpp:89-96 *)
Definition ifp_last (tb : ity) (bmin bmax m s : Z) (r : Q) : prog Q :=
  if m - s <? prec f then
    let remaining := (prec f - m + s) mod m in
    u <~ gen_digit tb bmin bmax m;;
    x <~ plift (shlU (bits tb) 2 (remaining - 1));;
    let r := rnd (r + ofZ (Z.land u (wrap (bits tb) (x - 1))))%Q in
    y <~ plift (shlU (bits tb) 1 (remaining - 1));;
    mult <~ plift (fdiv f md (1 # 2) (ofZ y));;
    PRet (rnd (r * mult)%Q)
  else PRet r.

(* int_float_pair.hpp:50-98, integral engine *)
Definition int_float_pair (w : Z) (tb : ity) (bmin bmax : Z) : prog (Q * Z) :=
  range <~ plift (usub tb bmax bmin);;
  let m := ifp_m (bits tb) range in
  if m =? 0 then PUB else
  let s := w mod m in
  bucket <~ ifp_full tb bmin bmax m (Z.to_nat (w / m)) 0;;
  u <~ gen_digit tb bmin bmax m;;
  bucket <~ plift (ifp_bucket (bits tb) s bucket u);;
  r <~ plift (ifp_first (bits tb) m s u);;
  r <~ ifp_mid tb bmin bmax m (Z.to_nat (prec f)) (m - s) r;;
  r <~ ifp_last tb bmin bmax m s r;;
  PRet (r, bucket).

(* a program run on a wrapped engine: every engine output v is replaced by g v *)
Fixpoint on_wrapped {A} (g : Z -> Z) (p : prog A) : prog A :=
  match p with
  | PDraw k => PDraw (fun v => on_wrapped g (k (g v)))
  | PRet a => PRet a
  | PUB => PUB
  | PFuel => PFuel
  end.

(* uniform_int_float.hpp:41-51, max(); result_type has Wr bits, and eb =
   generator_bits<URNG>::value() *)
Definition uif_max (Wr eb : Z) : Z :=
  let digits := if eb <? Wr then eb else Wr in
  wrap Wr (wrap Wr (2 * 2 ^ (digits - 1)) - 1).
(* uniform_int_float.hpp:55-59, operator(); the conversion to an integer truncates *)
Definition uif_value (fe : fmt) (Wr eb : Z) (val : Z -> Q) (i : Z) : Z :=
  let range := fround fe md (fround fe md (inject_Z (uif_max Wr eb)) + 1)%Q in
  Qfloor (fround fe md (val i * range)%Q).

(* int_float_pair.hpp:100-106, floating-point engine; uniform_int_distribution
   draws from it through uniform_int_float (uniform_int_distribution.hpp:234-241) *)
Definition int_float_pair_real (w : Z) (fe : fmt) (Wr eb : Z) (val : Z -> Q) (gmin gmax : Q) : prog (Q * Z) :=
  x <~ plift (shlI 1 w);;
  b <~ plift (subT i32 x 1);;
  bucket <~ on_wrapped (uif_value fe Wr eb val)
              (uniform_int fuel (Ity Wr false) 0 (uif_max Wr eb) i32 0 b);;
  r <~ uniform_01_real f md fuel fe val gmin gmax;;
  PRet (r, bucket).
End Ifp.
