(* include/boost/random/mixmax.hpp *)
From Verif Require Import Base StreamModel RingModel MixSkipModel.

(* mixmax_engine<Ndim, SPECIALMUL, SPECIAL>: n is Ndim, s is SPECIALMUL.
   SPECIAL is not used by the code.  64-bit arithmetic wraps. *)

(* mixmax.hpp:77-81, struct rng_state_st *)
Record mxst := Mx { mxV : list Z; mxsum : Z; mxcnt : Z }.

(* mixmax.hpp:63-66 *)
Definition mx_min : Z := 0.
Definition mx_max : Z := 2 ^ 61 - 1.

(* mixmax.hpp:164 *)
Definition M61 : Z := 2305843009213693951.

(* mixmax.hpp:166 *)
Definition mx_mod (k : Z) : Z := wrap 64 (Z.land k M61 + Z.shiftr k 61).

(* mixmax.hpp:303-305 *)
Definition mx_modadd (foo bar : Z) : Z := mx_mod (wrap 64 (foo + bar)).

(* mixmax.hpp:192 *)
Definition mx_mulwu (s k : Z) : Z :=
  Z.lxor (Z.land (wrap 64 (Z.shiftl k s)) M61) (Z.shiftr k (61 - s)).

(* mixmax.hpp:199-206, the loop over Y[1], Y[2], ...; returns the new elements,
   sumtot and ovflow *)
Fixpoint mx_iter_loop (s : Z) (ys : list Z) (tempP tempV sumtot ovflow : Z) : list Z * Z * Z :=
  match ys with
  | [] => ([], sumtot, ovflow)
  | y :: r =>
      let tempPO := mx_mulwu s tempP in
      let tempV := wrap 64 (tempV + tempPO) in
      let tempP := mx_modadd tempP y in
      let tempV := mx_modadd tempV tempP in
      let sumtot := wrap 64 (sumtot + tempV) in
      let ovflow := if sumtot <? tempV then wrap 64 (ovflow + 1) else ovflow in
      let '(l, st, ov) := mx_iter_loop s r tempP tempV sumtot ovflow in
      (tempV :: l, st, ov)
  end.

(* mixmax.hpp:194-208; the new array and the returned value *)
Definition mx_iterate (s : Z) (Y : list Z) (sumtotOld : Z) : list Z * Z :=
  let '(l, sumtot, ovflow) := mx_iter_loop s (tl Y) 0 sumtotOld sumtotOld 0 in
  (sumtotOld :: l, mx_mod (wrap 64 (mx_mod sumtot + wrap 64 (Z.shiftl ovflow 3)))).

(* mixmax.hpp:104-112; None = access out of bounds *)
Definition mx_next (n : nat) (s : Z) (e : mxst) : option (Z * mxst) :=
  if mxcnt e <=? Z.of_nat n - 1 then
    if mxcnt e <? 0 then None else
    x <- get (mxV e) (Z.to_nat (mxcnt e));;
    Some (x, Mx (mxV e) (mxsum e) (mxcnt e + 1))
  else
    let '(Y, st) := mx_iterate s (mxV e) (mxsum e) in
    x <- get Y 1;; Some (x, Mx Y st 2).

(* mixmax.hpp:118; z calls *)
Definition mx_discard (n : nat) (s : Z) (z : nat) (e : mxst) : option mxst :=
  iterM z (fun e => r <- mx_next n s e;; Some (snd r)) e.

(* mixmax.hpp:156-157 *)
Fixpoint mx_eqV (x y : list Z) : bool :=
  match x, y with
  | [], [] => true
  | a :: x', b :: y' => (a =? b) && mx_eqV x' y'
  | _, _ => false
  end.
Definition mx_eq (x y : mxst) : bool :=
  (mxcnt x =? mxcnt y) && (mxsum x =? mxsum y) && mx_eqV (mxV x) (mxV y).

(* mixmax.hpp:123-131 (token level) *)
Definition mx_write (n : nat) (e : mxst) : list tok :=
  map TInt (Z.of_nat n :: mxcnt e :: mxsum e :: mxV e).

(* mixmax.hpp:144-147; the loop that reads vec and its running sum *)
Fixpoint mx_read_vec (n : nat) (sum : Z) (i : istr) : option (list Z * Z * istr) :=
  match n with
  | O => Some ([], sum, i)
  | S n' =>
      let '(v, i) := get_int u64 i in
      v <- v;;
      r <- mx_read_vec n' (mx_mod (wrap 64 (sum + v))) i;;
      let '(l, sum, i) := r in Some (v :: l, sum, i)
  end.

(* mixmax.hpp:135-154.  None = an extraction failed: the program then reads
   elements of vec that were never initialised; or the assertion of line 141
   fails. *)
Definition mx_read (n : nat) (e : mxst) (i : istr) : option (mxst * istr) :=
  let '(c, i) := get_int u64 i in
  c <- c;;
  if negb (c =? Z.of_nat n) then None else
  let '(counter, i) := get_int u64 i in
  counter <- counter;;
  let '(savedsum, i) := get_int u64 i in
  savedsum <- savedsum;;
  r <- mx_read_vec n 0 i;;
  let '(vec, sum, i) := r in
  if (sum =? savedsum) && (0 <? counter) && (counter <? Z.of_nat n)
  then Some (Mx vec savedsum counter, i)
  else Some (e, set_fail i).

(* mixmax.hpp:288-301 *)
Definition mx_fmodmul (cum s a : Z) : Z :=
  let o := wrap 64 (s * a) in
  let ph := Z.shiftr s 32 in
  let pl := Z.land s 0xFFFFFFFF in
  let ah := Z.shiftr a 32 in
  let al := Z.land a 0xFFFFFFFF in
  let mid := wrap 64 (wrap 64 (wrap 64 (ah * pl) + wrap 64 (al * ph)) + Z.shiftr (wrap 64 (al * pl)) 32) in
  let o := wrap 64 (wrap 64 (Z.land o M61 + wrap 64 (Z.shiftl (wrap 64 (ph * ah)) 3)) + Z.shiftr mid 29) in
  let o := wrap 64 (o + cum) in
  wrap 64 (Z.land o M61 + Z.shiftr o 61).

(* mixmax.hpp:210-217 with index 0, the only call (line 221); counter and sum
   are overwritten by the caller *)
Definition mx_vielbein0 (n : nat) : list Z := 1 :: repeat 0 (n - 1).

(* the loops of the form  sumtot = modadd(sumtot, V[i])  in lines 260, 278, 284 *)
Definition mx_sumtot (Y : list Z) : Z := fold_left mx_modadd Y 0.

(* cum[i] = fmodmulM61(cum[i], coeff, Y[i]), mixmax.hpp:272-274 *)
Fixpoint mx_accum (coeff : Z) (cum Y : list Z) : list Z :=
  match cum, Y with
  | c :: cum', y :: Y' => mx_fmodmul c coeff y :: mx_accum coeff cum' Y'
  | _, _ => []
  end.

(* mixmax.hpp:269-276; the loop over the lags j *)
Fixpoint mx_poly (s : Z) (row cum Y : list Z) (sumtot : Z) : list Z :=
  match row with
  | [] => cum
  | coeff :: row' =>
      let cum := mx_accum coeff cum Y in
      let '(Y, sumtot) := mx_iterate s Y sumtot in
      mx_poly s row' cum Y sumtot
  end.

(* mixmax.hpp:266-278; one set bit of the ID.  State: Y and sumtot. *)
Definition mx_skip_row (n : nat) (s : Z) (row : list Z) (st : list Z * Z) : list Z * Z :=
  let cum := mx_poly s row (repeat 0 n) (fst st) (snd st) in
  (cum, mx_sumtot cum).

(* mixmax.hpp:262-281; while (id), by recursion on the binary digits of id;
   r is the index of the row, r + IDindex*32 in the code *)
Fixpoint mx_skip_bits (n : nat) (s : Z) (id : positive) (r : nat) (st : list Z * Z) : list Z * Z :=
  match id with
  | xH => mx_skip_row n s (nth r mx_skipMat []) st
  | xO id' => mx_skip_bits n s id' (S r) st
  | xI id' => mx_skip_bits n s id' (S r) (mx_skip_row n s (nth r mx_skipMat []) st)
  end.
Definition mx_skip_id (n : nat) (s : Z) (id : Z) (idx : nat) (st : list Z * Z) : list Z * Z :=
  match id with
  | Zpos p => mx_skip_bits n s p (idx * 32) st
  | _ => st
  end.

(* mixmax.hpp:227-286 *)
Definition mx_bigskip (n : nat) (s : Z) (Vin : list Z) (clusterID machineID runID streamID : Z) : list Z * Z :=
  let st := (Vin, mx_sumtot Vin) in
  let st := mx_skip_id n s streamID 0 st in
  let st := mx_skip_id n s runID 1 st in
  let st := mx_skip_id n s machineID 2 st in
  let st := mx_skip_id n s clusterID 3 st in
  (fst st, mx_sumtot (fst st)).

(* mixmax.hpp:220-224, and the constructor 187-190; Ndim = 17 is asserted *)
Definition mx_seed4 (clusterID machineID runID streamID : Z) : mxst :=
  let '(V, sumtot) := mx_bigskip 17 36 (mx_vielbein0 17) clusterID machineID runID streamID in
  Mx V sumtot 1.

(* mixmax.hpp:73 and 182-185; seedval is a 64-bit value *)
Definition mx_seed (seedval : Z) : mxst :=
  mx_seed4 0 0 (wrap 32 (Z.shiftr seedval 32)) (wrap 32 seedval).

(* mixmax.hpp:165, 177-180; the default constructor *)
Definition mx_default : mxst := mx_seed4 0 0 0 1.
