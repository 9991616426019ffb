(* Engine adaptors: xor_combine.hpp, discard_block.hpp, shuffle_order.hpp.
   A base engine is its step function from a state to (output, next state). *)
From Verif Require Import Base StreamModel RingModel ArithModel UIntModel LfsModel.

(* ---- include/boost/random/xor_combine.hpp ---- *)

(* usual arithmetic conversions of two types at least as wide as int *)
Definition common (t1 t2 : ity) : ity :=
  if bits t1 <? bits t2 then t2 else if bits t2 <? bits t1 then t1
  else Ity (bits t1) (sgn t1 && sgn t2).

(* x << s in type t: undefined if s is negative or not below the width, or if a
   signed result does not fit (before C++20) *)
Definition shlT (t : ity) (x s : Z) : option Z :=
  if (s <? 0) || (bits t <=? s) then None
  else if sgn t then (if (0 <=? x) && (x * 2 ^ s <=? imax t) then Some (x * 2 ^ s) else None)
  else Some (wrap (bits t) (Z.shiftl x s)).

(* xor_combine.hpp:120-123, the value computed from the outputs of both engines;
   t1, t2 are the result types *)
Definition xc_val (t1 : ity) (s1 : Z) (t2 : ity) (s2 : Z) (x1 x2 : Z) : option Z :=
  a <- shlT t1 x1 s1;;
  b <- shlT t2 x2 s2;;
  let t := common t1 t2 in
  Some (cast t1 (Z.lxor (cast t a) (cast t b))).

(* xor_combine.hpp:120-123, operator(); None of a base engine is undefined behaviour *)
Definition xc_next {S1 S2} (t1 : ity) (s1 : Z) (t2 : ity) (s2 : Z)
  (f1 : S1 -> option (Z * S1)) (f2 : S2 -> option (Z * S2)) (s : S1 * S2) : option (Z * (S1 * S2)) :=
  r1 <- f1 (fst s);;
  r2 <- f2 (snd s);;
  v <- xc_val t1 s1 t2 s2 (fst r1) (fst r2);;
  Some (v, (snd r1, snd r2)).

(* xor_combine.hpp:138-143, static min() and max() *)
Definition xc_min (t1 t2 : ity) (min1 min2 : Z) : Z :=
  let t := common t1 t2 in
  cast t1 (if cast t min1 <? cast t min2 then cast t min1 else cast t min2).
Definition xc_max (t1 t2 : ity) (max1 max2 : Z) : Z :=
  let t := common t1 t2 in
  cast t1 (if cast t max2 <? cast t max1 then cast t max1 else cast t max2).

(* xor_combine.hpp:202, max() of the deprecated class xor_combine.  std::max
   requires both types to be the same. *)
Definition xc_old_max (min1 max2 : Z) : Z := Z.max min1 max2.

(* xor_combine.hpp:131-135, discard; d1 and d2 are the discards of the bases *)
Definition xc_discard {S1 S2} (d1 : nat -> S1 -> S1) (d2 : nat -> S2 -> S2) (z : nat) (s : S1 * S2) : S1 * S2 :=
  (d1 z (fst s), d2 z (snd s)).

(* taus88.hpp:33-37; the three linear_feedback_shift_engines *)
Definition t88_a : lfp := Lfp 32 32 31 13 12.
Definition t88_b : lfp := Lfp 32 32 29 2 4.
Definition t88_c : lfp := Lfp 32 32 28 3 17.
Definition lfs_eng (p : lfp) (v : Z) : option (Z * Z) := Some (lfs_step p v).
Definition taus88_next : (Z * Z) * Z -> option (Z * ((Z * Z) * Z)) :=
  xc_next u32 0 u32 0 (xc_next u32 0 u32 0 (lfs_eng t88_a) (lfs_eng t88_b)) (lfs_eng t88_c).
Definition taus88_min : Z := xc_min u32 u32 (xc_min u32 u32 lfs_min lfs_min) lfs_min.
Definition taus88_max : Z := xc_max u32 u32 (xc_max u32 u32 (lfs_max t88_a) (lfs_max t88_b)) (lfs_max t88_c).
(* taus88.seed(v): xor_combine.hpp:94-95 *)
Definition taus88_seed (v : Z) : option ((Z * Z) * Z) :=
  a <- lfs_seed t88_a v;; b <- lfs_seed t88_b v;; c <- lfs_seed t88_c v;; Some ((a, b), c).

(* ---- include/boost/random/discard_block.hpp ---- *)

(* discard_block.hpp:179-180: the base engine and the counter _n (std::size_t) *)
Record dbs (S : Type) := Dbs { db_base : S; db_n : Z }.
Arguments Dbs {S}. Arguments db_base {S}. Arguments db_n {S}.

(* discard_block.hpp:61-102: all constructors and seed functions set _n to 0 *)
Definition db_init {S} (b : S) : dbs S := Dbs b 0.

(* discard_block.hpp:108-122, operator(); std::size_t has 64 bits *)
Definition db_next {S} (p r : Z) (f : S -> Z * S) (d : dbs S) : Z * dbs S :=
  let d := if r <=? db_n d
           then Dbs (iter (Z.to_nat (w64 (p - db_n d))) (fun s => snd (f s)) (db_base d)) 0 else d in
  let '(x, s) := f (db_base d) in
  (x, Dbs s (w64 (db_n d + 1))).

(* discard_block.hpp:124-129 *)
Definition db_discard {S} (p r : Z) (f : S -> Z * S) (z : nat) (d : dbs S) : dbs S :=
  iter z (fun d => snd (db_next p r f d)) d.

(* discard_block.hpp:139-146 *)
Definition db_min (bmin : Z) : Z := bmin.
Definition db_max (bmax : Z) : Z := bmax.

(* ---- include/boost/random/shuffle_order.hpp ---- *)

(* shuffle_order.hpp:222-224; the table v, the pending value y and the base *)
Record sho (S : Type) := Sho { so_base : S; so_v : list Z; so_y : Z }.
Arguments Sho {S}. Arguments so_base {S}. Arguments so_v {S}. Arguments so_y {S}.

(* one pass of the loop in init, k times *)
Fixpoint so_fill {S} (f : S -> Z * S) (k : nat) (s : S) : list Z * S :=
  match k with
  | O => ([], s)
  | Datatypes.S k' => let '(x, s1) := f s in let '(l, s2) := so_fill f k' s1 in (x :: l, s2)
  end.

(* shuffle_order.hpp:212-218, init *)
Definition so_init {S} (f : S -> Z * S) (k : nat) (s : S) : sho S :=
  let '(v, s1) := so_fill f k s in
  let '(y, s2) := f s1 in Sho s2 v y.

(* shuffle_order.hpp:130-156, the index j.  tb is result_type, base_unsigned
   has the same width; std::size_t and uintmax_t have 64 bits. *)
Definition so_index (tb : ity) (bmin bmax k y : Z) : option Z :=
  let W := bits tb in
  brange <- usub tb bmax bmin;;
  off <- usub tb y bmin;;
  if k =? 1 then Some 0
  else if brange <? (2 ^ W - 1) / k then
    let d := wrap W (brange + 1) in
    if d =? 0 then None else Some (wrap W (w64 (k * off) / d))
  else if brange <? (2 ^ 64 - 1) / k then
    let d := w64 (brange + 1) in
    if d =? 0 then None else Some (wrap W (w64 (off * k) / d))
  else
    let divisor := w64 (brange + 1) in
    q <- muldiv off k divisor;; Some (wrap W q).

(* v[j], None outside of the array *)
Definition so_get (v : list Z) (j : Z) : option Z :=
  if j <? 0 then None else nth_error v (Z.to_nat j).
(* v[j] = x *)
Fixpoint so_set (v : list Z) (j : nat) (x : Z) : list Z :=
  match v, j with
  | [], _ => []
  | _ :: r, O => x :: r
  | a :: r, Datatypes.S j' => a :: so_set r j' x
  end.

(* shuffle_order.hpp:130-160, operator() *)
Definition so_next {S} (tb : ity) (bmin bmax k : Z) (f : S -> Z * S) (o : sho S) : option (Z * sho S) :=
  j <- so_index tb bmin bmax k (so_y o);;
  y <- so_get (so_v o) j;;
  let '(x, s) := f (so_base o) in
  Some (y, Sho s (so_set (so_v o) (Z.to_nat j) x) y).

(* shuffle_order.hpp:163-168 *)
Definition so_discard {S} (tb : ity) (bmin bmax k : Z) (f : S -> Z * S) (z : nat) (o : sho S) : option (sho S) :=
  iterM z (fun o => r <- so_next tb bmin bmax k f o;; Some (snd r)) o.

(* ---- stream operators.  [wr] and [rd] are those of the base engine; rd also
   gets the state before, which a failed extraction may keep. ---- *)

(* is >> x for an integer variable holding old: a failed extraction stores 0
   unless the stream had failed before *)
Definition rd_int (t : ity) (old : Z) (i : istr) : Z * istr :=
  match get_int t i with
  | (Some v, i') => (v, i')
  | (None, i') => (if failb i then old else 0, i')
  end.

(* xor_combine.hpp:147-160 *)
Definition xc_write {S1 S2} (wr1 : S1 -> list tok) (wr2 : S2 -> list tok) (s : S1 * S2) : list tok :=
  wr1 (fst s) ++ wr2 (snd s).
Definition xc_read {S1 S2} (rd1 : S1 -> istr -> S1 * istr) (rd2 : S2 -> istr -> S2 * istr)
  (s : S1 * S2) (i : istr) : (S1 * S2) * istr :=
  let '(a, i) := rd1 (fst s) i in
  let '(b, i) := rd2 (snd s) i in ((a, b), i).
(* xor_combine.hpp:163-164 *)
Definition xc_eq {S1 S2} (eq1 : S1 -> S1 -> bool) (eq2 : S2 -> S2 -> bool) (x y : S1 * S2) : bool :=
  eq1 (fst x) (fst y) && eq2 (snd x) (snd y).

(* discard_block.hpp:150-166 *)
Definition db_write {S} (wr : S -> list tok) (d : dbs S) : list tok := wr (db_base d) ++ [TInt (db_n d)].
Definition db_read {S} (rd : S -> istr -> S * istr) (d : dbs S) (i : istr) : dbs S * istr :=
  let '(b, i) := rd (db_base d) i in
  let '(n, i) := rd_int u64 (db_n d) i in (Dbs b n, i).
(* discard_block.hpp:170-172 *)
Definition db_eq {S} (eq : S -> S -> bool) (x y : dbs S) : bool :=
  eq (db_base x) (db_base y) && (db_n x =? db_n y).

(* shuffle_order.hpp:183-200; tb is result_type *)
Definition so_write {S} (wr : S -> list tok) (o : sho S) : list tok :=
  wr (so_base o) ++ map TInt (so_v o) ++ [TInt (so_y o)].
Definition so_read {S} (tb : ity) (rd : S -> istr -> S * istr) (o : sho S) (i : istr) : sho S * istr :=
  let '(b, i) := rd (so_base o) i in
  let '(v, i) := read_arr tb (length (so_v o)) 0 (so_v o) i in
  let '(y, i) := rd_int tb (so_y o) i in (Sho b v y, i).
(* shuffle_order.hpp:203-204; both tables have k elements *)
Definition so_eq {S} (eq : S -> S -> bool) (x y : sho S) : bool :=
  eq (so_base x) (so_base y) && (so_y x =? so_y y) &&
  forallb (fun q => fst q =? snd q) (combine (so_v x) (so_v y)).
