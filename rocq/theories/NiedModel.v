(* niederreiter_base2.hpp: the direction numbers of the Niederreiter base 2 engine *)
From Coq Require Import NArith.
From Verif Require Import Base RingModel SobolModel NiedTable.
Open Scope Z_scope.

(* access to a boost::dynamic_bitset; out of range is undefined *)
Definition bs_get (v : list bool) (i : nat) : lres bool := lopt (nth_error v i).
Definition bs_set (v : list bool) (i : nat) (b : bool) : lres (list bool) :=
  if (i <? length v)%nat then LOk (firstn i v ++ b :: skipn (S i) v) else LBad.
(* resize(n): keeps the bits that fit, new bits are 0 *)
Definition bs_resize (n : nat) (v : list bool) : list bool := firstn n v ++ repeat false (n - length v).

(* niederreiter_base2.hpp:25-37, for a bitset of the given size held in v; the loop
   at lines 33-35 starts at the bit hibit.  The caller checks v.none(). *)
Fixpoint scan_down (hibit : nat) (v : N) : lres nat :=
  if N.testbit v (N.of_nat hibit) then LOk hibit
  else match hibit with O => LBad | S h => scan_down h v end.
Definition bitset_log2 (size : nat) (v : N) : lres nat :=
  if (v =? 0)%N then LThr else scan_down (size - 1) v.

(* v <<= 1 in a bitset of the given size *)
Definition bs_shl1 (size : nat) (v : N) : N := (N.double v mod 2 ^ N.of_nat size)%N.
(* niederreiter_base2.hpp:40-48: the loop at lines 45-46, by the bits of P; the
   bitsets v and pt have the given size *)
Fixpoint mul_loop (size : nat) (P : positive) (v pt : N) : N :=
  match P with
  | xH => N.lxor pt v
  | xO P' => mul_loop size P' (bs_shl1 size v) pt
  | xI P' => mul_loop size P' (bs_shl1 size v) (N.lxor pt v)
  end.
Definition modulo2_multiply (size : nat) (P v : N) : N :=
  match P with N0 => 0%N | Npos P => mul_loop size P v 0%N end.

(* niederreiter_base2.hpp:55-86; pb is a bitset of the given size *)
Definition calculate_v (pb : N) (size kj deg : nat) (v : list bool) : lres (list bool) :=
  v <<- for_ 0 kj (fun r v => bs_set v r false) v;;
  v <<- for_ kj (deg - kj) (fun r v => bs_set v r true) v;;
  let r := Nat.max kj deg in
  if (length v <? r)%nat then LBad else
  for_ r (length v - r) (fun r v =>
    term <<- for_ 0 deg (fun k term =>
      if (size <=? k)%nat then LBad else
      b <<- bs_get v (r + k - deg);;
      LOk (xorb term (N.testbit pb (N.of_nat k) && b))) false;;
    bs_set v r term) v.

(* niederreiter_base2.hpp:167-183, from u on with n passes left; w is bit_count *)
Fixpoint n_block (w D dim : nat) (v : list bool) (n u : nat) (j : Z) (cj : list Z) : lres (list Z * Z) :=
  match n with
  | O => LOk (cj, j)
  | S n' =>
      if j =? 0 then LOk (cj, j) else
      cj <<- for_ 0 w (fun r cj =>
        num <<- lopt (get cj (D * r + dim));;
        b <<- bs_get v (r + u);;
        lopt (upd cj (D * r + dim) (Z.lor (Z.land num (Z.lnot j)) (Z.land (- Z.b2z b) j)))) cj;;
      n_block w D dim v n' (S u) (Z.shiftr j 1) cj
  end.

(* niederreiter_base2.hpp:137-184: the do loop.  Every pass makes j smaller: the
   fuel w is enough. *)
Fixpoint n_loop (fuel w D dim : nat) (poly : N) (degree size : nat) (pb : N) (deg : nat) (j : Z) (v : list bool) (cj : list Z) : lres (list Z * list bool) :=
  match fuel with
  | O => LBad
  | S f =>
      let kj := deg in
      let pb := modulo2_multiply size poly pb in
      deg <<- (if (size <=? deg + degree)%nat then bitset_log2 size pb else LOk (deg + degree)%nat);;
      v <<- calculate_v pb size kj deg v;;
      r <<- n_block w D dim v degree 0 j cj;;
      let (cj, j) := r in
      if j =? 0 then LOk (cj, v) else n_loop f w D dim poly degree size pb deg j v cj
  end.

(* the template parameter Nb2Table *)
Record ntable := Ntable { n_maxdim : Z; n_poly : nat -> N }.

(* niederreiter_base2.hpp:114-185; a polynomial of degree 0 is divided by at line 121.
   The bitset v is kept from one dimension to the next. *)
Definition n_column (W : Z) (w D : nat) (T : ntable) (dim : nat) (st : list Z * list bool) : lres (list Z * list bool) :=
  let (cj, v) := st in
  let poly := n_poly T dim in
  if 2 ^ W - 1 <? Z.of_N poly then LThr else
  degree <<- msb (Z.of_N poly);;
  let degree := Z.to_nat degree in
  if (degree =? 0)%nat then LBad else
  let size := (degree * (w / degree + 1))%nat in
  let v := bs_resize (degree + w - 1) v in
  n_loop w w D dim poly degree size 1%N 0 (2 ^ Z.of_nat (w - 1)) v cj.

(* niederreiter_base2.hpp:101-188, dimension_assert in qrng_base.hpp:273-282 *)
Definition nied_lattice (W : Z) (w : nat) (T : ntable) (D : nat) : lres (list Z) :=
  if (D =? 0)%nat || (n_maxdim T <? Z.of_nat D) then LThr else
  st <<- for_ 0 D (n_column W w D T) (repeat 0 (w * D), []);;
  LOk (fst st).

(* niederreiter_base2_table.hpp:26-506 *)
Definition nied_tables : ntable := Ntable 4720 (fun n => nth n nied_polys 0%N).
