(* linear_feedback_shift.hpp *)
From Verif Require Import Base StreamModel.

(* template parameters: number of bits of UIntType (an unsigned type), then w, k, q, s *)
Record lfp := Lfp { lW : Z; lw : Z; lk : Z; lq : Z; ls : Z }.

(* linear_feedback_shift.hpp:171, low_bits_mask_t<w>::sig_bits *)
Definition lfs_mask (p : lfp) : Z := Z.ones (lw p).

(* 1 << n in type int (32 bits), then converted to UIntType.  A shift by 32 or
   more is undefined; the shift by 31 is taken to give INT_MIN, which is what
   C++20 prescribes and compilers do. *)
Definition int_bit (W n : Z) : option Z :=
  if (n <? 0) || (32 <=? n) then None
  else if n =? 31 then Some ((- 2 ^ 31) mod 2 ^ W) else Some (2 ^ n mod 2 ^ W).

(* linear_feedback_shift.hpp:89-96, seed(s0); the engine state is the word [value] *)
Definition lfs_seed (p : lfp) (s0 : Z) : option Z :=
  let v := Z.land s0 (lfs_mask p) in
  b <- int_bit (lW p) (lw p - lk p);;
  if v <? b then Some (wrap (lW p) (v + b)) else Some v.

(* linear_feedback_shift.hpp:87, 52: default_seed = 341 *)
Definition lfs_default (p : lfp) : option Z := lfs_seed p 341.

(* linear_feedback_shift.hpp:117-123, operator(): the result is the new value *)
Definition lfs_next (p : lfp) (v : Z) : Z :=
  let W := lW p in
  let b := Z.shiftr (Z.land (Z.lxor (wrap W (Z.shiftl v (lq p))) v) (lfs_mask p)) (lk p - ls p) in
  let mask := Z.land (wrap W (Z.shiftl (lfs_mask p) (lw p - lk p))) (lfs_mask p) in
  Z.lxor (wrap W (Z.shiftl (Z.land v mask) (ls p))) b.

Definition lfs_step (p : lfp) (v : Z) : Z * Z := (lfs_next p v, lfs_next p v).

(* linear_feedback_shift.hpp:131-136, discard; the counter is a nat *)
Definition lfs_discard (p : lfp) (z : nat) (v : Z) : Z := iter z (fun x => snd (lfs_step p x)) v.

(* linear_feedback_shift.hpp:56-59, min and max *)
Definition lfs_min : Z := 0.
Definition lfs_max (p : lfp) : Z := lfs_mask p.

(* linear_feedback_shift.hpp:141-145, operator<< *)
Definition lfs_write (v : Z) : list tok := [TInt v].
(* linear_feedback_shift.hpp:150-154, operator>>; v is the value before (a failed
   extraction stores 0 unless the stream had failed before) *)
Definition lfs_read (p : lfp) (v : Z) (i : istr) : Z * istr :=
  match get_int (Ity (lW p) false) i with
  | (Some x, i') => (x, i')
  | (None, i') => (if failb i then v else 0, i')
  end.

(* linear_feedback_shift.hpp:160-161, operator== *)
Definition lfs_eq (x y : Z) : bool := x =? y.
