(* Tausworthe generators *)
From Verif Require Import Base LfsModel.

(* the static assertions of the class, and w <= digits *)
Definition lfs_params (p : lfp) : Prop :=
  0 < lw p <= lW p /\ 0 < lq p /\ lk p < lw p /\ 2 * lq p < lk p /\ 0 < ls p <= lk p - lq p.

(* a bit sequence with the characteristic trinomial x^k + x^q + 1 *)
Definition tausworthe (k q : Z) (a : Z -> bool) : Prop :=
  forall n, 0 <= n -> a (n + k) = xorb (a n) (a (n + q)).

(* the first [len] binary digits of the w-bit word x, most significant digit
   first, are a(off), a(off+1), ... *)
Definition word_at (w len : Z) (a : Z -> bool) (off : Z) (x : Z) : Prop :=
  forall j, 0 <= j < len -> Z.testbit x (w - 1 - j) = a (off + j).

(* a register whose k leading digits (of w) are all 0 *)
Definition lfs_dead (p : lfp) (v : Z) : Prop :=
  forall j, 0 <= j < lk p -> Z.testbit v (lw p - 1 - j) = false.

(* number of leading digits of the t-th word (t = 0: the seed) that follow the
   recurrence; the remaining digits of the seed are arbitrary *)
Definition lfs_len (p : lfp) (t : nat) : Z := Z.min (lw p) (lk p + Z.of_nat t * (lk p - lq p - ls p)).

(* the word x by itself obeys the recurrence *)
Definition word_obeys (p : lfp) (x : Z) : Prop :=
  forall j, 0 <= j < lw p - lk p ->
  Z.testbit x (lw p - 1 - (j + lk p)) = xorb (Z.testbit x (lw p - 1 - j)) (Z.testbit x (lw p - 1 - (j + lq p))).
