(* Machine integer types, used by all models.

   Simplification (all files): only types at least as wide as [int] (32 bits)
   are described by [ity], so that the integer promotions of C++ are the
   identity.  Unsigned arithmetic wraps modulo 2^bits; signed arithmetic that
   leaves the range of the type is undefined behaviour and is the outcome
   [None]. *)
From Coq Require Export ZArith Lia List Bool.
Export ListNotations.
Open Scope Z_scope.

Record ity := Ity { bits : Z; sgn : bool }.

(* std::numeric_limits<T>::max / min *)
Definition imax (t : ity) : Z := if sgn t then 2 ^ (bits t - 1) - 1 else 2 ^ bits t - 1.
Definition imin (t : ity) : Z := if sgn t then - 2 ^ (bits t - 1) else 0.

(* result of an arithmetic operation carried out in type t *)
Definition norm (t : ity) (z : Z) : option Z :=
  if sgn t then
    if (imin t <=? z) && (z <=? imax t) then Some z else None
  else Some (z mod 2 ^ bits t).

(* conversion of an integer to the unsigned type of the same width *)
Definition to_uns (t : ity) (z : Z) : Z := z mod 2 ^ bits t.

(* conversion of an integer to type t (modular, two's complement) *)
Definition cast (t : ity) (z : Z) : Z :=
  let u := z mod 2 ^ bits t in
  if sgn t then (if u <? 2 ^ (bits t - 1) then u else u - 2 ^ bits t) else u.

Definition bind {A B : Type} (x : option A) (f : A -> option B) : option B :=
  match x with Some a => f a | None => None end.
Notation "x <- e ;; f" := (bind e (fun x => f)) (at level 61, e at next level, right associativity).

(* arithmetic operators of type t; None = undefined behaviour *)
Definition addT t x y := norm t (x + y).
Definition subT t x y := norm t (x - y).
Definition mulT t x y := norm t (x * y).
(* C++ / and % truncate towards zero; division by zero is undefined, and so
   is INT_MIN / -1 (caught by norm) *)
Definition divT t x y := if y =? 0 then None else norm t (Z.quot x y).
Definition remT t x y := if y =? 0 then None else (_ <- norm t (Z.quot x y);; Some (Z.rem x y)).

(* unsigned wrap at width w *)
Definition wrap (w z : Z) : Z := z mod 2 ^ w.

Definition inT (t : ity) (z : Z) : Prop := imin t <= z <= imax t.

Definition u32 := Ity 32 false.
Definition u64 := Ity 64 false.
Definition i32 := Ity 32 true.
Definition i64 := Ity 64 true.

Definition wf_ity (t : ity) : Prop := 32 <= bits t <= 64.

(* iteration n times *)
Fixpoint iter {A} (n : nat) (f : A -> A) (x : A) : A :=
  match n with O => x | S k => iter k f (f x) end.

(* monadic iteration *)
Fixpoint iterM {A} (n : nat) (f : A -> option A) (x : A) : option A :=
  match n with O => Some x | S k => y <- f x;; iterM k f y end.

(* n steps of a machine that emits one value per step *)
Fixpoint run {S O} (step : S -> option (O * S)) (n : nat) (s : S) : option (list O * S) :=
  match n with
  | O => Some ([], s)
  | Datatypes.S k => r <- step s;; q <- run step k (snd r);; Some (fst r :: fst q, snd q)
  end.
