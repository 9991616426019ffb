(* sobol.hpp: the direction numbers of the Sobol engine *)
From Verif Require Import Base RingModel.

(* a computation that may throw (LThr) or be undefined (LBad) *)
Inductive lres (A : Type) : Type := LOk (a : A) | LThr | LBad.
Arguments LOk {A} a.
Arguments LThr {A}.
Arguments LBad {A}.
Definition lbind {A B} (x : lres A) (f : A -> lres B) : lres B :=
  match x with LOk a => f a | LThr => LThr | LBad => LBad end.
Notation "x <<- e ;; f" := (lbind e (fun x => f)) (at level 61, e at next level, right associativity).
Definition lopt {A} (x : option A) : lres A := match x with Some a => LOk a | None => LBad end.

(* for(i = from; i != from + n; ++i) a = f(i, a) *)
Fixpoint for_ {A} (from n : nat) (f : nat -> A -> lres A) (a : A) : lres A :=
  match n with
  | O => LOk a
  | S k => a1 <<- f from a;; for_ (S from) k f a1
  end.

(* the template parameter SobolTables *)
Record stables := Stables { t_maxdim : Z; t_poly : nat -> Z; t_minit : nat -> nat -> Z }.

(* gray_coded_qrng.hpp:43-51: throws for 0 *)
Definition msb (x : Z) : lres Z := if x =? 0 then LThr else LOk (Z.log2 x).

(* sobol.hpp:74-84: element j of column dim; D is the dimension.  Simplification:
   the exclusive or is accumulated before it is stored. *)
Definition s_elem (W : Z) (D dim : nat) (poly : Z) (deg j : nat) (cj : list Z) : lres (list Z) :=
  v0 <<- lopt (get cj (D * (j - deg) + dim));;
  r <<- for_ 0 deg (fun k v =>
    let rem := (deg - k)%nat in
    c <<- lopt (get cj (D * (j - rem) + dim));;
    LOk (Z.lxor v (wrap W (Z.shiftl (Z.land (Z.shiftr poly (Z.of_nat k)) 1 * c) (Z.of_nat rem))))) v0;;
  lopt (upd cj (D * j + dim) r).

(* sobol.hpp:59-85: column dim *)
Definition s_column (W : Z) (w D : nat) (T : stables) (dim : nat) (cj : list Z) : lres (list Z) :=
  let poly := t_poly T (dim - 1) in
  if 2 ^ W - 1 <? poly then LThr else
  degree <<- msb poly;;
  let deg := Z.to_nat degree in
  cj <<- for_ 0 deg (fun k cj => lopt (upd cj (D * k + dim) (wrap W (t_minit T (dim - 1) k)))) cj;;
  for_ deg (w - deg) (s_elem W D dim poly deg) cj.

(* sobol.hpp:87-94: row j = w-1-p is shifted by p, for p = 1 .. w-1 *)
Definition s_shift (W : Z) (w D p : nat) (cj : list Z) : lres (list Z) :=
  for_ 0 D (fun dim cj =>
    v <<- lopt (get cj (D * (w - 1 - p) + dim));;
    lopt (upd cj (D * (w - 1 - p) + dim) (wrap W (Z.shiftl v (Z.of_nat p))))) cj.

(* sobol.hpp:46-97, dimension_assert in qrng_base.hpp:273-282 *)
Definition sobol_lattice (W : Z) (w : nat) (T : stables) (D : nat) : lres (list Z) :=
  if (D =? 0)%nat || (t_maxdim T <? Z.of_nat D) then LThr else
  cj <<- for_ 0 w (fun k cj => lopt (upd cj (D * k) 1)) (repeat 0 (w * D));;
  cj <<- for_ 1 (D - 1) (s_column W w D T) cj;;
  for_ 1 (w - 1) (s_shift W w D) cj.
