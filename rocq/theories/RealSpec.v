(* What the distributions over the reals should do. *)
From Verif Require Import Base ProgModel ProgSpec FloatModel FloatSpec.
Open Scope Q_scope.

(* the number of engine outputs for which a program that draws once returns true *)
Definition trues (bmin bmax : Z) (p : prog bool) : nat :=
  length (filter (fun v => match exec p [v] with ORet true [] => true | _ => false end)
                 (zrange bmin bmax)).

(* an integral engine; the difference of any two outputs is a value of the type
   in which it is computed (int for types narrower than int) *)
Definition diff_fits (tb : ity) (bmin bmax : Z) : Prop :=
  (if (bits tb <? 32)%Z then (bmax - bmin <= 2 ^ 31 - 1)%Z else (bmax - bmin <= imax tb)%Z).

(* the outputs of a floating-point engine lie in [gmin,gmax] *)
Definition real_eng (val : Z -> Q) (bmin bmax : Z) (gmin gmax : Q) : Prop :=
  gmin < gmax /\ forall i, (bmin <= i <= bmax)%Z -> gmin <= val i /\ val i <= gmax.

(* std::numeric_limits<T>::max(): all digits 1, much larger than the least normal number *)
Definition is_fmax (f : fmt) (x : Q) : Prop :=
  exists e, (emin f + prec f + 3 <= e)%Z /\ x == inject_Z (2 ^ prec f - 1) * p2 e.

(* the value whose digits in base r, least significant first, are us *)
Fixpoint evalr (r : Z) (us : list Z) : Z :=
  match us with [] => 0 | u :: t => u + r * evalr r t end%Z.
