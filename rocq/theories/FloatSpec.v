(* Floating-point formats. *)
From Verif Require Import Base FloatModel.
Open Scope Q_scope.

(* at least one digit; 1 and 2^-prec are numbers of the format *)
Definition fmt_ok (f : fmt) : Prop := (1 <= prec f)%Z /\ (emin f + prec f <= 0)%Z.

(* x is a number of the format *)
Definition representable (f : fmt) (x : Q) : Prop :=
  exists m e, (emin f <= e)%Z /\ (Z.abs m <= 2 ^ prec f)%Z /\ x == inject_Z m * p2 e.
