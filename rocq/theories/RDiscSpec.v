(* What discrete_distribution with real weights should do. *)
From Verif Require Import Base ProgModel ProgSpec FloatModel FloatSpec.
Open Scope Q_scope.

Fixpoint qtotal (l : list Q) : Q := match l with [] => 0 | x :: r => x + qtotal r end.
Definition qweight (ws : list Q) (i : Z) : Q := nth (Z.to_nat i) ws 0.
Definition qlen {A} (l : list A) : Q := inject_Z (Z.of_nat (length l)).

(* a non-empty vector of non-negative numbers that IntType can index; the
   average is not so small that it underflows *)
Definition rweights_ok (f : fmt) (t : ity) (ws : list Q) : Prop :=
  (2 <= bits t)%Z /\ ws <> [] /\ (Z.of_nat (length ws) <= imax t)%Z /\
  Forall (fun w => representable f w /\ 0 <= w) ws /\
  qlen ws * p2 (emin f + prec f + 1) <= qtotal ws.

(* columns 0..n-1 of height 1; column c is split at height h c: below, c is
   chosen, above, s c.  The area on which i is chosen: *)
Definition area (n : nat) (h : Z -> Q) (s : Z -> Z) (i : Z) : Q :=
  fold_right (fun c a => (if (c =? i)%Z then h c else 0) + (if (s c =? i)%Z then 1 - h c else 0) + a) 0
    (map Z.of_nat (seq 0 n)).
