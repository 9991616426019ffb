(* Code that draws numbers from an engine passed by reference.

   A program is a decision tree: it returns a value, or draws the next engine
   output and continues.  [PUB] is undefined behaviour, [PFuel] means that the
   fuel that bounds a loop of the model ran out. *)
From Verif Require Import Base.

Inductive prog (A : Type) :=
| PRet (a : A)
| PDraw (k : Z -> prog A)
| PUB
| PFuel.
Arguments PRet {A} a.
Arguments PDraw {A} k.
Arguments PUB {A}.
Arguments PFuel {A}.

Fixpoint pbind {A B} (p : prog A) (f : A -> prog B) : prog B :=
  match p with
  | PRet a => f a
  | PDraw k => PDraw (fun v => pbind (k v) f)
  | PUB => PUB
  | PFuel => PFuel
  end.
Notation "x <~ e ;; f" := (pbind e (fun x => f)) (at level 61, e at next level, right associativity).

(* an operation that may be undefined *)
Definition plift {A} (x : option A) : prog A := match x with Some a => PRet a | None => PUB end.

(* one engine call *)
Definition draw : prog Z := PDraw (fun v => PRet v).

(* for(;;) { attempt; } where the attempt either returns a value (Some) or
   continues (None); at most [fuel] iterations *)
Fixpoint retry {A} (fuel : nat) (attempt : prog (option A)) : prog A :=
  match fuel with
  | O => PFuel
  | S f => r <~ attempt;; match r with Some v => PRet v | None => retry f attempt end
  end.

(* running a program on a given sequence of engine outputs *)
Inductive outcome (A : Type) :=
| ORet (a : A) (rest : list Z)   (* returned a, [rest] not consumed *)
| OMore                          (* wants another engine output *)
| OUB
| OFuel.
Arguments ORet {A} a rest.
Arguments OMore {A}.
Arguments OUB {A}.
Arguments OFuel {A}.

Fixpoint exec {A} (p : prog A) (ds : list Z) : outcome A :=
  match p with
  | PRet a => ORet a ds
  | PDraw k => match ds with [] => OMore | v :: r => exec (k v) r end
  | PUB => OUB
  | PFuel => OFuel
  end.

(* running a program with an engine given by its step function *)
Fixpoint exec_eng {A S} (step : S -> Z * S) (p : prog A) (s : S) : option (A * S) :=
  match p with
  | PRet a => Some (a, s)
  | PDraw k => let '(v, s') := step s in exec_eng step (k v) s'
  | PUB | PFuel => None
  end.
