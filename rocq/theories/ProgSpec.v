(* Counting engine outputs.  An engine has the output range [bmin,bmax]; "all
   outputs equally likely" means that statements count tuples of outputs. *)
From Verif Require Import Base ProgModel.

(* the values bmin, ..., bmax *)
Definition zrange (bmin bmax : Z) : list Z :=
  map (fun i => bmin + Z.of_nat i) (seq 0 (Z.to_nat (bmax - bmin + 1))).

(* all tuples of n engine outputs *)
Fixpoint tuples (bmin bmax : Z) (n : nat) : list (list Z) :=
  match n with
  | O => [[]]
  | S k => flat_map (fun v => map (cons v) (tuples bmin bmax k)) (zrange bmin bmax)
  end.

(* the program returns v having consumed all of ds *)
Definition returns (p : prog Z) (v : Z) (ds : list Z) : bool :=
  match exec p ds with
  | ORet a [] => a =? v
  | _ => false
  end.

(* number of n-tuples of engine outputs after exactly which p returns v *)
Definition count (bmin bmax : Z) (p : prog Z) (n : nat) (v : Z) : nat :=
  length (filter (returns p v) (tuples bmin bmax n)).

(* a sequence of outputs of an engine with range [bmin,bmax] *)
Definition valid_draws (bmin bmax : Z) (ds : list Z) : Prop := Forall (fun v => bmin <= v <= bmax) ds.
