(* What discrete_distribution should do; stated without the model's loops. *)
From Verif Require Import Base ProgModel ProgSpec UIntSpec DiscModel.

Definition zsum (l : list Z) : Z := fold_right Z.add 0 l.

Definition weight (ws : list Z) (i : Z) : Z := nth (Z.to_nat i) ws 0.

(* admissible parameters: types of at least two bits, a non-empty vector that
   IntType can index, values that WeightType can represent, not all zero *)
Definition weights_ok (tw t : ity) (ws : list Z) : Prop :=
  2 <= bits tw /\ 2 <= bits t /\ ws <> [] /\ Z.of_nat (length ws) <= imax t /\
  Forall (fun x => 0 <= x <= imax tw) ws.

Definition weights_wf (tw t : ity) (ws : list Z) : Prop :=
  weights_ok tw t ws /\ 0 < zsum ws.

(* the accepted (column, threshold) pairs for which i is selected *)
Definition selected (al : alias) (i : Z) : list (Z * Z) :=
  filter (fun p => d_accept al (fst p) (snd p) &&
                   match d_select al (fst p) (snd p) with Some r => r =? i | None => false end)
         (list_prod (zrange 0 (d_max al)) (zrange 0 (al_avg al))).

(* a program that returns i with probability proportional to weight i: among
   the tuples of n engine outputs after which it returns *)
Definition proportional (bmin bmax : Z) (p : prog Z) (ws : list Z) : Prop :=
  forall n i j, 0 <= i < Z.of_nat (length ws) -> 0 <= j < Z.of_nat (length ws) ->
    Z.of_nat (count bmin bmax p n i) * weight ws j = Z.of_nat (count bmin bmax p n j) * weight ws i.

(* the objects that a program can have: new ones, given parameters any number
   of times, never more than N values at once *)
Inductive reachable (tw t : ity) (N : nat) : alias -> Prop :=
| reach_new : reachable tw t N new_alias
| reach_param : forall al ws al', reachable tw t N al -> (ws = [] \/ weights_ok tw t ws) -> (length ws <= N)%nat ->
    d_init tw t al ws = Some al' -> reachable tw t N al'.
