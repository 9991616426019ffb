(* discrete_distribution with real weights, and the distributions built on it.
   /repo/include/boost/random/discrete_distribution.hpp
   /repo/include/boost/random/piecewise_constant_distribution.hpp
   /repo/include/boost/random/piecewise_linear_distribution.hpp

   WeightType and RealType are the format f with rounding direction md; every
   operation rounds.  IntType is the integer type t.  None stands for a
   division by zero (the code would go on with an infinity or NaN) and for an
   element access outside a vector.  The number of values is assumed to be a
   value of IntType where indices are converted to it ([cast] otherwise). *)
From Verif Require Import Base ProgModel UIntModel FloatModel RealModel DiscModel.
Open Scope Q_scope.

Section RDisc.
Variables (f : fmt) (md : rmode) (t : ity).
Let rnd := fround f md.

(* a real_alias_table is its only member, lines 195-196 *)
Definition rtab := list (Q * Z).

(* std::accumulate, lines 145-146 and 166-168 *)
Definition racc (ws : list Q) : Q := fold_left (fun s x => rnd (s + x)) ws 0.

(* init_average, lines 141-149, without the resize; the size is converted to
   WeightType *)
Definition r_average (ws : list Q) : option Q :=
  fdiv f md (racc ws) (rnd (inject_Z (Z.of_nat (length ws)))).

(* normalize(val, average), lines 160-163, for all weights *)
Fixpoint r_norm (avg : Q) (ws : list Q) : option (list Q) :=
  match ws with
  | [] => Some []
  | x :: r => v <- fdiv f md x avg;; l <- r_norm avg r;; Some (v :: l)
  end.

(* normalize(weights), lines 164-176 *)
Definition r_normalize (ws : list Q) : option (list Q) := r_norm (racc ws) ws.

(* resize, line 147 *)
Definition r_resize (l : rtab) (n : nat) : rtab := firstn n l ++ repeat (0, 0%Z) (n - length l).

(* init, lines 581-591, normalized values in; get_weight(0) = 1, lines 137-140 *)
Fixpoint r_split (i : Z) (vs : list Q) : list (Q * Z) * list (Q * Z) :=
  match vs with
  | [] => ([], [])
  | x :: r =>
      let '(b, a) := r_split (i + 1) r in
      if qlt x 1 then ((x, cast t i) :: b, a) else (b, (x, cast t i) :: a)
  end.

(* lines 609-616 *)
Definition r_set (tab : rtab) (k : Z) : option rtab :=
  old <- at_ tab k;; put_ tab k (1, snd old).
Fixpoint r_fill (l : list (Q * Z)) (tab : rtab) : option rtab :=
  match l with
  | [] => Some tab
  | x :: r => tab' <- r_set tab (snd x);; r_fill r tab'
  end.

(* lines 599-616; see vose in DiscModel.v *)
Fixpoint r_vose (fuel : nat) (below above : list (Q * Z)) (tab : rtab) : option rtab :=
  match below, above with
  | b :: bs, a :: rest =>
      match fuel with
      | O => None
      | S k =>
          tab' <- put_ tab (snd b) (fst b, snd a);;
          let v := rnd (fst a - rnd (1 - fst b)) in
          if qlt v 1 then r_vose k ((v, snd a) :: bs) rest tab'
          else r_vose k bs ((v, snd a) :: rest) tab'
      end
  | _, _ => tab1 <- r_fill below tab;; r_fill above tab1
  end.

(* init_empty, lines 150-155 *)
Definition r_empty : rtab := [(1, 0%Z)].

(* init, lines 563-627, on an object whose table is tab: the constructors from
   weights and param(parm) *)
Definition rd_init (tab : rtab) (ws : list Q) : option rtab :=
  match ws with
  | [] => Some r_empty
  | _ =>
      avg <- r_average ws;;
      vs <- r_norm avg ws;;
      let '(b, a) := r_split 0 vs in
      r_vose (length ws) b a (r_resize tab (length ws))
  end.

(* discrete_distribution(first, last), lines 358-362, and (wl), (range) *)
Definition rd_make (ws : list Q) : option rtab := rd_init [] ws.

(* param_type(first, last), lines 247-251, and (wl), (range) *)
Definition rp_make (ws : list Q) : option (list Q) := r_normalize ws.
(* param_type(), line 241 *)
Definition rp_default : list Q := [1].
(* discrete_distribution(parm), lines 418-421 *)
Definition rd_of_param (ps : list Q) : option rtab := rd_init [] ps.

(* max(), lines 479-480 *)
Definition rd_max (tab : rtab) : Z := cast t (Z.of_nat (length tab) - 1).

(* lines 437-441 *)
Definition rd_select (tab : rtab) (c : Z) (v : Q) : option Z :=
  e <- at_ tab c;; Some (if qlt v (fst e) then c else snd e).

(* operator()(urng), lines 427-442, with test, lines 177-181, and accept, lines
   182-185, always true: the loop body is executed once *)
Definition rd_op (F : nat) (tb : ity) (bmin bmax : Z) (tab : rtab) : prog Z :=
  c <~ uniform_int F tb bmin bmax t 0 (rd_max tab);;
  v <~ uniform_01 f md F tb bmin bmax;;
  plift (rd_select tab c v).

(* operator()(urng, parm), lines 448-468; try_get_sum, lines 186-189, is 1, and
   generate_in_range, lines 190-194, ignores it.  When no partial sum exceeds
   the value, size() - 1 is returned, computed in std::size_t (64 bits). *)
Fixpoint r_cumul (val sum : Q) (result : Z) (ps : list Q) : Z :=
  match ps with
  | [] => cast t (cast (Ity 64 false) (result - 1))
  | x :: r =>
      let s := rnd (sum + x) in
      if qlt val s then cast t result else r_cumul val s (result + 1) r
  end.
Definition rd_op_parm (F : nat) (tb : ity) (bmin bmax : Z) (ps : list Q) : prog Z :=
  v <~ uniform_01 f md F tb bmin bmax;;
  PRet (r_cumul v 0 0 ps).

(* probabilities(), lines 496-511 *)
Fixpoint r_prob_loop (i : Z) (l : rtab) (res : list Q) : option (list Q) :=
  match l with
  | [] => Some res
  | e :: r =>
      x <- at_ res i;; res1 <- put_ res i (rnd (x + fst e));;
      y <- at_ res1 (snd e);; res2 <- put_ res1 (snd e) (rnd (y + rnd (1 - fst e)));;
      r_prob_loop (i + 1) r res2
  end.
Definition rd_probabilities (tab : rtab) : option (list Q) :=
  l <- r_prob_loop 0 tab (repeat 0 (length tab));; r_normalize l.

(* operator==, lines 156-159 *)
Fixpoint r_eqb (x y : rtab) : bool :=
  match x, y with
  | [], [] => true
  | (a, i) :: x', (b, j) :: y' => Qeq_bool a b && (i =? j)%Z && r_eqb x' y'
  | _, _ => false
  end.

End RDisc.
