(* discrete_distribution with integral weights.
   /repo/include/boost/random/discrete_distribution.hpp

   IntType is the integer type t, WeightType the integer type tw.  The values
   of both are elements of Z.  Every value that the code stores in an IntType
   or a WeightType while it builds or reads a table passes through [chk],
   which yields None when it does not fit; so None stands for signed overflow
   and also for an unsigned value that wraps, or for an element access outside
   a vector.  try_get_sum, where the code does wrap, uses [norm] instead. *)
From Verif Require Import Base ProgModel UIntModel.

Definition chk (t : ity) (z : Z) : option Z :=
  if (imin t <=? z) && (z <=? imax t) then Some z else None.

(* vector element access with bounds, std::vector::operator[] *)
Definition at_ {A} (l : list A) (i : Z) : option A :=
  if i <? 0 then None else nth_error l (Z.to_nat i).

Fixpoint put {A} (l : list A) (i : nat) (v : A) : option (list A) :=
  match l, i with
  | [], _ => None
  | _ :: r, O => Some (v :: r)
  | x :: r, S k => q <- put r k v;; Some (x :: q)
  end.

Definition put_ {A} (l : list A) (i : Z) (v : A) : option (list A) :=
  if i <? 0 then None else put l (Z.to_nat i) v.

(* integer_alias_table: the data members, lines 129-132 *)
Record alias := Alias { al_tab : list (Z * Z); al_avg : Z; al_exc : Z }.

(* the members of a newly created object: the vector is empty; _average and
   _excess are not initialised (the model puts 0; init writes them before any
   use) *)
Definition new_alias := Alias [] 0 0.

Section Disc.
Variables (tw t : ity).

(* get_weight, lines 43-47 *)
Definition get_weight (avg exc bin : Z) : option Z :=
  if bin <? exc then chk tw (avg + 1) else Some avg.

(* init_average, lines 55-76: one iteration of the loop *)
Definition ia_step (st : Z * Z * Z) (x : Z) : option (Z * Z * Z) :=
  let '(avg, exc, n0) := st in
  n <- chk t (n0 + 1);;
  if x <? avg then
    diff <- chk tw (avg - x);;
    a1 <- chk tw (avg - diff / n);;
    if exc <? diff mod n then
      a2 <- chk tw (a1 - 1);;
      e <- chk t (exc + (n - diff mod n));;
      Some (a2, e, n)
    else
      e <- chk t (exc - diff mod n);;
      Some (a1, e, n)
  else
    diff <- chk tw (x - avg);;
    a1 <- chk tw (avg + diff / n);;
    if diff mod n <? n - exc then
      e <- chk t (exc + diff mod n);;
      Some (a1, e, n)
    else
      a2 <- chk tw (a1 + 1);;
      e <- chk t (exc - (n - diff mod n));;
      Some (a2, e, n).

Fixpoint ia_loop (st : Z * Z * Z) (ws : list Z) : option (Z * Z * Z) :=
  match ws with
  | [] => Some st
  | x :: r => st' <- ia_step st x;; ia_loop st' r
  end.

(* std::vector::resize(n) of the table, line 77: old elements stay, new ones
   are value-initialised *)
Definition resize_tab (l : list (Z * Z)) (n : nat) : list (Z * Z) :=
  firstn n l ++ repeat (0, 0) (n - length l).

(* init, lines 581-591: the two work lists, in order; [i] is the index *)
Fixpoint split_ws (na : Z) (i : Z) (ws : list Z) : list (Z * Z) * list (Z * Z) :=
  match ws with
  | [] => ([], [])
  | x :: r =>
      let '(b, a) := split_ws na (i + 1) r in
      if x <? na then ((x, i) :: b, a) else (b, (x, i) :: a)
  end.

(* one assignment of lines 610-611 and 614-615 *)
Definition set_first (avg exc : Z) (tab : list (Z * Z)) (k : Z) : option (list (Z * Z)) :=
  old <- at_ tab k;; w <- get_weight avg exc k;; put_ tab k (w, snd old).

Fixpoint fill (avg exc : Z) (l : list (Z * Z)) (tab : list (Z * Z)) : option (list (Z * Z)) :=
  match l with
  | [] => Some tab
  | x :: r => tab' <- set_first avg exc tab (snd x);; fill avg exc r tab'
  end.

(* init, lines 599-616.  [below] and [above] are the elements from b_iter and
   a_iter on; "*b_iter = *a_iter++" replaces the head of [below].  The fuel is
   the total number of elements, which decreases in every iteration. *)
Fixpoint vose (fuel : nat) (na avg exc : Z) (below above tab : list (Z * Z)) : option (list (Z * Z)) :=
  match below, above with
  | b :: bs, a :: rest =>
      match fuel with
      | O => None
      | S f =>
          tab' <- put_ tab (snd b) (fst b, snd a);;
          w <- get_weight avg exc (snd b);;
          d <- chk tw (w - fst b);;
          v <- chk tw (fst a - d);;
          if v <? na then vose f na avg exc ((v, snd a) :: bs) rest tab'
          else vose f na avg exc bs ((v, snd a) :: rest) tab'
      end
  | _, _ => tab1 <- fill avg exc below tab;; fill avg exc above tab1
  end.

(* init_empty, lines 82-89 *)
Definition init_empty : alias := Alias [(1, 0)] 1 0.

(* init, lines 571-627, i.e. param(parm), lines 519-522, on an object whose
   members are [al].  Iterator categories are not distinguished (the vector of
   param_type has forward iterators). *)
Definition d_init (al : alias) (ws : list Z) : option alias :=
  match ws with
  | [] => Some init_empty
  | _ =>
      st <- ia_loop (0, 0, 0) ws;;
      let '(avg, exc, n) := st in
      let tab := resize_tab (al_tab al) (Z.to_nat n) in
      na <- get_weight avg exc 0;;
      let '(b, a) := split_ws na 0 ws in
      tab' <- vose (length ws) na avg exc b a tab;;
      Some (Alias tab' avg exc)
  end.

(* discrete_distribution(parm), lines 418-421 *)
Definition d_make (ws : list Z) : option alias := d_init new_alias ws.

(* max(), lines 479-480 *)
Definition d_max (al : alias) : Z := Z.of_nat (length (al_tab al)) - 1.

(* accept, lines 105-108 *)
Definition d_accept (al : alias) (c v : Z) : bool := (c <? al_exc al) || (v <? al_avg al).

(* lines 437-441 *)
Definition d_select (al : alias) (c v : Z) : option Z :=
  e <- at_ (al_tab al) c;;
  Some (if v <? fst e then c else snd e).

(* operator()(urng), lines 427-442; test, lines 100-104.  F bounds the number of
   iterations of the loops; [tb], [bmin], [bmax] describe the engine.  The
   selection after the loop is moved into the accepting iteration. *)
Definition d_op (F : nat) (tb : ity) (bmin bmax : Z) (al : alias) : prog Z :=
  retry F
    (c <~ uniform_int F tb bmin bmax t 0 (d_max al);;
     v <~ uniform_int F tb bmin bmax tw 0 (al_avg al);;
     if d_accept al c v then r <~ plift (d_select al c v);; PRet (Some r) else PRet None).

(* probabilities(), lines 496-511; normalize (line 99) does nothing *)
Fixpoint prob_loop (avg exc : Z) (i : Z) (l : list (Z * Z)) (res : list Z) : option (list Z) :=
  match l with
  | [] => Some res
  | e :: r =>
      x <- at_ res i;; x' <- chk tw (x + fst e);; res1 <- put_ res i x';;
      w <- get_weight avg exc i;; d <- chk tw (w - fst e);;
      y <- at_ res1 (snd e);; y' <- chk tw (y + d);; res2 <- put_ res1 (snd e) y';;
      prob_loop avg exc (i + 1) r res2
  end.

Definition d_probabilities (al : alias) : option (list Z) :=
  prob_loop (al_avg al) (al_exc al) 0 (al_tab al) (repeat 0 (length (al_tab al))).

(* integer_alias_table::operator==, lines 90-94, and
   discrete_distribution::operator==, lines 551-554 *)
Definition zlist2_eqb (l m : list (Z * Z)) : bool :=
  if list_eq_dec (fun x y : Z * Z => ltac:(decide equality; apply Z.eq_dec)) l m then true else false.
Definition d_eqb (x y : alias) : bool :=
  zlist2_eqb (al_tab x) (al_tab y) && (al_avg x =? al_avg y) && (al_exc x =? al_exc y).

(* try_get_sum, lines 109-122.  The sum is stored in a WeightType: it wraps
   when the type is unsigned and is undefined when signed (for signed types
   narrower than int the conversion would wrap; not distinguished). *)
Fixpoint try_sum (result : Z) (ws : list Z) : option Z :=
  match ws with
  | [] => Some result
  | x :: r =>
      if x <? imax tw - result then Some 0
      else s <- norm tw (result + x);; try_sum s r
  end.

(* lines 453-468: the loop over the weights *)
Fixpoint cumul (val sum : Z) (result : Z) (ws : list Z) : option Z :=
  match ws with
  | [] => Some (result - 1)
  | x :: r =>
      s <- norm tw (sum + x);;
      if val <? s then Some result else cumul val s (result + 1) r
  end.

(* operator()(urng, parm), lines 448-474; generate_in_range, lines 123-128 *)
Definition d_op_parm (F : nat) (tb : ity) (bmin bmax : Z) (ws : list Z) : prog Z :=
  limit <~ plift (try_sum 0 ws);;
  if limit =? 0 then
    al <~ plift (d_make ws);; d_op F tb bmin bmax al
  else
    v <~ uniform_int F tb bmin bmax tw 0 (limit - 1);;
    plift (cumul v 0 0 ws).

End Disc.
