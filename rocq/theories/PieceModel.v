(* /repo/include/boost/random/piecewise_constant_distribution.hpp
   /repo/include/boost/random/piecewise_linear_distribution.hpp

   RealType is the format f, WeightType the format fw; rounding direction md.
   None stands for an access outside a vector, for reading past the end of the
   weights, and for a division by zero.  User-supplied functions are g : Q -> Q;
   their results are converted.  Streaming is not modelled here. *)
From Verif Require Import Base ProgModel UIntModel FloatModel RealModel DiscModel RDiscModel.
Open Scope Q_scope.

(* std::size_t *)
Definition szt := Ity 64 false.

(* *first++, k times *)
Fixpoint take_n (k : nat) (ws : list Q) : option (list Q) :=
  match k with
  | O => Some []
  | S j => match ws with [] => None | w :: r => l <- take_n j r;; Some (w :: l) end
  end.

Section Piece.
Variables (f fw : fmt) (md : rmode).
Let rnd := fround f md.
Let rndw := fround fw md.
Let rndd := fround ieee_double md.
Let ofZ (z : Z) : Q := inject_Z z.

(* ================= piecewise_constant_distribution ================= *)

(* lines 459-460 and 216-217 *)
Record pcd := Pcd { pc_bins : rtab; pc_ivals : list Q }.
Record pcp := Pcp { pp_ivals : list Q; pp_weights : list Q }.

(* xmin + k * delta for k = 0 .. n-1, in the format given by r *)
Definition steps (r : Q -> Q) (n : nat) (xmin delta : Q) : list Q :=
  map (fun k => r (xmin + r (r (ofZ (Z.of_nat k)) * delta))) (seq 0 n).

(* param_type(), lines 53-58 *)
Definition pp_default : pcp := Pcp [0; 1] [1].
(* param_type(intervals_first, intervals_last, weight_first), lines 70-86 *)
Definition pp_iter (iv ws : list Q) : option pcp :=
  if Nat.ltb (length iv) 2 then Some (Pcp [0; 1] [1])
  else l <- take_n (length iv - 1) ws;; Some (Pcp iv l).
(* the midpoints, lines 112 and 298 *)
Fixpoint midpoints (iv : list Q) : list Q :=
  match iv with
  | a :: ((b :: _) as r) => rnd (rnd (a + b) / 2) :: midpoints r
  | _ => []
  end.
(* param_type(il, f), lines 100-116 *)
Definition pp_list (iv : list Q) (g : Q -> Q) : pcp :=
  if Nat.ltb (length iv) 2 then Pcp [0; 1] [1] else Pcp iv (map (fun x => rndw (g x)) (midpoints iv)).
(* param_type(intervals_arg, weights_arg), lines 127-139: the weights are kept *)
Definition pp_range (iv ws : list Q) : pcp :=
  if Nat.ltb (length iv) 2 then Pcp [0; 1] (ws ++ [1]) else Pcp iv ws.
(* param_type(nw, xmin, xmax, f), lines 148-159: the quotient is computed in
   RealType, but delta is a double, and so are the arguments of f (for a
   RealType no wider than double) *)
Definition dbl_delta (n : nat) (xmin xmax : Q) : option Q :=
  d <- fdiv f md (rnd (xmax - xmin)) (rnd (ofZ (Z.of_nat n)));; Some (rndd d).
Definition pp_fun (nw : nat) (xmin xmax : Q) (g : Q -> Q) : option pcp :=
  let n := if Nat.eqb nw 0 then 1%nat else nw in
  delta <- dbl_delta n xmin xmax;;
  let xs := steps rndd n xmin delta in
  Some (Pcp (map rnd xs ++ [xmax]) (map (fun x => rndw (g (rndd (x + rndd (delta / 2))))) xs)).

(* piecewise_constant_distribution(), lines 224-228 *)
Definition pc_default : pcd := Pcd r_empty [0; 1].
(* _bins.param(param_type(weights)) *)
Definition set_bins (old : rtab) (ws : list Q) : option rtab :=
  ps <- rp_make fw md ws;; rd_init fw md szt old ps.
(* lines 253-273 *)
Definition pc_iter (iv ws : list Q) : option pcd :=
  if Nat.ltb (length iv) 2 then Some pc_default
  else l <- take_n (length iv - 1) ws;; b <- set_bins r_empty l;; Some (Pcd b iv).
(* lines 287-306 *)
Definition pc_list (iv : list Q) (g : Q -> Q) : option pcd :=
  if Nat.ltb (length iv) 2 then Some pc_default
  else b <- set_bins r_empty (map (fun x => rndw (g x)) (midpoints iv));; Some (Pcd b iv).
(* lines 317-328: the bins are made from the weights in any case *)
Definition pc_range (iv ws : list Q) : option pcd :=
  b <- rd_make fw md szt ws;; Some (Pcd b (if Nat.ltb (length iv) 2 then [0; 1] else iv)).
(* lines 336-350; the bins by discrete_distribution(nw, xmin, xmax, f),
   discrete_distribution.hpp:403-414, in double; the boundaries in RealType *)
Definition pc_fun (nw : nat) (xmin xmax : Q) (g : Q -> Q) : option pcd :=
  let n := if Nat.eqb nw 0 then 1%nat else nw in
  dd <- fdiv ieee_double md (rndd (xmax - xmin)) (rndd (ofZ (Z.of_nat n)));;
  b <- rd_make fw md szt (map (fun x => rndw (g (rndd (x + rndd (dd / 2))))) (steps rndd n xmin dd));;
  delta <- fdiv f md (rnd (xmax - xmin)) (rnd (ofZ (Z.of_nat n)));;
  Some (Pcd b (steps rnd n xmin delta ++ [xmax])).
(* lines 354-358 *)
Definition pc_of_param (p : pcp) : option pcd :=
  b <- rd_make fw md szt (pp_weights p);; Some (Pcd b (pp_ivals p)).
(* lines 409-416 *)
Definition pc_set_param (d : pcd) (p : pcp) : option pcd :=
  b <- set_bins (pc_bins d) (pp_weights p);; Some (Pcd b (pp_ivals p)).

(* operator()(urng), lines 365-369; the bins use the format fw *)
Definition pc_op (F : nat) (tb : ity) (bmin bmax : Z) (fmax : Q) (d : pcd) : prog Q :=
  i <~ rd_op fw md szt F tb bmin bmax (pc_bins d);;
  a <~ plift (at_ (pc_ivals d) i);;
  b <~ plift (at_ (pc_ivals d) (i + 1));;
  uniform_real f md F tb bmin bmax fmax a b.
(* operator()(urng, parm), lines 376-379 *)
Definition pc_op_parm (F : nat) (tb : ity) (bmin bmax : Z) (fmax : Q) (p : pcp) : prog Q :=
  d <~ plift (pc_of_param p);; pc_op F tb bmin bmax fmax d.

(* min(), max(), lines 382-386 *)
Definition pc_min (d : pcd) : option Q := hd_error (pc_ivals d).
Definition pc_max (d : pcd) : option Q := hd_error (rev (pc_ivals d)).

(* densities(), lines 392-399 *)
Fixpoint pc_dens (ps iv : list Q) : option (list Q) :=
  match ps with
  | [] => Some []
  | p :: ps' =>
      match iv with
      | a :: ((b :: _) as r) => v <- fdiv f md (rnd p) (rnd (b - a));; l <- pc_dens ps' r;; Some (v :: l)
      | _ => None
      end
  end.
Definition pc_densities (d : pcd) : option (list Q) :=
  ps <- rd_probabilities fw md (pc_bins d);; pc_dens ps (pc_ivals d).
(* param(), lines 404-407 *)
Definition pc_param (d : pcd) : option pcp :=
  ps <- rd_probabilities fw md (pc_bins d);; Some (pp_range (pc_ivals d) ps).

(* ================= piecewise_linear_distribution ================= *)

(* lines 521-523 *)
Record pld := Pld { pl_bins : rtab; pl_ivals : list Q; pl_weights : list Q }.

(* std::max(x, y), std::min(x, y) *)
Definition fmaxq (x y : Q) : Q := if qlt x y then y else x.
Definition fminq (x y : Q) : Q := if qlt y x then y else x.

(* init(intervals_arg, weights_arg), lines 487-499; size() - 1 of an empty
   vector is huge, so the loop leaves the vectors *)
Fixpoint pl_bin_weights (iv ws : list Q) : option (list Q) :=
  match iv with
  | [] => None
  | a :: r =>
      match r with
      | [] => Some []
      | b :: _ =>
          match ws with
          | w1 :: ((w2 :: _) as wr) =>
              let width := rnd (b - a) in
              let x := rnd (fminq w1 w2 * width) in
              let y := rnd (rnd (Qabs (rnd (w1 - w2)) * width) / 2) in
              l <- pl_bin_weights r wr;; Some (x :: y :: l)
          | _ => None
          end
      end
  end.
(* lines 500-503 *)
Definition pl_init (old : rtab) (iv ws : list Q) : option pld :=
  bw <- pl_bin_weights iv ws;;
  ps <- rp_make f md bw;; b <- rd_init f md szt old ps;;
  Some (Pld b iv ws).
(* piecewise_linear_distribution() and default_init, lines 238-241, 510-519;
   _bins is default-constructed *)
Definition pl_default : option pld := pl_init r_empty [0; 1] [1; 1].
(* lines 265-280 *)
Definition pl_iter (iv ws : list Q) : option pld :=
  if Nat.ltb (length iv) 2 then pl_default else l <- take_n (length iv) ws;; pl_init r_empty iv l.
(* lines 294-310 *)
Definition pl_list (iv : list Q) (g : Q -> Q) : option pld :=
  if Nat.ltb (length iv) 2 then pl_default else pl_init r_empty iv (map (fun x => rnd (g x)) iv).
(* lines 321-332 *)
Definition pl_range (iv ws : list Q) : option pld :=
  if Nat.ltb (length iv) 2 then pl_default else pl_init r_empty iv ws.
(* lines 339-356 *)
Definition pl_fun (nw : nat) (xmin xmax : Q) (g : Q -> Q) : option pld :=
  let n := if Nat.eqb nw 0 then 1%nat else nw in
  delta <- fdiv f md (rnd (xmax - xmin)) (rnd (ofZ (Z.of_nat n)));;
  let xs := steps rnd n xmin delta in
  pl_init r_empty (xs ++ [xmax]) (map (fun x => rnd (g x)) (xs ++ [xmax])).
(* param(parm), lines 434-441; the constructor from parameters, lines 360-365,
   is the same with a default-constructed _bins *)
Definition pl_set_param (d : pld) (iv ws : list Q) : option pld := pl_init (pl_bins d) iv ws.
Definition pl_of_param (iv ws : list Q) : option pld := pl_init r_empty iv ws.
(* operator==, lines 472-476 *)
Fixpoint qlist_eqb (x y : list Q) : bool :=
  match x, y with
  | [], [] => true
  | a :: x', b :: y' => Qeq_bool a b && qlist_eqb x' y'
  | _, _ => false
  end.
Definition pl_eqb (x y : pld) : bool := qlist_eqb (pl_ivals x) (pl_ivals y) && qlist_eqb (pl_weights x) (pl_weights y).

(* operator()(urng), lines 372-385; the two draws of std::max(dist(urng),
   dist(urng)) in either order *)
Definition pl_op (F : nat) (tb : ity) (bmin bmax : Z) (fmax : Q) (d : pld) : prog Q :=
  j <~ rd_op f md szt F tb bmin bmax (pl_bins d);;
  let i := (j / 2)%Z in
  a <~ plift (at_ (pl_ivals d) i);;
  b <~ plift (at_ (pl_ivals d) (i + 1));;
  if (j mod 2 =? 0)%Z then uniform_real f md F tb bmin bmax fmax a b
  else
    w1 <~ plift (at_ (pl_weights d) i);;
    w2 <~ plift (at_ (pl_weights d) (i + 1));;
    x <~ uniform_real f md F tb bmin bmax fmax a b;;
    y <~ uniform_real f md F tb bmin bmax fmax a b;;
    PRet (if qlt w1 w2 then fmaxq x y else fminq x y).

(* densities(), lines 408-424, and param_type::densities, lines 178-194 *)
Fixpoint pl_sum (s : Q) (iv ws : list Q) : option Q :=
  match iv with
  | [] => None
  | a :: r =>
      match r with
      | [] => Some s
      | b :: _ =>
          match ws with
          | w1 :: ((w2 :: _) as wr) => pl_sum (rnd (s + rnd (rnd (rnd (w1 + w2) * rnd (b - a)) / 2))) r wr
          | _ => None
          end
      end
  end.
Definition pl_densities (iv ws : list Q) : option (list Q) :=
  s <- pl_sum 0 iv ws;; r_norm f md s ws.

End Piece.
