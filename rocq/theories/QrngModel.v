(* detail/qrng_base.hpp and detail/gray_coded_qrng.hpp: the quasi-random engines.

   size_type is an unsigned type of Ws bits, std::size_t and boost::uintmax_t
   have 64 bits.  A call either returns, or throws; the model records the state
   of the object in both cases.  [Bad] is undefined behaviour. *)
From Verif Require Import Base.

Inductive res (S A : Type) : Type := Ret (s : S) (a : A) | Thr (s : S) | Bad.
Arguments Ret {S A} s a.
Arguments Thr {S A} s.
Arguments Bad {S A}.

(* qrng_base.hpp:264-270, the members: L is the lattice, V the result type *)
Record qeng (L V : Type) := Qe { q_curr : Z; q_seq : Z; q_lat : L; q_st : list V }.
Arguments Qe {L V} _ _ _ _.
Arguments q_curr {L V} _.
Arguments q_seq {L V} _.
Arguments q_lat {L V} _.
Arguments q_st {L V} _.

(* qrng_base.hpp:79 *)
Definition q_dim {L V} (e : qeng L V) : Z := Z.of_nat (length (q_st e)).

(* qrng_base.hpp:205-209 *)
Definition reset_seq {L V} (e : qeng L V) (seq : Z) : qeng L V := Qe 0 seq (q_lat e) (q_st e).

(* the functions of the derived class: seed(n) and compute_seq(n) *)
Record dops (L V : Type) := Dops {
  d_seed : qeng L V -> Z -> res (qeng L V) unit;
  d_comp : qeng L V -> Z -> res (qeng L V) unit }.
Arguments Dops {L V} _ _.
Arguments d_seed {L V} _.
Arguments d_comp {L V} _.

(* qrng_base.hpp:218-221 *)
Definition load_cached {L V} (e : qeng L V) : res (qeng L V) V :=
  if q_curr e <? 0 then Bad else
  match nth_error (q_st e) (Z.to_nat (q_curr e)) with
  | Some v => Ret (Qe (q_curr e + 1) (q_seq e) (q_lat e) (q_st e)) v
  | None => Bad
  end.

(* qrng_base.hpp:223-233 *)
Definition next_state {L V} (Ws : Z) (d : dops L V) (e : qeng L V) : res (qeng L V) V :=
  let new_seq := wrap Ws (q_seq e + 1) in
  if q_seq e <? new_seq then
    match d_comp d e new_seq with
    | Ret e' _ => load_cached (reset_seq e' new_seq)
    | Thr e' => Thr e'
    | Bad => Bad
    end
  else Thr e.

(* qrng_base.hpp:87-90 *)
Definition q_call {L V} (Ws : Z) (d : dops L V) (e : qeng L V) : res (qeng L V) V :=
  if q_curr e =? q_dim e then next_state Ws d e else load_cached e.

(* qrng_base.hpp:237-249 *)
Definition discard_vector {L V} (Ws : Z) (d : dops L V) (e : qeng L V) (z : Z) : res (qeng L V) unit :=
  let max_z := wrap 64 (2 ^ Ws - 1 - q_seq e) in
  if max_z <? z then Thr e else
  match d_seed d e (wrap Ws (wrap 64 (q_seq e + z))) with
  | Ret e' _ => Ret (Qe (q_curr e) (q_seq e') (q_lat e') (q_st e')) tt
  | Thr e' => Thr e'
  | Bad => Bad
  end.

(* qrng_base.hpp:103-138 *)
Definition q_discard {L V} (Ws : Z) (d : dops L V) (e : qeng L V) (z : Z) : res (qeng L V) unit :=
  let D := q_dim e in
  let vec_n := z / D in
  let carry := wrap 64 (q_curr e + z mod D) in
  let vec_n := wrap 64 (vec_n + carry / D) in
  let carry := carry mod D in
  let corr := if (carry =? 0) && negb (vec_n =? 0) then 1 else 0 in
  match discard_vector Ws d e (wrap 64 (vec_n - corr)) with
  | Ret e' _ => Ret (Qe (Z.lxor carry (Z.land (wrap 64 (- corr)) D)) (q_seq e') (q_lat e') (q_st e')) tt
  | Thr e' => Thr e'
  | Bad => Bad
  end.

(* qrng_base.hpp:93-97, generate on a range of n elements: values written; a
   throw keeps the values written so far *)
Fixpoint q_generate {L V} (Ws : Z) (d : dops L V) (n : nat) (e : qeng L V) : res (qeng L V) (list V) :=
  match n with
  | O => Ret e []
  | S k =>
      match q_call Ws d e with
      | Ret e1 v => match q_generate Ws d k e1 with Ret e2 l => Ret e2 (v :: l) | Thr e2 => Thr e2 | Bad => Bad end
      | Thr e1 => Thr e1
      | Bad => Bad
      end
  end.

(* qrng_base.hpp:141-145: the numbers written *)
Definition q_print {L V} (e : qeng L V) : Z * Z * Z := (q_dim e, q_seq e, q_curr e).

(* std::vector::resize *)
Definition vresize {V} (zero : V) (n : nat) (l : list V) : list V := firstn n l ++ repeat zero (n - length l).

(* qrng_base.hpp:148-168, after dim, seed and z have been read successfully.
   resize is lattice.resize; it throws before it changes anything (None). *)
Definition q_read {L V} (Ws : Z) (d : dops L V) (resize : L -> Z -> option L) (zero : V)
    (e : qeng L V) (t : Z * Z * Z) : res (qeng L V) unit :=
  let '(dim, seed, z) := t in
  if dim =? 0 then Thr e else
  match (if q_dim e =? dim then Some e
         else match resize (q_lat e) dim with
              | Some lat => Some (Qe (q_curr e) (q_seq e) lat (vresize zero (Z.to_nat dim) (q_st e)))
              | None => None
              end) with
  | None => Thr e
  | Some e1 =>
      match d_seed d e1 seed with
      | Ret e2 _ => if z =? 0 then Ret e2 tt else q_discard Ws d e2 z
      | Thr e2 => Thr e2
      | Bad => Bad
      end
  end.

(* qrng_base.hpp:171-189 *)
Definition q_eq {L V} (x y : qeng L V) : bool :=
  let D := q_dim x in
  (D =? q_dim y) &&
  negb (1 <? (if q_seq x <? q_seq y then q_seq y - q_seq x else q_seq x - q_seq y)) &&
  (wrap 64 (q_seq x + q_curr x / D) =? wrap 64 (q_seq y + q_curr y / D)) &&
  (q_curr x mod D =? q_curr y mod D).

(* ---- gray_coded_qrng.hpp: w is LatticeT::bit_count; the lattice is the vector
   of direction numbers, w rows of dimension() elements ---- *)
Definition geng := qeng (list Z) Z.

(* gray_coded_qrng.hpp:112-113, low_bits_mask_t<bit_count>::sig_bits *)
Definition g_max (w : Z) : Z := 2 ^ w - 1.

(* gray_coded_qrng.hpp:33-41: countr_zero; None: throws range_error *)
Fixpoint ctz (fuel : nat) (x : Z) : Z :=
  match fuel with O => 0 | S f => if Z.odd x then 0 else 1 + ctz f (x / 2) end.
Definition lsb (W x : Z) : option Z := if x =? 0 then None else Some (ctz (Z.to_nat W) x).

(* std::transform with bit_xor; the row has to have enough elements *)
Fixpoint xor_row (st row : list Z) : option (list Z) :=
  match st, row with
  | [], _ => Some []
  | x :: st', y :: row' => r <- xor_row st' row';; Some (Z.lxor x y :: r)
  | _ :: _, [] => None
  end.

(* gray_coded_qrng.hpp:171-177, iter_at (sobol.hpp:95-99) *)
Definition update_quasi (e : geng) (r : Z) : option geng :=
  let off := r * q_dim e in
  if Z.of_nat (length (q_lat e)) <? off then None else
  st <- xor_row (q_st e) (skipn (Z.to_nat off) (q_lat e));;
  Some (Qe (q_curr e) (q_seq e) (q_lat e) st).

(* gray_coded_qrng.hpp:179-182 *)
Definition set_zero (e : geng) : geng := Qe (q_curr e) (q_seq e) (q_lat e) (map (fun _ => 0) (q_st e)).

(* gray_coded_qrng.hpp:123-128 *)
Definition g_seed0 (e : geng) : res geng unit :=
  match update_quasi (set_zero e) 0 with
  | Some e1 => Ret (reset_seq e1 0) tt
  | None => Bad
  end.

(* gray_coded_qrng.hpp:147-151 *)
Fixpoint g_loop (fuel : nat) (code r : Z) (e : geng) : option geng :=
  match fuel with
  | O => Some e
  | S f =>
      if code =? 0 then Some e else
      e1 <- (if Z.land code 1 =? 0 then Some e else update_quasi e r);;
      g_loop f (Z.shiftr code 1) (r + 1) e1
  end.

(* gray_coded_qrng.hpp:130-155; the bit range is checked when w is less than the width *)
Definition g_seed (W w : Z) (e : geng) (init : Z) : res geng unit :=
  if init =? q_seq e then Ret (reset_seq e init) tt else
  let code := wrap W (init + 1) in
  if negb (init <? code) then Thr e else
  let code := Z.lxor code (Z.shiftr code 1) in
  if (w <? W) && (g_max w <? code) then Thr e else
  match g_loop (S (Z.to_nat W)) code 0 (set_zero e) with
  | Some e1 => Ret (reset_seq e1 init) tt
  | None => Bad
  end.

(* gray_coded_qrng.hpp:159-169 *)
Definition g_comp (W w : Z) (e : geng) (seq : Z) : res geng unit :=
  match lsb W (Z.lxor seq (g_max w)) with
  | None => Thr e
  | Some r =>
      if (w <? W) && (w <=? r) then Thr e else
      match update_quasi e r with
      | Some e1 => Ret e1 tt
      | None => Bad
      end
  end.

Definition gray_ops (W w : Z) : dops (list Z) Z := Dops (g_seed W w) (g_comp W w).

(* qrng_base.hpp:64-70: the constructor; lattice is the constructor of the
   lattice, None when it throws.  The members curr_elem and seq_count are not
   initialised before seed(); here they are 0. *)
Definition q_new (lattice : Z -> option (list Z)) (dim : Z) : option (res geng unit) :=
  if dim =? 0 then None else
  lat <- lattice dim;;
  Some (g_seed0 (Qe 0 0 lat (repeat 0 (Z.to_nat dim)))).
