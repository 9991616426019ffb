(* detail/vector_io.hpp and the stream operators of the parameters that use it.

   A stream is the list of its remaining characters (codes) with eofbit and failbit.
   Simplifications: default formatting flags and the C locale; no exceptions are
   enabled, so basic_ios_exception_saver does nothing; badbit does not occur. *)
From Verif Require Import Base QTextModel FloatModel RDiscModel PieceModel HypModel.
Open Scope Z_scope.

Record cin := Cin { c_rest : list Z; c_eof : bool; c_fail : bool }.
Definition cin_of (l : list Z) : cin := Cin l false false.
(* what std::basic_istream::sentry checks *)
Definition c_good (s : cin) : bool := negb (c_eof s || c_fail s).
(* setstate(failbit), clear() and putback, which clears eofbit *)
Definition c_setfail (s : cin) : cin := Cin (c_rest s) (c_eof s) true.
Definition c_clear (s : cin) : cin := Cin (c_rest s) false false.
Definition c_putback (ch : Z) (s : cin) : cin := Cin (ch :: c_rest s) false (c_fail s).
(* is >> ch, for a character *)
Definition in_char (s : cin) : option Z * cin :=
  if c_good s then
    match skip_ws (c_rest s) with [] => (None, Cin [] true true) | c :: r => (Some c, Cin r false false) end
  else (None, c_setfail s).
(* is >> std::ws *)
Definition in_ws (s : cin) : cin :=
  if c_good s then let r := skip_ws (c_rest s) in Cin r (match r with [] => true | _ => false end) false else c_setfail s.

Section V.
Context {T : Type}.
(* the text of an element; std::num_get: the value, if any, and the characters left *)
Variable put : T -> list Z.
Variable num : list Z -> option T * list Z.

(* is >> std::ws >> val *)
Definition in_elem (s : cin) : option T * cin :=
  if c_good s then
    match skip_ws (c_rest s) with
    | [] => (None, Cin [] true true)
    | l => let '(v, r) := num l in
           (v, Cin r (match r with [] => true | _ => false end) (match v with None => true | _ => false end))
    end
  else (None, c_setfail s).

(* detail/vector_io.hpp:35-40: the loop of print_vector *)
Definition pv_rest (vs : list T) : list Z := flat_map (fun v => 32 :: put v) vs.
(* detail/vector_io.hpp:25-42: print_vector *)
Definition print_vector (vs : list T) : list Z :=
  91 :: match vs with [] => [] | v :: r => put v ++ pv_rest r end ++ [93].

(* detail/vector_io.hpp:57-60: the loop of read_vector; [n] is at least the number
   of passes, as every pass but the last takes a character *)
Fixpoint rv_loop (n : nat) (vec : list T) (s : cin) : list T * cin :=
  match n with
  | O => (vec, s)
  | S k => match in_elem s with (Some v, s') => rv_loop k (vec ++ [v]) s' | (None, s') => (vec, s') end
  end.
(* detail/vector_io.hpp:61-71: after the loop *)
Definition rv_close (r : list T * cin) : list T * cin :=
  let '(vec, s) := r in
  if c_fail s then
    match in_char (c_clear s) with
    | (None, s') => (vec, s')
    | (Some ch, s') => if ch =? 93 then (vec, s') else (vec, c_setfail (c_putback ch s'))
    end
  else (vec, s).
(* detail/vector_io.hpp:44-72: read_vector *)
Definition read_vector (vec : list T) (s : cin) : list T * cin :=
  match in_char s with
  | (None, s') => (vec, s')
  | (Some ch, s') =>
    if ch =? 91 then rv_close (rv_loop (S (length (c_rest s'))) vec s')
    else (vec, c_setfail (c_putback ch s'))
  end.
(* discrete_distribution.hpp:306-310, 313-321: param_type *)
Definition dp_write (ps : list T) : list Z := print_vector ps.
Definition dp_read (ps : list T) (s : cin) : list T * cin :=
  let '(temp, s') := read_vector [] s in (if c_fail s' then ps else temp, s').
End V.
Arguments in_elem {T}. Arguments rv_loop {T}. Arguments read_vector {T}. Arguments print_vector {T}. Arguments rv_close {T}.

(* os << n for an integer type other than the character types *)
Definition put_int (n : Z) : list Z := if n <? 0 then 45 :: dec 20 (- n) else dec 20 n.
(* num_get<>::do_get for such a type, of at most 64 bits: an optional sign, digits *)
Definition num_int (t : ity) (l : list Z) : option Z * list Z :=
  let '(neg, l) := match l with
    | c :: r => if c =? 45 then (true, r) else if c =? 43 then (false, r) else (false, l)
    | [] => (false, []) end in
  match l with
  | c :: _ => if is_dig c then
      let '(v, r) := digits_in 0 l in
      let z := if neg then - v else v in
      if sgn t then (if (imin t <=? z) && (z <=? imax t) then (Some z, r) else (None, r))
      else (if v <=? imax t then (Some (wrap (bits t) z), r) else (None, r))
    else (None, l)
  | [] => (None, [])
  end.

Section P.
Variable put : Q -> list Z.
Variable num : list Z -> option Q * list Z.
(* piecewise_constant_distribution.hpp:182-187, 190-201; piecewise_linear_distribution.hpp:197-215 *)
Definition pp_write (p : pcp) : list Z := print_vector put (pp_ivals p) ++ print_vector put (pp_weights p).
Definition pp_read (p : pcp) (s : cin) : pcp * cin :=
  let '(iv, s) := read_vector num [] s in
  let '(ws, s) := read_vector num [] s in
  (if c_fail s then p else Pcp iv ws, s).
(* piecewise_constant_distribution.hpp:433-441 *)
Definition pc_read (f fw : fmt) (md : rmode) (d : pcd) (s : cin) : option pcd * cin :=
  let '(p, s) := pp_read pp_default s in
  (if c_fail s then Some d else pc_set_param fw md d p, s).
(* hyperexponential_distribution.hpp:445-452, 455-520 *)
Definition hp_write (p : hparam) : list Z := print_vector put (hp_probs p) ++ 32 :: print_vector put (hp_rates p).
Definition hp_in (f : fmt) (md : rmode) (p : hparam) (s : cin) : option hparam * cin :=
  let '(probs, s) := read_vector num [] s in
  if c_fail s then (Some p, s) else
  let '(rates, s) := read_vector num [] (in_ws s) in
  if c_fail s then (Some p, s) else (hp_read f md p probs rates, s).
End P.
