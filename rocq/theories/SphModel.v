(* uniform_on_sphere.hpp.

   RealType is the format [f] with rounding direction [md]; [sq] is std::sqrt;
   [u01] is uniform_01<RealType> and [nrm] unit_normal_distribution<RealType>,
   both applied to the engine.  Every operation rounds.  None is a division by
   zero, the square root of a negative number, an access outside of the
   container, or a negative size. *)
From Verif Require Import Base ProgModel FloatModel RealModel InvModel.
Open Scope Q_scope.

(* uniform_on_sphere.hpp:279-280: the members; Cont is a std::vector *)
Record sph := Sph { sp_cont : list Q; sp_dim : Z }.
(* std::vector::resize *)
Definition sp_resize (c : list Q) (d : Z) : option (list Q) :=
  if (d <? 0)%Z then None else Some (firstn (Z.to_nat d) c ++ repeat 0 (Z.to_nat d - length c)).
(* uniform_on_sphere.hpp:95-102: the constructors *)
Definition sp_make (d : Z) : option sph := c <- sp_resize [] d;; Some (Sph c d).
(* uniform_on_sphere.hpp:112-116: param(parm); lines 257-262: operator>>, once the number has been read *)
Definition sp_set (s : sph) (d : Z) : option sph := c <- sp_resize (sp_cont s) d;; Some (Sph c d).
(* uniform_on_sphere.hpp:126-133, 142-149: min and max, with [x] = -1 and 1 *)
Definition sp_bound (x : Q) (s : sph) : option (list Q) :=
  c <- sp_resize [] (sp_dim s);;
  if (sp_dim s =? 0)%Z then Some c else match c with [] => None | _ :: r => Some (x :: r) end.
Definition sp_min : sph -> option (list Q) := sp_bound (-1).
Definition sp_max : sph -> option (list Q) := sp_bound 1.
(* assignments through an iterator starting from begin() *)
Definition sp_write (vs c : list Q) : option (list Q) :=
  if Nat.ltb (length c) (length vs) then None else Some (vs ++ skipn (length vs) c).

Section S.
Variables (f : fmt) (md : rmode) (sq : Q -> Q) (u01 nrm : prog Q).
Let rnd := fround f md.

(* uniform_on_sphere.hpp:183-184, 200-201 *)
Definition sp_coord : prog Q := u <~ u01;; PRet (rnd (rnd (u * 2) - 1)).
(* uniform_on_sphere.hpp:185, 202 *)
Definition sp_sq2 (x y : Q) : Q := rnd (rnd (x * x) + rnd (y * y)).
(* uniform_on_sphere.hpp:182-186: one pass of the loop, None if it goes on *)
Definition sp_try2 : prog (option (Q * Q)) :=
  x <~ sp_coord;; y <~ sp_coord;;
  let s := sp_sq2 x y in
  PRet (if Qeq_bool s 0 || qlt 1 s then None else Some (x, y)).
(* uniform_on_sphere.hpp:187-191 *)
Definition sp_map2 (x y : Q) : option (list Q) :=
  r <- fsqrt sq (sp_sq2 x y);; mult <- fdiv f md 1 r;; Some [rnd (x * mult); rnd (y * mult)].
(* uniform_on_sphere.hpp:199-203: one pass of the loop *)
Definition sp_try3 : prog (option (Q * Q)) :=
  x <~ sp_coord;; y <~ sp_coord;;
  PRet (if qlt 1 (sp_sq2 x y) then None else Some (x, y)).
(* uniform_on_sphere.hpp:204-210 *)
Definition sp_map3 (x y : Q) : option (list Q) :=
  let s := sp_sq2 x y in
  r <- fsqrt sq (rnd (1 - s));;
  let mult := rnd (2 * r) in
  Some [rnd (x * mult); rnd (y * mult); rnd (rnd (2 * s) - 1)].
(* uniform_on_sphere.hpp:219-225: the loop over the container, [n] elements left *)
Fixpoint sp_fill (n : nat) (sqsum : Q) : prog (list Q * Q) :=
  match n with
  | O => PRet ([], sqsum)
  | S k => v <~ nrm;; r <~ sp_fill k (rnd (sqsum + rnd (v * v)));; PRet (v :: fst r, snd r)
  end.
(* uniform_on_sphere.hpp:217-226: one pass of the loop *)
Definition sp_tryn (n : nat) : prog (option (list Q * Q)) :=
  r <~ sp_fill n 0;; PRet (if Qeq_bool (snd r) 0 then None else Some r).
(* uniform_on_sphere.hpp:227-233 *)
Definition sp_mapn (vs : list Q) (sqsum : Q) : option (list Q) :=
  r <- fsqrt sq sqsum;; inv <- fdiv f md 1 r;; Some (map (fun v => rnd (v * inv)) vs).
(* uniform_on_sphere.hpp:161-237: operator(); the container is the result.  [fuel]
   bounds the number of passes of the loops. *)
Definition sp_op (fuel : nat) (s : sph) : prog (list Q) :=
  if (sp_dim s =? 0)%Z then PRet (sp_cont s)
  else if (sp_dim s =? 1)%Z then
    u <~ u01;; plift (sp_write [if qlt u (1 # 2) then (-1) else 1] (sp_cont s))
  else if (sp_dim s =? 2)%Z then
    xy <~ retry fuel sp_try2;; plift (vs <- sp_map2 (fst xy) (snd xy);; sp_write vs (sp_cont s))
  else if (sp_dim s =? 3)%Z then
    xy <~ retry fuel sp_try3;; plift (vs <- sp_map3 (fst xy) (snd xy);; sp_write vs (sp_cont s))
  else
    r <~ retry fuel (sp_tryn (length (sp_cont s)));; plift (sp_mapn (fst r) (snd r)).
(* the distribution after a call *)
Definition sp_after (s : sph) (res : list Q) : sph := Sph res (sp_dim s).
(* uniform_on_sphere.hpp:243-247: operator()(eng, parm) *)
Definition sp_op_parm (fuel : nat) (d : Z) : prog (list Q) := s <~ plift (sp_make d);; sp_op fuel s.
End S.
