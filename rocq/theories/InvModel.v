(* geometric_distribution.hpp, triangle_distribution.hpp,
   weibull_distribution.hpp, extreme_value_distribution.hpp,
   cauchy_distribution.hpp.

   RealType is the format [f] with rounding direction [md]; every operation
   rounds.  [u01] is uniform_01<RealType>()(eng).  std::log, std::sqrt, std::pow
   and std::tan are the functions lg, sq, pw and tn.  The engine is used only by
   [u01]; the rest of each operator() is a function of its result u. *)
From Verif Require Import Base ProgModel FloatModel RealModel BinModel.
Open Scope Q_scope.

Section F.
Variables (f : fmt) (md : rmode).
Let rnd := fround f md.

(* ---- geometric_distribution ---- *)

(* geometric_distribution.hpp:204-208: init, the value of _log_1mp *)
Definition geo_init (lg : Q -> Q) (p : Q) : Q := lg (rnd (1 - p)).
(* geometric_distribution.hpp:154-160: operator(); a quotient that is not finite
   or does not fit IntType cannot be converted: undefined.  log(x) is undefined
   here for x <= 0. *)
Definition geo_val (lg : Q -> Q) (it : ity) (log_1mp u : Q) : option Z :=
  let x := rnd (1 - u) in
  if Qle_bool x 0 then None
  else
    q <- fdiv f md (lg x) log_1mp;;
    let k := Qfloor q in
    if ((imin it <=? k) && (k <=? imax it))%Z then Some k else None.
Definition geo_op (lg : Q -> Q) (it : ity) (u01 : prog Q) (p : Q) : prog Z :=
  u <~ u01;; plift (geo_val lg it (geo_init lg p) u).
(* geometric_distribution.hpp:231-232: the constructor of the deprecated
   boost::geometric_distribution, the parameter of _impl *)
Definition geo_old_init (p : Q) : Q := rnd (1 - p).
(* geometric_distribution.hpp:234 *)
Definition geo_old_p (ip : Q) : Q := rnd (1 - ip).
(* geometric_distribution.hpp:239-240 *)
Definition geo_old_op (lg : Q -> Q) (it : ity) (u01 : prog Q) (ip : Q) : prog Z :=
  k <~ geo_op lg it u01 ip;; plift (addT it k 1).

(* ---- triangle_distribution ---- *)

(* sqrt; NaN is None *)
Definition fsqrt (sq : Q -> Q) (x : Q) : option Q := if qlt x 0 then None else Some (sq x).
(* triangle_distribution.hpp:218-219: the members; the parameters _a, _b, _c come first *)
Record tri := Tri { tr_a : Q; tr_b : Q; tr_c : Q; tr_d1 : Q; tr_d2 : Q; tr_d3 : Q; tr_q1 : Q; tr_p1 : Q }.
(* triangle_distribution.hpp:207-216: init *)
Definition tri_init (sq : Q -> Q) (a b c : Q) : option tri :=
  let d1 := rnd (b - a) in
  let d2 := rnd (c - a) in
  d3 <- fsqrt sq (rnd (c - b));;
  q1 <- fdiv f md d1 d2;;
  p1 <- fsqrt sq (rnd (d1 * d2));;
  Some (Tri a b c d1 d2 d3 q1 p1).
(* triangle_distribution.hpp:161-169: operator() *)
Definition tri_val (sq : Q -> Q) (t : tri) (u : Q) : option Q :=
  if Qle_bool u (tr_q1 t) then
    s <- fsqrt sq u;; Some (rnd (tr_a t + rnd (tr_p1 t * s)))
  else
    s <- fsqrt sq (rnd (rnd (tr_d2 t * u) - tr_d1 t));; Some (rnd (tr_c t - rnd (tr_d3 t * s))).
Definition tri_op (sq : Q -> Q) (u01 : prog Q) (t : tri) : prog Q :=
  u <~ u01;; plift (tri_val sq t u).

(* ---- weibull_distribution ---- *)

(* weibull_distribution.hpp:96-101: operator() *)
Definition wei_val (lg : Q -> Q) (pw : Q -> Q -> Q) (a b u : Q) : option Q :=
  let x := rnd (1 - u) in
  if Qle_bool x 0 then None
  else
    y <- fdiv f md 1 a;;
    Some (rnd (b * pw (- lg x) y)).
Definition wei_op (lg : Q -> Q) (pw : Q -> Q -> Q) (u01 : prog Q) (a b : Q) : prog Q :=
  u <~ u01;; plift (wei_val lg pw a b u).

(* ---- extreme_value_distribution ---- *)

(* extreme_value_distribution.hpp:96-100: operator(); Some None is -infinity, the
   result for u = 0: log(0) is -infinity, so the outer logarithm is +infinity.
   None: logarithm of a number <= 0 otherwise. *)
Definition exv_val (lg : Q -> Q) (a b u : Q) : option (option Q) :=
  if Qeq_bool u 0 then Some None
  else if Qle_bool u 0 then None
  else
    let y := - lg u in
    if Qle_bool y 0 then None
    else Some (Some (rnd (a - rnd (lg y * b)))).
Definition exv_op (lg : Q -> Q) (u01 : prog Q) (a b : Q) : prog (option Q) :=
  u <~ u01;; plift (exv_val lg a b u).

(* ---- cauchy_distribution ---- *)

(* cauchy_distribution.hpp:156: pi, a literal of type double converted to RealType *)
Definition cau_pi : Q := rnd (dlit (314159265358979323846 # 100000000000000000000)).
(* cauchy_distribution.hpp:153-160: operator() *)
Definition cau_arg (u : Q) : Q := rnd (cau_pi * rnd (u - (1 # 2))).
Definition cau_val (tn : Q -> Q) (median sigma u : Q) : Q :=
  rnd (median + rnd (sigma * tn (cau_arg u))).
Definition cau_op (tn : Q -> Q) (u01 : prog Q) (median sigma : Q) : prog Q :=
  u <~ u01;; PRet (cau_val tn median sigma u).
End F.
