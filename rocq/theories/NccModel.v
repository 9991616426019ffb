(* non_central_chi_squared_distribution.hpp.
   Operators of the distributions used inside are parameters: normal_distribution,
   chi_squared_distribution (by its parameter), poisson_distribution<> (by its mean). *)
From Verif Require Import Base ProgModel FloatModel RealModel InvModel GamModel.
Open Scope Q_scope.

Section N.
(* RealType, and the double of poisson_distribution<> *)
Variables (f g : fmt) (md : rmode).
Variable sq : Q -> Q.
Local Notation rnd := (fround f md).

(* non_central_chi_squared_distribution.hpp:71-72, the assertions of param_type *)
Definition nc_ctor (k lambda : Q) : bool := qlt 0 k && qlt 0 lambda.
(* chi_squared_distribution.hpp:92-93, gamma_distribution.hpp:117-118: the
   constructor of chi_squared_distribution with the assertions of its _impl *)
Definition nc_chi (n : Q) : option Q := if gm_ctor (ch_alpha f md n) 1 then Some n else None.
(* non_central_chi_squared_distribution.hpp:147-152 *)
Definition nc_sum (normal : prog Q) (chi : Q -> prog Q) (k lambda : Q) : prog Q :=
  n <~ plift (nc_chi (rnd (k - 1)));;
  z <~ normal;;
  x <~ chi n;;
  s <~ plift (fsqrt sq lambda);;
  let term1 := rnd (z + s) in
  PRet (rnd (rnd (term1 * term1) + x)).
(* non_central_chi_squared_distribution.hpp:155: the mean, converted to the RealType
   of poisson_distribution<>; poisson_distribution.hpp:130: the assertion *)
Definition nc_mean (lambda : Q) : option Q :=
  let m := fround g md (rnd (lambda / 2)) in if qlt 0 m then Some m else None.
(* non_central_chi_squared_distribution.hpp:157; p is converted to RealType *)
Definition nc_deg (k : Q) (p : Z) : Q := rnd (k + rnd (2 * rnd (inject_Z p))).
(* non_central_chi_squared_distribution.hpp:155-158 *)
Definition nc_mix (chi : Q -> prog Q) (poisson : Q -> prog Z) (k lambda : Q) : prog Q :=
  m <~ plift (nc_mean lambda);;
  p <~ poisson m;;
  n <~ plift (nc_chi (nc_deg k p));;
  chi n.
(* non_central_chi_squared_distribution.hpp:142-160: operator() *)
Definition nc_op (normal : prog Q) (chi : Q -> prog Q) (poisson : Q -> prog Z) (k lambda : Q) : prog Q :=
  if qlt 1 k then nc_sum normal chi k lambda else nc_mix chi poisson k lambda.
End N.
