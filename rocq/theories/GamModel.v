(* gamma_distribution.hpp, beta_distribution.hpp, chi_squared_distribution.hpp,
   fisher_f_distribution.hpp, student_t_distribution.hpp,
   negative_binomial_distribution.hpp, laplace_distribution.hpp,
   lognormal_distribution.hpp.

   RealType is the format [f] with rounding direction [md]; every operation
   rounds.  [u01] is uniform_01<RealType>()(eng), [ez] is
   exponential_distribution<RealType>(1)(eng), [nz] is
   normal_distribution<RealType>()(eng).  std::tan, sqrt, exp, log and pow are
   the functions tn, sq, ex, lg and pw.  None is undefined or not a finite
   number.  Loops take fuel. *)
From Verif Require Import Base ProgModel FloatModel RealModel BinModel InvModel.
Open Scope Q_scope.

Section G.
Variables (f : fmt) (md : rmode) (tn sq ex lg : Q -> Q) (pw : Q -> Q -> Q).
Let rnd := fround f md.

(* ---- gamma_distribution ---- *)

(* gamma_distribution.hpp:117-118: the assertions of the constructor *)
Definition gm_ctor (alpha beta : Q) : bool := qlt 0 alpha && qlt 0 beta.
(* gamma_distribution.hpp:268-275: init, the value of _p *)
Definition gm_p (alpha : Q) : option Q := fdiv f md (ex 1) (rnd (alpha + ex 1)).
(* gamma_distribution.hpp:176, 183-184: sqrt(2*alpha-1), used twice *)
Definition gm_s (alpha : Q) : option Q := fsqrt sq (rnd (rnd (2 * alpha) - 1)).
(* gamma_distribution.hpp:173, 175: y; the constant is that of cauchy_distribution *)
Definition gm_y (u : Q) : Q := tn (rnd (cau_pi f md * u)).
(* gamma_distribution.hpp:176-177: x *)
Definition gm_x (alpha s y : Q) : Q := rnd (rnd (rnd (s * y) + alpha) - 1).
(* gamma_distribution.hpp:181-184: the right side of the comparison; the logarithm
   of a number <= 0 is None *)
Definition gm_ratio (alpha s x y : Q) : option Q :=
  z <- fdiv f md x (rnd (alpha - 1));;
  if Qle_bool z 0 then None
  else Some (rnd (rnd (1 + rnd (y * y)) * ex (rnd (rnd (rnd (alpha - 1) * lg z) - rnd (s * y))))).
(* gamma_distribution.hpp:174-187: one turn of the loop for alpha > 1; v is the
   second uniform number, drawn only if x > 0 *)
Definition gm_large (u01 : prog Q) (alpha : Q) : prog (option Q) :=
  u <~ u01;;
  s <~ plift (gm_s alpha);;
  let y := gm_y u in
  let x := gm_x alpha s y in
  if Qle_bool x 0 then PRet None
  else
    v <~ u01;;
    r <~ plift (gm_ratio alpha s x y);;
    if qlt r v then PRet None else PRet (Some x).
(* gamma_distribution.hpp:192-199: x and q for alpha < 1 *)
Definition gm_xq (alpha p u y : Q) : option (Q * Q) :=
  if qlt u p then
    z <- fdiv f md (- y) alpha;;
    let x := ex z in
    Some (x, rnd (p * ex (- x)))
  else
    let x := rnd (1 + y) in
    Some (x, rnd (p + rnd (rnd (1 - p) * pw x (rnd (alpha - 1))))).
(* gamma_distribution.hpp:189-203: one turn of the loop for alpha < 1 *)
Definition gm_small (u01 ez : prog Q) (alpha p : Q) : prog (option Q) :=
  u <~ u01;;
  y <~ ez;;
  xq <~ plift (gm_xq alpha p u y);;
  if Qle_bool (snd xq) u then PRet None else PRet (Some (fst xq)).
(* gamma_distribution.hpp:161-205: operator(), before the multiplication by beta *)
Definition gm_unit (fuel : nat) (u01 ez : prog Q) (alpha : Q) : prog Q :=
  if Qeq_bool alpha 1 then ez
  else if qlt 1 alpha then retry fuel (gm_large u01 alpha)
  else p <~ plift (gm_p alpha);; retry fuel (gm_small u01 ez alpha p).
Definition gm_op (fuel : nat) (u01 ez : prog Q) (alpha beta : Q) : prog Q :=
  x <~ gm_unit fuel u01 ez alpha;; PRet (rnd (x * beta)).

(* ---- beta_distribution ---- *)

(* beta_distribution.hpp:104-106; [ga] and [gb] are the two gamma distributions;
   the last operation *)
Definition bt_val (a b : Q) : option Q := fdiv f md a (rnd (a + b)).
Definition bt_op (ga gb : prog Q) : prog Q := a <~ ga;; b <~ gb;; plift (bt_val a b).

(* ---- chi_squared_distribution ---- *)

(* chi_squared_distribution.hpp:92-93, 101-102, 141: the parameter of _impl *)
Definition ch_alpha (n : Q) : Q := rnd (n / 2).
(* chi_squared_distribution.hpp:127 *)
Definition ch_n (alpha : Q) : Q := rnd (2 * alpha).
(* chi_squared_distribution.hpp:111-114; [g] is _impl(urng) *)
Definition ch_op (g : prog Q) : prog Q := x <~ g;; PRet (rnd (2 * x)).

(* ---- fisher_f_distribution ---- *)

(* fisher_f_distribution.hpp:101-104; [cm] and [cn] are the chi squared
   distributions, m and n the values of m() and n().  The order of the two calls
   is unspecified: [left] tells whether that of _impl_m comes first. *)
Definition ff_val (x y m n : Q) : option Q := fdiv f md (rnd (x * n)) (rnd (y * m)).
Definition ff_op (left : bool) (cm cn : prog Q) (m n : Q) : prog Q :=
  if left then x <~ cm;; y <~ cn;; plift (ff_val x y m n)
  else y <~ cn;; x <~ cm;; plift (ff_val x y m n).

(* ---- student_t_distribution ---- *)

(* student_t_distribution.hpp:96-100; as fisher_f, with [nz] and [c] in
   unspecified order *)
Definition st_val (z c n : Q) : option Q :=
  q <- fdiv f md c n;; s <- fsqrt sq q;; fdiv f md z s.
Definition st_op (left : bool) (nz c : prog Q) (n : Q) : prog Q :=
  if left then z <~ nz;; x <~ c;; plift (st_val z x n)
  else x <~ c;; z <~ nz;; plift (st_val z x n).

(* ---- negative_binomial_distribution ---- *)

(* negative_binomial_distribution.hpp:119: the parameters of gamma; its
   constructor asserts that both are positive.  k is converted to RealType. *)
Definition nb_gamma (k : Z) (p : Q) : option (Q * Q) :=
  b <- fdiv f md (rnd (1 - p)) p;;
  let a := rnd (inject_Z k) in
  if gm_ctor a b then Some (a, b) else None.
(* negative_binomial_distribution.hpp:120; poisson_distribution.hpp:130: the
   assertion that the mean is positive *)
Definition nb_mean (g : Q) : option Q := if qlt 0 g then Some g else None.
(* negative_binomial_distribution.hpp:117-122; [gamma] and [poisson] are the
   operators of the two distributions *)
Definition nb_op (gamma : Q -> Q -> prog Q) (poisson : Q -> prog Z) (k : Z) (p : Q) : prog Z :=
  ab <~ plift (nb_gamma k p);;
  g <~ gamma (fst ab) (snd ab);;
  m <~ plift (nb_mean g);;
  poisson m.

(* ---- laplace_distribution ---- *)

(* laplace_distribution.hpp:92-98: operator() *)
Definition lp_val (mean beta x u : Q) : Q :=
  let y := if qlt u (1 # 2) then - x else x in rnd (mean + rnd (beta * y)).
Definition lp_op (u01 ez : prog Q) (mean beta : Q) : prog Q :=
  x <~ ez;; u <~ u01;; PRet (lp_val mean beta x u).

(* ---- lognormal_distribution ---- *)

(* lognormal_distribution.hpp:144-148: operator(); [nz] has the parameters m and s *)
Definition ln_op (nz : prog Q) : prog Q := x <~ nz;; PRet (ex x).
(* lognormal_distribution.hpp:235-241: init of the deprecated class: _nmean and
   _nsigma; None for square roots of negative numbers, logarithms of numbers <= 0
   and divisions by 0 *)
Definition flog (x : Q) : option Q := if Qle_bool x 0 then None else Some (lg x).
Definition ln_old_init (mean sigma : Q) : option (Q * Q) :=
  r <- fsqrt sq (rnd (rnd (sigma * sigma) + rnd (mean * mean)));;
  m <- fdiv f md (rnd (mean * mean)) r;;
  nmean <- flog m;;
  a <- fdiv f md (rnd (sigma * sigma)) mean;;
  b <- fdiv f md a mean;;
  c <- flog (rnd (b + 1));;
  nsigma <- fsqrt sq c;;
  Some (nmean, nsigma).
(* lognormal_distribution.hpp:217-221: operator() of the deprecated class *)
Definition ln_old_op (nz : prog Q) (nmean nsigma : Q) : prog Q :=
  x <~ nz;; PRet (ex (rnd (rnd (x * nsigma) + nmean))).
End G.
