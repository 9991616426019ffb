(* poisson_distribution.hpp.

   RealType is the format [f], IntType is [ti] (at least as wide as int).  The
   literals are of type double; an operation with a RealType and a double is
   carried out in [g], the wider of the two.  Every operation and conversion
   rounds in direction [md].  std::exp, std::sqrt and std::log are parameters.
   static_cast<IntType> is undefined when the truncated value does not fit. *)
From Verif Require Import Base ProgModel UIntModel FloatModel RealModel BinModel.
Open Scope Q_scope.

(* poisson_distribution.hpp:38-50 *)
Definition po_table : list Q := map dlit
  [0; 0; 69314718055994529 # 100000000000000000; 17917594692280550 # 10000000000000000;
   31780538303479458 # 10000000000000000; 47874917427820458 # 10000000000000000;
   65792512120101012 # 10000000000000000; 85251613610654147 # 10000000000000000;
   10604602902745251 # 1000000000000000; 12801827480081469 # 1000000000000000].

(* poisson_distribution.hpp:336-347: the union of the constants of PTRD and _exp_mean *)
Record ptrd := Ptrd { pt_vr : Q; pt_a : Q; pt_b : Q; pt_smu : Q; pt_ia : Q }.
Inductive punion := UPtrd (p : ptrd) | UExp (e : Q).
(* poisson_distribution.hpp:334-347: _mean and _u *)
Record pois := Pois { po_mean : Q; po_u : punion }.

Section P.
Variables (f g : fmt) (md : rmode) (ti : ity).
Variables (ex sq lg : Q -> Q).
Let rnd := fround f md.
Let rg := fround g md.

(* poisson_distribution.hpp:240-243 *)
Definition po_inversion (mean : Q) : bool := qlt mean 10.

(* poisson_distribution.hpp:245-250; the assertions are [None] *)
Definition po_logfact (k : Z) : option Q :=
  if (0 <=? k)%Z then option_map rnd (nth_error po_table (Z.to_nat k)) else None.

(* poisson_distribution.hpp:260-264 *)
Definition po_ptrd (mean : Q) : option ptrd :=
  let smu := sq mean in
  let b := rnd (rg (dlit (931 # 1000) + rg (dlit (253 # 100) * smu))) in
  let a := rnd (rg (dlit (- (59 # 1000)) + rg (dlit (2483 # 100000) * b))) in
  q1 <- fdiv g md (dlit (11328 # 10000)) (rg (b - dlit (34 # 10)));;
  q2 <- fdiv g md (dlit (36224 # 10000)) (rnd (b - 2));;
  Some (Ptrd (rnd (rg (dlit (9277 # 10000) - q2))) a b smu (rnd (rg (dlit (11239 # 10000) + q1)))).
(* poisson_distribution.hpp:252-266: init, called by the constructors (127-142)
   and by param(parm) (180-184) *)
Definition po_init (mean : Q) : option pois :=
  if po_inversion mean then Some (Pois mean (UExp (ex (- mean))))
  else p <- po_ptrd mean;; Some (Pois mean (UPtrd p)).

(* poisson_distribution.hpp:326-330 *)
Fixpoint po_loop (fuel : nat) (mean p u : Q) (x : Z) : prog Z :=
  match fuel with
  | O => PFuel
  | S n =>
      if qlt p u then
        let u := rnd (u - p) in
        x <~ plift (addT ti x 1);;
        p <~ plift (fdiv f md (rnd (mean * p)) (rnd (inject_Z x)));;
        po_loop n mean p u x
      else PRet x
  end.
(* poisson_distribution.hpp:320-332 *)
Definition po_invert (fuel : nat) (u01 : prog Q) (mean e : Q) : prog Z :=
  u <~ u01;; po_loop fuel mean e u 0.

(* poisson_distribution.hpp:278-282 *)
Definition po_quick (p : ptrd) (mean v : Q) : option Z :=
  d <- fdiv f md v (pt_vr p);;
  let u := rnd (rg (d - dlit (43 # 100))) in
  w <- fdiv g md (rnd (2 * pt_a p)) (rg ((1 # 2) - Qabs u));;
  to_int ti (inject_Z (Qfloor (rg (rg (rg (rg (w + pt_b p) * u) + mean) + dlit (445 # 1000))))).
(* poisson_distribution.hpp:284-290 *)
Definition po_pick (u01 : prog Q) (p : ptrd) (v : Q) : prog (Q * Q) :=
  if Qle_bool (pt_vr p) v then (w <~ u01;; PRet (rnd (rg (w - (1 # 2))), v))
  else
    d <~ plift (fdiv f md v (pt_vr p));;
    let u := rnd (rg (d - dlit (93 # 100))) in
    let u := rnd (rg ((if qlt u 0 then - (1 # 2) else 1 # 2) - u)) in
    w <~ u01;;
    PRet (u, rnd (w * pt_vr p)).
(* poisson_distribution.hpp:297; k is a RealType with an integral value, here an integer *)
Definition po_hat (p : ptrd) (mean u us : Q) : option Z :=
  w <- fdiv f md (rnd (2 * pt_a p)) us;;
  Some (Qfloor (rnd (inject_Z (Qfloor (rg (rnd (rnd (rnd (w + pt_b p) * u) + mean) + dlit (445 # 1000))))))).
(* poisson_distribution.hpp:298 *)
Definition po_scale (p : ptrd) (v us : Q) : option Q :=
  w <- fdiv f md (pt_a p) (rnd (us * us));;
  fdiv f md (rnd (v * pt_ia p)) (rnd (w + pt_b p)).
(* poisson_distribution.hpp:303-307, for k >= 10; log 0 is minus infinity *)
Definition po_accept_big (mean smu v k : Q) : option bool :=
  let vs := rnd (v * smu) in
  mk <- fdiv f md mean k;;
  let kk := rnd (k * k) in
  q1 <- fdiv g md 1 (rg (rg (1260 * k) * k));;
  q2 <- fdiv g md (rg (dlit (1 / 360) - q1)) kk;;
  q3 <- fdiv g md (rg (dlit (1 / 12) - q2)) k;;
  let r := rg (rg (rg (rg (rg (rg (k + (1 # 2)) * lg mk) - mean) - rnd (dlit (91893853320467267 # 100000000000000000))) + k) - q3) in
  Some (if Qle_bool vs 0 then true else Qle_bool (lg vs) r).
(* poisson_distribution.hpp:311-313, for 0 <= k < 10 *)
Definition po_accept_small (mean v : Q) (k : Z) : option bool :=
  lf <- (j <- to_int ti (inject_Z k);; po_logfact j);;
  let r := rnd (rnd (rnd (inject_Z k * lg mean) - mean) - lf) in
  Some (if Qle_bool v 0 then true else Qle_bool (lg v) r).
(* poisson_distribution.hpp:276-317: one pass of the loop of generate; None is
   continue.  When us = 0, either v > us, or k is minus infinity and rejected,
   or k is plus infinity, the right-hand side of line 303 is not a number and k
   is rejected. *)
Definition po_try (u01 : prog Q) (p : ptrd) (mean : Q) : prog (option Z) :=
  v <~ u01;;
  if Qle_bool v (rg (dlit (86 # 100) * pt_vr p)) then (k <~ plift (po_quick p mean v);; PRet (Some k))
  else
    uv <~ po_pick u01 p v;;
    let '(u, v) := uv in
    let us := rnd (rg ((1 # 2) - Qabs u)) in
    if qlt us (dlit (13 # 1000)) && qlt us v then PRet None
    else if Qeq_bool us 0 then PRet None
    else
      k <~ plift (po_hat p mean u us);;
      v <~ plift (po_scale p v us);;
      ok <~ plift (if (10 <=? k)%Z then po_accept_big mean (pt_smu p) v (inject_Z k)
                   else if (0 <=? k)%Z then po_accept_small mean v k else Some false);;
      if ok : bool then (k <~ plift (to_int ti (inject_Z k));; PRet (Some k)) else PRet None.
(* poisson_distribution.hpp:268-318 *)
Definition po_generate (fuel : nat) (u01 : prog Q) (p : ptrd) (mean : Q) : prog Z :=
  retry fuel (po_try u01 p mean).

(* poisson_distribution.hpp:148-156 *)
Definition po_op (fuel : nat) (u01 : prog Q) (d : pois) : prog Z :=
  match po_u d with
  | UExp e => po_invert fuel u01 (po_mean d) e
  | UPtrd p => po_generate fuel u01 p (po_mean d)
  end.
(* poisson_distribution.hpp:172 *)
Definition po_min : Z := 0.
(* poisson_distribution.hpp:174-175 *)
Definition po_max : Z := imax ti.
End P.
