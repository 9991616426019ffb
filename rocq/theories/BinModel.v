(* binomial_distribution.hpp.

   RealType is the format [f], IntType is [ti] (at least as wide as int).  The
   literals of the code are of type double; an operation with a RealType and a
   double is carried out in [g], the wider of the two (g = f when RealType is
   double or long double).  Every operation and conversion rounds in direction
   [md].  std::pow, std::sqrt and std::log are parameters.  An integer type to
   which a floating-point number is converted must hold the truncated value,
   otherwise the behaviour is undefined ([conv.fpint]).  Simplification:
   division by zero is undefined; in the code it gives an infinity, which
   is then converted to IntType. *)
From Verif Require Import Base ProgModel UIntModel FloatModel RealModel.
Open Scope Q_scope.

(* static_cast<IntType>(x) *)
Definition qtrunc (x : Q) : Z := if Qle_bool 0 x then Qfloor x else Qceiling x.
Definition to_int (t : ity) (x : Q) : option Z :=
  let z := qtrunc x in if ((imin t <=? z) && (z <=? imax t))%Z then Some z else None.
(* a literal of type double; the compiler rounds it to nearest *)
Definition dlit (x : Q) : Q := fround ieee_double RNE x.

(* binomial_distribution.hpp:36-47, the table of type double *)
Definition bn_table : list Q := map dlit
  [8106146679532726 # 100000000000000000; 4134069595540929 # 100000000000000000;
   2767792568499834 # 100000000000000000; 2079067210376509 # 100000000000000000;
   1664469118982119 # 100000000000000000; 1387612882307075 # 100000000000000000;
   1189670994589177 # 100000000000000000; 1041126526197209 # 100000000000000000;
   9255462182712733 # 1000000000000000000; 8330563433362871 # 1000000000000000000].

(* binomial_distribution.hpp:405-420: the union of the constants of BTRD and q_n *)
Record btrd := Btrd { b_r : Q; b_nr : Q; b_npq : Q; b_b : Q; b_a : Q; b_c : Q; b_alpha : Q; b_vr : Q; b_urvr : Q }.
Inductive bunion := UBtrd (b : btrd) | UInv (q_n : Q).
(* binomial_distribution.hpp:398-420: _t, _p, m and _u *)
Record bino := Bino { bn_t : Z; bn_p : Q; bn_m : Z; bn_u : bunion }.

Section B.
Variables (f g : fmt) (md : rmode) (ti : ity).
Variables (pw : Q -> Q -> Q) (sq : Q -> Q) (lg : Q -> Q).
Let rnd := fround f md.
Let rg := fround g md.
Let ofZ (z : Z) : Q := rnd (inject_Z z).
Let gofZ (z : Z) : Q := rg (inject_Z z).

(* binomial_distribution.hpp:251-255 *)
Definition bn_inversion (m : Z) : bool := (m <? 11)%Z.

(* binomial_distribution.hpp:259-268; the table entries are converted to RealType *)
Definition bn_fc (k : Z) : option Q :=
  if (k <? 10)%Z then
    (if (0 <=? k)%Z then option_map rnd (nth_error bn_table (Z.to_nat k)) else None)
  else
    k1 <- addT ti k 1;;
    i <- fdiv f md 1 (ofZ k1);;
    let i2 := rnd (i * i) in
    Some (rnd (rnd (rnd (1 / 12) - rnd (rnd (rnd (1 / 360) - rnd (rnd (1 / 1260) * i2)) * i2)) * i)).

(* binomial_distribution.hpp:270-294: init, called by the constructors
   (130-145) and by param(parm) (190-195) *)
Definition bn_small (p : Q) : Q := if qlt (1 # 2) p then rnd (1 - p) else p.
(* lines 283-292 *)
Definition bn_btrd (t : Z) (p : Q) : option btrd :=
  t1 <- addT ti t 1;;
  r <- fdiv f md p (rnd (1 - p));;
  let npq := rnd (rnd (ofZ t * p) * rnd (1 - p)) in
  let s := sq npq in
  let b := rnd (rg (dlit (115 # 100) + rg (dlit (253 # 100) * s))) in
  let a := rnd (rg (rg (dlit (- (873 # 10000)) + rg (dlit (248 # 10000) * b)) + rg (dlit (1 # 100) * p))) in
  let c := rnd (rg (rnd (ofZ t * p) + (1 # 2))) in
  q51 <- fdiv g md (dlit (51 # 10)) b;;
  q42 <- fdiv g md (dlit (42 # 10)) b;;
  let vr := rnd (rg (dlit (92 # 100) - q42)) in
  Some (Btrd r (rnd (ofZ t1 * r)) npq b a c (rnd (rg (rg (dlit (283 # 100) + q51) * s))) vr
             (rnd (rg (dlit (86 # 100) * vr)))).
(* lines 275-293 *)
Definition bn_init (t : Z) (p0 : Q) : option bino :=
  let p := bn_small p0 in
  t1 <- addT ti t 1;;
  m <- to_int ti (rnd (ofZ t1 * p));;
  if bn_inversion m then Some (Bino t p0 m (UInv (pw (rnd (1 - p)) (ofZ t))))
  else b <- bn_btrd t p;; Some (Bino t p0 m (UBtrd b)).

(* binomial_distribution.hpp:378-395 *)
Fixpoint bn_loop (fuel : nat) (s a r u : Q) (x : Z) : prog Z :=
  match fuel with
  | O => PFuel
  | S k =>
      if qlt r u then
        let u := rnd (u - r) in
        x <~ plift (addT ti x 1);;
        ax <~ plift (fdiv f md a (ofZ x));;
        let r1 := rnd (rnd (ax - s) * r) in
        if qlt r1 (p2 (1 - prec f)) && qlt r1 r then PRet x
        else bn_loop k s a r1 u x
      else PRet x
  end.
(* binomial_distribution.hpp:369-396 *)
Definition bn_invert (fuel : nat) (u01 : prog Q) (t : Z) (p q_n : Q) : prog Z :=
  s <~ plift (fdiv f md p (rnd (1 - p)));;
  t1 <~ plift (addT ti t 1);;
  let a := rnd (ofZ t1 * s) in
  u <~ u01;;
  bn_loop fuel s a q_n u 0.

(* binomial_distribution.hpp:328-338: the products of the acceptance test *)
Fixpoint bn_prod (fuel : nat) (nr r acc : Q) (i k : Z) : prog Q :=
  match fuel with
  | O => PFuel
  | S n =>
      i <~ plift (addT ti i 1);;
      d <~ plift (fdiv f md nr (ofZ i));;
      let acc := rnd (acc * rnd (d - r)) in
      if (i =? k)%Z then PRet acc else bn_prod n nr r acc i k
  end.
(* binomial_distribution.hpp:325-341 *)
Definition bn_accept_near (r nr : Q) (m k : Z) (v : Q) : prog bool :=
  if (m <? k)%Z then fv <~ bn_prod 16 nr r 1 m k;; PRet (Qle_bool v fv)
  else if (k <? m)%Z then v <~ bn_prod 16 nr r v k m;; PRet (Qle_bool v 1)
  else PRet (Qle_bool v 1).
(* binomial_distribution.hpp:342-365; log 0 is minus infinity *)
Definition bn_accept_far (r npq : Q) (t m k : Z) (km v : Q) : option bool :=
  q1 <- fdiv f md km npq;;
  q2 <- fdiv g md (rg (rg (rg (rg (km / 3) + (625 # 1000)) * km) + dlit (1 / 6))) npq;;
  let rho := rnd (rg (q1 * rg (q2 + (1 # 2)))) in
  tt <- fdiv f md (rnd (- km * km)) (rnd (2 * npq));;
  if Qle_bool v 0 then Some true
  else
    let v := lg v in
    if qlt v (rnd (tt - rho)) then Some true
    else if qlt (rnd (tt + rho)) v then Some false
    else
      nm <- (d <- subT ti t m;; addT ti d 1);;
      m1 <- addT ti m 1;;
      x1 <- fdiv f md (ofZ m1) (rnd (r * ofZ nm));;
      fm <- bn_fc m;;
      ftm <- (d <- subT ti t m;; bn_fc d);;
      let h := rnd (rg (rg (rg (rg (gofZ m + (1 # 2)) * lg x1) + fm) + ftm)) in
      nk <- (d <- subT ti t k;; addT ti d 1);;
      t1 <- addT ti t 1;;
      k1 <- addT ti k 1;;
      x2 <- fdiv f md (ofZ nm) (ofZ nk);;
      x3 <- fdiv f md (rnd (ofZ nk * r)) (ofZ k1);;
      fk <- bn_fc k;;
      ftk <- (d <- subT ti t k;; bn_fc d);;
      Some (Qle_bool v (rg (rg (rg (rnd (h + rnd (ofZ t1 * lg x2)) + rg (rg (gofZ k + (1 # 2)) * lg x3)) - fk) - ftk))).

(* binomial_distribution.hpp:303-366: one pass of the loop of generate; None
   is continue.  Lines 307-309: *)
Definition bn_quick (b : btrd) (v : Q) : option Z :=
  d <- fdiv f md v (b_vr b);;
  let u := rnd (rg (d - dlit (43 # 100))) in
  w <- fdiv g md (rnd (2 * b_a b)) (rg ((1 # 2) - Qabs u));;
  to_int ti (inject_Z (Qfloor (rg (rg (rg (w + b_b b) * u) + b_c b)))).
(* line 321 *)
Definition bn_hat (b : btrd) (u us : Q) : option Z :=
  w <- fdiv f md (rnd (2 * b_a b)) us;;
  to_int ti (inject_Z (Qfloor (rnd (rnd (rnd (w + b_b b) * u) + b_c b)))).
(* line 323 *)
Definition bn_scale (b : btrd) (v us : Q) : option Q :=
  w <- fdiv f md (b_a b) (rnd (us * us));;
  fdiv f md (rnd (v * b_alpha b)) (rnd (w + b_b b)).
(* lines 312-318 *)
Definition bn_pick (u01 : prog Q) (b : btrd) (v : Q) : prog (Q * Q) :=
  if Qle_bool (b_vr b) v then (w <~ u01;; PRet (rnd (rg (w - (1 # 2))), v))
  else
    d <~ plift (fdiv f md v (b_vr b));;
    let u := rnd (rg (d - dlit (93 # 100))) in
    let u := rnd (rg ((if qlt u 0 then - (1 # 2) else 1 # 2) - u)) in
    w <~ u01;;
    PRet (u, rnd (w * b_vr b)).
(* lines 303-366 *)
Definition bn_try (u01 : prog Q) (b : btrd) (t m : Z) : prog (option Z) :=
  v <~ u01;;
  if Qle_bool v (b_urvr b) then (k <~ plift (bn_quick b v);; PRet (Some k))
  else
    uv <~ bn_pick u01 b v;;
    let '(u, v) := uv in
    let us := rnd (rg ((1 # 2) - Qabs u)) in
    k <~ plift (bn_hat b u us);;
    if ((k <? 0) || (t <? k))%Z then PRet None
    else
      v <~ plift (bn_scale b v us);;
      d <~ plift (subT ti k m);;
      let km := ofZ (Z.abs d) in
      ok <~ (if Qle_bool km 15 then bn_accept_near (b_r b) (b_nr b) m k v
             else plift (bn_accept_far (b_r b) (b_npq b) t m k km v));;
      PRet (if ok : bool then Some k else None).
(* binomial_distribution.hpp:296-367 *)
Definition bn_generate (fuel : nat) (u01 : prog Q) (b : btrd) (t m : Z) : prog Z :=
  retry fuel (bn_try u01 b t m).

(* binomial_distribution.hpp:151-165 *)
Definition bn_op (fuel : nat) (u01 : prog Q) (d : bino) : prog Z :=
  match bn_u d with
  | UInv q_n =>
      if qlt (1 # 2) (bn_p d)
      then x <~ bn_invert fuel u01 (bn_t d) (rnd (1 - bn_p d)) q_n;; plift (subT ti (bn_t d) x)
      else bn_invert fuel u01 (bn_t d) (bn_p d) q_n
  | UBtrd b =>
      if qlt (1 # 2) (bn_p d)
      then x <~ bn_generate fuel u01 b (bn_t d) (bn_m d);; plift (subT ti (bn_t d) x)
      else bn_generate fuel u01 b (bn_t d) (bn_m d)
  end.
(* binomial_distribution.hpp:182-185 *)
Definition bn_min (d : bino) : Z := 0.
(* line 185 *)
Definition bn_max (d : bino) : Z := bn_t d.
(* binomial_distribution.hpp:130-135 and 151-165: a distribution object is constructed and called *)
Definition bn_run (fuel : nat) (u01 : prog Q) (t : Z) (p : Q) : prog Z :=
  d <~ plift (bn_init t p);; bn_op fuel u01 d.
End B.
