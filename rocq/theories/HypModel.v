(* hyperexponential_distribution.hpp.

   RealType is the format [f] with rounding direction [md]; every operation
   rounds.  None is a division by zero or an element access outside of a vector.
   The vectors hold finite numbers, so isfinite is true.  The assertions of the
   constructors are [hx_check_params], not part of the constructors. *)
From Verif Require Import Base ProgModel UIntModel FloatModel RealModel DiscModel RDiscModel.
Open Scope Q_scope.

Section H.
Variables (f : fmt) (md : rmode).
Let rnd := fround f md.

(* hyperexponential_distribution.hpp:56-68: the loop of normalize, from the
   element [it] points to; sum and final_sum are the variables of the code *)
Fixpoint hx_loop (sum final_sum : Q) (v : list Q) : option (list Q) :=
  match v with
  | [] => Some []
  | [_] => Some [rnd (1 - final_sum)]
  | x :: r => q <- fdiv f md x sum;; l <- hx_loop sum (rnd (final_sum + q)) r;; Some (q :: l)
  end.
(* hyperexponential_distribution.hpp:48-71: normalize; std::accumulate is [racc] *)
Definition hx_normalize (v : list Q) : option (list Q) :=
  match v with
  | [] => Some []
  | _ => hx_loop (racc f md v) 0 v
  end.
(* hyperexponential_distribution.hpp:72-103: check_probabilities *)
Definition hx_check_probs (ps : list Q) : bool := forallb (fun p => negb (qlt p 0 || qlt 1 p)) ps.
(* hyperexponential_distribution.hpp:105-118: check_rates *)
Definition hx_check_rates (rs : list Q) : bool := forallb (fun r => negb (Qle_bool r 0)) rs.
(* hyperexponential_distribution.hpp:120-130: check_params *)
Definition hx_check_params (ps rs : list Q) : bool :=
  Nat.eqb (length ps) (length rs) && (hx_check_probs ps && hx_check_rates rs).

(* hyperexponential_distribution.hpp:536-537: the members of param_type *)
Record hparam := HParam { hp_probs : list Q; hp_rates : list Q }.
(* hyperexponential_distribution.hpp:234-238: param_type() *)
Definition hp_default : hparam := HParam [1] [1].
(* hyperexponential_distribution.hpp:261-271, 293-304, 384-391: param_type from
   probabilities and rates *)
Definition hp_make (ps rs : list Q) : option hparam := p <- hx_normalize ps;; Some (HParam p rs).
(* hyperexponential_distribution.hpp:332-340: param_type(rate_first, rate_last) *)
Definition hp_iter (rs : list Q) : hparam := HParam (repeat 1 (length rs)) rs.
(* hyperexponential_distribution.hpp:356-364, 410-417: param_type(rate_range) and
   from an initializer list of rates *)
Definition hp_equal (rs : list Q) : option hparam := hp_make (repeat 1 (length rs)) rs.

(* std::vector::resize(n, 1) for n > size *)
Definition grow (n : nat) (l : list Q) : list Q := l ++ repeat 1 (n - length l).
(* hyperexponential_distribution.hpp:479-518: the end of operator>>, when both
   vectors have been read *)
Definition hp_read (p : hparam) (probs rates : list Q) : option hparam :=
  let ps := match probs with [] => hp_probs p | _ => probs end in
  let rs := match rates with [] => hp_rates p | _ => rates end in
  let np := length ps in
  let nr := length rs in
  let '(ps', rs') :=
    if negb (Nat.eqb np nr) || Nat.eqb np 0 then
      if Nat.ltb nr np then (ps, grow np rs)
      else if Nat.ltb np nr then (grow nr ps, rs)
      else (grow 1 ps, grow 1 rs)
    else (ps, rs) in
  hp_make ps' rs'.

(* hyperexponential_distribution.hpp:865-866: the members; IntType of dd_ is int *)
Record hdist := HDist { hd_tab : rtab; hd_rates : list Q }.
(* hyperexponential_distribution.hpp:575-583, 606-615, 707-713: the constructors
   from probabilities and rates; 681-686: from param_type *)
Definition hd_make (ps rs : list Q) : option hdist := t <- rd_make f md i32 ps;; Some (HDist t rs).
Definition hd_of_param (p : hparam) : option hdist := hd_make (hp_probs p) (hp_rates p).
(* hyperexponential_distribution.hpp:546-551: the default constructor *)
Definition hd_default : option hdist := hd_make [1] [1].
(* hyperexponential_distribution.hpp:644-652, 668-674, 732-738: from rates only *)
Definition hd_equal (rs : list Q) : option hdist := hd_make (repeat 1 (length rs)) rs.
(* hyperexponential_distribution.hpp:777-780: num_phases *)
Definition hd_phases (d : hdist) : Z := Z.of_nat (length (hd_rates d)).
(* hyperexponential_distribution.hpp:783-786: probabilities *)
Definition hd_probs (d : hdist) : option (list Q) := rd_probabilities f md (hd_tab d).
(* hyperexponential_distribution.hpp:807-812: param() *)
Definition hd_param (d : hdist) : option hparam := ps <- hd_probs d;; hp_make ps (hd_rates d).
(* hyperexponential_distribution.hpp:815-819: param(param) *)
Definition hd_set_param (d : hdist) (p : hparam) : option hdist :=
  ws <- rp_make f md (hp_probs p);; t <- rd_init f md i32 (hd_tab d) ws;; Some (HDist t (hp_rates p)).
(* hyperexponential_distribution.hpp:750-756: operator(); [ez] is
   exponential_distribution<RealT>(rate)(urng) *)
Definition hd_op (F : nat) (tb : ity) (bmin bmax : Z) (ez : Q -> prog Q) (d : hdist) : prog Q :=
  i <~ rd_op f md i32 F tb bmin bmax (hd_tab d);;
  rate <~ plift (at_ (hd_rates d) i);;
  ez rate.
(* hyperexponential_distribution.hpp:770-774: operator() with parameters *)
Definition hd_op_parm (F : nat) (tb : ity) (bmin bmax : Z) (ez : Q -> prog Q) (p : hparam) : prog Q :=
  d <~ plift (hd_of_param p);; hd_op F tb bmin bmax ez d.
End H.
