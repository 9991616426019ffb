(* Multiplication. *)
From Coq Require Import NArith Ring.
From Verif Require Import Base PolyModel PolySpec PolyProofs Poly2Proofs.
Open Scope nat_scope.
Open Scope gf_scope.
Ltac Zify.zify_post_hook ::= idtac.

Lemma dg_repeat : forall W n, dg W (repeat 0%N n).
Proof.
  intros W n i. unfold at_. destruct (Nat.lt_ge_cases i n).
  - replace (nth i (repeat 0%N n) 0%N) with 0%N; [apply deg_0|]. symmetry. apply (nth_repeat).
  - rewrite nth_overflow by (rewrite repeat_length; lia). apply deg_0.
Qed.
Lemma at_repeat : forall n i, at_ (repeat 0%N n) i = 0%N.
Proof.
  intros n i. unfold at_. destruct (Nat.lt_ge_cases i n); [apply nth_repeat|].
  apply nth_overflow. rewrite repeat_length; lia.
Qed.

Lemma odd_half : forall n, Nat.odd n = (n =? n / 2 * 2 + 1).
Proof.
  intros n. pose proof (Nat.div_mod n 2 ltac:(lia)) as D. pose proof (Nat.mod_upper_bound n 2 ltac:(lia)) as M. 
  assert (E: Nat.odd n = Nat.odd (n mod 2)). { rewrite D at 1. rewrite Nat.add_comm. apply Nat.odd_add_mul_2. }
  rewrite E. destruct (n mod 2) as [|[|k]]; [| |lia]; cbn [Nat.odd Nat.even negb]; symmetry; [apply Nat.eqb_neq|apply Nat.eqb_eq]; lia.
Qed.

Section Mul.
Variable W : nat.
Hypothesis HW : 1 <= W.
Local Notation dg := (dg W).
Local Notation reg := (reg W).
Local Notation frame := (frame W).

Lemma mul_simple_ok : forall size lhs lo rhs ro out oo, lo + size <= length lhs -> ro + size <= length rhs ->
  oo + 2 * size <= length out -> dg lhs -> dg rhs -> dg out ->
  exists out', mul_simple W size lhs lo rhs ro out oo = Some out' /\ frame out out' oo (2 * size) /\
    reg out' oo (2 * size) = reg lhs lo size (x) reg rhs ro size.
Proof using HW.
  intros size lhs lo rhs ro out oo Hl Hr Ho Dl Dr Do. unfold mul_simple.
  destruct (fill0_ok W (2 * size) out oo Ho) as (o0 & E0 & F0 & Z0). rewrite E0. cbn [bind].
  assert (R0: reg o0 oo (2 * size) = 0%N) by (apply reg_0; exact Z0).
  match goal with |- context [floop ?b 0 size o0] => destruct (floop_inv (list N) (fun i o => frame out o oo (2 * size) /\
     reg o oo (2 * size) = reg lhs lo i (x) reg rhs ro size) b size o0) as (o & E & F & R) end.
  - split; [exact F0|]. rewrite R0. reflexivity.
  - intros k o Hk (F & R).
    match goal with |- context [floop ?b 0 W o] => destruct (floop_inv (list N) (fun j o => frame out o oo (2 * size) /\
     reg o oo (2 * size) = (reg lhs lo k (+) X (W * k) (x) (at_ lhs (lo + k) mod 2 ^ N.of_nat j)%N) (x) reg rhs ro size) b W o) as (o1 & E1 & F1 & R1) end.
    + split; [exact F|]. rewrite mod_0, gm_0_r, xor_0_r. exact R.
    + intros j o1 Hj (F1 & R1). rewrite rd_at by lia. cbn [bind]. rewrite dshl_ok by lia. cbn [bind]. rewrite bit_test by lia.
      rewrite mod_S. destruct (coef (at_ lhs (lo + k)) j) eqn:C; cbn [negb].
      * pose proof F1 as (L1 & _ & D1).
        destruct (add_shifted_ok W size rhs ro o1 (oo + k) j Hj Hr ltac:(destruct (j =? 0); lia) Dr (D1 Do)) as (o2 & E2 & F2 & R2).
        exists o2. split; [exact E2|]. split.
        { apply (frame_trans W _ o1); [exact F1|]. apply (frame_sub W _ _ (oo + k) (size + 1)); [exact F2|lia|lia]. }
        rewrite (reg_sub W o1 o2 oo (2 * size) k (size + 1) _ F2 ltac:(lia) R2), R1. ring.
      * exists o1. split; [reflexivity|]. split; [exact F1|]. rewrite xor_0_r. exact R1.
    + exists o1. split; [exact E1|]. split; [exact F1|]. rewrite R1. cbn [Poly2Proofs.reg]. rewrite (mod_deg _ W) by apply Dl. reflexivity.
  - exists o. auto.
Qed.

Lemma karatsuba_ok : forall fuel size lhs lo rhs ro out oo, size < fuel -> lo + size <= length lhs -> ro + size <= length rhs ->
  oo + 2 * size <= length out -> dg lhs -> dg rhs -> dg out ->
  exists out', mul_karatsuba W fuel size lhs lo rhs ro out oo = Some out' /\ frame out out' oo (2 * size) /\
    reg out' oo (2 * size) = reg lhs lo size (x) reg rhs ro size.
Proof using HW.
  induction fuel as [|fuel IH]; intros size lhs lo rhs ro out oo Hf Hl Hr Ho Dl Dr Do; [lia|].
  cbn [mul_karatsuba]. destruct (Nat.ltb_spec size 64) as [L|L]; [apply mul_simple_ok; assumption|].
  set (c := size / 2). set (e := size - c).
  assert (HC: c * 2 <= size /\ size <= c * 2 + 1 /\ Nat.odd size = (size =? c * 2 + 1)).
  { unfold c. pose proof (Nat.div_mod size 2 ltac:(lia)). pose proof (Nat.mod_upper_bound size 2 ltac:(lia)).
    split; [lia|]. split; [lia|]. apply odd_half. }
  destruct HC as (HC1 & HC2 & HC3). assert (HE: e = c \/ e = c + 1) by (unfold e; lia).
  destruct (IH c lhs lo rhs ro out oo ltac:(lia) ltac:(lia) ltac:(lia) ltac:(lia) Dl Dr Do) as (o1 & E1 & F1 & R1). rewrite E1. cbn [bind].
  pose proof F1 as (L1 & _ & D1).
  destruct (IH e lhs (lo + c) rhs (ro + c) o1 (oo + c * 2) ltac:(lia) ltac:(lia) ltac:(lia) ltac:(lia) Dl Dr (D1 Do)) as (o2 & E2 & F2 & R2). rewrite E2. cbn [bind].
  pose proof F2 as (L2 & _ & D2).
  assert (HL: forall (l : list N) a b lo', dg l -> lo' + size <= length l -> (a = lo' /\ b = lo' + c \/ a = lo' + c /\ b = lo') ->
    exists l1 l2, add3 c l a l b (repeat 0%N e) 0 = Some l1 /\
     (if Nat.odd size then x <- rd l (lo' + (size - 1));; wr l1 c x else Some l1) = Some l2 /\
     length l2 = e /\ dg l2 /\ reg l2 0 e = reg l lo' c (+) reg l (lo' + c) e).
  { intros l a b lo' Dd LL AB. 
    destruct (add3_ok W c l a l b (repeat 0%N e) 0 ltac:(lia) ltac:(lia) ltac:(rewrite repeat_length; lia) Dd Dd) as (l1 & Q1 & G1 & S1).
    pose proof G1 as (GL & GO & GD). rewrite repeat_length in GL. exists l1.
    assert (S1': reg l1 0 c = reg l lo' c (+) reg l (lo' + c) c). { rewrite S1. destruct AB as [[-> ->]|[-> ->]]; ring. }
    rewrite HC3. destruct (Nat.eqb_spec size (c * 2 + 1)) as [OD|EV].
    - rewrite rd_at by lia. cbn [bind]. destruct (wr_frame W l1 c (at_ l (lo' + (size - 1))) ltac:(lia) (Dd _)) as (l2 & Q2 & G2 & V2).
      exists l2. split; [exact Q1|]. split; [exact Q2|]. pose proof G2 as (GL2 & _ & GD2). split; [lia|]. split; [apply GD2, GD, dg_repeat|].
      replace e with (c + 1) by lia. rewrite !reg_split, !reg_first. cbn [plus].
      rewrite (frame_reg W _ _ _ _ 0 c G2), S1', V2 by lia. replace (lo' + (size - 1)) with (lo' + c + c) by lia. ring.
    - exists l1. split; [exact Q1|]. split; [reflexivity|]. split; [lia|]. split; [apply GD, dg_repeat|].
      replace e with c by lia. exact S1'. }
  destruct (HL lhs lo (lo + c) lo Dl Hl (or_introl (conj eq_refl eq_refl))) as (a1 & a2 & A1 & A2 & A3 & A4 & A5).
  destruct (HL rhs (ro + c) ro ro Dr Hr (or_intror (conj eq_refl eq_refl))) as (b1 & b2 & B1 & B2 & B3 & B4 & B5). clear HL.
  rewrite A1. cbn [bind]. rewrite A2. cbn [bind]. rewrite B1. cbn [bind]. rewrite B2. cbn [bind].
  destruct (IH e a2 0 b2 0 (repeat 0%N (e * 2)) 0 ltac:(lia) ltac:(lia) ltac:(lia) ltac:(rewrite repeat_length; lia) A4 B4 (dg_repeat W _)) as (c1 & E3 & F3 & R3).
  rewrite E3. cbn [bind]. pose proof F3 as (L3 & _ & D3). rewrite repeat_length in L3.
  destruct (add_to_ok W (c * 2) o2 oo c1 0 ltac:(lia) ltac:(lia) (D2 (D1 Do)) (D3 (dg_repeat W _))) as (c2 & E4 & F4 & R4). rewrite E4. cbn [bind].
  pose proof F4 as (L4 & _ & D4).
  destruct (add_to_ok W (e * 2) o2 (oo + c * 2) c2 0 ltac:(lia) ltac:(lia) (D2 (D1 Do)) (D4 (D3 (dg_repeat W _)))) as (c3 & E5 & F5 & R5). rewrite E5. cbn [bind].
  pose proof F5 as (L5 & _ & D5).
  destruct (add_to_ok W (e * 2) c3 0 o2 (oo + c) ltac:(lia) ltac:(lia) (D5 (D4 (D3 (dg_repeat W _)))) (D2 (D1 Do))) as (o3 & E6 & F6 & R6). rewrite E6.
  exists o3. split; [reflexivity|]. split.
  { apply (frame_trans W _ o2); [apply (frame_trans W _ o1)|].
    - apply (frame_sub W _ _ oo (2 * c)); [exact F1|lia|lia].
    - apply (frame_sub W _ _ (oo + c * 2) (2 * e)); [exact F2|lia|lia].
    - apply (frame_sub W _ _ (oo + c) (e * 2)); [exact F6|lia|lia]. }
  rewrite (reg_sub W o2 o3 oo (2 * size) c (e * 2) _ F6 ltac:(lia) R6). rewrite R5.
  rewrite (reg_sub W c1 c2 0 (e * 2) 0 (c * 2) _ F4 ltac:(lia) R4). replace (e * 2) with (2 * e) by lia. rewrite R3, A5, B5, R2.
  assert (RO: reg o2 oo (c * 2) = reg lhs lo c (x) reg rhs ro c).
  { rewrite (frame_reg W _ _ _ _ oo (c * 2) F2) by lia. replace (c * 2) with (2 * c) by lia. exact R1. }
  replace (2 * size) with (c * 2 + 2 * e) by lia. rewrite reg_split, RO, R2.
  replace size with (c + e) by lia. rewrite !reg_split. rewrite Nat.mul_0_r, X0. replace (W * (c * 2)) with (W * c + W * c) by lia. rewrite X_add. ring.
Qed.

Lemma mul_add_karatsuba_ok : forall size lhs lo rhs ro out oo, lo + size <= length lhs -> ro + size <= length rhs ->
  oo + 2 * size <= length out -> dg lhs -> dg rhs -> dg out ->
  exists out', mul_add_karatsuba W size lhs lo rhs ro out oo = Some out' /\ frame out out' oo (2 * size) /\
    reg out' oo (2 * size) = reg out oo (2 * size) (+) reg lhs lo size (x) reg rhs ro size.
Proof using HW.
  intros size lhs lo rhs ro out oo Hl Hr Ho Dl Dr Do. unfold mul_add_karatsuba.
  destruct (karatsuba_ok (S size) size lhs lo rhs ro (repeat 0%N (size * 2)) 0 ltac:(lia) Hl Hr ltac:(rewrite repeat_length; lia) Dl Dr (dg_repeat W _)) as (b & E & F & R).
  rewrite E. cbn [bind]. pose proof F as (FL & _ & FD). rewrite repeat_length in FL.
  destruct (add_to_ok W (size * 2) b 0 out oo ltac:(lia) ltac:(lia) (FD (dg_repeat W _)) Do) as (o & E2 & F2 & R2). exists o. split; [exact E2|].
  replace (2 * size) with (size * 2) in * by lia. split; [exact F2|]. rewrite R2, R. reflexivity.
Qed.

Lemma mul_add_ok : forall fuel lhs lo ls rhs ro rs out oo, ls + rs <= fuel -> (ls = 0 \/ 0 < rs) -> lo + ls <= length lhs -> ro + rs <= length rhs ->
  oo + (ls + rs) <= length out -> dg lhs -> dg rhs -> dg out ->
  exists out', mul_add W fuel lhs lo ls rhs ro rs out oo = Some out' /\ frame out out' oo (ls + rs) /\
    reg out' oo (ls + rs) = reg out oo (ls + rs) (+) reg lhs lo ls (x) reg rhs ro rs.
Proof using HW.
  induction fuel as [|fuel IH]; intros lhs lo ls rhs ro rs out oo Hf Hp Hl Hr Ho Dl Dr Do; cbn [mul_add];
    (destruct (Nat.eqb_spec ls 0) as [->|NZ]; [exists out; split; [reflexivity|]; split; [apply frame_refl|cbn [Poly2Proofs.reg gm]; symmetry; apply xor_0_r]|]); [lia|].
  destruct (Nat.ltb_spec ls rs) as [L|L].
  - destruct (mul_add_karatsuba_ok ls rhs ro lhs lo out oo ltac:(lia) ltac:(lia) ltac:(lia) Dr Dl Do) as (o1 & E1 & F1 & R1). rewrite E1. cbn [bind].
    pose proof F1 as (L1 & _ & D1).
    destruct (IH rhs (ro + ls) (rs - ls) lhs lo ls o1 (oo + ls) ltac:(lia) ltac:(lia) ltac:(lia) ltac:(lia) ltac:(lia) Dr Dl (D1 Do)) as (o2 & E2 & F2 & R2).
    exists o2. split; [exact E2|]. split.
    + apply (frame_trans W _ o1); [apply (frame_sub W _ _ oo (2 * ls)); [exact F1|lia|lia]|apply (frame_sub W _ _ (oo + ls) (rs - ls + ls)); [exact F2|lia|lia]].
    + rewrite (reg_sub W o1 o2 oo (ls + rs) ls (rs - ls + ls) _ F2 ltac:(lia) R2).
      assert (R1': reg o1 (oo + 0) (2 * ls) = reg out (oo + 0) (2 * ls) (+) reg rhs ro ls (x) reg lhs lo ls) by (rewrite Nat.add_0_r; exact R1).
      assert (F1': frame out o1 (oo + 0) (2 * ls)) by (rewrite Nat.add_0_r; exact F1).
      rewrite (reg_sub W out o1 oo (ls + rs) 0 (2 * ls) _ F1' ltac:(lia) R1').
      replace (reg rhs ro rs) with (reg rhs ro (ls + (rs - ls))) by (f_equal; lia). rewrite (reg_split W rhs ro ls (rs - ls)), Nat.mul_0_r, X0. ring.
  - destruct (mul_add_karatsuba_ok rs lhs lo rhs ro out oo ltac:(lia) ltac:(lia) ltac:(lia) Dl Dr Do) as (o1 & E1 & F1 & R1). rewrite E1. cbn [bind].
    pose proof F1 as (L1 & _ & D1).
    destruct (IH lhs (lo + rs) (ls - rs) rhs ro rs o1 (oo + rs) ltac:(lia) ltac:(lia) ltac:(lia) ltac:(lia) ltac:(lia) Dl Dr (D1 Do)) as (o2 & E2 & F2 & R2).
    exists o2. split; [exact E2|]. split.
    + apply (frame_trans W _ o1); [apply (frame_sub W _ _ oo (2 * rs)); [exact F1|lia|lia]|apply (frame_sub W _ _ (oo + rs) (ls - rs + rs)); [exact F2|lia|lia]].
    + rewrite (reg_sub W o1 o2 oo (ls + rs) rs (ls - rs + rs) _ F2 ltac:(lia) R2).
      assert (R1': reg o1 (oo + 0) (2 * rs) = reg out (oo + 0) (2 * rs) (+) reg lhs lo rs (x) reg rhs ro rs) by (rewrite Nat.add_0_r; exact R1).
      assert (F1': frame out o1 (oo + 0) (2 * rs)) by (rewrite Nat.add_0_r; exact F1).
      rewrite (reg_sub W out o1 oo (ls + rs) 0 (2 * rs) _ F1' ltac:(lia) R1').
      replace (reg lhs lo ls) with (reg lhs lo (rs + (ls - rs))) by (f_equal; lia). rewrite (reg_split W lhs lo rs (ls - rs)), Nat.mul_0_r, X0. ring.
Qed.

Lemma multiply_ok : forall fuel lhs rhs out, length lhs + length rhs <= fuel -> (length lhs = 0 \/ 0 < length rhs) ->
  length lhs + length rhs <= length out -> dg lhs -> dg rhs -> dg out ->
  exists out', multiply W fuel lhs rhs out = Some out' /\ frame out out' 0 (length lhs + length rhs) /\
    reg out' 0 (length lhs + length rhs) = pval W lhs (x) pval W rhs.
Proof using HW.
  intros fuel lhs rhs out Hf Hp Ho Dl Dr Do. unfold multiply.
  destruct (fill0_ok W (length lhs + length rhs) out 0 ltac:(lia)) as (o0 & E0 & F0 & Z0). rewrite E0. cbn [bind]. pose proof F0 as (L0 & _ & D0).
  destruct (mul_add_ok fuel lhs 0 (length lhs) rhs 0 (length rhs) o0 0 Hf Hp ltac:(lia) ltac:(lia) ltac:(lia) Dl Dr (D0 Do)) as (o1 & E1 & F1 & R1).
  exists o1. split; [exact E1|]. split; [apply (frame_trans W _ o0); assumption|]. rewrite R1, (reg_0 W o0) by (intros; apply Z0; lia). rewrite xor_0_l, !pval_reg. reflexivity.
Qed.
Lemma p_mul_ok : forall l r, dg (p_storage l) -> dg (p_storage r) -> p_storage l <> [] -> p_storage r <> [] ->
  exists p, p_mul W l r = Some p /\ p_size p = p_size l + p_size r /\ length (p_storage p) = length (p_storage l) + length (p_storage r) /\
    dg (p_storage p) /\ pval W (p_storage p) = pval W (p_storage l) (x) pval W (p_storage r).
Proof using HW.
  intros l r Dl Dr Nl Nr. unfold p_mul. set (n := length (p_storage l)). set (k := length (p_storage r)).
  assert (HN: n <> 0) by (unfold n; destruct (p_storage l); [congruence|discriminate]).
  assert (HK: k <> 0) by (unfold k; destruct (p_storage r); [congruence|discriminate]).
  destruct (Nat.eqb_spec n 0); [lia|]. destruct (Nat.eqb_spec k 0); [lia|]. cbn [orb].
  destruct (multiply_ok (n + k) (p_storage l) (p_storage r) (repeat 0%N (n + k)) (le_n _) ltac:(fold n k; lia) ltac:(rewrite repeat_length; fold n k; lia) Dl Dr (dg_repeat W _)) as (o & E & F & R).
  rewrite E. cbn [bind]. exists (Polynomial o (p_size l + p_size r)). cbn [p_storage p_size]. destruct F as (FL & _ & FD). rewrite repeat_length in FL.
  repeat split; [exact FL|apply FD, dg_repeat|]. rewrite (pval_reg W o), FL. exact R.
Qed.
End Mul.
