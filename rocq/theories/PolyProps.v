(* C46: the arithmetic of polynomials over GF(2) in detail/polynomial.hpp. *)
From Coq Require Import NArith.
From Verif Require Import Base PolyModel PolySpec PolyProofs Poly2Proofs Poly3Proofs Poly4Proofs Poly5Proofs Poly6Proofs.
Open Scope nat_scope.
Ltac Zify.zify_post_hook ::= idtac.

Lemma frame_writes : forall W out out' o n, digits W out -> frame W out out' o n -> writes W out out' o n.
Proof. intros W out out' o n D (H1 & H2 & H3). split; [exact H1|]. split; [apply dg_digits, H3, dg_digits; exact D|]. exact H2. Qed.
Lemma writes_part : forall W out out' o n v, frame W out out' o n -> o + n <= length out -> reg W out' o n = v -> pval W (part out' o n) = v.
Proof. intros W out out' o n v (H1 & _) H E. rewrite pval_part by lia. exact E. Qed.
Lemma even32 : 32 = 32 / 2 + 32 / 2. Proof. reflexivity. Qed.
Lemma even64 : 64 = 64 / 2 + 64 / 2. Proof. reflexivity. Qed.

(* add: output[0..size) = lhs + rhs, whether or not output is one of the operands *)
Theorem C46_add : forall W size lhs lo rhs ro out oo,
  digits W lhs -> digits W rhs -> digits W out ->
  lo + size <= length lhs -> ro + size <= length rhs -> oo + size <= length out ->
  (exists out', add3 size lhs lo rhs ro out oo = Some out' /\ writes W out out' oo size /\
     pval W (part out' oo size) = N.lxor (pval W (part lhs lo size)) (pval W (part rhs ro size))) /\
  (exists out', add_to size lhs lo out oo = Some out' /\ writes W out out' oo size /\
     pval W (part out' oo size) = N.lxor (pval W (part out oo size)) (pval W (part lhs lo size))).
Proof.
  intros W size lhs lo rhs ro out oo Dl Dr Do Hl Hr Ho. rewrite !pval_part by assumption. split.
  - destruct (add3_ok W size lhs lo rhs ro out oo Hl Hr Ho (proj1 (dg_digits W _) Dl) (proj1 (dg_digits W _) Dr)) as (o & E & F & R). exists o. split; [exact E|].
    split; [apply frame_writes; assumption|]. apply (writes_part _ out); assumption.
  - destruct (add_to_ok W size lhs lo out oo Hl Ho (proj1 (dg_digits W _) Dl) (proj1 (dg_digits W _) Do)) as (o & E & F & R). exists o. split; [exact E|].
    split; [apply frame_writes; assumption|]. apply (writes_part _ out); assumption.
Qed.
Print Assumptions C46_add.
Example C46_add_case : add3 2 [5; 6]%N 0 [1; 1; 3]%N 1 [9; 9; 9; 9]%N 1 = Some [9; 4; 5; 9]%N.
Proof. reflexivity. Qed.

(* add_shifted_inplace: output[0..size] += lhs * x^shift *)
Theorem C46_add_shifted : forall W size lhs lo out oo s,
  digits W lhs -> digits W out -> s < W -> lo + size <= length lhs -> oo + (size + 1) <= length out ->
  exists out', add_shifted W size lhs lo out oo s = Some out' /\ writes W out out' oo (size + 1) /\
    pval W (part out' oo (size + 1)) = N.lxor (pval W (part out oo (size + 1))) (N.shiftl (pval W (part lhs lo size)) (N.of_nat s)).
Proof.
  intros W size lhs lo out oo s Dl Do Hs Hl Ho. rewrite !pval_part by assumption.
  destruct (add_shifted_ok W size lhs lo out oo s Hs Hl ltac:(destruct (s =? 0); lia) (proj1 (dg_digits W _) Dl) (proj1 (dg_digits W _) Do)) as (o & E & F & R). exists o. split; [exact E|].
  split; [apply frame_writes; assumption|]. rewrite shl_X. apply (writes_part _ out); assumption.
Qed.
Print Assumptions C46_add_shifted.
Example C46_add_shifted_case : add_shifted 64 1 [2 ^ 63 + 1]%N 0 [1; 1; 1]%N 0 2 = Some [5; 3; 1]%N.
Proof. vm_compute. reflexivity. Qed.

(* multiply_simple and multiply_karatsuba: output[0..2 size) = lhs * rhs.  The
   recursion of the latter ends (within size + 1 calls). *)
Theorem C46_multiply_simple : forall W size lhs lo rhs ro out oo, 1 <= W ->
  digits W lhs -> digits W rhs -> digits W out ->
  lo + size <= length lhs -> ro + size <= length rhs -> oo + 2 * size <= length out ->
  exists out', mul_simple W size lhs lo rhs ro out oo = Some out' /\ writes W out out' oo (2 * size) /\
    is_product (pval W (part lhs lo size)) (pval W (part rhs ro size)) (pval W (part out' oo (2 * size))).
Proof.
  intros W size lhs lo rhs ro out oo HW Dl Dr Do Hl Hr Ho. rewrite !pval_part by assumption.
  destruct (mul_simple_ok W HW size lhs lo rhs ro out oo Hl Hr Ho (proj1 (dg_digits W _) Dl) (proj1 (dg_digits W _) Dr) (proj1 (dg_digits W _) Do)) as (o & E & F & R). exists o. split; [exact E|].
  split; [apply frame_writes; assumption|]. apply product_gm. apply (writes_part _ out); assumption.
Qed.
Print Assumptions C46_multiply_simple.
Theorem C46_multiply_karatsuba : forall W fuel size lhs lo rhs ro out oo, 1 <= W -> size < fuel ->
  digits W lhs -> digits W rhs -> digits W out ->
  lo + size <= length lhs -> ro + size <= length rhs -> oo + 2 * size <= length out ->
  exists out', mul_karatsuba W fuel size lhs lo rhs ro out oo = Some out' /\ writes W out out' oo (2 * size) /\
    is_product (pval W (part lhs lo size)) (pval W (part rhs ro size)) (pval W (part out' oo (2 * size))).
Proof.
  intros W fuel size lhs lo rhs ro out oo HW Hf Dl Dr Do Hl Hr Ho. rewrite !pval_part by assumption.
  destruct (karatsuba_ok W HW fuel size lhs lo rhs ro out oo Hf Hl Hr Ho (proj1 (dg_digits W _) Dl) (proj1 (dg_digits W _) Dr) (proj1 (dg_digits W _) Do)) as (o & E & F & R). exists o. split; [exact E|].
  split; [apply frame_writes; assumption|]. apply product_gm. apply (writes_part _ out); assumption.
Qed.
Print Assumptions C46_multiply_karatsuba.
Example C46_multiply_case : mul_karatsuba 64 4 3 [1; 2; 3]%N 0 [5; 6; 7]%N 0 (repeat 9%N 6) 0 = Some [5; 12; 4; 4; 9; 0]%N.
Proof. vm_compute. reflexivity. Qed.

(* operator*: the product; operands must not be empty.  The storage of the result
   has as many digits as both operands together, and its size is the sum. *)
Theorem C46_product : forall W l r, 1 <= W -> digits W (p_storage l) -> digits W (p_storage r) ->
  p_storage l <> [] -> p_storage r <> [] ->
  exists p, p_mul W l r = Some p /\ p_size p = p_size l + p_size r /\ digits W (p_storage p) /\
    is_product (pval W (p_storage l)) (pval W (p_storage r)) (pval W (p_storage p)).
Proof.
  intros W l r HW Dl Dr Nl Nr. destruct (p_mul_ok W HW l r (proj1 (dg_digits W _) Dl) (proj1 (dg_digits W _) Dr) Nl Nr) as (p & E & S & L & D & V).
  exists p. split; [exact E|]. split; [exact S|]. split; [apply dg_digits; exact D|]. apply product_gm. exact V.
Qed.
Print Assumptions C46_product.
Example C46_product_case : p_mul 64 (Polynomial [3]%N 2) (Polynomial [5; 7; 7]%N 180) = Some (Polynomial [15; 9; 9; 0]%N 182).
Proof. vm_compute. reflexivity. Qed.
(* A non-empty polynomial times an empty one: 0 in mathematics.  With an empty right
   operand multiply_add never gets to lhs_size = 0, whatever the number of
   iterations; (and &_storage[0] is taken of an empty vector). *)
Theorem C46_empty_operand_refuted : exists l r, holds 64 (p_storage l) (p_size l) /\ holds 64 (p_storage r) (p_size r) /\
  p_mul 64 l r = None /\ forall fuel, multiply 64 fuel (p_storage l) (p_storage r) [0]%N = None.
Proof.
  assert (I: forall fuel, mul_add 64 fuel [1]%N 0 1 [] 0 0 [0]%N 0 = None). { induction fuel; [reflexivity|]. exact IHfuel. }
  exists (Polynomial [1]%N 1), (Polynomial [] 0). split; [|split; [|split]].
  - split; [reflexivity|]. split; [repeat constructor|]. apply deg_iff. reflexivity.
  - split; [reflexivity|]. split; [constructor|]. apply deg_iff. reflexivity.
  - reflexivity.
  - exact I.
Qed.
Print Assumptions C46_empty_operand_refuted.

(* copy_bits: the bits low, ..., high-1 *)
Theorem C46_copy_bits : forall W x low high out, 1 <= W -> digits W x -> digits W out ->
  low <= high -> high <= W * length x -> ceil (high - low) W <= length out ->
  exists out', copy_bits W x low high out = Some out' /\ writes W out out' 0 (ceil (high - low) W) /\
    forall k, coef (pval W (part out' 0 (ceil (high - low) W))) k = if k <? high - low then coef (pval W x) (low + k) else false.
Proof.
  intros W x low high out HW Dx Do H1 H2 H3.
  destruct (copy_bits_ok W HW x low high out (proj1 (dg_digits W _) Dx) (proj1 (dg_digits W _) Do) H1 H2 H3) as (o & E & F & R). exists o. split; [exact E|].
  split; [apply frame_writes; assumption|]. rewrite (writes_part _ out o 0 _ _ F H3 R). intro k. rewrite coef_mod, coef_shr. destruct (k <? high - low); [|reflexivity]. f_equal. lia.
Qed.
Print Assumptions C46_copy_bits.
Example C46_copy_bits_case : copy_bits 64 [2 ^ 63; 2 ^ 64 - 1; 7]%N 63 132 [9; 9; 9]%N = Some [2 ^ 64 - 1; 15; 9]%N.
Proof. vm_compute. reflexivity. Qed.

(* shift_left: the product with x^shift in size digits; the topmost bits drop out *)
Theorem C46_shift_left : forall W val size s, 1 <= W -> digits W val -> 0 < s < W -> size <= length val ->
  exists val', shift_left W val size s = Some val' /\ writes W val val' 0 size /\
    forall k, k < W * size -> coef (pval W (part val' 0 size)) k = if k <? s then false else coef (pval W (part val 0 size)) (k - s).
Proof.
  intros W val size s HW Dv Hs Hl. destruct (shift_left_ok W HW val size s Hs Hl (proj1 (dg_digits W _) Dv)) as (o & E & F & R). exists o. split; [exact E|].
  split; [apply frame_writes; assumption|]. rewrite (writes_part _ val o 0 _ _ F Hl R), pval_part by exact Hl. intros k Hk. rewrite coef_mod, coef_Xm. destruct (Nat.ltb_spec k (W * size)); [reflexivity|lia].
Qed.
Print Assumptions C46_shift_left.
Example C46_shift_left_case : shift_left 64 [2 ^ 63 + 1; 1; 1]%N 2 3 = Some [8; 12; 1]%N.
Proof. vm_compute. reflexivity. Qed.

(* sqr: val[0..2 size) is the square of val[0..size) *)
Theorem C46_sqr : forall W val size, W = 32 \/ W = 64 -> digits W val -> 2 * size <= length val ->
  exists val', sqr_array W val size = Some val' /\ writes W val val' 0 (2 * size) /\
    is_product (pval W (part val 0 size)) (pval W (part val 0 size)) (pval W (part val' 0 (2 * size))).
Proof.
  intros W val size HW Dv Hl.
  assert (H: 1 <= W /\ W = W / 2 + W / 2 /\ sqr_check W = true).
  { destruct HW; subst W; [split; [lia|split; [exact even32|exact check32]]|split; [lia|split; [exact even64|exact check64]]]. } destruct H as (H1 & H2 & H3).
  destruct (sqr_array_ok W H1 H2 H3 val size Hl (proj1 (dg_digits W _) Dv)) as (o & E & F & R). exists o. split; [exact E|].
  split; [apply frame_writes; assumption|]. rewrite (pval_part W val) by lia. apply product_gm. apply (writes_part _ val); assumption.
Qed.
Print Assumptions C46_sqr.
Example C46_sqr_case : sqr_array 64 [2 ^ 63 + 7; 1; 5; 5]%N 2 = Some [21; 2 ^ 62; 1; 0]%N.
Proof. vm_compute. reflexivity. Qed.

Lemma gap_block : forall M d b, block_of M d b <-> gap M d b.
Proof.
  intros M d b. unfold block_of, gap. split; (intros [[H1 H2]|H]; [left|right; exact H]); (split; [exact H1|]).
  - intros k Hk. pose proof (coef_mod M d k) as C. rewrite H2, coef_0 in C. destruct (Nat.ltb_spec k d); [congruence|lia].
  - apply coef_ext. intro k. rewrite coef_mod, coef_0. destruct (Nat.ltb_spec k d); [apply H2; assumption|reflexivity].
Qed.

(* sparse_mod: the remainder, in place, of a dividend of db bits; all bits at and
   above the degree of the divisor become 0.  The digits touched must exist. *)
Theorem C46_remainder : forall W divisor d dividend db, 1 <= W -> digits W divisor -> digits W dividend ->
  d < W * length divisor -> coef (pval W divisor) d = true -> deg_lt (pval W divisor) (d + 1) ->
  deg_lt (pval W dividend) db -> d <= db -> db <= W * length dividend ->
  (forall b, gap (pval W divisor) d b -> division_fits W (length dividend) d b db) ->
  exists sm r sm', sparse_mod W divisor (d + 1) = Some sm /\ sm_apply W db sm dividend db = Some (r, sm') /\
    length r = length dividend /\ digits W r /\ deg_lt (pval W r) d /\ congruent (pval W divisor) (pval W r) (pval W dividend).
Proof.
  intros W dv d dd db HW Dv Dd Hd HT HM HV Hdb Hl HF.
  destruct (sparse_mod_ok W HW dv d (proj1 (dg_digits W _) Dv) Hd HT) as (sm & E & S1 & S2). exists sm.
  destruct (sm_apply_ok W HW (pval W dv) d HT HM db sm dd db ltac:(lia) S1 (proj1 (dg_digits W _) Dd)) as (r & sm' & E2 & _ & _ & L & D & V & C).
  { apply (deg_mono _ _ _ HV). lia. } { apply HF. apply gap_block. exact S2. } { exact Hl. }
  exists r, sm'. split; [exact E|]. split; [exact E2|]. split; [exact L|]. split; [apply dg_digits; exact D|]. split; [exact V|]. apply cg_congruent. exact C.
Qed.
Print Assumptions C46_remainder.
Example C46_remainder_case : (sm <- sparse_mod 64 [283]%N 9;; r <- sm_apply 64 17 sm [65535; 0]%N 17;; Some (fst r)) = Some [53; 0]%N.
Proof. vm_compute. reflexivity. Qed.

Lemma of_holds : forall W p, holds W (p_storage p) (p_size p) -> pwf W p.
Proof. intros W p (H1 & H2 & H3). split; [exact H1|]. split; [apply dg_digits; exact H2|exact H3]. Qed.
Lemma to_holds : forall W p, pwf W p -> holds W (p_storage p) (p_size p).
Proof. intros W p (H1 & H2 & H3). split; [exact H1|]. split; [apply dg_digits; exact H2|exact H3]. Qed.

(* class polynomial: reading and writing one coefficient.  Reading the non-const
   operator[] beyond the size makes the polynomial longer, but not different. *)
Theorem C46_coefficients : forall W p i b, 2 <= W -> holds W (p_storage p) (p_size p) ->
  p_cget W p i = Some (coef (pval W (p_storage p)) i) /\
  (exists q, p_get W p i = Some (coef (pval W (p_storage p)) i, q) /\ holds W (p_storage q) (p_size q) /\
     p_size q = Nat.max (p_size p) (i + 1) /\ pval W (p_storage q) = pval W (p_storage p)) /\
  (exists q, p_set W p i b = Some q /\ holds W (p_storage q) (p_size q) /\ p_size q = Nat.max (p_size p) (i + 1) /\
     forall k, coef (pval W (p_storage q)) k = if k =? i then b else coef (pval W (p_storage p)) k) /\
  (exists q, p_xor W p i b = Some q /\ holds W (p_storage q) (p_size q) /\ p_size q = Nat.max (p_size p) (i + 1) /\
     forall k, coef (pval W (p_storage q)) k = if k =? i then xorb (coef (pval W (p_storage p)) i) b else coef (pval W (p_storage p)) k).
Proof.
  intros W p i b HW H. apply of_holds in H. split; [apply (cget_ok W HW); exact H|]. split; [|split].
  - destruct (get_ok W HW p i H) as (q & E & S & F & V). exists q. split; [exact E|]. split; [apply to_holds; exact F|]. split; [exact S|exact V].
  - destruct (set_ok W HW p i b H) as (q & E & S & F & V). exists q. split; [exact E|]. split; [apply to_holds; exact F|]. split; [exact S|exact V].
  - destruct (xor_ok W HW p i b H) as (q & E & S & F & V). exists q. split; [exact E|]. split; [apply to_holds; exact F|]. split; [exact S|exact V].
Qed.
Print Assumptions C46_coefficients.
Example C46_coefficients_case : p_set 64 (Polynomial [5]%N 3) 70 true = Some (Polynomial [5; 64]%N 71) /\ p_set 64 (Polynomial [5]%N 3) 2 false = Some (Polynomial [1]%N 3).
Proof. vm_compute. split; reflexivity. Qed.

(* mod_pow_x: x^exponent modulo a polynomial of degree d >= 2.  Missing: the digits
   touched by sparse_mod must be among those allocated (see C46_overrun_refuted). *)
Theorem C46_mod_pow_x_partial : forall W e p d, W = 32 \/ W = 64 -> holds W (p_storage p) (p_size p) ->
  coef (pval W (p_storage p)) d = true -> deg_lt (pval W (p_storage p)) (d + 1) -> 2 <= d -> (e < 2 ^ 64)%N ->
  (forall b, gap (pval W (p_storage p)) d b -> division_fits W (2 * ceil (d + 1) W) d b (2 * d + 1)) ->
  exists q, p_mod_pow_x W e p = Some q /\ p_size q = d /\ holds W (p_storage q) (p_size q) /\
    congruent (pval W (p_storage p)) (pval W (p_storage q)) (N.shiftl 1 e).
Proof.
  intros W e p d HW P HT HD Hd He HF.
  assert (H: 2 <= W /\ W = W / 2 + W / 2 /\ sqr_check W = true).
  { destruct HW; subst W; [split; [lia|split; [exact even32|exact check32]]|split; [lia|split; [exact even64|exact check64]]]. } destruct H as (H1 & H2 & H3).
  destruct (p_pow_ok W H1 H2 H3 e p d (of_holds _ _ P) HT HD Hd He) as (q & E & S & F & C).
  { intros b Hb. replace (2 * (d + 1) - 1) with (2 * d + 1) by lia. apply HF. apply gap_block. exact Hb. }
  exists q. split; [exact E|]. split; [exact S|]. split; [apply to_holds; exact F|]. apply cg_congruent. exact C.
Qed.
Print Assumptions C46_mod_pow_x_partial.
Example C46_mod_pow_x_case : p_mod_pow_x 64 100 (Polynomial [283]%N 9) = Some (Polynomial [203]%N 8).
Proof. vm_compute. reflexivity. Qed.

(* The digits exist whenever the degree is not close below a multiple of W ... *)
Theorem C46_division_fits_room : forall W d b, 2 <= W -> 1 <= b -> 2 * d + 1 <= W * (2 * ceil (d + 1) W - 1) ->
  division_fits W (2 * ceil (d + 1) W) d b (2 * d + 1).
Proof.
  intros W d b HW Hb H t. cbn zeta. intro HL. set (x := Nat.max (2 * d + 1 - t * b) d) in *. set (s := Nat.max (2 * d + 1 - S t * b) d) in *.
  assert (Hx: x <= 2 * d + 1) by (unfold x; generalize (t * b); intro; lia).
  assert (Hs: s <= x) by (unfold s, x; cbn [Nat.mul]; generalize (t * b); intro; lia).
  pose proof (ceil_lt s W ltac:(lia)). pose proof (ceil_lt (x - s) W ltac:(lia)).
  assert (W * (ceil s W + ceil (x - s) W) < W * (2 * ceil (d + 1) W + 1)) by nia. apply Nat.mul_lt_mono_pos_l in H2; lia.
Qed.
Print Assumptions C46_division_fits_room.
Lemma holds64 : forall v n, 1 <= n <= 64 -> (v < 2 ^ N.of_nat n)%N -> holds 64 [v] n.
Proof.
  intros v n Hn Hv. split; [|split].
  - cbn [length]. apply Nat.le_antisymm; [|apply ceil_le; lia]. pose proof (ceil_ge n 64 ltac:(lia)). lia.
  - constructor; [|constructor]. apply (N.lt_le_trans _ _ _ Hv). apply N.pow_le_mono_r; lia.
  - apply deg_iff. cbn [pval]. rewrite N.shiftl_0_l, N.lxor_0_r. exact Hv.
Qed.
(* ... but not always: x^2 modulo x^63 + x^62 + 1 accesses output[2] of a buffer of
   two digits. *)
Theorem C46_overrun_refuted : exists e p d, holds 64 (p_storage p) (p_size p) /\
  coef (pval 64 (p_storage p)) d = true /\ deg_lt (pval 64 (p_storage p)) (d + 1) /\ 2 <= d /\ (e < 2 ^ 64)%N /\
  p_mod_pow_x 64 e p = None.
Proof.
  exists 2%N, (Polynomial [2 ^ 63 + 2 ^ 62 + 1]%N 64), 63. split; [apply holds64; [cbn; lia|reflexivity]|].
  split; [reflexivity|]. split; [apply deg_iff; reflexivity|]. split; [lia|]. split; [reflexivity|]. vm_compute. reflexivity.
Qed.
Print Assumptions C46_overrun_refuted.
(* The degree 1: x^1 modulo x + 1 is 1, the result is 0. *)
Theorem C46_degree_one_refuted : exists e p q, holds 64 (p_storage p) (p_size p) /\
  coef (pval 64 (p_storage p)) 1 = true /\ deg_lt (pval 64 (p_storage p)) 2 /\ (e < 2 ^ 64)%N /\
  p_mod_pow_x 64 e p = Some q /\ ~ congruent (pval 64 (p_storage p)) (pval 64 (p_storage q)) (N.shiftl 1 e).
Proof.
  exists 1%N, (Polynomial [3]%N 2), (Polynomial [0]%N 1). split; [apply holds64; [cbn; lia|reflexivity]|].
  split; [reflexivity|]. split; [apply deg_iff; reflexivity|]. split; [reflexivity|]. split; [vm_compute; reflexivity|].
  rewrite cg_congruent. intros (q & H). cbn in H.
  (* q (x + 1) = x: evaluate at 1 *)
  assert (P: forall n a, deg_lt a n -> xsum (S n) (coef (gm a 3)) = false).
  { intros n a Ha. replace (gm a 3) with (N.lxor a (gm (X 1) a)). 2:{ rewrite (gm_comm a 3). change 3%N with (N.lxor 1 (X 1)). rewrite gm_xor_l. reflexivity. }
    rewrite (xsum_ext _ _ (fun i => xorb (coef a i) (coef (gm (X 1) a) i))) by (intros; apply coef_xor). rewrite xsum_xor.
    rewrite (xsum_head n (coef (gm (X 1) a))). rewrite (xsum_ext n _ (coef a)).
    2:{ intros i _. rewrite coef_Xm. destruct (Nat.ltb_spec (S i) 1); [lia|]. f_equal. lia. }
    rewrite coef_Xm. cbn [Nat.ltb Nat.leb xsum]. rewrite (Ha n) by lia. rewrite xorb_false_r, xorb_false_l. apply xorb_nilpotent. }
  pose proof (P (N.to_nat (N.size q) + 1) q) as Q. rewrite <- H in Q.
  assert (D: deg_lt q (N.to_nat (N.size q) + 1)).
  { apply deg_iff. replace (N.of_nat (N.to_nat (N.size q) + 1)) with (N.size q + 1)%N by lia. apply (N.lt_le_trans _ _ _ (N.size_gt q)). apply N.pow_le_mono_r; lia. }
  specialize (Q D). rewrite Nat.add_1_r, !xsum_head in Q. change 2%N with (X 1) in Q.
  rewrite xsum_false in Q; [discriminate|]. intros i _. rewrite coef_X. reflexivity.
Qed.
Print Assumptions C46_degree_one_refuted.
