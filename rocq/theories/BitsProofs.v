(* Facts about the binary digits of integers. *)
From Verif Require Import Base.
Ltac Zify.zify_post_hook ::= idtac.

Lemma bits_above : forall z w i, 0 <= z < 2 ^ w -> w <= i -> Z.testbit z i = false.
Proof.
  intros z w i Hz Hi. destruct (Z.eq_dec z 0) as [->|E]; [apply Z.testbit_0_l|].
  apply Z.bits_above_log2; [lia|]. assert (Z.log2 z < w) by (apply Z.log2_lt_pow2; lia). lia.
Qed.

Lemma lt_pow2_bits : forall z w, 0 <= w -> 0 <= z -> (forall i, w <= i -> Z.testbit z i = false) -> z < 2 ^ w.
Proof.
  intros z w Hw Hz H. assert (E: z = z mod 2 ^ w).
  { apply Z.bits_inj'. intros i Hi. destruct (Z.lt_ge_cases i w) as [L|L].
    - rewrite Z.mod_pow2_bits_low by lia. reflexivity.
    - rewrite Z.mod_pow2_bits_high by lia. apply H; lia. }
  rewrite E. apply Z.mod_pos_bound. apply Z.pow_pos_nonneg; lia.
Qed.

Lemma lxor_range : forall a b w, 0 <= w -> 0 <= a < 2 ^ w -> 0 <= b < 2 ^ w -> 0 <= Z.lxor a b < 2 ^ w.
Proof.
  intros a b w Hw Ha Hb. assert (0 <= Z.lxor a b) by (apply Z.lxor_nonneg; lia). split; [lia|].
  apply lt_pow2_bits; [lia|lia|]. intros i Hi. rewrite Z.lxor_spec, !(bits_above _ w) by lia. reflexivity.
Qed.
Lemma lor_range : forall a b w, 0 <= w -> 0 <= a < 2 ^ w -> 0 <= b < 2 ^ w -> 0 <= Z.lor a b < 2 ^ w.
Proof.
  intros a b w Hw Ha Hb. assert (0 <= Z.lor a b) by (apply Z.lor_nonneg; lia). split; [lia|].
  apply lt_pow2_bits; [lia|lia|]. intros i Hi. rewrite Z.lor_spec, !(bits_above _ w) by lia. reflexivity.
Qed.
Lemma land_range_l : forall a b w, 0 <= w -> 0 <= a < 2 ^ w -> 0 <= b -> 0 <= Z.land a b < 2 ^ w.
Proof.
  intros a b w Hw Ha Hb. assert (0 <= Z.land a b) by (apply Z.land_nonneg; lia). split; [lia|].
  apply lt_pow2_bits; [lia|lia|]. intros i Hi. rewrite Z.land_spec, (bits_above a w) by lia. reflexivity.
Qed.
Lemma land_range_r : forall a b w, 0 <= w -> 0 <= a -> 0 <= b < 2 ^ w -> 0 <= Z.land a b < 2 ^ w.
Proof. intros. rewrite Z.land_comm. apply land_range_l; lia. Qed.

Lemma div2_range : forall a k w, 0 <= w -> 0 <= k -> 0 <= a < 2 ^ w -> 0 <= a / 2 ^ k < 2 ^ w.
Proof.
  intros a k w Hw Hk Ha. assert (0 < 2 ^ k) by (apply Z.pow_pos_nonneg; lia). split.
  - apply Z.div_pos; lia.
  - assert (a / 2 ^ k <= a) by (apply Z.div_le_upper_bound; [lia|]; nia). lia.
Qed.

(* two nonnegative numbers without common digits *)
Lemma disjoint_add : forall a b, Z.land a b = 0 -> a + b = Z.lor a b.
Proof. intros a b H. rewrite Z.add_nocarry_lxor by exact H. apply Z.lxor_lor. exact H. Qed.

(* the part of u from digit r on *)
Lemma upper_part : forall u r, 0 <= r -> u - u mod 2 ^ r = Z.shiftl (Z.shiftr u r) r.
Proof.
  intros u r Hr. rewrite Z.shiftl_mul_pow2, Z.shiftr_div_pow2 by lia.
  pose proof (Z.div_mod u (2 ^ r) ltac:(apply Z.pow_nonzero; lia)). lia.
Qed.
Lemma upper_bits : forall u r i, 0 <= r -> 0 <= i ->
  Z.testbit (u - u mod 2 ^ r) i = (r <=? i) && Z.testbit u i.
Proof.
  intros u r i Hr Hi. rewrite upper_part by lia. destruct (Z.leb_spec r i) as [L|L]; simpl.
  - rewrite Z.shiftl_spec_high by lia. rewrite Z.shiftr_spec by lia. f_equal. lia.
  - apply Z.shiftl_spec_low. lia.
Qed.
Lemma lower_bits : forall u r i, 0 <= r -> 0 <= i -> Z.testbit (u mod 2 ^ r) i = (i <? r) && Z.testbit u i.
Proof.
  intros u r i Hr Hi. destruct (Z.ltb_spec i r) as [L|L]; simpl.
  - apply Z.mod_pow2_bits_low. lia.
  - apply Z.mod_pow2_bits_high. lia.
Qed.

(* upper(u) | lower(v) *)
Definition yy (r u v : Z) : Z := (u - u mod 2 ^ r) + v mod 2 ^ r.
Lemma yy_lor : forall r u v, 0 <= r -> yy r u v = Z.lor (u - u mod 2 ^ r) (v mod 2 ^ r).
Proof.
  intros r u v Hr. unfold yy. apply disjoint_add. apply Z.bits_inj'. intros i Hi.
  rewrite Z.land_spec, upper_bits, lower_bits, Z.testbit_0_l by lia.
  destruct (Z.leb_spec r i), (Z.ltb_spec i r); simpl; try lia; rewrite ?andb_false_r; reflexivity.
Qed.
Lemma yy_bits : forall r u v i, 0 <= r -> 0 <= i -> Z.testbit (yy r u v) i = if i <? r then Z.testbit v i else Z.testbit u i.
Proof.
  intros r u v i Hr Hi. rewrite yy_lor, Z.lor_spec, upper_bits, lower_bits by lia.
  destruct (Z.leb_spec r i), (Z.ltb_spec i r); simpl; try lia; rewrite ?orb_false_r; reflexivity.
Qed.
Lemma yy_range : forall r u v w, 0 <= r <= w -> 0 <= u < 2 ^ w -> 0 <= v < 2 ^ w -> 0 <= yy r u v < 2 ^ w.
Proof.
  intros r u v w Hr Hu Hv. rewrite yy_lor by lia. assert (0 < 2 ^ r) by (apply Z.pow_pos_nonneg; lia).
  pose proof (Z.mod_pos_bound u (2 ^ r) ltac:(lia)). pose proof (Z.mod_pos_bound v (2 ^ r) ltac:(lia)).
  assert (u mod 2 ^ r <= u) by (apply Z.mod_le; lia).
  assert (2 ^ r <= 2 ^ w) by (apply Z.pow_le_mono_r; lia).
  apply lor_range; lia.
Qed.
Lemma yy_same : forall r u, yy r u u = u.
Proof. intros. unfold yy. lia. Qed.
Lemma yy_up : forall r u v v', 0 <= r -> yy r (yy r u v) v' = yy r u v'.
Proof.
  intros r u v v' Hr. apply Z.bits_inj'. intros i Hi. rewrite !yy_bits by lia.
  destruct (Z.ltb_spec i r); reflexivity.
Qed.
Lemma yy_low : forall r u v v', 0 <= r -> yy r v' (yy r u v) = yy r v' v.
Proof.
  intros r u v v' Hr. apply Z.bits_inj'. intros i Hi. rewrite !yy_bits by lia.
  destruct (Z.ltb_spec i r); reflexivity.
Qed.
Lemma yy_low_mod : forall r u v, 0 <= r -> yy r u v mod 2 ^ r = v mod 2 ^ r.
Proof.
  intros r u v Hr. apply Z.bits_inj'. intros i Hi. rewrite !lower_bits, yy_bits by lia.
  destruct (Z.ltb_spec i r); reflexivity.
Qed.
Lemma yy_mod_r : forall r u v v', 0 <= r -> v mod 2 ^ r = v' mod 2 ^ r -> yy r u v = yy r u v'.
Proof. intros r u v v' Hr H. unfold yy. rewrite H. reflexivity. Qed.

Lemma odd_yy : forall r u v, 1 <= r -> Z.odd (yy r u v) = Z.odd v.
Proof.
  intros r u v Hr. rewrite <- !Z.bit0_odd. rewrite yy_bits by lia. destruct (Z.ltb_spec 0 r); [reflexivity|lia].
Qed.

(* multiplication by the matrix A and its inverse *)
Definition tw (a y : Z) : Z := Z.lxor (y / 2) (if Z.odd y then a else 0).
Definition ut (w a v : Z) : Z := if Z.testbit v (w - 1) then 2 * Z.lxor v a + 1 else 2 * v.

Lemma half_range : forall w y, 1 <= w -> 0 <= y < 2 ^ w -> 0 <= y / 2 < 2 ^ (w - 1).
Proof.
  intros w y Hw Hy. replace w with (Z.succ (w - 1)) in Hy by lia. rewrite Z.pow_succ_r in Hy by lia.
  split; [apply Z.div_pos; lia|apply Z.div_lt_upper_bound; lia].
Qed.
Lemma tw_range : forall w a y, 1 <= w -> 0 <= a < 2 ^ w -> 0 <= y < 2 ^ w -> 0 <= tw a y < 2 ^ w.
Proof.
  intros w a y Hw Ha Hy. pose proof (half_range w y Hw Hy). unfold tw.
  assert (2 ^ (w - 1) < 2 ^ w) by (apply Z.pow_lt_mono_r; lia).
  apply lxor_range; [lia|lia|]. destruct (Z.odd y); lia.
Qed.

Lemma top_bit : forall w v, 1 <= w -> 0 <= v < 2 ^ w -> Z.testbit v (w - 1) = (2 ^ (w - 1) <=? v).
Proof.
  intros w v Hw Hv. replace w with (Z.succ (w - 1)) in Hv by lia. rewrite Z.pow_succ_r in Hv by lia.
  destruct (Z.leb_spec (2 ^ (w - 1)) v) as [L|L].
  - rewrite Z.testbit_true by lia.
    replace (v / 2 ^ (w - 1)) with 1; [reflexivity|].
    apply Z.div_unique with (r := v - 2 ^ (w - 1)); lia.
  - apply bits_above with (w := w - 1); lia.
Qed.

Section Mat.
Variable w a : Z.
Hypothesis Hw : 1 <= w.
Hypothesis Ha : 2 ^ (w - 1) <= a < 2 ^ w.

Lemma a_top : Z.testbit a (w - 1) = true.
Proof. rewrite top_bit; [apply Z.leb_le; lia|lia|]. assert (0 < 2 ^ (w - 1)) by (apply Z.pow_pos_nonneg; lia). lia. Qed.

Lemma a_pos : 0 <= a < 2 ^ w.
Proof. assert (0 < 2 ^ (w - 1)) by (apply Z.pow_pos_nonneg; lia). lia. Qed.

Lemma xor_a_low : forall v, 0 <= v < 2 ^ w -> Z.testbit v (w - 1) = true -> 0 <= Z.lxor v a < 2 ^ (w - 1).
Proof.
  intros v Hv Ht. pose proof a_pos. pose proof (lxor_range v a w ltac:(lia) Hv ltac:(lia)) as HX. split; [lia|].
  apply lt_pow2_bits; [lia|lia|]. intros i Hi. destruct (Z.eq_dec i (w - 1)) as [->|E].
  - rewrite Z.lxor_spec, Ht, a_top. reflexivity.
  - apply bits_above with (w := w); [lia|lia].
Qed.

Lemma ut_range : forall v, 0 <= v < 2 ^ w -> 0 <= ut w a v < 2 ^ w.
Proof.
  intros v Hv. unfold ut. assert (E: 2 ^ w = 2 * 2 ^ (w - 1)) by (rewrite <- Z.pow_succ_r by lia; f_equal; lia).
  destruct (Z.testbit v (w - 1)) eqn:T.
  - pose proof (xor_a_low v Hv T). lia.
  - rewrite top_bit in T by lia. apply Z.leb_gt in T. lia.
Qed.

Lemma tw_ut : forall v, 0 <= v < 2 ^ w -> tw a (ut w a v) = v.
Proof.
  intros v Hv. unfold tw, ut. destruct (Z.testbit v (w - 1)).
  - replace (2 * Z.lxor v a + 1) with (1 + 2 * Z.lxor v a) by lia.
    rewrite Z.odd_add_mul_2. cbn [Z.odd]. rewrite Z.mul_comm, Z.div_add by lia. change (1 / 2) with 0. rewrite Z.add_0_l.
    rewrite Z.lxor_assoc, Z.lxor_nilpotent, Z.lxor_0_r. reflexivity.
  - rewrite Z.odd_mul. cbn [Z.odd andb]. rewrite Z.mul_comm, Z.div_mul by lia. apply Z.lxor_0_r.
Qed.

Lemma ut_tw : forall y, 0 <= y < 2 ^ w -> ut w a (tw a y) = y.
Proof.
  intros y Hy. pose proof (half_range w y Hw Hy) as Hh. pose proof (Z.div_mod y 2 ltac:(lia)) as HD.
  assert (Hb: Z.testbit (y / 2) (w - 1) = false) by (apply bits_above with (w := w - 1); lia).
  pose proof (Zmod_odd y) as HO. unfold ut, tw. destruct (Z.odd y).
  - rewrite Z.lxor_spec, Hb, a_top. cbn [xorb]. rewrite Z.lxor_assoc, Z.lxor_nilpotent, Z.lxor_0_r. lia.
  - rewrite Z.lxor_0_r, Hb. lia.
Qed.
End Mat.
