From Verif Require Import Base ArithSpec ArithModel.
From Coq Require Import ZifyBool Znumtheory.

Ltac Zify.zify_post_hook ::= Z.to_euclidean_division_equations.

(* ---------- generic ---------- *)

Lemma land_ones_mod x k : 0 <= k -> Z.land x (2 ^ k - 1) = x mod 2 ^ k.
Proof. intros H. rewrite <- Z.land_ones by lia. f_equal. rewrite Z.ones_equiv. lia. Qed.

Lemma shiftl_mul x k : 0 <= k -> Z.shiftl x k = x * 2 ^ k.
Proof. intros. now rewrite Z.shiftl_mul_pow2. Qed.

Lemma shiftr_div x k : 0 <= k -> Z.shiftr x k = x / 2 ^ k.
Proof. intros. now rewrite Z.shiftr_div_pow2. Qed.

Lemma land_shiftl_low h l k : 0 <= k -> 0 <= l < 2 ^ k -> Z.land (Z.shiftl h k) l = 0.
Proof.
  intros Hk Hl. apply Z.bits_inj'. intros n Hn.
  rewrite Z.land_spec, Z.bits_0.
  destruct (Z.ltb_spec n k).
  - rewrite Z.shiftl_spec_low by lia. reflexivity.
  - assert (Hb : Z.testbit l n = false).
    { destruct (Z.eq_dec l 0) as [->|Hnz]; [apply Z.bits_0|].
      apply Z.bits_above_log2; [lia|].
      apply Z.log2_lt_pow2; [lia|].
      apply Z.lt_le_trans with (2 ^ k); [lia|]. apply Z.pow_le_mono_r; lia. }
    rewrite Hb. apply andb_false_r.
Qed.

Lemma lor_shiftl_add h l k : 0 <= k -> 0 <= l < 2 ^ k -> Z.lor (Z.shiftl h k) l = h * 2 ^ k + l.
Proof.
  intros Hk Hl. rewrite <- Z.lxor_lor, <- Z.add_nocarry_lxor by (now apply land_shiftl_low).
  rewrite Z.shiftl_mul_pow2 by lia. lia.
Qed.

Lemma lo32_eq x : lo32 x = x mod 2 ^ 32.
Proof. unfold lo32, mask32. change (Z.shiftl 1 32 - 1) with (2 ^ 32 - 1). now apply land_ones_mod. Qed.

Lemma hi32_eq x : hi32 x = (x / 2 ^ 32) mod 2 ^ 32.
Proof.
  unfold hi32, mask32. change (Z.shiftl 1 32 - 1) with (2 ^ 32 - 1).
  rewrite land_ones_mod by lia. now rewrite shiftr_div by lia.
Qed.

(* ---------- integer_log2 ---------- *)

Lemma log2_impl_correct k t accum :
  0 < t < 2 ^ (2 ^ Z.of_nat (S k)) -> log2_impl k t accum = Z.log2 t + accum.
Proof.
  revert t accum. induction k as [|k IH]; intros t accum Ht.
  - cbn [log2_impl]. change (2 ^ 2 ^ Z.of_nat 1) with 4 in Ht.
    assert (Hc : t = 1 \/ t = 2 \/ t = 3) by lia.
    destruct Hc as [-> | [-> | ->]]; reflexivity.
  - cbn [log2_impl].
    assert (Hp : 2 ^ Z.of_nat (S (S k)) = 2 * 2 ^ Z.of_nat (S k)).
    { rewrite (Nat2Z.inj_succ (S k)), Z.pow_succ_r by lia. reflexivity. }
    rewrite Hp in Ht.
    set (s := 2 ^ Z.of_nat (S k)) in *.
    assert (Hs : 0 < s) by (apply Z.pow_pos_nonneg; lia).
    rewrite (shiftr_div t s) by lia.
    replace (2 * s) with (s + s) in Ht by lia. rewrite Z.pow_add_r in Ht by lia.
    assert (H2 : 0 < 2 ^ s) by (apply Z.pow_pos_nonneg; lia).
    destruct (Z.eqb_spec (t / 2 ^ s) 0) as [He|He].
    + rewrite Z.shiftr_0_r. rewrite IH; [lia|]. fold s. split; [lia|].
      apply Z.div_small_iff in He; lia.
    + rewrite shiftr_div by lia.
      assert (Hd : 0 < t / 2 ^ s) by (pose proof (Z.div_pos t (2 ^ s)); lia).
      rewrite IH.
      * rewrite <- Z.shiftr_div_pow2 by lia. rewrite Z.log2_shiftr by lia.
        assert (s <= Z.log2 t). { apply (proj1 (Z.log2_le_pow2 t s ltac:(lia))).
          destruct (Z.le_gt_cases (2 ^ s) t); [assumption|]. rewrite Z.div_small in He by lia. lia. }
        lia.
      * fold s. split; [lia|]. apply Z.div_lt_upper_bound; lia.
Qed.

Lemma integer_log2_64_correct t : 0 < t < 2 ^ 64 -> integer_log2_64 t = Z.log2 t.
Proof. intros H. unfold integer_log2_64. rewrite log2_impl_correct; [lia|exact H]. Qed.

(* ---------- muldivmod ---------- *)

Lemma mul_row_correct ai b0 b1 p0 p1 p2 :
  0 <= ai < 2 ^ 32 -> 0 <= b0 < 2 ^ 32 -> 0 <= b1 < 2 ^ 32 ->
  0 <= p0 < 2 ^ 32 -> 0 <= p1 < 2 ^ 32 -> p2 = 0 ->
  exists q0 q1 q2, mul_row ai b0 b1 p0 p1 p2 = (q0, q1, q2) /\
    0 <= q0 < 2 ^ 32 /\ 0 <= q1 < 2 ^ 32 /\ 0 <= q2 < 2 ^ 32 /\
    q0 + q1 * 2 ^ 32 + q2 * 2 ^ 64 = ai * (b0 + b1 * 2 ^ 32) + p0 + p1 * 2 ^ 32.
Proof.
  intros Ha Hb0 Hb1 Hp0 Hp1 Hp2. unfold mul_row, w64.
  rewrite !lo32_eq, !shiftr_div by lia.
  assert (H0 : 0 <= ai * b0 + 0 + p0 < 2 ^ 64) by nia.
  rewrite (Z.mod_small (ai * b0 + 0 + p0)) by lia.
  set (t0 := ai * b0 + 0 + p0) in *.
  assert (Hc0 : 0 <= t0 / 2 ^ 32 < 2 ^ 32) by lia.
  rewrite (Z.mod_small (t0 / 2 ^ 32)) by lia.
  assert (H1 : 0 <= ai * b1 + t0 / 2 ^ 32 + p1 < 2 ^ 64) by nia.
  rewrite (Z.mod_small (ai * b1 + t0 / 2 ^ 32 + p1)) by lia.
  set (t1 := ai * b1 + t0 / 2 ^ 32 + p1) in *.
  assert (Hc1 : 0 <= t1 / 2 ^ 32 < 2 ^ 32) by lia.
  rewrite (Z.mod_small (t1 / 2 ^ 32)) by lia.
  subst p2.
  eexists _, _, _. split; [reflexivity|].
  assert (Heq : (if t1 / 2 ^ 32 =? 0 then 0 else (0 + t1 / 2 ^ 32) mod 2 ^ 32) = t1 / 2 ^ 32).
  { destruct (Z.eqb_spec (t1 / 2 ^ 32) 0); [lia|]. rewrite Z.mod_small; lia. }
  rewrite Heq.
  repeat split; try lia; subst t1; subst t0; lia.
Qed.

(* Knuth's estimate: with h*B+l < M and M's top digit at least B/2, the
   estimate is at most 2 too large and never too small. *)
Lemma knuth_bounds M m0 m1 h l d q :
  M = m1 * 2 ^ 32 + m0 -> 0 <= m0 < 2 ^ 32 -> 2 ^ 31 <= m1 < 2 ^ 32 ->
  0 <= h -> 0 <= l < 2 ^ 32 -> 0 <= d < 2 ^ 32 ->
  h * 2 ^ 32 + l < M ->
  (h = m1 /\ q = 2 ^ 32 - 1 \/ h < m1 /\ q = (h * 2 ^ 32 + l) / m1) ->
  0 <= q < 2 ^ 32 /\
  - 2 * M <= (h * 2 ^ 32 + l) * 2 ^ 32 + d - q * M < M.
Proof.
  intros HM Hm0 Hm1 Hh Hl Hd HP Hq.
  change (2 ^ 31) with 2147483648 in *. change (2 ^ 32) with 4294967296 in *.
  destruct Hq as [[Hq1 Hq2]|[Hq1 Hq2]].
  - subst h q. split; [lia|]. split; nia.
  - set (P := h * 4294967296 + l) in *.
    assert (Hqr : P = m1 * q + P mod m1) by (subst q; apply Z.div_mod; lia).
    assert (Hr : 0 <= P mod m1 < m1) by (apply Z.mod_pos_bound; lia).
    set (r := P mod m1) in *.
    assert (Hq0 : 0 <= q) by (subst q; apply Z.div_pos; lia).
    assert (HqB : q < 4294967296) by nia.
    split; [lia|].
    replace (P * 4294967296 + d - q * M) with (r * 4294967296 + d - q * m0) by (subst M; rewrite Hqr; ring).
    split; nia.
Qed.

Lemma div_step_correct M m0 m1 h l d :
  M = m1 * 2 ^ 32 + m0 -> 0 <= m0 < 2 ^ 32 -> 2 ^ 31 <= m1 < 2 ^ 32 ->
  0 <= h -> 0 <= l < 2 ^ 32 -> 0 <= d < 2 ^ 32 ->
  h * 2 ^ 32 + l < M ->
  (h = m1 -> l + m1 < 2 ^ 32) ->
  exists q r1 r0, div_step M m0 m1 h l d = Some (q, r1, r0) /\
    0 <= q < 2 ^ 32 /\ 0 <= r1 < 2 ^ 32 /\ 0 <= r0 < 2 ^ 32 /\
    r1 * 2 ^ 32 + r0 < M /\
    (h * 2 ^ 32 + l) * 2 ^ 32 + d = q * M + (r1 * 2 ^ 32 + r0).
Proof.
  intros HM Hm0 Hm1 Hh Hl Hd HP Hno.
  unfold div_step. rewrite lor_shiftl_add by lia.
  assert (Hh2 : h <= m1) by nia.
  set (P := h * 2 ^ 32 + l) in *.
  assert (HPr : 0 <= P) by nia.
  set (qh := if h =? m1 then 2 ^ 32 - 1 else P / m1).
  pose proof (knuth_bounds M m0 m1 h l d qh HM Hm0 Hm1 Hh Hl Hd HP) as Hk.
  fold P in Hk. destruct Hk as [Hq Hk].
  { unfold qh. destruct (Z.eqb_spec h m1); [left|right]; split; lia. }
  assert (Hsel : (if h =? m1 then Some mask32 else if m1 =? 0 then None else Some (lo32 (P / m1))) = Some qh).
  { unfold qh in *. destruct (Z.eqb_spec h m1); [reflexivity|].
    destruct (Z.eqb_spec m1 0); [lia|]. rewrite lo32_eq, Z.mod_small by lia. reflexivity. }
  rewrite Hsel. cbn [bind]. unfold w64, Bs.
  rewrite lo32_eq, hi32_eq.
  assert (HR : 0 <= P - qh * m1 < 2 ^ 32).
  { unfold qh in *. destruct (Z.eqb_spec h m1) as [e|n].
    - specialize (Hno e). unfold P. subst h. nia.
    - pose proof (Z.div_mod P m1 ltac:(lia)). pose proof (Z.mod_pos_bound P m1 ltac:(lia)). nia. }
  rewrite (Z.mod_small (qh * m1)) by nia.
  rewrite (Z.mod_small (P - qh * m1)) by lia.
  rewrite shiftl_mul by lia.
  set (R := P - qh * m1) in *.
  rewrite (Z.mod_small (R * 2 ^ 32)) by lia.
  rewrite (Z.mod_small (R * 2 ^ 32 + d)) by lia.
  rewrite (Z.mod_small (m0 * qh)) by nia.
  assert (HN : P * 2 ^ 32 + d - qh * M = R * 2 ^ 32 + d - m0 * qh) by (subst R M; ring).
  set (rem := R * 2 ^ 32 + d) in *. set (diff := m0 * qh) in *.
  rewrite HN in Hk.
  set (e := if rem <? diff then if M <? diff - rem then 2 else 1 else 0).
  assert (He : 0 <= e <= 2) by (unfold e; destruct (rem <? diff), (M <? diff - rem); lia).
  assert (Hfin : 0 <= rem + e * M - diff < M).
  { unfold e. destruct (Z.ltb_spec rem diff); [destruct (Z.ltb_spec M (diff - rem))|]; lia. }
  assert (HM64 : M < 2 ^ 64) by lia.
  rewrite (Z.mod_small (rem + e * M - diff)) by lia.
  set (F := rem + e * M - diff) in *.
  assert (HqF : P * 2 ^ 32 + d = (qh - e) * M + F) by (subst F; lia).
  assert (Hqe : 0 <= qh - e < 2 ^ 32) by nia.
  rewrite (Z.mod_small (qh - e)) by lia.
  assert (HF1 : 0 <= F / 2 ^ 32 < 2 ^ 32) by lia.
  rewrite (Z.mod_small (F / 2 ^ 32)) by lia.
  exists (qh - e), (F / 2 ^ 32), (F mod 2 ^ 32).
  pose proof (Z.div_mod F (2 ^ 32) ltac:(lia)).
  repeat split; try lia.
Qed.

(* normalised divisor *)
Lemma nmod_range m : 0 < m < 2 ^ 64 -> 0 <= nshift m <= 63 /\ 2 ^ 63 <= nmod m < 2 ^ 64.
Proof.
  intros Hm. unfold nmod, nshift.
  pose proof (Z.log2_spec m ltac:(lia)) as Hl.
  assert (Z.log2 m <= 63) by (pose proof (Z.log2_lt_pow2 m 64); lia).
  pose proof (Z.log2_nonneg m).
  split; [lia|].
  assert (Hp : 2 ^ 63 = 2 ^ Z.log2 m * 2 ^ (63 - Z.log2 m)) by (rewrite <- Z.pow_add_r by lia; f_equal; lia).
  rewrite Z.pow_succ_r in Hl by lia.
  assert (0 < 2 ^ (63 - Z.log2 m)) by (apply Z.pow_pos_nonneg; lia).
  replace (2 ^ 64) with (2 * 2 ^ 63) by reflexivity. rewrite Hp. nia.
Qed.

Lemma muldivmod_quot a b m :
  0 < m < 2 ^ 64 -> 0 <= a < m -> 0 <= b < 2 ^ 64 ->
  safe_mod m \/ a * b <= m * (2 ^ 32 - 2) ->
  muldivmod a b m = Some (a * b / m, a * b mod m).
Proof.
  intros Hm Ha Hb Hsafe. unfold muldivmod.
  rewrite integer_log2_64_correct by lia. fold (nshift m).
  destruct (nmod_range m Hm) as [Hs HM].
  set (s := nshift m) in *.
  rewrite !shiftl_mul by lia.
  assert (HmM : m * 2 ^ s = nmod m) by reflexivity. rewrite HmM.
  unfold w64. rewrite (Z.mod_small (nmod m)) by lia.
  assert (Hs2 : 0 < 2 ^ s) by (apply Z.pow_pos_nonneg; lia).
  assert (HaM : 0 <= a * 2 ^ s < nmod m) by (rewrite <- HmM; nia).
  rewrite (Z.mod_small (a * 2 ^ s)) by lia.
  set (A := a * 2 ^ s) in *. set (M := nmod m) in *.
  rewrite !hi32_eq, !lo32_eq.
  rewrite (Z.mod_small (A / 2 ^ 32)), (Z.mod_small (b / 2 ^ 32)), (Z.mod_small (M / 2 ^ 32)) by lia.
  set (a0 := A mod 2 ^ 32). set (a1 := A / 2 ^ 32).
  set (b0 := b mod 2 ^ 32). set (b1 := b / 2 ^ 32).
  set (m0 := M mod 2 ^ 32). set (m1 := M / 2 ^ 32).
  assert (HA : A = a1 * 2 ^ 32 + a0) by (subst a0 a1; lia).
  assert (HB : b = b1 * 2 ^ 32 + b0) by (subst b0 b1; lia).
  assert (HMd : M = m1 * 2 ^ 32 + m0) by (subst m0 m1; lia).
  assert (Ha0 : 0 <= a0 < 2 ^ 32) by (subst a0; lia).
  assert (Ha1 : 0 <= a1 < 2 ^ 32) by (subst a1; lia).
  assert (Hb0 : 0 <= b0 < 2 ^ 32) by (subst b0; lia).
  assert (Hb1 : 0 <= b1 < 2 ^ 32) by (subst b1; lia).
  assert (Hm0 : 0 <= m0 < 2 ^ 32) by (subst m0; lia).
  assert (Hm1 : 2 ^ 31 <= m1 < 2 ^ 32) by (subst m1; lia).
  destruct (mul_row_correct a0 b0 b1 0 0 0) as (p0 & p1 & p2 & E1 & Hp0 & Hp1 & Hp2 & Hprod1); try lia.
  rewrite E1.
  destruct (mul_row_correct a1 b0 b1 p1 p2 0) as (p1' & p2' & p3 & E2 & Hp1' & Hp2' & Hp3 & Hprod2); try lia.
  rewrite E2.
  destruct (Z.eqb_spec M 0) as [|_]; [lia|].
  assert (Hprod : p0 + p1' * 2 ^ 32 + p2' * 2 ^ 64 + p3 * 2 ^ 96 = A * b).
  { change (2 ^ 96) with (2 ^ 32 * 2 ^ 64). change (2 ^ 64) with (2 ^ 32 * 2 ^ 32) in *.
    rewrite HA, HB.
    replace ((a1 * 2 ^ 32 + a0) * (b1 * 2 ^ 32 + b0))
      with (2 ^ 32 * (a1 * (b0 + b1 * 2 ^ 32)) + a0 * (b0 + b1 * 2 ^ 32)) by ring.
    lia. }
  clear Hprod1 Hprod2 E1 E2.
  assert (Hab : 0 <= A * b <= (M - 1) * (2 ^ 64 - 1)).
  { split; [apply Z.mul_nonneg_nonneg; lia|]. apply Z.mul_le_mono_nonneg; lia. }
  assert (Hr3 : p3 * 2 ^ 32 + p2' < M) by (clearbody M A; lia).
  assert (Hno3 : p3 = m1 -> p2' + m1 < 2 ^ 32).
  { intros e. destruct Hsafe as [Hsafe|Hsafe].
    - unfold safe_mod in Hsafe. fold M in Hsafe. fold m0 m1 in Hsafe. clearbody M A m0 m1. lia.
    - exfalso.
      assert (A * b <= M * (2 ^ 32 - 2)) by (
        unfold A; rewrite <- HmM; replace (a * 2 ^ s * b) with (a * b * 2 ^ s) by ring;
        replace (m * 2 ^ s * (2 ^ 32 - 2)) with (m * (2 ^ 32 - 2) * 2 ^ s) by ring;
        apply Z.mul_le_mono_nonneg_r; [lia|exact Hsafe]).
      clearbody M A m0 m1. lia. }
  destruct (div_step_correct M m0 m1 p3 p2' p1' HMd Hm0 Hm1 ltac:(lia) Hp2' Hp1' Hr3 Hno3)
    as (q1 & r1 & r0 & E3 & Hq1 & Hr1 & Hr0 & Hlt3 & Heq3).
  rewrite E3. cbn [bind].
  assert (Hno2 : r1 = m1 -> r0 + m1 < 2 ^ 32).
  { intros e. destruct Hsafe as [Hsafe|Hsafe].
    - unfold safe_mod in Hsafe. fold M in Hsafe. fold m0 m1 in Hsafe. clearbody M A m0 m1. lia.
    - exfalso.
      assert (A * b <= M * (2 ^ 32 - 2)) by (
        unfold A; rewrite <- HmM; replace (a * 2 ^ s * b) with (a * b * 2 ^ s) by ring;
        replace (m * 2 ^ s * (2 ^ 32 - 2)) with (m * (2 ^ 32 - 2) * 2 ^ s) by ring;
        apply Z.mul_le_mono_nonneg_r; [lia|exact Hsafe]).
      assert (q1 = 0) by (clearbody M A m0 m1; nia). subst q1.
      assert (r1 * 2 ^ 32 <= p3 * 2 ^ 64 + p2' * 2 ^ 32 + p1') by lia.
      clearbody M A m0 m1. lia. }
  destruct (div_step_correct M m0 m1 r1 r0 p0 HMd Hm0 Hm1 ltac:(lia) Hr0 Hp0 Hlt3 Hno2)
    as (q0 & s1 & s0 & E4 & Hq0 & Hs1 & Hs0 & Hlt4 & Heq4).
  rewrite E4. cbn [bind].
  rewrite !lor_shiftl_add by lia. rewrite shiftr_div by lia.
  assert (Hfin : A * b = (q1 * 2 ^ 32 + q0) * M + (s1 * 2 ^ 32 + s0)) by (clearbody M A; lia).
  set (Q := q1 * 2 ^ 32 + q0) in *. set (R := s1 * 2 ^ 32 + s0) in *.
  assert (HR : 0 <= R) by (subst R; lia).
  assert (Hdiv : a * b = m * Q + R / 2 ^ s).
  { assert (HRd : R = 2 ^ s * (a * b - m * Q)) by (unfold A in Hfin; rewrite <- HmM in Hfin; lia).
    rewrite HRd. rewrite (Z.mul_comm (2 ^ s)), Z.div_mul by lia. ring. }
  assert (HRm : 0 <= R / 2 ^ s < m).
  { split; [apply Z.div_pos; lia|]. apply Z.div_lt_upper_bound; [lia|]. lia. }
  f_equal. f_equal.
  - apply Z.div_unique with (R / 2 ^ s); [left; lia|lia].
  - apply Z.mod_unique with Q; [left; lia|lia].
Qed.

Lemma muldivmod_correct a b m :
  0 < m < 2 ^ 64 -> 0 <= a < m -> 0 <= b < 2 ^ 64 ->
  safe_mod m \/ b <= 2 ^ 32 - 2 ->
  muldivmod a b m = Some (a * b / m, a * b mod m).
Proof.
  intros Hm Ha Hb H. apply muldivmod_quot; try assumption. destruct H as [H|H]; [now left|right].
  apply Z.mul_le_mono_nonneg; lia.
Qed.

(* The converse: if the digit condition fails by at least one unit of the
   normalised divisor, (m-1) * 2^32 is reduced wrongly. *)
Lemma mulmod_unsafe m :
  2 ^ 32 <= m < 2 ^ 64 ->
  2 ^ 32 + 2 ^ nshift m <= nmod m / 2 ^ 32 + nmod m mod 2 ^ 32 ->
  mulmod (m - 1) (2 ^ 32) m <> Some ((m - 1) * 2 ^ 32 mod m).
Proof.
  intros Hm Hun.
  assert (Hm' : 0 < m < 2 ^ 64) by lia.
  destruct (nmod_range m Hm') as [Hs HM].
  assert (Hs31 : nshift m <= 31).
  { unfold nshift. assert (32 <= Z.log2 m) by (apply (proj1 (Z.log2_le_pow2 m 32 ltac:(lia))); lia). lia. }
  set (s := nshift m) in *.
  assert (HmM : m * 2 ^ s = nmod m) by reflexivity.
  assert (Hs2 : 0 < 2 ^ s) by (apply Z.pow_pos_nonneg; lia).
  assert (Hs3 : 2 ^ s <= 2 ^ 31) by (apply Z.pow_le_mono_r; lia).
  unfold mulmod, muldivmod.
  rewrite integer_log2_64_correct by lia. fold (nshift m). fold s.
  rewrite !shiftl_mul by lia. rewrite HmM.
  replace (w64 (nmod m)) with (nmod m) by (symmetry; apply Z.mod_small; lia).
  set (M := nmod m) in *.
  assert (HA : (m - 1) * 2 ^ s = M - 2 ^ s) by lia.
  rewrite HA.
  replace (w64 (M - 2 ^ s)) with (M - 2 ^ s) by (symmetry; apply Z.mod_small; lia).
  rewrite !hi32_eq, !lo32_eq.
  set (m0 := M mod 2 ^ 32) in *. set (m1 := M / 2 ^ 32) in *.
  assert (HMd : M = m1 * 2 ^ 32 + m0) by (subst m0 m1; lia).
  assert (Hm0 : 0 <= m0 < 2 ^ 32) by (subst m0; lia).
  assert (Hm1 : 2 ^ 31 <= m1 < 2 ^ 32) by (subst m1; lia).
  clearbody m0 m1.
  replace ((M - 2 ^ s) mod 2 ^ 32) with (m0 - 2 ^ s) by (apply Z.mod_unique with m1; [left; lia|lia]).
  replace ((M - 2 ^ s) / 2 ^ 32) with m1 by (apply Z.div_unique with (m0 - 2 ^ s); [left; lia|lia]).
  replace (m1 mod 2 ^ 32) with m1 by (symmetry; apply Z.mod_small; lia).
  change (2 ^ 32 mod 2 ^ 32) with 0. change ((2 ^ 32 / 2 ^ 32) mod 2 ^ 32) with 1.
  set (l := m0 - 2 ^ s) in *.
  assert (Hl : 0 <= l < 2 ^ 32) by lia.
  destruct (mul_row_correct l 0 1 0 0 0) as (p0 & p1 & p2 & E1 & Hp0 & Hp1 & Hp2 & Hpr1); try lia.
  rewrite E1.
  assert (p0 = 0 /\ p1 = l /\ p2 = 0) as (-> & -> & ->) by lia.
  destruct (mul_row_correct m1 0 1 l 0 0) as (p1' & p2' & p3 & E2 & Hp1' & Hp2' & Hp3 & Hpr2); try lia.
  rewrite E2.
  assert (p1' = l /\ p2' = m1 /\ p3 = 0) as (-> & -> & ->) by lia.
  destruct (Z.eqb_spec M 0) as [|_]; [lia|].
  destruct (div_step_correct M m0 m1 0 m1 l HMd Hm0 Hm1 ltac:(lia) ltac:(lia) Hl ltac:(lia) ltac:(lia))
    as (q1 & r1 & r0 & E3 & Hq1 & Hr1 & Hr0 & Hlt3 & Heq3).
  rewrite E3. cbn [bind].
  assert (q1 = 0) by nia. subst q1.
  assert (r1 = m1 /\ r0 = l) as [-> ->] by lia.
  clear E1 E2 E3 Hpr1 Hpr2.
  unfold div_step. rewrite Z.eqb_refl. cbn [bind].
  rewrite (lor_shiftl_add m1 l 32) by lia.
  change mask32 with (2 ^ 32 - 1). unfold w64.
  rewrite (Z.mod_small ((2 ^ 32 - 1) * m1)) by lia.
  replace (m1 * 2 ^ 32 + l - (2 ^ 32 - 1) * m1) with (m1 + l) by lia.
  rewrite (Z.mod_small (m1 + l)) by lia.
  rewrite !shiftl_mul by lia.
  replace ((m1 + l) * 2 ^ 32 mod 2 ^ 64) with ((m1 + l - 2 ^ 32) * 2 ^ 32)
    by (apply Z.mod_unique with 1; [left; lia|lia]).
  rewrite (Z.mod_small ((m1 + l - 2 ^ 32) * 2 ^ 32 + 0)) by lia.
  rewrite (Z.mod_small (m0 * (2 ^ 32 - 1))) by lia.
  set (rem := (m1 + l - 2 ^ 32) * 2 ^ 32 + 0).
  set (diff := m0 * (2 ^ 32 - 1)).
  set (e := if rem <? diff then if M <? diff - rem then 2 else 1 else 0).
  assert (Hrd : rem - diff = M - 2 ^ s * 2 ^ 32 - 2 ^ 64) by (subst rem diff; lia).
  assert (He : e = 1 \/ e = 2).
  { unfold e. destruct (Z.ltb_spec rem diff); [destruct (M <? diff - rem); lia|lia]. }
  set (F := (rem + e * M - diff) mod 2 ^ 64).
  assert (HF : F = (M - 2 ^ s * 2 ^ 32 + e * M) mod 2 ^ 64).
  { unfold F. replace (rem + e * M - diff) with (M - 2 ^ s * 2 ^ 32 + e * M + (-1) * 2 ^ 64) by lia.
    apply Z_mod_plus_full. }
  assert (HF2 : 0 <= F < 2 ^ 64) by (unfold F; apply Z.mod_pos_bound; lia).
  rewrite hi32_eq, lo32_eq.
  assert (Hr : Z.lor (F / 2 ^ 32 mod 2 ^ 32 * 2 ^ 32) (F mod 2 ^ 32) = F).
  { rewrite <- shiftl_mul by lia. rewrite lor_shiftl_add by lia. rewrite (Z.mod_small (F / 2 ^ 32)) by lia. lia. }
  cbn [snd]. rewrite Hr. rewrite shiftr_div by lia.
  assert (Hexp : (m - 1) * 2 ^ 32 mod m = m - 2 ^ 32).
  { symmetry. apply Z.mod_unique with (2 ^ 32 - 1); [left; lia|lia]. }
  rewrite Hexp. intros Hc. injection Hc as Hc.
  assert (Hfm : F = (m - 2 ^ 32) * 2 ^ s).
  { assert (Hdvd : exists k, F = k * 2 ^ s).
    { assert (H64 : 2 ^ 64 = 2 ^ (64 - s) * 2 ^ s) by (rewrite <- Z.pow_add_r by lia; f_equal; lia).
      exists ((m - 2 ^ 32 + e * m) mod 2 ^ (64 - s)).
      rewrite HF, H64.
      replace (M - 2 ^ s * 2 ^ 32 + e * M) with ((m - 2 ^ 32 + e * m) * 2 ^ s) by lia.
      rewrite Z.mul_mod_distr_r; [reflexivity| |lia].
      apply Z.pow_nonzero; lia. }
    destruct Hdvd as [k Hk]. rewrite Hk in Hc. rewrite Z.div_mul in Hc by lia. lia. }
  assert (Hq : exists k, M - 2 ^ s * 2 ^ 32 + e * M = 2 ^ 64 * k + F).
  { exists ((M - 2 ^ s * 2 ^ 32 + e * M) / 2 ^ 64). rewrite HF. apply Z.div_mod. lia. }
  destruct Hq as [k Hk].
  assert (e * M = 2 ^ 64 * k) by lia.
  destruct He as [-> | ->]; lia.
Qed.
