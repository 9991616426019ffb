(* gray_coded_qrng.hpp: the points are sums of direction numbers *)
From Verif Require Import Base NumProofs UIntProofs SeedProofs GenProofs Gen4Proofs QrngSpec QrngModel QrngProofs.
Ltac Zify.zify_post_hook ::= idtac.

(* ---- sums of direction numbers ---- *)
Lemma xsum_0 : forall d w, xsum d w 0 = 0.
Proof. intros d. induction w as [|w IH]; cbn [xsum]; [reflexivity|]. rewrite IH, Z.bits_0. reflexivity. Qed.

Lemma xsum_lxor : forall d w a b, xsum d w (Z.lxor a b) = Z.lxor (xsum d w a) (xsum d w b).
Proof.
  intros d. induction w as [|w IH]; intros a b; cbn [xsum]; [reflexivity|]. rewrite IH, Z.lxor_spec.
  apply Z.bits_inj'. intros i Hi. rewrite !Z.lxor_spec.
  destruct (Z.testbit a (Z.of_nat w)), (Z.testbit b (Z.of_nat w)); cbn [xorb]; rewrite ?Z.bits_0;
  destruct (Z.testbit (xsum d w a) i), (Z.testbit (xsum d w b) i), (Z.testbit (d (Z.of_nat w)) i); reflexivity.
Qed.

Lemma xsum_pow : forall d w r, 0 <= r -> xsum d w (2 ^ r) = if r <? Z.of_nat w then d r else 0.
Proof.
  intros d. induction w as [|w IH]; intros r Hr; cbn [xsum].
  - destruct (Z.ltb_spec r (Z.of_nat 0)); [lia|reflexivity].
  - rewrite IH by exact Hr. destruct (Z.eq_dec r (Z.of_nat w)) as [E|E].
    + rewrite E, Z.pow2_bits_true by lia. destruct (Z.ltb_spec (Z.of_nat w) (Z.of_nat w)); [lia|].
      destruct (Z.ltb_spec (Z.of_nat w) (Z.of_nat (S w))); [|lia]. reflexivity.
    + rewrite Z.pow2_bits_false by lia. rewrite Z.lxor_0_r.
      destruct (Z.ltb_spec r (Z.of_nat w)), (Z.ltb_spec r (Z.of_nat (S w))); try reflexivity; lia.
Qed.

Lemma xsum_ext : forall d e w n, (forall k, 0 <= k < Z.of_nat w -> d k = e k) -> xsum d w n = xsum e w n.
Proof.
  intros d e. induction w as [|w IH]; intros n H; cbn [xsum]; [reflexivity|].
  rewrite IH by (intros k Hk; apply H; lia). rewrite H by lia. reflexivity.
Qed.

(* take the least significant bit first *)
Lemma xsum_low : forall d w n, 0 <= n -> xsum d (S w) n = Z.lxor (if Z.odd n then d 0 else 0) (xsum (fun k => d (k + 1)) w (n / 2)).
Proof.
  intros d. induction w as [|w IH]; intros n Hn.
  - cbn [xsum]. change (Z.of_nat 0) with 0. rewrite Z.bit0_odd, Z.lxor_0_l, Z.lxor_0_r. reflexivity.
  - change (xsum d (S (S w)) n) with (Z.lxor (xsum d (S w) n) (if Z.testbit n (Z.of_nat (S w)) then d (Z.of_nat (S w)) else 0)).
    rewrite IH by exact Hn. cbn [xsum]. rewrite Z.lxor_assoc. f_equal. f_equal.
    rewrite Z.div2_bits by lia. replace (Z.of_nat (S w)) with (Z.of_nat w + 1) by lia. rewrite Z.add_1_r. reflexivity.
Qed.

(* ---- Gray code ---- *)
Lemma lxor_ones : forall w s, 0 <= w -> 0 <= s < 2 ^ w -> Z.lxor s (2 ^ w - 1) = 2 ^ w - 1 - s.
Proof.
  intros w s Hw Hs. assert (E : 2 ^ w - 1 = Z.ones w) by (rewrite Z.ones_equiv; lia). rewrite E.
  assert (L : Z.land s (Z.lxor s (Z.ones w)) = 0).
  { apply Z.bits_inj'. intros i Hi. rewrite Z.land_spec, Z.lxor_spec, Z.bits_0. destruct (Z.ltb_spec i w) as [H|H].
    - rewrite Z.ones_spec_low by lia. destruct (Z.testbit s i); reflexivity.
    - assert (B : Z.testbit s i = false).
      { destruct (Z.eq_dec s 0) as [->|N]; [apply Z.bits_0|]. apply Z.bits_above_log2; [lia|]. apply Z.lt_le_trans with w; [|lia]. apply Z.log2_lt_pow2; lia. }
      rewrite B. reflexivity. }
  pose proof (Z.add_nocarry_lxor _ _ L) as A. rewrite <- Z.lxor_assoc, Z.lxor_nilpotent, Z.lxor_0_l in A. lia.
Qed.

Lemma mod_pow_unique : forall x a b, 0 <= a -> 0 <= b -> x mod 2 ^ a = 0 -> x mod 2 ^ (a + 1) <> 0 -> x mod 2 ^ b = 0 -> x mod 2 ^ (b + 1) <> 0 -> a = b.
Proof.
  intros x a b Ha Hb A1 A2 B1 B2. destruct (Z.lt_trichotomy a b) as [H|[H|H]]; [|exact H|]; exfalso.
  - apply A2. apply mod_pow_le with b; [lia|exact B1].
  - apply B2. apply mod_pow_le with a; [lia|exact A1].
Qed.

Lemma ctz_ok : forall f x, 0 < x < 2 ^ Z.of_nat f -> 0 <= ctz f x /\ x mod 2 ^ ctz f x = 0 /\ x mod 2 ^ (ctz f x + 1) <> 0.
Proof.
  induction f as [|f IH]; intros x Hx; [change (2 ^ Z.of_nat 0) with 1 in Hx; lia|]. cbn [ctz].
  destruct (Z.odd x) eqn:O.
  - change (2 ^ 0) with 1. change (2 ^ (0 + 1)) with 2. split; [lia|]. split; [apply Z.mod_1_r|]. rewrite Zmod_odd, O. discriminate.
  - assert (Ev : x = 2 * (x / 2)) by (pose proof (Z.div_mod x 2 ltac:(lia)); rewrite Zmod_odd, O in *; lia).
    replace (Z.of_nat (S f)) with (Z.of_nat f + 1) in Hx by lia. rewrite Z.pow_add_r in Hx by lia. change (2 ^ 1) with 2 in Hx.
    destruct (IH (x / 2) ltac:(lia)) as (C1 & C2 & C3). set (c := ctz f (x / 2)) in *. split; [lia|].
    rewrite Ev. replace (1 + c) with (c + 1) by lia. pose proof (pos_pow c C1). pose proof (pos_pow (c + 1) ltac:(lia)).
    split.
    + rewrite Z.pow_add_r by lia. change (2 ^ 1) with 2. rewrite (Z.mul_comm (2 ^ c)), Z.mul_mod_distr_l by lia. lia.
    + rewrite (Z.pow_add_r 2 (c + 1)) by lia. change (2 ^ 1) with 2. rewrite (Z.mul_comm (2 ^ (c + 1))), Z.mul_mod_distr_l by lia. lia.
Qed.

Lemma gray_lxor : forall a b, gray (Z.lxor a b) = Z.lxor (gray a) (gray b).
Proof.
  intros a b. unfold gray. rewrite <- !Z.div2_div, !Z.div2_spec, Z.shiftr_lxor.
  apply Z.bits_inj'. intros i Hi. rewrite !Z.lxor_spec.
  destruct (Z.testbit a i), (Z.testbit b i), (Z.testbit (Z.shiftr a 1) i), (Z.testbit (Z.shiftr b 1) i); reflexivity.
Qed.

(* the bit that changes *)
Lemma gray_step : forall w f s, 1 <= w <= Z.of_nat f -> 0 <= s < 2 ^ w - 1 ->
  exists r, lsb (Z.of_nat f) (Z.lxor s (2 ^ w - 1)) = Some r /\ 0 <= r < w /\ gray (s + 1) = Z.lxor (gray s) (2 ^ r).
Proof.
  intros w f s Hw Hs. rewrite lxor_ones by lia. set (x := 2 ^ w - 1 - s). assert (Hx : 0 < x < 2 ^ w) by (unfold x; lia).
  unfold lsb. destruct (Z.eqb_spec x 0); [lia|]. rewrite Nat2Z.id. exists (ctz f x). split; [reflexivity|].
  assert (Hf : 2 ^ w <= 2 ^ Z.of_nat f) by (apply Z.pow_le_mono_r; lia).
  destruct (ctz_ok f x ltac:(lia)) as (C1 & C2 & C3). set (c := ctz f x) in *.
  assert (Hc : c < w).
  { apply (Z.pow_lt_mono_r_iff 2); [lia|lia|]. apply Z.mod_divide in C2; [|pose proof (pos_pow c C1); lia]. apply Z.divide_pos_le in C2; lia. }
  split; [lia|].
  destruct (lxor_pred (s + 1) ltac:(lia)) as (t & T1 & T2 & T3 & T4 & T5). replace (s + 1 - 1) with s in T5 by ring.
  assert (Ht : t < w) by (apply (Z.pow_lt_mono_r_iff 2); lia).
  assert (Ex : x = 2 ^ w - (s + 1)) by (unfold x; ring).
  assert (DV : forall u, 0 <= u <= w -> 2 ^ w mod 2 ^ u = 0).
  { intros u Hu. apply Z.mod_divide; [pose proof (pos_pow u ltac:(lia)); lia|]. replace w with (u + (w - u)) by lia. rewrite Z.pow_add_r by lia. apply Z.divide_factor_l. }
  assert (Ect : c = t).
  { apply (mod_pow_unique x c t); try assumption.
    - rewrite Ex, Zminus_mod, T2, DV by lia. apply Z.mod_0_l. pose proof (pos_pow t T1). lia.
    - intro E. apply T3. rewrite Ex, Zminus_mod, DV in E by lia. pose proof (pos_pow (t + 1) ltac:(lia)).
      pose proof (Z.mod_pos_bound (s + 1) (2 ^ (t + 1)) ltac:(lia)) as Bm.
      destruct (Z.eq_dec ((s + 1) mod 2 ^ (t + 1)) 0) as [|Nz]; [assumption|].
      rewrite Z.sub_0_l, Z.mod_opp_l_nz in E; rewrite ?Z.mod_mod in *; lia. }
  rewrite Ect. assert (E1 : s + 1 = Z.lxor s (Z.ones (t + 1))).
  { rewrite Z.ones_equiv, <- Z.sub_1_r. rewrite <- T5. rewrite <- Z.lxor_assoc, Z.lxor_nilpotent, Z.lxor_0_l. reflexivity. }
  rewrite E1, gray_lxor. f_equal. unfold gray. rewrite <- Z.div2_div, Z.div2_spec.
  apply Z.bits_inj'. intros i Hi. rewrite Z.lxor_spec, Z.shiftr_spec by lia.
  destruct (Z.lt_trichotomy i t) as [H|[H|H]].
  - rewrite !Z.ones_spec_low, Z.pow2_bits_false by lia. reflexivity.
  - subst i. rewrite Z.ones_spec_low, Z.ones_spec_high, Z.pow2_bits_true by lia. reflexivity.
  - rewrite !Z.ones_spec_high, Z.pow2_bits_false by lia. reflexivity.
Qed.

Lemma gray_bound : forall n w, 0 <= w -> 0 <= n < 2 ^ w -> 0 <= gray n < 2 ^ w.
Proof.
  intros n w Hw Hn. unfold gray. assert (H2 : 0 <= n / 2 <= n) by (split; [apply Z.div_pos; lia|apply Z.div_le_upper_bound; lia]).
  assert (G : 0 <= Z.lxor n (n / 2)) by (apply Z.lxor_nonneg; lia).
  split; [exact G|]. destruct (Z.eq_dec (Z.lxor n (n / 2)) 0) as [->|N]; [apply pos_pow; lia|].
  apply Z.log2_lt_pow2; [lia|]. pose proof (Z.log2_lxor n (n / 2) ltac:(lia) ltac:(lia)) as L.
  pose proof (Z.log2_le_mono (n / 2) n ltac:(lia)). assert (0 < n) by (destruct (Z.eq_dec n 0) as [->|]; [cbn in N; lia|lia]).
  assert (Z.log2 n < w) by (apply Z.log2_lt_pow2; lia). lia.
Qed.

Lemma testbit_ge : forall x k, 0 <= x -> 0 <= k -> Z.testbit x k = true -> 2 ^ k <= x.
Proof.
  intros x k Hx Hk B. destruct (Z.lt_ge_cases x (2 ^ k)) as [H|H]; [|exact H].
  destruct (Z.eq_dec x 0) as [->|N]; [rewrite Z.bits_0 in B; discriminate|].
  rewrite Z.bits_above_log2 in B; [discriminate|lia|]. apply Z.log2_lt_pow2; lia.
Qed.

Lemma gray_big : forall n w, 0 <= w -> 2 ^ w <= n -> 2 ^ w <= gray n.
Proof.
  intros n w Hw Hn. pose proof (pos_pow w Hw). apply Z.le_trans with (2 ^ Z.log2 n).
  - apply Z.pow_le_mono_r; [lia|]. apply Z.log2_le_pow2; lia.
  - assert (H2 : 0 <= n / 2) by (apply Z.div_pos; lia).
    apply testbit_ge; [unfold gray; apply Z.lxor_nonneg; lia|apply Z.log2_nonneg|].
    unfold gray. rewrite Z.lxor_spec, Z.bit_log2 by lia. rewrite <- Z.div2_div, Z.div2_spec, Z.shiftr_spec by apply Z.log2_nonneg.
    rewrite Z.bits_above_log2 by lia. reflexivity.
Qed.

(* ---- rows ---- *)
Lemma xor_row_ok : forall lat f off k a, (off + a + k <= length lat)%nat ->
  xor_row (map f (seq a k)) (skipn (off + a) lat) = Some (map (fun j => Z.lxor (f j) (nth (off + j) lat 0)) (seq a k)).
Proof.
  intros lat f off. induction k as [|k IH]; intros a H; [reflexivity|]. cbn [seq map xor_row].
  rewrite (skipn_cons lat (off + a) (nth (off + a) lat 0)) by (apply nth_error_nth'; lia). replace (S (off + a)) with (off + S a)%nat by lia. rewrite IH by lia. reflexivity.
Qed.

Definition ge (lat : list Z) (c q : Z) (f : nat -> Z) (D : nat) : geng := Qe c q lat (map f (seq 0 D)).

Lemma update_ok : forall lat c q f D w r, length lat = (w * D)%nat -> 0 <= r < Z.of_nat w ->
  update_quasi (ge lat c q f D) r = Some (ge lat c q (fun j => Z.lxor (f j) (direction lat D j r)) D).
Proof.
  intros lat c q f D w r HL Hr. unfold update_quasi, ge, q_dim. cbn [q_st q_lat q_curr q_seq]. rewrite map_length, seq_length.
  assert (Hm : (Z.to_nat r * D + D <= w * D)%nat) by (assert (S (Z.to_nat r) * D <= w * D)%nat by (apply Nat.mul_le_mono_r; lia); lia).
  replace (r * Z.of_nat D) with (Z.of_nat (Z.to_nat r * D)) by (rewrite Nat2Z.inj_mul, Z2Nat.id by lia; reflexivity).
  destruct (Z.ltb_spec (Z.of_nat (length lat)) (Z.of_nat (Z.to_nat r * D))); [lia|]. rewrite Nat2Z.id.
  replace (Z.to_nat r * D)%nat with (Z.to_nat r * D + 0)%nat at 1 by lia. rewrite xor_row_ok by lia. reflexivity.
Qed.

Lemma ge_ext : forall lat c q f g D, (forall j, f j = g j) -> ge lat c q f D = ge lat c q g D.
Proof. intros. unfold ge. f_equal. apply map_ext. assumption. Qed.

Lemma g_loop_ok : forall lat c q D w, length lat = (w * D)%nat -> forall fuel code r f, (r <= w)%nat -> 0 <= code < 2 ^ (Z.of_nat (w - r)) -> (w - r < fuel)%nat ->
  g_loop fuel code (Z.of_nat r) (ge lat c q f D) =
  Some (ge lat c q (fun j => Z.lxor (f j) (xsum (fun k => direction lat D j (k + Z.of_nat r)) (w - r) code)) D).
Proof.
  intros lat c q D w HL. induction fuel as [|fuel IH]; intros code r f Hr Hc HF; [lia|]. cbn [g_loop].
  destruct (Z.eqb_spec code 0) as [->|N].
  - f_equal. apply ge_ext. intros j. rewrite xsum_0, Z.lxor_0_r. reflexivity.
  - assert (Hrw : (r < w)%nat).
    { destruct (Nat.eq_dec r w) as [E|]; [|lia]. rewrite E, Nat.sub_diag in Hc. change (2 ^ Z.of_nat 0) with 1 in Hc. lia. }
    rewrite Z.shiftr_div_pow2 by lia. change (2 ^ 1) with 2.
    assert (EO : (Z.land code 1 =? 0) = negb (Z.odd code)).
    { change 1 with (Z.ones 1). rewrite Z.land_ones by lia. change (2 ^ 1) with 2. rewrite Zmod_odd. destruct (Z.odd code); reflexivity. }
    rewrite EO. replace (w - r)%nat with (S (w - S r)) in * by lia.
    assert (Hc2 : 0 <= code / 2 < 2 ^ Z.of_nat (w - S r)).
    { split; [apply Z.div_pos; lia|]. apply Z.div_lt_upper_bound; [lia|]. replace (Z.of_nat (S (w - S r))) with (1 + Z.of_nat (w - S r)) in Hc by lia.
      rewrite Z.pow_add_r in Hc by lia. change (2 ^ 1) with 2 in Hc. lia. }
    replace (Z.of_nat r + 1) with (Z.of_nat (S r)) by lia.
    assert (EX : forall j, xsum (fun k => direction lat D j (k + Z.of_nat r)) (S (w - S r)) code =
      Z.lxor (if Z.odd code then direction lat D j (Z.of_nat r) else 0) (xsum (fun k => direction lat D j (k + Z.of_nat (S r))) (w - S r) (code / 2))).
    { intros j. rewrite xsum_low by lia. rewrite Z.add_0_l. f_equal. apply xsum_ext. intros k Hk. f_equal. lia. }
    destruct (Z.odd code); cbn [negb].
    + rewrite (update_ok lat c q f D w) by (assumption || lia). cbn [bind]. rewrite IH by (assumption || lia). f_equal. apply ge_ext. intros j.
      rewrite EX, Z.lxor_assoc. reflexivity.
    + cbn [bind]. rewrite IH by (assumption || lia). f_equal. apply ge_ext. intros j. rewrite EX, Z.lxor_0_l. reflexivity.
Qed.

Definition gpt (lat : list Z) (D w : nat) (n : Z) : list Z * list Z := (lat, point lat D w (n + 1)).

Lemma gpt_at : forall lat D w n c, at_ (gpt lat D w) n c = ge lat c n (coord lat D w (n + 1)) D.
Proof. reflexivity. Qed.

Lemma set_zero_ok : forall lat c q f D, set_zero (ge lat c q f D) = ge lat c q (fun _ => 0) D.
Proof. intros. unfold set_zero, ge. cbn [q_curr q_seq q_lat q_st]. rewrite map_map. reflexivity. Qed.

Lemma gray_derived : forall (W w : nat) lat D, (1 <= w <= W)%nat -> (W <= 64)%nat -> (1 <= D)%nat -> Z.of_nat D < 2 ^ 63 ->
  length lat = (w * D)%nat ->
  derived_ok (Z.of_nat W) (gray_ops (Z.of_nat W) (Z.of_nat w)) (Z.of_nat D) (2 ^ Z.of_nat w - 2) (gpt lat D w).
Proof.
  intros W w lat D Hw HW HD HD2 HL.
  assert (Pw : 2 ^ 1 <= 2 ^ Z.of_nat w) by (apply Z.pow_le_mono_r; lia). change (2 ^ 1) with 2 in Pw.
  assert (PW : 2 ^ Z.of_nat w <= 2 ^ Z.of_nat W) by (apply Z.pow_le_mono_r; lia).
  unfold derived_ok. split; [lia|]. split; [lia|]. split; [lia|]. split; [|split; [|split; [|split]]].
  - intros n Hn. cbn [gpt snd]. unfold point. rewrite map_length, seq_length. reflexivity.
  - intros n c Hn H1. cbn [gray_ops d_comp]. unfold g_comp, g_max.
    destruct (gray_step (Z.of_nat w) W (n + 1) ltac:(lia) ltac:(lia)) as (r & E1 & E2 & E3). rewrite E1.
    assert (EB : (Z.of_nat w <? Z.of_nat W) && (Z.of_nat w <=? r) = false) by (destruct (Z.leb_spec (Z.of_nat w) r); [lia|apply andb_false_r]).
    rewrite EB. rewrite gpt_at. rewrite (update_ok lat c n _ D w) by (assumption || lia). f_equal. unfold ge. cbn [gpt fst snd]. f_equal. unfold point.
    apply map_ext. intros j. unfold coord. rewrite E3, xsum_lxor, xsum_pow by lia. destruct (Z.ltb_spec r (Z.of_nat w)); [reflexivity|lia].
  - intros c H. cbn [gray_ops d_comp]. unfold g_comp, g_max. replace (2 ^ Z.of_nat w - 2 + 1) with (2 ^ Z.of_nat w - 1) by ring.
    rewrite Z.lxor_nilpotent. reflexivity.
  - intros n m c Hn Hm. cbn [gray_ops d_seed]. unfold g_seed. change (q_seq (at_ (gpt lat D w) n c)) with n.
    destruct (Z.eqb_spec m n) as [->|N]; [reflexivity|].
    rewrite wrap_small by lia. destruct (Z.ltb_spec m (m + 1)); [|lia]. cbn [negb]. 
    assert (EG : Z.lxor (m + 1) (Z.shiftr (m + 1) 1) = gray (m + 1)) by (unfold gray; rewrite Z.shiftr_div_pow2 by lia; reflexivity).
    rewrite EG. destruct (gray_bound (m + 1) (Z.of_nat w) ltac:(lia) ltac:(lia)) as (G1 & G2).
    assert (EB : (Z.of_nat w <? Z.of_nat W) && (g_max (Z.of_nat w) <? gray (m + 1)) = false) by (unfold g_max; destruct (Z.ltb_spec (2 ^ Z.of_nat w - 1) (gray (m + 1))); [lia|apply andb_false_r]).
    rewrite EB. rewrite gpt_at, set_zero_ok. 
    pose proof (g_loop_ok lat c n D w HL (S (Z.to_nat (Z.of_nat W))) (gray (m + 1)) 0 (fun _ => 0) ltac:(lia)) as GL.
    rewrite Nat.sub_0_r in GL. change (Z.of_nat 0) with 0 in GL. rewrite GL by lia. unfold reset_seq. cbn [ge q_lat q_st]. f_equal.
    unfold at_. cbn [gpt fst snd]. f_equal. unfold point. apply map_ext. intros j. rewrite Z.lxor_0_l. unfold coord.
    apply xsum_ext. intros k Hk. f_equal. lia.
  - intros n m c Hn Hm. cbn [gray_ops d_seed]. unfold g_seed. change (q_seq (at_ (gpt lat D w) n c)) with n.
    destruct (Z.eqb_spec m n) as [->|N]; [lia|].
    destruct (Z.eq_dec (m + 1) (2 ^ Z.of_nat W)) as [E|E].
    + unfold wrap. rewrite E, Z.mod_same by lia. destruct (Z.ltb_spec m 0); [lia|reflexivity].
    + rewrite wrap_small by lia. destruct (Z.ltb_spec m (m + 1)); [|lia]. cbn [negb].
      assert (EG : Z.lxor (m + 1) (Z.shiftr (m + 1) 1) = gray (m + 1)) by (unfold gray; rewrite Z.shiftr_div_pow2 by lia; reflexivity).
      rewrite EG. pose proof (gray_big (m + 1) (Z.of_nat w) ltac:(lia) ltac:(lia)) as G.
      assert (EB : (Z.of_nat w <? Z.of_nat W) && (g_max (Z.of_nat w) <? gray (m + 1)) = true).
      { unfold g_max. destruct (Z.ltb_spec (Z.of_nat w) (Z.of_nat W)) as [Hx|Hx].
        - destruct (Z.ltb_spec (2 ^ Z.of_nat w - 1) (gray (m + 1))); [reflexivity|lia].
        - assert (Ew : Z.of_nat w = Z.of_nat W) by lia. rewrite Ew in *. lia. }
      rewrite EB. reflexivity.
Qed.

(* the constructor *)
Lemma q_new_ok : forall lattice lat D w, (1 <= w)%nat -> (1 <= D)%nat -> lattice (Z.of_nat D) = Some lat -> length lat = (w * D)%nat ->
  q_new lattice (Z.of_nat D) = Some (Ret (at_ (gpt lat D w) 0 0) tt).
Proof.
  intros lattice lat D w Hw HD HL HLen. unfold q_new. destruct (Z.eqb_spec (Z.of_nat D) 0); [lia|]. rewrite HL. cbn [bind]. f_equal.
  unfold g_seed0. rewrite Nat2Z.id.
  assert (ER : set_zero (Qe 0 0 lat (repeat 0 D)) = ge lat 0 0 (fun _ => 0) D).
  { unfold set_zero, ge. cbn [q_curr q_seq q_lat q_st]. f_equal. clear. generalize 0%nat. induction D as [|D IH]; intros a; [reflexivity|]. cbn [repeat map seq]. f_equal. apply IH. }
  rewrite ER, (update_ok lat 0 0 _ D w) by (assumption || lia). unfold reset_seq. cbn [ge q_lat q_st]. rewrite gpt_at. f_equal. unfold ge. f_equal. apply map_ext. intros j. rewrite Z.lxor_0_l.
  unfold coord. change (gray (0 + 1)) with (2 ^ 0). rewrite xsum_pow by lia. destruct (Z.ltb_spec 0 (Z.of_nat w)); [reflexivity|lia].
Qed.
