(* Proofs about splitmix64. *)
From Verif Require Import Base BitsProofs WinProofs SplitModel SplitSpec.
Ltac Zify.zify_post_hook ::= idtac.

Lemma M64_pos : 0 < M64. Proof. reflexivity. Qed.

Lemma xsr_bit : forall k z i, 0 <= k -> 0 <= i -> Z.testbit (xsr k z) i = xorb (Z.testbit z i) (Z.testbit z (i + k)).
Proof.
  intros k z i Hk Hi. unfold xsr. rewrite Z.lxor_spec. f_equal.
  rewrite <- Z.shiftr_div_pow2 by lia. apply Z.shiftr_spec. lia.
Qed.

Lemma xsr_range : forall k z, 0 <= k -> word64 z -> word64 (xsr k z).
Proof.
  intros k z Hk Hz. unfold word64, xsr, M64 in *. apply lxor_range; [lia|exact Hz|].
  apply div2_range; [lia|exact Hk|exact Hz].
Qed.

(* inverse of z ^ (z >> k) for 22 <= k *)
Definition unxsr (k y : Z) : Z := Z.lxor y (Z.lxor (y / 2 ^ k) (y / 2 ^ (2 * k))).

Lemma unxsr_bit : forall k z i, 0 <= k -> 0 <= i ->
  Z.testbit (unxsr k z) i = xorb (Z.testbit z i) (xorb (Z.testbit z (i + k)) (Z.testbit z (i + 2 * k))).
Proof.
  intros k z i Hk Hi. unfold unxsr. rewrite !Z.lxor_spec. rewrite <- !Z.shiftr_div_pow2 by lia.
  rewrite !Z.shiftr_spec by lia. reflexivity.
Qed.

Lemma unxsr_range : forall k z, 0 <= k -> word64 z -> word64 (unxsr k z).
Proof.
  intros k z Hk Hz. unfold word64, unxsr, M64 in *. apply lxor_range; [lia|exact Hz|].
  apply lxor_range; [lia| |]; apply div2_range; try lia; exact Hz.
Qed.

Lemma unxsr_xsr : forall k z, 22 <= k -> word64 z -> unxsr k (xsr k z) = z.
Proof.
  intros k z Hk Hz. unfold word64, M64 in Hz. apply Z.bits_inj'. intros i Hi.
  rewrite unxsr_bit, !xsr_bit by lia.
  replace (i + 2 * k) with (i + k + k) by lia. rewrite (bits_above z 64 (i + k + k + k)) by lia.
  destruct (Z.testbit z i), (Z.testbit z (i + k)), (Z.testbit z (i + k + k)); reflexivity.
Qed.

Lemma xsr_unxsr : forall k z, 22 <= k -> word64 z -> xsr k (unxsr k z) = z.
Proof.
  intros k z Hk Hz. unfold word64, M64 in Hz. apply Z.bits_inj'. intros i Hi.
  rewrite xsr_bit, !unxsr_bit by lia.
  replace (i + 2 * k) with (i + k + k) by lia. replace (i + k + 2 * k) with (i + k + k + k) by lia.
  rewrite (bits_above z 64 (i + k + k + k)) by lia.
  destruct (Z.testbit z i), (Z.testbit z (i + k)), (Z.testbit z (i + k + k)); reflexivity.
Qed.

(* multiplication by a unit *)
Lemma unit_mul : forall a b z, (a * b) mod M64 = 1 -> word64 z -> (z * a mod M64) * b mod M64 = z.
Proof.
  intros a b z E Hz. rewrite Zmult_mod_idemp_l, <- Z.mul_assoc, Zmult_mod, E, Z.mul_1_r, Zmod_mod.
  apply Z.mod_small. exact Hz.
Qed.

Definition sm_unmix (y : Z) : Z :=
  unxsr 30 (unxsr 27 (unxsr 31 y * 3573116690164977347 mod M64) * 10871156337175269513 mod M64).

Lemma modM : forall z, word64 (z mod M64).
Proof. intro z. apply Z.mod_pos_bound. reflexivity. Qed.

Lemma mix_range : forall z, word64 z -> word64 (sm_mix z).
Proof. intros z Hz. unfold sm_mix. apply xsr_range; [lia|]. apply modM. Qed.

Lemma unmix_mix : forall z, word64 z -> sm_unmix (sm_mix z) = z.
Proof.
  intros z Hz. unfold sm_unmix, sm_mix.
  rewrite (unxsr_xsr 31) by (try lia; apply modM).
  rewrite (unit_mul _ 3573116690164977347) by (first [reflexivity | apply xsr_range; [lia|apply modM]]).
  rewrite (unxsr_xsr 27) by (try lia; apply modM).
  rewrite (unit_mul _ 10871156337175269513) by (first [reflexivity | apply xsr_range; [lia|exact Hz]]).
  apply unxsr_xsr; [lia|exact Hz].
Qed.

Lemma mix_unmix : forall y, word64 y -> sm_mix (sm_unmix y) = y.
Proof.
  intros y Hy. unfold sm_unmix, sm_mix.
  rewrite (xsr_unxsr 30) by (try lia; apply modM).
  rewrite (unit_mul 10871156337175269513) by (first [reflexivity | apply unxsr_range; [lia|apply modM]]).
  rewrite (xsr_unxsr 27) by (try lia; apply modM).
  rewrite (unit_mul 3573116690164977347) by (first [reflexivity | apply unxsr_range; [lia|exact Hy]]).
  apply xsr_unxsr; [lia|exact Hy].
Qed.

Lemma unmix_range : forall y, word64 (sm_unmix y).
Proof. intro y. unfold sm_unmix. apply unxsr_range; [lia|]. apply modM. Qed.

(* ---- steps ---- *)
Lemma next_mix : forall s, sm_next s = (sm_mix (sm_counter s 1), sm_counter s 1).
Proof.
  intro s. unfold sm_next, sm_mix, sm_counter, xsr, u64wrap, wrap. fold M64.
  rewrite !Z.shiftr_div_pow2 by lia. rewrite Z.mul_1_l. reflexivity.
Qed.

Lemma counter_add : forall s a b, sm_counter (sm_counter s a) b = sm_counter s (a + b).
Proof.
  intros s a b. unfold sm_counter. rewrite Zplus_mod_idemp_l. f_equal. ring.
Qed.

Lemma state_n : forall n s, word64 s -> iter n (fun x => snd (sm_next x)) s = sm_counter s (Z.of_nat n).
Proof.
  induction n as [|n IH]; intros s Hs.
  - cbn [iter]. unfold sm_counter. change (Z.of_nat 0) with 0. rewrite Z.mul_0_l, Z.add_0_r.
    symmetry. apply Z.mod_small. exact Hs.
  - cbn [iter]. rewrite IH; rewrite next_mix; cbn [snd].
    + rewrite counter_add. f_equal. lia.
    + apply modM.
Qed.

Lemma out_n : forall s n, word64 s -> sm_out s n = sm_mix (sm_counter s (Z.of_nat n + 1)).
Proof.
  intros s n Hs. unfold sm_out. rewrite state_n by exact Hs. rewrite next_mix. cbn [fst]. rewrite counter_add. reflexivity.
Qed.

Lemma out_range : forall s n, word64 s -> sm_min <= sm_out s n <= sm_max.
Proof.
  intros s n Hs. rewrite out_n by exact Hs. pose proof (mix_range (sm_counter s (Z.of_nat n + 1)) (modM _)) as H.
  unfold word64, M64 in H. unfold sm_min, sm_max. lia.
Qed.

Definition Ginv := 17428512612931826493.

Lemma counter_solve : forall s t n, word64 s -> word64 t -> 0 <= n < M64 ->
  (sm_counter s (n + 1) = t <-> n = ((t - s) * Ginv - 1) mod M64).
Proof.
  intros s t n Hs Ht Hn. unfold sm_counter. set (G := 0x9E3779B97F4A7C15).
  assert (HG: (G * Ginv) mod M64 = 1) by reflexivity.
  assert (HG': G * Ginv = 1 + M64 * (G * Ginv / M64)) by (rewrite (Z.div_mod (G * Ginv) M64) at 1 by discriminate; rewrite HG; ring).
  set (q := G * Ginv / M64) in *. split.
  - intro E. assert (Et: t = s + (n + 1) * G - M64 * ((s + (n + 1) * G) / M64)).
    { rewrite <- E at 1. rewrite Z.mod_eq by discriminate. reflexivity. }
    set (k := (s + (n + 1) * G) / M64) in *.
    symmetry. replace ((t - s) * Ginv - 1) with (n + ((n + 1) * q - k * Ginv) * M64).
    + rewrite Z_mod_plus_full. apply Z.mod_small. exact Hn.
    + rewrite Et. transitivity ((n + 1) * (G * Ginv) - M64 * k * Ginv - 1); [rewrite HG'; ring|ring].
  - intro E.
    assert (En: n = (t - s) * Ginv - 1 - M64 * (((t - s) * Ginv - 1) / M64)).
    { rewrite E at 1. rewrite Z.mod_eq by discriminate. reflexivity. }
    set (k := ((t - s) * Ginv - 1) / M64) in *.
    replace (s + (n + 1) * G) with (t + ((t - s) * q - k * G) * M64).
    + rewrite Z_mod_plus_full. apply Z.mod_small. exact Ht.
    + rewrite En. transitivity (s + (t - s) * (G * Ginv) - M64 * k * G); [rewrite HG'; ring|ring].
Qed.

Lemma period_thm : forall s v, word64 s -> word64 v ->
  exists n, Z.of_nat n < M64 /\ sm_out s n = v /\ forall m, Z.of_nat m < M64 -> sm_out s m = v -> m = n.
Proof.
  intros s v Hs Hv. pose proof (unmix_range v) as Hu.
  set (k := ((sm_unmix v - s) * Ginv - 1) mod M64). assert (Hk: word64 k) by apply modM.
  assert (Ek: Z.of_nat (Z.to_nat k) = k) by (apply Z2Nat.id; apply Hk).
  exists (Z.to_nat k). rewrite Ek. split; [apply Hk|]. split.
  - rewrite out_n by exact Hs. rewrite Ek. rewrite (proj2 (counter_solve s (sm_unmix v) k Hs Hu Hk) eq_refl).
    apply mix_unmix. exact Hv.
  - intros m Hm E. rewrite out_n in E by exact Hs. apply Nat2Z.inj. rewrite Ek.
    apply (counter_solve s (sm_unmix v) (Z.of_nat m) Hs Hu); [lia|].
    rewrite <- E. symmetry. apply unmix_mix. apply modM.
Qed.

Lemma period_exact : forall s n, word64 s -> sm_out s (n + Z.to_nat M64) = sm_out s n.
Proof.
  intros s n Hs. rewrite !out_n by exact Hs. f_equal. unfold sm_counter.
  rewrite Nat2Z.inj_add, Z2Nat.id by discriminate.
  replace (s + (Z.of_nat n + M64 + 1) * 11400714819323198485) with (s + (Z.of_nat n + 1) * 11400714819323198485 + 11400714819323198485 * M64) by ring.
  apply Z_mod_plus_full.
Qed.

Lemma discard_thm : forall z s n, sm_out (sm_discard z s) n = sm_out s (z + n).
Proof. intros z s n. unfold sm_out, sm_discard. rewrite iter_plus. reflexivity. Qed.

Lemma generate_thm : forall n s, sm_generate n s = (map (sm_out s) (seq 0 n), sm_discard n s).
Proof.
  induction n as [|n IH]; intro s; [reflexivity|]. cbn [sm_generate seq map].
  assert (E: sm_generate (S n) s = (sm_out s 0 :: map (sm_out (snd (sm_next s))) (seq 0 n), sm_discard n (snd (sm_next s)))).
  { cbn [sm_generate]. unfold sm_out at 1. cbn [iter]. specialize (IH (snd (sm_next s))).
    destruct (sm_next s) as [x s1]. cbn [snd fst] in *. rewrite IH. reflexivity. }
  cbn [sm_generate] in E. rewrite E. rewrite <- seq_shift, map_map. reflexivity.
Qed.

Lemma seed_thm : forall v, word64 v ->
  word64 (sm_seed v) /\ (v <> 0 -> sm_seed v = v) /\ sm_seed 0 = 0xA164B43C8F634A13.
Proof.
  intros v Hv. unfold sm_seed. split; [|split; [|reflexivity]].
  - destruct (Z.eqb_spec v 0); [unfold word64, M64; lia|exact Hv].
  - intro H. destruct (Z.eqb_spec v 0); [contradiction|reflexivity].
Qed.

Lemma concat_thm : forall a b, 0 <= a < 2 ^ 32 -> 0 <= b < 2 ^ 32 -> sm_concatenate a b = a * 2 ^ 32 + b.
Proof.
  intros a b Ha Hb. unfold sm_concatenate, u64wrap, wrap. rewrite Z.shiftl_mul_pow2 by lia.
  rewrite Z.mod_small by (change (2 ^ 64) with (2 ^ 32 * 2 ^ 32); lia).
  assert (E: Z.land (a * 2 ^ 32) b = 0).
  { apply Z.bits_inj'. intros i Hi. rewrite Z.land_spec, Z.testbit_0_l.
    destruct (Z.lt_ge_cases i 32) as [L|L].
    - rewrite Z.mul_pow2_bits_low by lia. reflexivity.
    - rewrite (bits_above b 32) by lia. apply andb_false_r. }
  rewrite <- Z.lxor_lor by exact E. symmetry. apply Z.add_nocarry_lxor. exact E.
Qed.

(* ---- text ---- *)
Lemma dec_value_app : forall a b, dec_value (a ++ b) = dec_value a * 10 ^ Z.of_nat (length b) + dec_value b.
Proof.
  induction a as [|d a IH]; intro b; [reflexivity|]. cbn [app dec_value]. rewrite IH, app_length, Nat2Z.inj_add, Z.pow_add_r by lia. ring.
Qed.

Lemma fold_dec : forall l a, fold_left (fun a c => a * 10 + (c - 48)) l a =
  a * 10 ^ Z.of_nat (length l) + dec_value (map (fun c => c - 48) l).
Proof.
  induction l as [|c l IH]; intro a; [cbn; lia|].
  cbn [fold_left length map dec_value]. rewrite IH, Nat2Z.inj_succ, Z.pow_succ_r, map_length by lia. ring.
Qed.

Lemma collect_digits : forall l, map (fun c => c - 48) (sm_collect l) = dec_digits l.
Proof.
  induction l as [|c l IH]; [reflexivity|]. unfold dec_digits in *. cbn [sm_collect filter].
  destruct (is_space c) eqn:ES.
  - assert (ED: ((48 <=? c) && (c <=? 57)) = false).
    { apply andb_false_iff. unfold is_space in ES. apply orb_true_iff in ES. rewrite andb_true_iff, !Z.leb_le, Z.eqb_eq in ES.
      left. apply Z.leb_gt. lia. }
    rewrite ED. exact IH.
  - unfold is_digit. destruct ((48 <=? c) && (c <=? 57)); [cbn [map]; f_equal; exact IH|exact IH].
Qed.

Lemma read_value : forall l, sm_read (Cstr l false) = (Z.min (2 ^ 64 - 1) (dec_value (dec_digits l)), Cstr [] true).
Proof.
  intro l. unfold sm_read, strtoull. cbn [cfail chars]. rewrite fold_dec, collect_digits. reflexivity.
Qed.

Lemma dec_digits_app : forall a b, dec_digits (a ++ b) = dec_digits a ++ dec_digits b.
Proof. intros. unfold dec_digits. rewrite filter_app, map_app. reflexivity. Qed.

Lemma digit_char : forall d, 0 <= d < 10 -> dec_digits [48 + d] = [d].
Proof.
  intros d Hd. unfold dec_digits. cbn [filter].
  destruct (Z.leb_spec 48 (48 + d)); [|lia]. destruct (Z.leb_spec (48 + d) 57); [|lia]. cbn [andb map]. f_equal. lia.
Qed.

Lemma print_value : forall f n, 0 <= n < 10 ^ Z.of_nat f -> dec_value (dec_digits (dec_print f n)) = n.
Proof.
  induction f as [|f IH]; intros n Hn.
  - change (10 ^ Z.of_nat 0) with 1 in Hn. cbn. lia.
  - cbn [dec_print]. rewrite Nat2Z.inj_succ, Z.pow_succ_r in Hn by lia.
    destruct (Z.ltb_spec n 10) as [L|L].
    + rewrite digit_char by lia. cbn. lia.
    + rewrite dec_digits_app, digit_char by (apply Z.mod_pos_bound; lia).
      rewrite dec_value_app, IH.
      * cbn [length dec_value]. change (10 ^ Z.of_nat 1) with 10. change (10 ^ Z.of_nat 0) with 1.
        rewrite (Z.div_mod n 10) at 3 by lia. ring.
      * split; [apply Z.div_pos; lia|]. apply Z.div_lt_upper_bound; lia.
Qed.

Lemma write_value : forall s, word64 s -> dec_value (dec_digits (sm_write s)) = s.
Proof.
  intros s Hs. apply print_value. unfold word64, M64 in Hs. split; [lia|].
  apply Z.lt_trans with (2 ^ 64); [lia|reflexivity].
Qed.

Lemma dec_value_nonneg : forall l, 0 <= dec_value (dec_digits l) /\ Forall (fun d => 0 <= d < 10) (dec_digits l).
Proof.
  induction l as [|c l [IH1 IH2]]; [split; [cbn; lia|constructor]|].
  unfold dec_digits in *. cbn [filter]. destruct ((48 <=? c) && (c <=? 57)) eqn:E; [|split; assumption].
  apply andb_true_iff in E. rewrite !Z.leb_le in E. cbn [map dec_value]. split.
  - apply Z.add_nonneg_nonneg; [|exact IH1]. apply Z.mul_nonneg_nonneg; [lia|]. apply Z.pow_nonneg. lia.
  - constructor; [lia|exact IH2].
Qed.

Lemma text_thm : forall s t, word64 s ->
  sm_read (Cstr (sm_write s ++ t) false) =
  (Z.min (2 ^ 64 - 1) (s * 10 ^ Z.of_nat (length (dec_digits t)) + dec_value (dec_digits t)), Cstr [] true).
Proof.
  intros s t Hs. rewrite read_value, dec_digits_app, dec_value_app, write_value by exact Hs. reflexivity.
Qed.

Lemma text_restored : forall s t, word64 s -> dec_digits t = [] ->
  exists i, sm_read (Cstr (sm_write s ++ t) false) = (s, i) /\ sm_eq (fst (sm_read (Cstr (sm_write s ++ t) false))) s = true.
Proof.
  intros s t Hs Ht. rewrite text_thm by exact Hs. rewrite Ht. cbn [length dec_value].
  change (10 ^ Z.of_nat 0) with 1. rewrite Z.mul_1_r, Z.add_0_r.
  unfold word64, M64 in Hs. rewrite Z.min_r by lia. eexists. split; [reflexivity|]. unfold sm_eq. cbn [fst]. apply Z.eqb_refl.
Qed.

Lemma text_iff : forall s t, word64 s ->
  (fst (sm_read (Cstr (sm_write s ++ t) false)) = s <->
   dec_digits t = [] \/ s = 2 ^ 64 - 1 \/ (s = 0 /\ dec_value (dec_digits t) = 0)).
Proof.
  intros s t Hs. rewrite text_thm by exact Hs. cbn [fst]. unfold word64, M64 in Hs.
  pose proof (dec_value_nonneg t) as [Hv _]. set (v := dec_value (dec_digits t)) in *.
  destruct (dec_digits t) as [|d r] eqn:ED.
  - split; [left; reflexivity|]. intros _. assert (v = 0) by reflexivity. rewrite H.
    cbn [length]. change (10 ^ Z.of_nat 0) with 1. lia.
  - set (P := 10 ^ Z.of_nat (length (d :: r))).
    assert (HP: 10 <= P).
    { unfold P. cbn [length]. rewrite Nat2Z.inj_succ, Z.pow_succ_r by lia.
      assert (0 < 10 ^ Z.of_nat (length r)) by (apply Z.pow_pos_nonneg; lia). lia. }
    assert (HM: s * 10 <= s * P) by (apply Z.mul_le_mono_nonneg_l; lia).
    split.
    + intro E. right. destruct (Z.le_gt_cases (2 ^ 64 - 1) (s * P + v)) as [L|L]; [left; lia|right].
      rewrite Z.min_r in E by lia. assert (s = 0) by lia. split; [exact H|]. rewrite H, Z.mul_0_l in E. lia.
    + intros [H|[H|[H1 H2]]]; [discriminate|rewrite Z.min_l; lia|].
      rewrite H1, H2, Z.mul_0_l. lia.
Qed.

Lemma text_failed : forall l, sm_read (Cstr l true) = (0, Cstr l true).
Proof. reflexivity. Qed.
