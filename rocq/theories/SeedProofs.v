From Verif Require Import Base ArithSpec ArithModel ArithProofs ConstModProofs LcgModel Lcg2Proofs RingModel SeedSpec SeedModel.
Ltac Zify.zify_post_hook ::= idtac.

Definition width_ok (t : ity) : Prop := bits t = 32 \/ bits t = 64.

Lemma width_wf : forall t, width_ok t -> wf_ity t.
Proof. intros t [H|H]; unfold wf_ity; lia. Qed.

Lemma le_value_app : forall a b, le_value (a ++ b) = le_value a + 2 ^ (32 * Z.of_nat (length a)) * le_value b.
Proof.
  induction a as [|e a IH]; intros b.
  - cbn [app le_value length]. change (2 ^ (32 * Z.of_nat 0)) with 1. ring.
  - cbn [app le_value length]. rewrite IH.
    replace (32 * Z.of_nat (S (length a))) with (32 + 32 * Z.of_nat (length a)) by lia.
    rewrite Z.pow_add_r by lia. ring.
Qed.

Lemma le_value_range : forall l, Forall word l -> 0 <= le_value l < 2 ^ (32 * Z.of_nat (length l)).
Proof.
  induction 1 as [|e l He _ IH]; [cbn; lia|].
  cbn [le_value length]. unfold word in He.
  replace (32 * Z.of_nat (S (length l))) with (32 + 32 * Z.of_nat (length l)) by lia.
  rewrite Z.pow_add_r by lia. nia.
Qed.

(* multiplication by 2^32 of a 32-bit digit is exact for every modulus *)
Lemma mulmod_32 : forall m e, 2 ^ 32 < m < 2 ^ 64 -> 0 <= e < 2 ^ 32 -> mulmod (2 ^ 32) e m = Some (2 ^ 32 * e mod m).
Proof.
  intros m e Hm He. unfold mulmod.
  destruct (Z.eq_dec m (2 ^ 32 + 1)) as [->|Hne].
  - destruct (Z.eq_dec e (2 ^ 32 - 1)) as [->|Hne'].
    + vm_compute. reflexivity.
    + rewrite muldivmod_correct by (try (left; reflexivity); lia). reflexivity.
  - rewrite muldivmod_quot; [reflexivity|lia|lia|lia|].
    right. apply Z.le_trans with (2 ^ 32 * (2 ^ 32 - 1)); [apply Z.mul_le_mono_nonneg_l; lia|].
    apply Z.le_trans with ((2 ^ 32 + 2) * (2 ^ 32 - 2)); [discriminate|]. apply Z.mul_le_mono_nonneg_r; lia.
Qed.

Lemma mult_add_32 : forall t m e s, wf_ity t -> bits t = 64 -> cm_wf t m -> 2 ^ 32 < cmod t m ->
  0 <= e < 2 ^ 32 -> 0 <= s < cmod t m ->
  cm_mult_add t m (2 ^ 32) e s = Some ((2 ^ 32 * e + s) mod cmod t m).
Proof.
  intros t m e s Hw Hb H HM He Hs.
  destruct (cm_pow2 t m) eqn:Hp.
  { unfold cm_mult_add. rewrite Hp. rewrite cm_mask_spec by assumption.
    rewrite !(to_uns_residue t m) by (try assumption; lia). reflexivity. }
  destruct (cm_pow2_false t m H Hp) as [Hm HMm]. rewrite HMm in *.
  assert (Hmx : imax t < 2 ^ 64). { destruct (imax_bounds t Hw) as [[_ B] _]. rewrite Hb in B. exact B. }
  assert (Hmx' : 2 ^ 31 - 1 <= imax t) by (destruct (imax_bounds t Hw); lia).
  destruct (Z.le_gt_cases (2 ^ 32 * m) (imax t)) as [Hsm|Hbig].
  { pose proof (cm_mult_add_spec_gen t m (2 ^ 32) e s H) as G. rewrite HMm in G. apply G; [|lia|lia|lia].
    right. left. exact Hsm. }
  destruct (sgn t && (m mod 2 ^ 32 <? m / 2 ^ 32)) eqn:Hsch.
  { apply andb_true_iff in Hsch. destruct Hsch as [S1 S2]. apply Z.ltb_lt in S2.
    pose proof (cm_mult_add_spec_gen t m (2 ^ 32) e s H) as G. rewrite HMm in G. apply G; [|lia|lia|lia].
    right. right. split; assumption. }
  unfold cm_mult_add. rewrite Hp. change (2 ^ 32 =? 0) with false. cbv iota.
  unfold subT. rewrite norm_ok0 by (try assumption; lia). cbn [bind].
  rewrite divT_ok by (try assumption; lia). cbn [bind].
  destruct (Z.leb_spec m ((imax t - s) / 2 ^ 32)) as [Hle|_].
  { exfalso. pose proof (Z.mul_div_le (imax t - s) (2 ^ 32) ltac:(lia)). nia. }
  unfold cm_mult. rewrite Hp. change (2 ^ 32 =? 0) with false. change (2 ^ 32 =? 1) with false. cbv iota.
  rewrite divT_ok by (try assumption; lia). cbn [bind].
  destruct (Z.leb_spec m (imax t / 2 ^ 32)) as [Hle|_].
  { exfalso. pose proof (Z.mul_div_le (imax t) (2 ^ 32) ltac:(lia)). nia. }
  rewrite remT_ok, divT_ok by (try assumption; lia). cbn [bind]. rewrite Hsch.
  unfold cm_mult_general. destruct (Z.eqb_spec m 0); [lia|].
  assert (W : forall z, 0 <= z <= imax t -> w64 z = z) by (intros; unfold w64; apply Z.mod_small; lia).
  rewrite (W m), (W e), (W (2 ^ 32)) by lia.
  destruct (Z.leb_spec m ((2 ^ 64 - 1) / m)) as [Hle|_].
  { exfalso. pose proof (Z.mul_div_le (2 ^ 64 - 1) m ltac:(lia)). nia. }
  rewrite (mulmod_32 m e) by lia. cbn [bind].
  pose proof (Z.mod_pos_bound (2 ^ 32 * e) m ltac:(lia)) as B.
  rewrite cast_ok0 by (try assumption; lia).
  pose proof (cm_add_spec t m (2 ^ 32 * e mod m) s H) as G. rewrite HMm in G. rewrite G by lia.
  rewrite Zplus_mod_idemp_l. reflexivity.
Qed.

Lemma cmod_le_width : forall t m, cm_wf t m -> cmod t m <= 2 ^ bits t.
Proof.
  intros t m [Hw H]. destruct (imax_bounds t Hw) as [B _]. unfold cmod.
  destruct (Z.eqb_spec m 0); [lia|]. lia.
Qed.

Lemma one_step_ok : forall t m j e s, width_ok t -> cm_wf t m -> 1 < cmod t m -> 0 <= j ->
  2 ^ (32 * j) < cmod t m -> word e -> e <= imax t -> 0 <= s < cmod t m ->
  one_step t m j e s = Some ((2 ^ (32 * j) * e + s) mod cmod t m).
Proof.
  intros t m j e s Hwd H HM Hj Hjm He Hemax Hs. pose proof (width_wf t Hwd) as Hw.
  pose proof (cmod_le_width t m H) as HMb. unfold word in He.
  unfold one_step. rewrite cast_ok0 by (try assumption; lia).
  rewrite cm_apply_spec by (try assumption; lia). cbn [bind].
  assert (Hjb : 32 * j < bits t).
  { apply (Z.pow_lt_mono_r_iff 2); [lia|unfold wf_ity in Hw; lia|lia]. }
  destruct (Z.leb_spec (bits t) (32 * j)); [lia|].
  rewrite Z.shiftl_1_l.
  pose proof (cmod_le t m H) as Hcm.
  assert (0 < 2 ^ (32 * j)) by (apply Z.pow_pos_nonneg; lia).
  rewrite cast_ok0 by (try assumption; lia).
  pose proof (Z.mod_pos_bound e (cmod t m) ltac:(lia)) as Bd.
  assert (Ej : j = 0 \/ (j = 1 /\ bits t = 64)) by (destruct Hwd; lia).
  destruct Ej as [-> | [-> Hb]].
  - change (2 ^ (32 * 0)) with 1.
    rewrite cm_mult_add_spec_gen; try assumption; try lia.
    + f_equal. rewrite !Z.mul_1_l. rewrite Zplus_mod_idemp_l. reflexivity.
    + destruct (Z.eq_dec m 0) as [->|Hm0]; [left; left; reflexivity|]. right. left.
      destruct H as [_ [[? _]|?]]; lia.
  - change (32 * 1) with 32 in *. rewrite (Z.mod_small e) by lia.
    apply mult_add_32; try assumption.
Qed.

Lemma get_one_loop_ok : forall t m, width_ok t -> cm_wf t m -> 1 < cmod t m ->
  forall cnt j s l, (cnt <= length l)%nat ->
  (cnt = 0%nat \/ 2 ^ (32 * (Z.of_nat j + Z.of_nat cnt - 1)) < cmod t m) ->
  Forall (fun e => word e /\ e <= imax t) (firstn cnt l) -> 0 <= s < cmod t m ->
  get_one_loop t m cnt (Z.of_nat j) s l =
    Some (Some ((s + 2 ^ (32 * Z.of_nat j) * le_value (firstn cnt l)) mod cmod t m), skipn cnt l).
Proof.
  intros t m Hwd H HM. induction cnt as [|c IH]; intros j s l Hl Hj HF Hs.
  - cbn [get_one_loop firstn skipn le_value]. rewrite Z.mul_0_r, Z.add_0_r, Z.mod_small by lia. reflexivity.
  - destruct l as [|e l]; [cbn in Hl; lia|]. cbn [get_one_loop].
    cbn [firstn] in HF. inversion HF as [|? ? [He1 He2] HF']; subst.
    destruct Hj as [Hj|Hj]; [discriminate|].
    assert (Hjj : 2 ^ (32 * Z.of_nat j) < cmod t m).
    { apply Z.le_lt_trans with (2 := Hj). apply Z.pow_le_mono_r; lia. }
    rewrite one_step_ok by (try assumption; lia). cbn [bind].
    replace (Z.of_nat j + 1) with (Z.of_nat (S j)) by lia.
    rewrite IH; [|cbn in Hl; lia| |assumption|apply Z.mod_pos_bound; lia].
    + cbn [skipn firstn le_value]. f_equal. f_equal. f_equal.
      rewrite Zplus_mod_idemp_l. f_equal.
      replace (32 * Z.of_nat (S j)) with (32 * Z.of_nat j + 32) by lia.
      rewrite Z.pow_add_r by lia. ring.
    + destruct (Nat.eq_dec c 0); [left; assumption|right].
      replace (Z.of_nat (S j) + Z.of_nat c - 1) with (Z.of_nat j + Z.of_nat (S c) - 1) by lia. exact Hj.
Qed.

Lemma get_one_loop_short : forall t m, width_ok t -> cm_wf t m -> 1 < cmod t m ->
  forall cnt j s l, (length l < cnt)%nat ->
  2 ^ (32 * (Z.of_nat j + Z.of_nat cnt - 1)) < cmod t m ->
  Forall (fun e => word e /\ e <= imax t) l -> 0 <= s < cmod t m ->
  get_one_loop t m cnt (Z.of_nat j) s l = Some (None, []).
Proof.
  intros t m Hwd H HM. induction cnt as [|c IH]; intros j s l Hl Hj HF Hs; [lia|].
  destruct l as [|e l]; [reflexivity|]. cbn [get_one_loop].
  inversion HF as [|? ? [He1 He2] HF']; subst. cbn in Hl.
  assert (Hjj : 2 ^ (32 * Z.of_nat j) < cmod t m).
  { apply Z.le_lt_trans with (2 := Hj). apply Z.pow_le_mono_r; lia. }
  rewrite one_step_ok by (try assumption; lia). cbn [bind].
  replace (Z.of_nat j + 1) with (Z.of_nat (S j)) by lia.
  apply IH; [lia| |assumption|apply Z.mod_pos_bound; lia].
  replace (Z.of_nat (S j) + Z.of_nat c - 1) with (Z.of_nat j + Z.of_nat (S c) - 1) by lia. exact Hj.
Qed.

Lemma one_k_ok : forall t m, width_ok t -> cm_wf t m -> 1 < cmod t m ->
  0 <= one_k t m /\ words_for (cmod t m) (Z.to_nat (one_k t m)) /\ one_k t m + 3 <= one_log t m / 32 + 4.
Proof.
  intros t m Hwd H HM. pose proof (width_wf t Hwd) as Hw.
  destruct (Z.eq_dec m 0) as [->|Hm0].
  - destruct H as [_ [[_ Hsg]|H]]; [|lia]. unfold one_k, one_log, cmod, digits.
    rewrite Hsg. cbn [Z.eqb]. rewrite Z.land_0_r. cbn [Z.eqb].
    unfold words_for. destruct Hwd as [-> | ->]; vm_compute; repeat split; discriminate || auto.
  - destruct H as [_ [[? _]|Hm]]; [lia|].
    assert (HMm : cmod t m = m) by (unfold cmod; destruct (Z.eqb_spec m 0); [lia|reflexivity]).
    rewrite HMm in *.
    assert (EL : one_log t m = Z.log2 m) by (unfold one_log; destruct (Z.eqb_spec m 0); [lia|reflexivity]).
    pose proof (Z.log2_spec m ltac:(lia)) as [L1 L2].
    assert (L0 : 1 <= Z.log2 m) by (apply Z.log2_le_pow2; lia).
    unfold one_k. rewrite EL. rewrite Z.shiftl_mul_pow2 by lia.
    replace (2 * 2 ^ (Z.log2 m - 1)) with (2 ^ Z.log2 m)
      by (rewrite <- Z.pow_succ_r by lia; f_equal; lia).
    assert (0 < 2 ^ Z.log2 m) by (apply Z.pow_pos_nonneg; lia).
    rewrite cast_ok0 by (try assumption; lia).
    rewrite Z.land_comm, <- Z.ldiff_land.
    rewrite <- Z.add_1_r in L2.
    set (g := Z.log2 m) in *. clearbody g.
    assert (Hk : exists k, (g + (if Z.ldiff m (2 ^ g) =? 0 then 31 else 32)) / 32 = k /\
      1 <= k /\ 2 ^ (32 * (k - 1)) < m <= 2 ^ (32 * k) /\ k <= g / 32 + 1).
    { eexists. split; [reflexivity|].
      destruct (Z.eqb_spec (Z.ldiff m (2 ^ g)) 0) as [E|E].
      - assert (m = 2 ^ g) by (apply Z.ldiff_le in E; lia). subst m.
        set (k := (g + 31) / 32).
        assert (Bk : 32 * k <= g + 31 < 32 * k + 32).
        { pose proof (Z.mul_div_le (g + 31) 32 ltac:(lia)).
          pose proof (Z.mul_succ_div_gt (g + 31) 32 ltac:(lia)). unfold k. lia. }
        clearbody k. split; [lia|]. split; [split|].
        + apply Z.pow_lt_mono_r; lia.
        + apply Z.pow_le_mono_r; lia.
        + assert (k - 1 <= g / 32) by (apply Z.div_le_lower_bound; lia). lia.
      - assert (m <> 2 ^ g) by (intros ->; apply E; apply Z.ldiff_diag).
        set (k := (g + 32) / 32).
        assert (Bk : 32 * k <= g + 32 < 32 * k + 32).
        { pose proof (Z.mul_div_le (g + 32) 32 ltac:(lia)).
          pose proof (Z.mul_succ_div_gt (g + 32) 32 ltac:(lia)). unfold k. lia. }
        clearbody k. split; [lia|]. split; [split|].
        + apply Z.le_lt_trans with (2 ^ g); [apply Z.pow_le_mono_r; lia|lia].
        + apply Z.le_trans with (2 ^ (g + 1)); [lia|]. apply Z.pow_le_mono_r; lia.
        + assert (k - 1 <= g / 32) by (apply Z.div_le_lower_bound; lia). lia. }
    destruct Hk as (k & -> & K1 & K2 & K3). split; [lia|]. split; [|lia].
    unfold words_for. rewrite Z2Nat.id by lia. split; [lia|exact K2].
Qed.

Theorem get_one_int_ok : forall t m l, width_ok t -> cm_wf t m -> 1 < cmod t m ->
  Forall (fun e => word e /\ e <= imax t) l ->
  exists k, words_for (cmod t m) k /\
  ((k <= length l)%nat -> get_one_int t m l = Some (Some (le_value (firstn k l) mod cmod t m), skipn k l)) /\
  ((length l < k)%nat -> get_one_int t m l = Some (None, [])).
Proof.
  intros t m l Hwd H HM HF. destruct (one_k_ok t m Hwd H HM) as (K0 & K1 & _).
  exists (Z.to_nat (one_k t m)). split; [exact K1|]. unfold get_one_int.
  destruct K1 as [K1 [K2 K3]].
  split; intros Hl.
  - change 0 with (Z.of_nat 0) at 1.
    rewrite (get_one_loop_ok t m Hwd H HM).
    + change (2 ^ (32 * Z.of_nat 0)) with 1. rewrite Z.mul_1_l, Z.add_0_l. reflexivity.
    + exact Hl.
    + right. rewrite Z.add_0_l. exact K2.
    + apply Forall_forall. intros e He. rewrite Forall_forall in HF. apply HF.
      rewrite <- (firstn_skipn (Z.to_nat (one_k t m)) l). apply in_or_app. now left.
    + lia.
  - apply (get_one_loop_short t m Hwd H HM _ 0%nat 0 l); [exact Hl| |exact HF|lia].
    change (Z.of_nat 0) with 0. rewrite Z.add_0_l. exact K2.
Qed.

(* seed sequences *)
Lemma skipn_cons : forall (l : list Z) i e, nth_error l i = Some e -> skipn i l = e :: skipn (S i) l.
Proof.
  induction l as [|a l IH]; intros i e E; destruct i; try discriminate.
  - cbn in E. inversion E; subst. reflexivity.
  - cbn in E. change (skipn (S i) (a :: l)) with (skipn i l). rewrite (IH _ _ E). reflexivity.
Qed.

Lemma seed_one_loop_ok : forall t m array, width_ok t -> cm_wf t m -> 1 < cmod t m ->
  Forall (fun e => word e /\ e <= imax t) array ->
  forall cnt j s, (j + cnt + 3 <= length array)%nat ->
  (cnt = 0%nat \/ 2 ^ (32 * (Z.of_nat j + Z.of_nat cnt - 1)) < cmod t m) -> 0 <= s < cmod t m ->
  seed_one_loop t m array cnt j s =
    Some ((s + 2 ^ (32 * Z.of_nat j) * le_value (firstn cnt (skipn (j + 3) array))) mod cmod t m).
Proof.
  intros t m array Hwd H HM HF. induction cnt as [|c IH]; intros j s Hl Hj Hs.
  - cbn [seed_one_loop firstn le_value]. rewrite Z.mul_0_r, Z.add_0_r, Z.mod_small by lia. reflexivity.
  - cbn [seed_one_loop]. unfold get.
    destruct (nth_error array (j + 3)) as [e|] eqn:E; [|apply nth_error_None in E; lia].
    assert (He : word e /\ e <= imax t).
    { rewrite Forall_forall in HF. apply HF. eapply nth_error_In. exact E. }
    destruct Hj as [Hj|Hj]; [discriminate|].
    assert (Hjj : 2 ^ (32 * Z.of_nat j) < cmod t m).
    { apply Z.le_lt_trans with (2 := Hj). apply Z.pow_le_mono_r; lia. }
    cbn [bind]. rewrite one_step_ok by (try assumption; try apply He; lia). cbn [bind].
    rewrite IH; [|lia| |apply Z.mod_pos_bound; lia].
    + f_equal.
      assert (Es : skipn (j + 3) array = e :: skipn (S j + 3) array).
      { apply skipn_cons. exact E. }
      rewrite Es. cbn [firstn le_value]. rewrite Zplus_mod_idemp_l. f_equal.
      replace (32 * Z.of_nat (S j)) with (32 * Z.of_nat j + 32) by lia.
      rewrite Z.pow_add_r by lia. ring.
    + destruct (Nat.eq_dec c 0); [left; assumption|right].
      replace (Z.of_nat (S j) + Z.of_nat c - 1) with (Z.of_nat j + Z.of_nat (S c) - 1) by lia. exact Hj.
Qed.

Theorem seed_one_int_ok : forall t m gen, width_ok t -> cm_wf t m -> 1 < cmod t m ->
  (forall n, length (gen n) = n /\ Forall (fun e => word e /\ e <= imax t) (gen n)) ->
  exists k, words_for (cmod t m) k /\
    seed_one_int t m gen = Some (le_value (firstn k (skipn 3 (gen (k + 3)%nat))) mod cmod t m).
Proof.
  intros t m gen Hwd H HM Hg. destruct (one_k_ok t m Hwd H HM) as (K0 & K1 & K4).
  exists (Z.to_nat (one_k t m)). split; [exact K1|]. unfold seed_one_int.
  destruct (Z.ltb_spec (one_log t m / 32 + 4) (one_k t m + 3)); [lia|].
  replace (Z.to_nat (one_k t m + 3)) with (Z.to_nat (one_k t m) + 3)%nat by lia.
  destruct K1 as [K1 [K2 K3]]. destruct (Hg (Z.to_nat (one_k t m) + 3)%nat) as [G1 G2].
  rewrite (seed_one_loop_ok t m _ Hwd H HM G2).
  - change (2 ^ (32 * Z.of_nat 0)) with 1. rewrite Z.mul_1_l, Z.add_0_l. reflexivity.
  - rewrite G1. lia.
  - right. rewrite Z.add_0_l. exact K2.
  - lia.
Qed.

(* arrays *)
Lemma skipn_skipn : forall (A : Type) a b (l : list A), skipn a (skipn b l) = skipn (a + b) l.
Proof.
  intros A a b. induction b as [|b IH]; intros l; [now rewrite Nat.add_0_r|].
  rewrite Nat.add_succ_r. destruct l as [|x l]; [now rewrite !skipn_nil|]. cbn [skipn]. apply IH.
Qed.

Lemma fill_word_ok : forall W w, 0 <= w <= W ->
  forall cnt k val l, (cnt <= length l)%nat -> 0 <= k ->
  exists v, fill_word W cnt k val l = (Some v, skipn cnt l) /\
    v mod 2 ^ w = (val + 2 ^ (32 * k) * le_value (firstn cnt l)) mod 2 ^ w.
Proof.
  intros W w Hw. induction cnt as [|c IH]; intros k val l Hl Hk.
  - exists val. split; [reflexivity|]. cbn [firstn le_value]. now rewrite Z.mul_0_r, Z.add_0_r.
  - destruct l as [|e l]; [cbn in Hl; lia|]. cbn [fill_word].
    destruct (IH (k + 1) (wrap W (val + wrap W (Z.shiftl (wrap W e) (32 * k)))) l) as (v & E & Ev);
      [cbn in Hl; lia|lia|].
    exists v. split; [exact E|]. rewrite Ev. cbn [firstn le_value].
    assert (Hpw : 0 < 2 ^ w) by (apply Z.pow_pos_nonneg; lia).
    assert (HW : 2 ^ W = 2 ^ w * 2 ^ (W - w)) by (rewrite <- Z.pow_add_r by lia; f_equal; lia).
    assert (HWw : 0 < 2 ^ (W - w)) by (apply Z.pow_pos_nonneg; lia).
    assert (M1 : forall z, wrap W z mod 2 ^ w = z mod 2 ^ w).
    { intros z. unfold wrap. rewrite HW, Z.rem_mul_r by lia.
      rewrite (Z.mul_comm (2 ^ w)), Z.mod_add by lia. apply Zmod_mod. }
    rewrite <- Zplus_mod_idemp_l, M1, Zplus_mod_idemp_l.
    replace (32 * (k + 1)) with (32 * k + 32) by lia. rewrite Z.pow_add_r by lia.
    rewrite Z.shiftl_mul_pow2 by lia.
    set (P := 2 ^ (32 * k)). set (V := le_value (firstn c l)).
    replace (val + wrap W (wrap W e * P) + P * 2 ^ 32 * V)
      with (wrap W (wrap W e * P) + (val + P * 2 ^ 32 * V)) by ring.
    rewrite <- Zplus_mod_idemp_l, M1, <- Zmult_mod_idemp_l, M1, Zmult_mod_idemp_l, Zplus_mod_idemp_l.
    f_equal. ring.
Qed.

Lemma fill_word_short : forall W cnt k val l, (length l < cnt)%nat -> fill_word W cnt k val l = (None, []).
Proof.
  induction cnt as [|c IH]; intros k val l Hl; [lia|]. destruct l as [|e l]; [reflexivity|].
  cbn [fill_word]. apply IH. cbn in Hl. lia.
Qed.

Definition wn (w : Z) : nat := Z.to_nat (wpw w).

Lemma fill_array_ok : forall W w, 0 <= w <= W ->
  forall x l, (wn w * length x <= length l)%nat ->
  fill_array_int W w x l = (chunks (wn w) w (length x) l, Some (skipn (wn w * length x) l)).
Proof.
  intros W w Hw. induction x as [|old x IH]; intros l Hl.
  - cbn [fill_array_int length chunks]. rewrite Nat.mul_0_r. reflexivity.
  - cbn [fill_array_int length chunks]. cbn [length] in Hl. fold (wn w).
    destruct (fill_word_ok W w Hw (wn w) 0 0 l) as (v & E & Ev); [lia|lia|].
    rewrite E. rewrite IH by (rewrite skipn_length; lia).
    rewrite skipn_skipn. replace (wn w * length x + wn w)%nat with (wn w * S (length x))%nat by lia.
    replace (2 ^ w - 1) with (Z.ones w) by (rewrite Z.ones_equiv; lia).
    rewrite Z.land_ones by lia. rewrite Ev. change (2 ^ (32 * 0)) with 1.
    rewrite Z.mul_1_l, Z.add_0_l. reflexivity.
Qed.

Lemma fill_array_short : forall W w, 0 < w <= W ->
  forall x l, (length l < wn w * length x)%nat ->
  fill_array_int W w x l =
    (chunks (wn w) w (length l / wn w) l ++ skipn (length l / wn w) x, None).
Proof.
  intros W w Hw.
  assert (Hc : (1 <= wn w)%nat).
  { unfold wn, wpw. assert (1 <= (w + 31) / 32) by (apply Z.div_le_lower_bound; lia). lia. }
  induction x as [|old x IH]; intros l Hl; [cbn in Hl; lia|].
  cbn [fill_array_int]. fold (wn w). cbn [length] in Hl.
  destruct (Nat.le_gt_cases (wn w) (length l)) as [Hge|Hlt].
  - destruct (fill_word_ok W w ltac:(lia) (wn w) 0 0 l Hge ltac:(lia)) as (v & E & Ev).
    rewrite E. rewrite IH by (rewrite skipn_length; lia). rewrite skipn_length.
    assert (D : (length l / wn w = S ((length l - wn w) / wn w))%nat).
    { replace (length l) with ((length l - wn w) + 1 * wn w)%nat at 1 by lia.
      rewrite Nat.div_add by lia. lia. }
    rewrite D. cbn [chunks app skipn].
    replace (2 ^ w - 1) with (Z.ones w) by (rewrite Z.ones_equiv; lia).
    rewrite Z.land_ones by lia. rewrite Ev. change (2 ^ (32 * 0)) with 1.
    rewrite Z.mul_1_l, Z.add_0_l. reflexivity.
  - rewrite fill_word_short by lia. rewrite Nat.div_small by lia. reflexivity.
Qed.

Lemma chunks_range : forall c w n l, 0 <= w -> length (chunks c w n l) = n /\
  (forall v, In v (chunks c w n l) -> 0 <= v < 2 ^ w).
Proof.
  intros c w n. induction n as [|n IH]; intros l Hw; [split; [reflexivity|intros v []]|].
  destruct (IH (skipn c l) Hw) as [I1 I2]. cbn [chunks length]. split; [lia|].
  intros v [<-|H]; [apply Z.mod_pos_bound; apply Z.pow_pos_nonneg; lia|exact (I2 v H)].
Qed.

(* seed_array_int *)
Lemma seed_word_ok : forall W w storage base, 0 <= w <= W ->
  forall cnt k val, (base + k + cnt <= length storage)%nat ->
  exists v, seed_word W storage base cnt k val = Some v /\
    v mod 2 ^ w = (val + 2 ^ (32 * Z.of_nat k) * le_value (firstn cnt (skipn (base + k) storage))) mod 2 ^ w.
Proof.
  intros W w storage base Hw. induction cnt as [|c IH]; intros k val Hl.
  - exists val. split; [reflexivity|]. cbn [firstn le_value]. now rewrite Z.mul_0_r, Z.add_0_r.
  - cbn [seed_word]. unfold get.
    destruct (nth_error storage (base + k)) as [e|] eqn:E; [|apply nth_error_None in E; lia]. cbn [bind].
    rewrite (skipn_cons _ _ _ E). cbn [firstn le_value].
    destruct (IH (S k) (wrap W (val + wrap W (Z.shiftl (wrap W e) (32 * Z.of_nat k))))) as (v & E' & Ev); [lia|].
    exists v. split; [exact E'|]. rewrite Ev.
    replace (base + S k)%nat with (S (base + k)) by lia.
    assert (Hpw : 0 < 2 ^ w) by (apply Z.pow_pos_nonneg; lia).
    assert (HW : 2 ^ W = 2 ^ w * 2 ^ (W - w)) by (rewrite <- Z.pow_add_r by lia; f_equal; lia).
    assert (HWw : 0 < 2 ^ (W - w)) by (apply Z.pow_pos_nonneg; lia).
    assert (M1 : forall z, wrap W z mod 2 ^ w = z mod 2 ^ w).
    { intros z. unfold wrap. rewrite HW, Z.rem_mul_r by lia.
      rewrite (Z.mul_comm (2 ^ w)), Z.mod_add by lia. apply Zmod_mod. }
    rewrite <- Zplus_mod_idemp_l, M1, Zplus_mod_idemp_l.
    replace (32 * Z.of_nat (S k)) with (32 * Z.of_nat k + 32) by lia. rewrite Z.pow_add_r by lia.
    rewrite Z.shiftl_mul_pow2 by lia.
    set (P := 2 ^ (32 * Z.of_nat k)). set (V := le_value (firstn c (skipn (S (base + k)) storage))).
    replace (val + wrap W (wrap W e * P) + P * 2 ^ 32 * V)
      with (wrap W (wrap W e * P) + (val + P * 2 ^ 32 * V)) by ring.
    rewrite <- Zplus_mod_idemp_l, M1, <- Zmult_mod_idemp_l, M1, Zmult_mod_idemp_l, Zplus_mod_idemp_l.
    f_equal. ring.
Qed.

Lemma seed_words_ok : forall W w storage, 0 <= w <= W ->
  forall cnt j, (wn w * (j + cnt) <= length storage)%nat ->
  seed_words_loop W w storage cnt j = Some (chunks (wn w) w cnt (skipn (wn w * j) storage)).
Proof.
  intros W w storage Hw. induction cnt as [|c IH]; intros j Hl; [reflexivity|].
  cbn [seed_words_loop chunks]. fold (wn w).
  destruct (seed_word_ok W w storage (wn w * j) Hw (wn w) 0 0) as (v & E & Ev); [nia|].
  rewrite E. cbn [bind]. rewrite IH by nia. cbn [bind].
  rewrite skipn_skipn. replace (wn w * S j)%nat with (wn w + wn w * j)%nat by lia.
  replace (2 ^ w - 1) with (Z.ones w) by (rewrite Z.ones_equiv; lia).
  rewrite Z.land_ones by lia. rewrite Ev. change (2 ^ (32 * Z.of_nat 0)) with 1.
  rewrite Z.mul_1_l, Z.add_0_l, Nat.add_0_r. reflexivity.
Qed.

Lemma seed_array_int_ok : forall W w n gen, 0 <= w <= W -> length (gen (wn w * n)%nat) = (wn w * n)%nat ->
  seed_array_int W w n gen = Some (chunks (wn w) w n (gen (wn w * n)%nat)).
Proof.
  intros W w n gen Hw Hg. unfold seed_array_int. fold (wn w). rewrite seed_words_ok; [|assumption|rewrite Hg; lia].
  rewrite Nat.mul_0_r. reflexivity.
Qed.

(* real-valued arrays *)
Lemma fill_word_real_ok : forall cnt k val l, (cnt <= length l)%nat -> 0 <= k ->
  fill_word_real cnt (2 ^ (32 * k)) val l =
    (Some (val + 2 ^ (32 * k) * le_value (firstn cnt l), 2 ^ (32 * (k + Z.of_nat cnt))), skipn cnt l).
Proof.
  induction cnt as [|c IH]; intros k val l Hl Hk.
  - cbn [fill_word_real firstn le_value skipn]. rewrite Z.mul_0_r, !Z.add_0_r. reflexivity.
  - destruct l as [|e l]; [cbn in Hl; lia|]. cbn [fill_word_real firstn le_value skipn].
    replace (2 ^ (32 * k) * 2 ^ 32) with (2 ^ (32 * (k + 1))).
    + rewrite IH by (cbn in Hl; lia). f_equal. f_equal. f_equal.
      * replace (32 * (k + 1)) with (32 * k + 32) by lia. rewrite Z.pow_add_r by lia. ring.
      * f_equal. lia.
    + replace (32 * (k + 1)) with (32 * k + 32) by lia. rewrite Z.pow_add_r by lia. reflexivity.
Qed.

Lemma fill_word_real_short : forall cnt mult val l, (length l < cnt)%nat -> fill_word_real cnt mult val l = (None, []).
Proof.
  induction cnt as [|c IH]; intros k val l Hl; [lia|]. destruct l as [|e l]; [reflexivity|].
  cbn [fill_word_real]. apply IH. cbn in Hl. lia.
Qed.

Lemma real_mask_ok : forall w, 0 <= w -> real_mask w = 2 ^ (w mod 32) - 1.
Proof.
  intros w Hw. unfold real_mask. pose proof (Z.mod_pos_bound w 32 ltac:(lia)) as B.
  set (r := w mod 32) in *. clearbody r. unfold wrap.
  assert (Hr : 2 ^ 32 = 2 ^ r * 2 ^ (32 - r)) by (rewrite <- Z.pow_add_r by lia; f_equal; lia).
  assert (P1 : 0 < 2 ^ r) by (apply Z.pow_pos_nonneg; lia).
  assert (P2 : 0 < 2 ^ (32 - r)) by (apply Z.pow_pos_nonneg; lia).
  rewrite Z.shiftl_mul_pow2 by lia.
  assert (E1 : (2 ^ 32 - 1) * 2 ^ r mod 2 ^ 32 = 2 ^ 32 - 2 ^ r).
  { symmetry. apply Z.mod_unique_pos with (2 ^ r - 1); [nia|]. ring. }
  rewrite E1. unfold Z.lnot. symmetry. apply Z.mod_unique_pos with (-1); [nia|]. lia.
Qed.

Lemma le_value_snoc : forall l e, le_value (l ++ [e]) = le_value l + 2 ^ (32 * Z.of_nat (length l)) * e.
Proof. intros. rewrite le_value_app. cbn [le_value]. rewrite Z.mul_0_r, Z.add_0_r. reflexivity. Qed.

Lemma firstn_S_snoc : forall (l : list Z) n e, nth_error l n = Some e -> firstn (S n) l = firstn n l ++ [e].
Proof.
  induction l as [|a l IH]; intros n e E; destruct n; try discriminate.
  - cbn in E. inversion E; subst. reflexivity.
  - cbn in E. change (firstn (S (S n)) (a :: l)) with (a :: firstn (S n) l). rewrite (IH _ _ E). reflexivity.
Qed.

Lemma fill_real_ok : forall w, 0 < w -> forall x l, Forall word l -> (wn w * length x <= length l)%nat ->
  fill_array_real w x l = (chunks (wn w) w (length x) l, Some (skipn (wn w * length x) l)).
Proof.
  intros w Hw.
  assert (Dm : w = 32 * (w / 32) + w mod 32) by (apply Z.div_mod; lia).
  pose proof (Z.mod_pos_bound w 32 ltac:(lia)) as B.
  assert (D0 : 0 <= w / 32) by (apply Z.div_pos; lia).
  induction x as [|old x IH]; intros l HF Hl.
  - cbn [fill_array_real length chunks]. rewrite Nat.mul_0_r. reflexivity.
  - cbn [fill_array_real length chunks]. cbn [length] in Hl.
    assert (HFs : forall n, Forall word (skipn n l)).
    { intros n. apply Forall_forall. intros e He. rewrite Forall_forall in HF. apply HF.
      rewrite <- (firstn_skipn n l). apply in_or_app. now right. }
    assert (HFf : forall n, Forall word (firstn n l)).
    { intros n. apply Forall_forall. intros e He. rewrite Forall_forall in HF. apply HF.
      rewrite <- (firstn_skipn n l). apply in_or_app. now left. }
    rewrite real_mask_ok by lia.
    destruct (Z.eq_dec (w mod 32) 0) as [E0|E0].
    + assert (Ec : wn w = Z.to_nat (w / 32)).
      { unfold wn, wpw. f_equal. rewrite Dm, E0 at 1. rewrite Z.add_0_r.
        symmetry. apply Z.div_unique with 31; lia. }
      change 1 with (2 ^ (32 * 0)) at 1. rewrite fill_word_real_ok by lia.
      rewrite E0. change (2 ^ 0 - 1 =? 0) with true. cbv iota.
      rewrite <- Ec. rewrite IH by (rewrite ?skipn_length; try apply HFs; lia).
      rewrite skipn_skipn. replace (wn w * length x + wn w)%nat with (wn w * S (length x))%nat by lia.
      change (2 ^ (32 * 0)) with 1. rewrite Z.mul_1_l, Z.add_0_l.
      pose proof (le_value_range (firstn (wn w) l) (HFf _)) as R.
      rewrite firstn_length, Nat.min_l in R by lia.
      rewrite Z.mod_small; [reflexivity|].
      replace (32 * Z.of_nat (wn w)) with w in R by (rewrite Ec; lia). exact R.
    + assert (Ec : wn w = S (Z.to_nat (w / 32))).
      { unfold wn, wpw. rewrite <- Z2Nat.inj_succ by lia. f_equal.
        symmetry. apply Z.div_unique with (w mod 32 - 1); lia. }
      set (c := Z.to_nat (w / 32)) in *.
      change 1 with (2 ^ (32 * 0)) at 1. rewrite fill_word_real_ok by lia.
      assert (P1 : 2 <= 2 ^ (w mod 32)).
      { change 2 with (2 ^ 1) at 1. apply Z.pow_le_mono_r; lia. }
      destruct (Z.eqb_spec (2 ^ (w mod 32) - 1) 0) as [E|_]; [lia|].
      destruct (nth_error l c) as [e|] eqn:E; [|apply nth_error_None in E; nia].
      rewrite (skipn_cons _ _ _ E).
      replace (skipn (S c) l) with (skipn (wn w) l) by (rewrite Ec; reflexivity).
      rewrite IH by (rewrite ?skipn_length; try apply HFs; lia).
      rewrite skipn_skipn. replace (wn w * length x + wn w)%nat with (wn w * S (length x))%nat by lia.
      f_equal. f_equal.
      replace (2 ^ (w mod 32) - 1) with (Z.ones (w mod 32)) by (rewrite Z.ones_equiv; lia).
      rewrite Z.land_ones by lia. rewrite Ec at 1. rewrite (firstn_S_snoc _ _ _ E), le_value_snoc.
      rewrite firstn_length, Nat.min_l by nia.
      change (2 ^ (32 * 0)) with 1. rewrite Z.mul_1_l, !Z.add_0_l.
      pose proof (le_value_range (firstn c l) (HFf _)) as R.
      rewrite firstn_length, Nat.min_l in R by nia.
      assert (Ecz : Z.of_nat c = w / 32) by (unfold c; lia).
      rewrite Ecz in *. set (P := 2 ^ (32 * (w / 32))) in *.
      assert (PP : 2 ^ w = P * 2 ^ (w mod 32)) by (unfold P; rewrite <- Z.pow_add_r by lia; f_equal; lia).
      rewrite PP. set (Q := 2 ^ (w mod 32)) in *.
      assert (P0 : 0 < P) by (apply Z.pow_pos_nonneg; lia).
      pose proof (Z.mod_pos_bound e Q ltac:(lia)) as BQ.
      pose proof (Z.div_mod e Q ltac:(lia)) as DQ.
      apply Z.mod_unique_pos with (e / Q); [nia|]. rewrite DQ at 1. ring.
Qed.

Lemma fill_real_short : forall w, 0 < w -> forall x l, Forall word l -> (length l < wn w * length x)%nat ->
  fill_array_real w x l = (chunks (wn w) w (length l / wn w) l ++ skipn (length l / wn w) x, None).
Proof.
  intros w Hw.
  assert (Dm : w = 32 * (w / 32) + w mod 32) by (apply Z.div_mod; lia).
  pose proof (Z.mod_pos_bound w 32 ltac:(lia)) as B.
  assert (D0 : 0 <= w / 32) by (apply Z.div_pos; lia).
  assert (Hc : (1 <= wn w)%nat).
  { unfold wn, wpw. assert (1 <= (w + 31) / 32) by (apply Z.div_le_lower_bound; lia). lia. }
  induction x as [|old x IH]; intros l HF Hl; [cbn in Hl; lia|]. cbn [length] in Hl.
  destruct (Nat.le_gt_cases (wn w) (length l)) as [Hge|Hlt].
  - assert (D : (length l / wn w = S ((length l - wn w) / wn w))%nat).
    { replace (length l) with ((length l - wn w) + 1 * wn w)%nat at 1 by lia.
      rewrite Nat.div_add by lia. lia. }
    assert (HFs : Forall word (skipn (wn w) l)).
    { apply Forall_forall. intros e He. rewrite Forall_forall in HF. apply HF.
      rewrite <- (firstn_skipn (wn w) l). apply in_or_app. now right. }
    pose proof (fill_real_ok w Hw [old] l HF ltac:(cbn [length]; lia)) as F1.
    specialize (IH (skipn (wn w) l) HFs). rewrite skipn_length in IH. specialize (IH ltac:(lia)).
    cbn [fill_array_real] in F1 |- *.
    destruct (fill_word_real (Z.to_nat (w / 32)) 1 0 l) as [[[val mult]|] l'] eqn:E; [|discriminate].
    cbn [length] in F1. rewrite Nat.mul_1_r in F1.
    destruct (real_mask w =? 0).
    + inversion F1 as [[E1 E2]]. subst l'. rewrite IH, D. reflexivity.
    + destruct l' as [|e l'']; [discriminate|]. inversion F1 as [[E1 E2]]. subst l''.
      rewrite IH, D. cbn [chunks app skipn]. rewrite E1. reflexivity.
  - rewrite Nat.div_small by lia. cbn [chunks app skipn fill_array_real].
    rewrite real_mask_ok by lia.
    destruct (Nat.le_gt_cases (Z.to_nat (w / 32)) (length l)) as [Hg|Hg].
    + change 1 with (2 ^ (32 * 0)) at 1. rewrite fill_word_real_ok by lia.
      assert (Ew : (length l = Z.to_nat (w / 32))%nat /\ w mod 32 <> 0).
      { unfold wn, wpw in Hlt.
        assert ((w + 31) / 32 <= w / 32 + 1).
        { apply Z.lt_succ_r. apply Z.div_lt_upper_bound; lia. }
        split; [lia|]. intros E0. assert ((w + 31) / 32 = w / 32); [|lia].
        symmetry. apply Z.div_unique with 31; lia. }
      destruct Ew as [Ew E0].
      assert (P1 : 2 <= 2 ^ (w mod 32)).
      { change 2 with (2 ^ 1) at 1. apply Z.pow_le_mono_r; lia. }
      destruct (Z.eqb_spec (2 ^ (w mod 32) - 1) 0) as [E|_]; [lia|].
      rewrite <- Ew, skipn_all. reflexivity.
    + rewrite fill_word_real_short by lia. reflexivity.
Qed.
