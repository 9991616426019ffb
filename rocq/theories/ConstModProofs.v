From Verif Require Import Base ArithSpec ArithModel ArithProofs.
From Coq Require Import ZifyBool Znumtheory Zpow_facts.

Ltac Zify.zify_post_hook ::= Z.to_euclidean_division_equations.

(* ---------- machine types ---------- *)

Lemma bits_pow t : wf_ity t -> 2 ^ bits t = 2 * 2 ^ (bits t - 1) /\ 2 ^ 31 <= 2 ^ (bits t - 1) /\ 2 ^ bits t <= 2 ^ 64.
Proof.
  unfold wf_ity. intros H. split; [|split].
  - rewrite <- Z.pow_succ_r by lia. f_equal. lia.
  - apply Z.pow_le_mono_r; lia.
  - apply Z.pow_le_mono_r; lia.
Qed.

Lemma imax_bounds t : wf_ity t -> 2 ^ 31 - 1 <= imax t < 2 ^ bits t /\ imin t <= 0.
Proof.
  intros H. destruct (bits_pow t H) as (H1 & H2 & H3).
  unfold imax, imin. destruct (sgn t); lia.
Qed.

Lemma norm_ok t z : wf_ity t -> inT t z -> norm t z = Some z.
Proof.
  intros Hw H. destruct (bits_pow t Hw) as (H1 & H2 & H3).
  unfold inT, norm, imin, imax in *. destruct (sgn t).
  - destruct (Z.leb_spec (- 2 ^ (bits t - 1)) z); [|lia].
    destruct (Z.leb_spec z (2 ^ (bits t - 1) - 1)); [|lia]. reflexivity.
  - rewrite Z.mod_small by lia. reflexivity.
Qed.

Lemma norm_ok0 t z : wf_ity t -> 0 <= z <= imax t -> norm t z = Some z.
Proof. intros Hw H. apply norm_ok; [assumption|]. destruct (imax_bounds t Hw). unfold inT. lia. Qed.

Lemma cast_ok t z : wf_ity t -> inT t z -> cast t z = z.
Proof.
  intros Hw H. destruct (bits_pow t Hw) as (H1 & H2 & H3).
  unfold inT, cast, imin, imax in *. destruct (sgn t).
  - destruct (Z.ltb_spec (z mod 2 ^ bits t) (2 ^ (bits t - 1))).
    + destruct (Z.le_gt_cases 0 z).
      * apply Z.mod_small; lia.
      * assert (z mod 2 ^ bits t = z + 2 ^ bits t); [|lia].
        symmetry. apply Z.mod_unique with (-1); [left; lia|lia].
    + destruct (Z.le_gt_cases 0 z).
      * rewrite Z.mod_small in * by lia. lia.
      * assert (z mod 2 ^ bits t = z + 2 ^ bits t); [|lia].
        symmetry. apply Z.mod_unique with (-1); [left; lia|lia].
  - apply Z.mod_small; lia.
Qed.

Lemma cast_ok0 t z : wf_ity t -> 0 <= z <= imax t -> cast t z = z.
Proof. intros Hw H. apply cast_ok; [assumption|]. destruct (imax_bounds t Hw). unfold inT. lia. Qed.

Lemma to_uns_ok t z : wf_ity t -> 0 <= z <= imax t -> to_uns t z = z.
Proof. intros Hw H. destruct (imax_bounds t Hw). unfold to_uns. apply Z.mod_small; lia. Qed.

Lemma divT_ok t x y : wf_ity t -> 0 <= x <= imax t -> 0 < y -> divT t x y = Some (x / y).
Proof.
  intros Hw Hx Hy. unfold divT. destruct (Z.eqb_spec y 0); [lia|].
  rewrite Z.quot_div_nonneg by lia. apply norm_ok0; [assumption|].
  split; [apply Z.div_pos; lia|].
  apply Z.le_trans with x; [|lia]. apply Z.div_le_upper_bound; nia.
Qed.

Lemma remT_ok t x y : wf_ity t -> 0 <= x <= imax t -> 0 < y -> remT t x y = Some (x mod y).
Proof.
  intros Hw Hx Hy. unfold remT. pose proof (divT_ok t x y Hw Hx Hy) as Hd. unfold divT in Hd.
  destruct (Z.eqb_spec y 0); [lia|]. rewrite Hd. cbn [bind].
  rewrite Z.rem_mod_nonneg by lia. reflexivity.
Qed.

(* ---------- const_mod ---------- *)

Lemma cmod_pos t m : cm_wf t m -> 0 < cmod t m.
Proof.
  intros [Hw Hm]. destruct (bits_pow t Hw). unfold cmod.
  destruct (Z.eqb_spec m 0); lia.
Qed.

Lemma cmod_le t m : cm_wf t m -> cmod t m - 1 <= imax t.
Proof.
  intros [Hw Hm]. destruct (bits_pow t Hw). unfold cmod, imax.
  destruct Hm as [[-> ->]|Hm]; cbn [Z.eqb]; [lia|].
  unfold imax in Hm. destruct (Z.eqb_spec m 0); destruct (sgn t); lia.
Qed.

Lemma pow2_land u : 0 < u -> Z.land (u - 1) u = 0 -> u = 2 ^ Z.log2 u.
Proof.
  intros Hu Hl. pose proof (Z.log2_spec u Hu) as Hs.
  destruct (Z.eq_dec u (2 ^ Z.log2 u)) as [|Hne]; [assumption|exfalso].
  assert (H1 : Z.log2 (u - 1) = Z.log2 u).
  { apply Z.log2_unique; [apply Z.log2_nonneg|]. lia. }
  assert (Hp : 0 < 2 ^ Z.log2 u) by (apply Z.pow_pos_nonneg; [lia|apply Z.log2_nonneg]).
  assert (Hb : Z.testbit (Z.land (u - 1) u) (Z.log2 u) = true).
  { rewrite Z.land_spec. rewrite <- H1 at 1. rewrite !Z.bit_log2 by lia. reflexivity. }
  rewrite Hl, Z.bits_0 in Hb. discriminate.
Qed.

Lemma unsigned_m_eq t m : cm_wf t m -> unsigned_m t m = if m =? 0 then 0 else m.
Proof.
  intros [Hw Hm]. destruct (bits_pow t Hw) as (H1 & H2 & H3).
  unfold unsigned_m. destruct (Z.eqb_spec m 0) as [->|Hnz].
  - destruct Hm as [[_ Hs]|Hm]; [|lia].
    unfold to_uns, imax. rewrite Hs. rewrite (Z.mod_small (2 ^ bits t - 1)) by lia.
    replace (2 ^ bits t - 1 + 1) with (2 ^ bits t) by lia. apply Z_mod_same_full.
  - apply to_uns_ok; [assumption|]. lia.
Qed.

Lemma cm_mask_spec t m x : cm_wf t m -> cm_pow2 t m = true -> cm_mask t m x = x mod cmod t m.
Proof.
  intros Hwf Hp. pose proof Hwf as [Hw Hm]. destruct (bits_pow t Hw) as (H1 & H2 & H3).
  unfold cm_pow2 in Hp. unfold cm_mask, cmod in *. rewrite unsigned_m_eq in * by assumption.
  apply Z.eqb_eq in Hp.
  destruct (Z.eqb_spec m 0) as [->|Hnz].
  - destruct Hm as [[_ Hs]|Hm]; [|lia].
    assert (Hu : to_uns t (0 - 1) = 2 ^ bits t - 1).
    { unfold to_uns. symmetry. apply Z.mod_unique with (-1); [left; lia|lia]. }
    rewrite Hu. unfold wf_ity in Hw. rewrite land_ones_mod by lia.
    unfold to_uns. rewrite Zmod_mod. apply cast_ok0; [exact Hw|].
    unfold imax. rewrite Hs. pose proof (Z.mod_pos_bound x (2 ^ bits t)). lia.
  - assert (Hm' : 0 < m <= imax t) by lia.
    rewrite (to_uns_ok t (m - 1)) in * by (try assumption; lia).
    pose proof (pow2_land m ltac:(lia) Hp) as Hpow.
    set (k := Z.log2 m) in *. assert (Hk : 0 <= k) by apply Z.log2_nonneg.
    assert (Hkb : k <= bits t).
    { destruct (imax_bounds t Hw). unfold wf_ity in Hw.
      apply (Z.pow_le_mono_r_iff 2); lia. }
    rewrite Hpow, land_ones_mod by lia.
    assert (Hmm : to_uns t x mod 2 ^ k = x mod 2 ^ k).
    { unfold to_uns. symmetry. apply Zmod_div_mod; [apply Z.pow_pos_nonneg; lia|lia|].
      exists (2 ^ (bits t - k)). rewrite <- Z.pow_add_r by lia. f_equal. lia. }
    rewrite Hmm. apply cast_ok0; [assumption|].
    pose proof (Z.mod_pos_bound x (2 ^ k) ltac:(apply Z.pow_pos_nonneg; lia)). lia.
Qed.

Lemma cm_pow2_false t m : cm_wf t m -> cm_pow2 t m = false -> 0 < m <= imax t /\ cmod t m = m.
Proof.
  intros Hwf Hp. pose proof Hwf as [Hw Hm].
  unfold cm_pow2 in Hp. rewrite unsigned_m_eq in Hp by assumption.
  unfold cmod. destruct (Z.eqb_spec m 0) as [->|Hnz].
  - rewrite Z.land_0_r in Hp. discriminate.
  - split; lia.
Qed.

(* residues are representable *)
Lemma residue_ok t m z : cm_wf t m -> 0 <= z < cmod t m -> 0 <= z <= imax t.
Proof. intros H Hz. pose proof (cmod_le t m H). lia. Qed.

Lemma to_uns_residue t m z : cm_wf t m -> 0 <= z < cmod t m -> to_uns t z = z.
Proof. intros H Hz. pose proof (residue_ok t m z H Hz). apply to_uns_ok; [apply H|assumption]. Qed.

Lemma cm_apply_spec t m x : cm_wf t m -> 0 <= x <= imax t -> cm_apply t m x = Some (x mod cmod t m).
Proof.
  intros H Hx. unfold cm_apply. destruct (cm_pow2 t m) eqn:Hp.
  - rewrite cm_mask_spec; auto.
  - destruct (cm_pow2_false t m H Hp) as [Hm ->]. apply remT_ok; [apply H|assumption|lia].
Qed.

Lemma cm_add_spec t m x c :
  cm_wf t m -> 0 <= x < cmod t m -> 0 <= c < cmod t m -> cm_add t m x c = Some ((x + c) mod cmod t m).
Proof.
  intros H Hx Hc. unfold cm_add. destruct (cm_pow2 t m) eqn:Hp.
  - rewrite cm_mask_spec by assumption. rewrite !(to_uns_residue t m) by assumption. reflexivity.
  - destruct (cm_pow2_false t m H Hp) as [Hm HM]. rewrite HM in *.
    pose proof (proj1 H) as Hw.
    destruct (Z.eqb_spec c 0) as [->|Hcz].
    + rewrite Z.add_0_r, Z.mod_small by lia. reflexivity.
    + unfold subT, addT. rewrite (norm_ok0 t (m - c)) by (try assumption; lia). cbn [bind].
      destruct (Z.ltb_spec x (m - c)).
      * rewrite norm_ok0 by (try assumption; lia). rewrite Z.mod_small by lia. reflexivity.
      * rewrite norm_ok0 by (try assumption; lia). f_equal. apply Z.mod_unique with 1; [left; lia|lia].
Qed.

Lemma cm_schrage_spec t m a v :
  wf_ity t -> 0 < m <= imax t -> 0 < a < m -> m mod a < m / a -> 0 <= v < m ->
  cm_mult_schrage t m a v = Some (a * v mod m).
Proof.
  intros Hw Hm Ha Hqr Hv. unfold cm_mult_schrage.
  rewrite divT_ok, remT_ok by (try assumption; lia). cbn [bind].
  pose proof (Z.div_mod m a ltac:(lia)) as Hdm.
  pose proof (Z.mod_pos_bound m a ltac:(lia)) as Hr.
  set (q := m / a) in *. set (r := m mod a) in *.
  rewrite remT_ok, divT_ok by (try assumption; lia). cbn [bind].
  pose proof (Z.div_mod v q ltac:(lia)) as Hdv.
  pose proof (Z.mod_pos_bound v q ltac:(lia)) as Hrv.
  assert (Hv2 : 0 <= v / q) by (apply Z.div_pos; lia).
  set (v1 := v mod q) in *. set (v2 := v / q) in *.
  clearbody q r v1 v2.
  assert (Hs1 : 0 <= a * v1 < m) by nia.
  assert (Hs2 : 0 <= r * v2 < m) by nia.
  unfold mulT. rewrite !norm_ok0 by (try assumption; lia). cbn [bind].
  assert (Hcong : a * v = a * v1 - r * v2 + v2 * m) by (subst v m; ring).
  unfold cm_sub, subT.
  destruct (Z.ltb_spec (a * v1) (r * v2)).
  - rewrite (norm_ok0 t (r * v2 - a * v1)) by (try assumption; lia). cbn [bind].
    rewrite norm_ok0 by (try assumption; lia). f_equal.
    apply Z.mod_unique with (v2 - 1); [left; lia|lia].
  - rewrite norm_ok0 by (try assumption; lia). f_equal.
    apply Z.mod_unique with v2; [left; lia|lia].
Qed.

Lemma cm_general_spec t m a b :
  wf_ity t -> 0 < m <= imax t -> exact_mod m -> 0 <= a < m -> 0 <= b < m ->
  cm_mult_general t m a b = Some (a * b mod m).
Proof.
  intros Hw Hm Hex Ha Hb. unfold cm_mult_general.
  destruct (bits_pow t Hw) as (H1 & H2 & H3).
  destruct (imax_bounds t Hw) as [Hmx _].
  destruct (Z.eqb_spec m 0); [lia|].
  unfold w64. rewrite (Z.mod_small m), (Z.mod_small a), (Z.mod_small b) by lia.
  pose proof (Z.mod_pos_bound (a * b) m ltac:(lia)).
  destruct (Z.leb_spec m ((2 ^ 64 - 1) / m)) as [Hle|Hgt].
  - assert (m * m <= 2 ^ 64 - 1).
    { pose proof (Z.mul_div_le (2 ^ 64 - 1) m ltac:(lia)). nia. }
    rewrite (Z.mod_small (a * b)) by nia.
    rewrite cast_ok0 by (try assumption; lia). reflexivity.
  - assert (2 ^ 64 <= m * m).
    { assert (2 ^ 64 - 1 < m * m); [|lia].
      destruct (Z.lt_ge_cases (2 ^ 64 - 1) (m * m)) as [|Hc]; [assumption|].
      assert (m <= (2 ^ 64 - 1) / m) by (apply Z.div_le_lower_bound; lia). lia. }
    destruct Hex as [Hex|[Hex|Hex]]; [lia|lia|].
    unfold mulmod. rewrite muldivmod_correct by (try lia; left; assumption).
    cbn [bind snd]. rewrite cast_ok0 by (try assumption; lia). reflexivity.
Qed.

Lemma cm_mult_spec_gen t m a x :
  cm_wf t m -> exact_mult t m a -> 0 <= a < cmod t m -> 0 <= x < cmod t m ->
  cm_mult t m a x = Some (a * x mod cmod t m).
Proof.
  intros H Hex Ha Hx. unfold cm_mult. destruct (cm_pow2 t m) eqn:Hp.
  - rewrite cm_mask_spec by assumption. rewrite !(to_uns_residue t m) by assumption. reflexivity.
  - destruct (cm_pow2_false t m H Hp) as [Hm HM]. rewrite HM in *.
    pose proof (proj1 H) as Hw.
    destruct (Z.eqb_spec a 0) as [->|Ha0]; [reflexivity|].
    destruct (Z.eqb_spec a 1) as [->|Ha1].
    { rewrite Z.mul_1_l, Z.mod_small by lia. reflexivity. }
    destruct (imax_bounds t Hw).
    rewrite divT_ok by (try assumption; lia). cbn [bind].
    destruct (Z.leb_spec m (imax t / a)) as [Hle|Hgt].
    + unfold cm_mult_small, mulT.
      assert (a * m <= imax t).
      { pose proof (Z.mul_div_le (imax t) a ltac:(lia)). nia. }
      assert (0 <= a * x <= imax t) by nia.
      rewrite norm_ok0 by assumption. cbn [bind]. apply remT_ok; [assumption|assumption|lia].
    + rewrite remT_ok, divT_ok by (try assumption; lia). cbn [bind].
      destruct (sgn t && (m mod a <? m / a)) eqn:Hs.
      * apply andb_prop in Hs. destruct Hs as [_ Hs]. apply Z.ltb_lt in Hs.
        apply cm_schrage_spec; try assumption; lia.
      * destruct Hex as [Hex|[Hex|[Hs1 Hs2]]].
        -- apply cm_general_spec; try assumption; lia.
        -- assert (m <= imax t / a) by (apply Z.div_le_lower_bound; lia). lia.
        -- rewrite Hs1 in Hs. cbn [andb] in Hs. apply Z.ltb_ge in Hs. lia.
Qed.

Lemma cm_mult_spec t m a x :
  cm_wf t m -> exact_mod m -> 0 <= a < cmod t m -> 0 <= x < cmod t m ->
  cm_mult t m a x = Some (a * x mod cmod t m).
Proof. intros. apply cm_mult_spec_gen; try assumption. left. assumption. Qed.

Lemma cm_mult_add_spec_gen t m a x c :
  cm_wf t m -> exact_mult t m a -> 0 <= a < cmod t m -> 0 <= x < cmod t m -> 0 <= c < cmod t m ->
  cm_mult_add t m a x c = Some ((a * x + c) mod cmod t m).
Proof.
  intros H Hex Ha Hx Hc. unfold cm_mult_add. destruct (cm_pow2 t m) eqn:Hp.
  - rewrite cm_mask_spec by assumption. rewrite !(to_uns_residue t m) by assumption. reflexivity.
  - destruct (cm_pow2_false t m H Hp) as [Hm HM].
    pose proof (proj1 H) as Hw. destruct (imax_bounds t Hw).
    destruct (Z.eqb_spec a 0) as [->|Ha0].
    { rewrite Z.mul_0_l, Z.add_0_l, Z.mod_small by lia. reflexivity. }
    unfold subT. rewrite norm_ok0 by (try assumption; lia). cbn [bind].
    rewrite divT_ok by (try assumption; lia). cbn [bind].
    destruct (Z.leb_spec m ((imax t - c) / a)) as [Hle|Hgt].
    + assert (a * m <= imax t - c).
      { pose proof (Z.mul_div_le (imax t - c) a ltac:(lia)). nia. }
      assert (0 <= a * x <= a * m) by nia.
      unfold mulT, addT. rewrite (norm_ok0 t (a * x)) by (try assumption; lia). cbn [bind].
      rewrite norm_ok0 by (try assumption; lia). cbn [bind]. rewrite HM. apply remT_ok; [assumption|lia|lia].
    + rewrite cm_mult_spec_gen by assumption. cbn [bind].
      rewrite cm_add_spec; try assumption.
      * rewrite Zplus_mod_idemp_l. reflexivity.
      * apply Z.mod_pos_bound. lia.
Qed.

Lemma cm_mult_add_spec t m a x c :
  cm_wf t m -> exact_mod m -> 0 <= a < cmod t m -> 0 <= x < cmod t m -> 0 <= c < cmod t m ->
  cm_mult_add t m a x c = Some ((a * x + c) mod cmod t m).
Proof. intros. apply cm_mult_add_spec_gen; try assumption. left. assumption. Qed.

Lemma pow_pos_spec t m r a e :
  cm_wf t m -> exact_mod m -> 0 <= r < cmod t m -> 0 <= a < cmod t m ->
  pow_pos (cm_mult t m) r a e = Some (r * a ^ Zpos e mod cmod t m).
Proof.
  intros H Hex. pose proof (cmod_pos t m H) as HM. revert r a.
  induction e as [e IH|e IH|]; intros r a Hr Ha; cbn [pow_pos].
  - rewrite !cm_mult_spec by assumption. cbn [bind].
    rewrite IH by (apply Z.mod_pos_bound; lia). f_equal.
    rewrite Zmult_mod_idemp_l, <- Zmult_mod_idemp_r, Zpower_mod, Zmod_mod, <- Zpower_mod by lia.
    rewrite Zmult_mod_idemp_r. f_equal.
    replace (Z.pos e~1) with (1 + 2 * Z.pos e) by lia. rewrite Z.pow_add_r by lia.
    rewrite Z.pow_1_r, Z.pow_mul_r, Z.pow_2_r by lia. ring.
  - rewrite !cm_mult_spec by assumption. cbn [bind].
    rewrite IH by (try assumption; apply Z.mod_pos_bound; lia). f_equal.
    rewrite <- Zmult_mod_idemp_r, Zpower_mod, Zmod_mod, <- Zpower_mod by lia.
    rewrite Zmult_mod_idemp_r. f_equal.
    replace (Z.pos e~0) with (2 * Z.pos e) by lia.
    rewrite Z.pow_mul_r, Z.pow_2_r by lia. ring.
  - rewrite !cm_mult_spec by assumption. cbn [bind]. rewrite Z.pow_1_r. reflexivity.
Qed.

Lemma cm_pow_spec t m a e :
  cm_wf t m -> exact_mod m -> 1 < cmod t m -> 0 <= a < cmod t m -> 0 <= e ->
  cm_pow t m a e = Some (a ^ e mod cmod t m).
Proof.
  intros H Hex HM Ha He. unfold cm_pow. destruct e as [|p|p]; [| |lia].
  - rewrite Z.pow_0_r, Z.mod_small by lia. reflexivity.
  - rewrite pow_pos_spec by (try assumption; lia). rewrite Z.mul_1_l. reflexivity.
Qed.
