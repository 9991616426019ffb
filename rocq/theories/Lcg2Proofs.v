From Verif Require Import Base ArithSpec ArithModel ArithProofs ConstModProofs InvertProofs StreamModel LcgModel LcgProofs NumProofs.
From Coq Require Import ZifyBool Znumtheory Zpow_facts Arith Zquot.

Ltac Zify.zify_post_hook ::= idtac.

Lemma Some_inj {A} (x y : A) : Some x = Some y -> x = y.
Proof. congruence. Qed.

(* ---------- moduli with exact reduction ---------- *)

Lemma pow2_safe k : 0 <= k < 64 -> safe_mod (2 ^ k).
Proof.
  intros Hk. unfold safe_mod, nmod, nshift. rewrite Z.log2_pow2 by lia.
  rewrite <- Z.pow_add_r by lia. replace (k + (63 - k)) with 63 by lia. vm_compute. discriminate.
Qed.

Lemma exact_pow2 t m : cm_wf t m -> is_pow2 (cmod t m) -> exact_mod m.
Proof.
  intros [Hw Hm] (k & Hk & HM). unfold cmod in HM. destruct (Z.eqb_spec m 0) as [->|Hnz]; [left; reflexivity|].
  right. right. subst m. apply pow2_safe. split; [assumption|].
  destruct (bits_pow t Hw) as (_ & _ & H3). destruct (imax_bounds t Hw) as [H4 _].
  apply (Z.pow_lt_mono_r_iff 2); lia.
Qed.

Lemma exact_small m : 0 <= m <= 2 ^ 32 -> exact_mod m.
Proof.
  intros Hm. destruct (Z.eq_dec m (2 ^ 32)) as [->|].
  - right. right. apply pow2_safe. lia.
  - right. left. nia.
Qed.

(* ---------- discard ---------- *)

Lemma lcg_discard_iff t a c m :
  lcg_wf t a c m -> exact_mod m -> 2 <= a ->
  (disc_g a (cmod t m) = 1 -> c = 0 \/ is_pow2 (cmod t m) \/ forall z, 0 <= z -> a ^ z mod cmod t m <> 0) ->
  ((forall z x, 0 <= z -> 0 <= x < cmod t m ->
     lcg_discard t a c m z x = iterM (Z.to_nat z) (lcg_next t a c m) x)
   <-> eqm (cmod t m) (c * disc_h a (cmod t m)) c).
Proof.
  intros Hwf Hex Ha Hnil. pose proof Hwf as (Hcm & HM & Har & Hc).
  assert (HV : forall z x, 0 <= z -> 0 <= x < cmod t m -> lcg_discard t a c m z x =
    Some ((a ^ z * x + c * (disc_h a (cmod t m) * geo a (Z.to_nat z))) mod cmod t m)).
  { intros z x Hz Hx. apply lcg_discard_value; try assumption.
    intros H1. destruct (Hnil H1) as [H|[H|H]]; [left; assumption|right; left; assumption|].
    right. right. apply H. assumption. }
  assert (HI : forall z x, 0 <= z -> 0 <= x < cmod t m -> iterM (Z.to_nat z) (lcg_next t a c m) x =
    Some ((a ^ z * x + c * geo a (Z.to_nat z)) mod cmod t m)).
  { intros z x Hz Hx. destruct (lcg_iter t a c m (Z.to_nat z) x) as [-> _]; try assumption.
    - left. assumption.
    - f_equal. rewrite lcg_iter_closed by lia. rewrite Z2Nat.id by lia. reflexivity. }
  split.
  - intros H. specialize (H 1 0 ltac:(lia) ltac:(lia)).
    rewrite HV, HI in H by lia. apply Some_inj in H.
    change (Z.to_nat 1) with 1%nat in H. cbn [geo] in H.
    replace (a ^ 1 * 0 + c * (disc_h a (cmod t m) * (1 + a * 0))) with (c * disc_h a (cmod t m)) in H by ring.
    replace (a ^ 1 * 0 + c * (1 + a * 0)) with c in H by ring. exact H.
  - intros H z x Hz Hx. rewrite HV, HI by assumption. f_equal.
    apply eqm_add; [reflexivity|]. rewrite Z.mul_assoc. apply eqm_mul; [exact H|reflexivity].
Qed.

Lemma disc_h_prime a M : prime M -> 2 <= a < M -> disc_h a M = 1.
Proof.
  intros Hp Ha. unfold disc_h, disc_g. rewrite (prime_gcd_small M (a - 1)) by (try assumption; lia).
  rewrite Z.div_1_r. apply prime_gcd_small; [assumption|lia].
Qed.

Lemma prime_pow_nonzero a M : prime M -> 2 <= a < M -> forall z, 0 <= z -> a ^ z mod M <> 0.
Proof.
  intros Hp Ha z Hz H. apply Z.mod_divide in H; [|lia].
  apply prime_power_prime_dvd in H || idtac.
  assert (HR : rel_prime (a ^ z) M).
  { apply rel_prime_sym. apply rel_prime_Zpower_r; [assumption|]. apply rel_prime_sym, rel_prime_le_prime; [assumption|lia]. }
  destruct HR as [_ _ HR]. specialize (HR M H (Z.divide_refl M)).
  apply Z.divide_1_r_nonneg in HR; lia.
Qed.

Lemma lcg_discard_prime t a c m z x :
  lcg_wf t a c m -> exact_mod m -> 2 <= a -> prime (cmod t m) -> 0 <= z -> 0 <= x < cmod t m ->
  lcg_discard t a c m z x = iterM (Z.to_nat z) (lcg_next t a c m) x.
Proof.
  intros Hwf Hex Ha Hp. revert z x. apply lcg_discard_iff; try assumption.
  - intros _. right. right. apply prime_pow_nonzero; [assumption|]. destruct Hwf as (_ & _ & H & _). lia.
  - rewrite disc_h_prime; [rewrite Z.mul_1_r; reflexivity|assumption|]. destruct Hwf as (_ & _ & H & _). lia.
Qed.

(* for a power of two modulus nothing is left *)
Lemma odd_rel_prime_pow2 u k : Z.odd u = true -> 0 <= k -> Z.gcd u (2 ^ k) = 1.
Proof.
  intros Hu Hk. apply Zgcd_1_rel_prime. apply rel_prime_Zpower_r; [assumption|].
  apply rel_prime_sym. apply prime_rel_prime; [exact prime_2|].
  intros [q Hq]. rewrite Hq, Z.odd_mul in Hu. cbn in Hu. rewrite andb_false_r in Hu. discriminate.
Qed.

Lemma disc_h_pow2 a k : 0 <= k -> 2 <= a < 2 ^ k -> disc_h a (2 ^ k) = 1.
Proof.
  intros Hk Ha. unfold disc_h. set (g := disc_g a (2 ^ k)).
  assert (Hg1 : (g | a - 1)) by apply Z.gcd_divide_l.
  assert (Hg2 : (g | 2 ^ k)) by apply Z.gcd_divide_r.
  assert (Hg0 : 0 < g).
  { assert (0 <= g) by apply Z.gcd_nonneg. destruct (Z.eq_dec g 0) as [E|]; [|lia]. apply Z.gcd_eq_0_l in E. lia. }
  destruct Hg1 as [u Hu]. destruct Hg2 as [w Hw]. rewrite Hu, Z.div_mul by lia.
  destruct (Z.odd u) eqn:Ho; [apply odd_rel_prime_pow2; assumption|exfalso].
  destruct (Z.odd w) eqn:How.
  - pose proof (odd_rel_prime_pow2 w k How Hk) as HR.
    assert (Hw1 : (w | Z.gcd w (2 ^ k))) by (apply Z.gcd_greatest; [apply Z.divide_refl|exists g; lia]).
    rewrite HR in Hw1. assert (0 < w) by (apply (Z.mul_pos_cancel_r w g); lia).
    assert (w = 1) by (apply Z.divide_1_r_nonneg in Hw1; lia). subst w.
    assert (0 < u) by (apply (Z.mul_pos_cancel_r u g); lia).
    assert (1 * g <= u * g) by (apply Z.mul_le_mono_nonneg_r; lia). lia.
  - rewrite <- Z.negb_even in Ho, How. apply negb_false_iff in Ho, How.
    apply Z.even_spec in Ho, How. destruct Ho as [u' Hu']. destruct How as [w' Hw'].
    assert (Hd : (2 * g | g)).
    { apply Z.gcd_greatest; [exists u'|exists w']; lia. }
    apply Z.divide_pos_le in Hd; lia.
Qed.

Lemma lcg_discard_pow2 t a c m z x :
  lcg_wf t a c m -> 2 <= a -> is_pow2 (cmod t m) -> 0 <= z -> 0 <= x < cmod t m ->
  lcg_discard t a c m z x = iterM (Z.to_nat z) (lcg_next t a c m) x.
Proof.
  intros Hwf Ha Hp. pose proof Hwf as (Hcm & _ & Har & _).
  pose proof (exact_pow2 t m Hcm Hp) as Hex.
  revert z x. apply lcg_discard_iff; try assumption.
  - intros _. right. left. assumption.
  - destruct Hp as (k & Hk & HM). rewrite HM in *. rewrite disc_h_pow2 by lia.
    rewrite Z.mul_1_r. reflexivity.
Qed.

(* multiplier 1: division by zero for every z *)
Lemma lcg_discard_a1 t c m z x : lcg_wf t 1 c m -> lcg_discard t 1 c m z x = None.
Proof.
  intros (Hwf & HM & Ha & Hc). pose proof (proj1 Hwf) as Hw. destruct (imax_bounds t Hw).
  unfold lcg_discard, subT. change (1 - 1) with 0. rewrite norm_ok0 by (try assumption; lia). cbn [bind].
  unfold cm_invert. cbn [Z.eqb bind].
  assert (Hm0 : cm_mult t m 0 0 = Some 0).
  { unfold cm_mult. destruct (cm_pow2 t m) eqn:Ep; [|reflexivity].
    rewrite cm_mask_spec by assumption. rewrite (to_uns_ok t 0) by (try assumption; lia).
    rewrite Z.mul_0_l, Zmod_0_l. reflexivity. }
  rewrite Hm0. cbn [bind Z.eqb]. unfold divT. reflexivity.
Qed.

(* ---------- seeding, range ---------- *)

Lemma rem_mod_fix x m : 0 < m -> (if Z.rem x m <? 0 then Z.rem x m + m else Z.rem x m) = x mod m.
Proof.
  intros Hm. pose proof (Z.quot_rem' x m) as Hqr.
  destruct (Z.le_gt_cases 0 x) as [Hx|Hx].
  - rewrite Z.rem_mod_nonneg by lia. pose proof (Z.mod_pos_bound x m Hm).
    destruct (Z.ltb_spec (x mod m) 0); [lia|reflexivity].
  - pose proof (Zrem_lt_neg_pos x m ltac:(lia) Hm) as Hr.
    destruct (Z.ltb_spec (Z.rem x m) 0).
    + apply Z.mod_unique with (Z.quot x m - 1); [left; lia|]. lia.
    + apply Z.mod_unique with (Z.quot x m); [left; lia|]. lia.
Qed.

Lemma remT_any t x m : wf_ity t -> inT t x -> 0 < m -> remT t x m = Some (Z.rem x m).
Proof.
  intros Hw Hx Hm. unfold remT. destruct (Z.eqb_spec m 0); [lia|].
  rewrite norm_ok; [reflexivity|assumption|].
  unfold inT in *. destruct (imax_bounds t Hw).
  assert (- Z.abs x <= Z.quot x m <= Z.abs x).
  { rewrite <- Z.abs_le. apply Z.le_trans with (Z.quot (Z.abs x) (Z.abs m)).
    - rewrite Z.quot_abs by lia. lia.
    - rewrite Z.quot_div_nonneg by lia. apply Z.div_le_upper_bound; nia. }
  destruct (Z.le_gt_cases 0 x) as [H2|H2].
  - pose proof (Z.quot_pos x m H2 Hm). lia.
  - assert (Z.quot x m <= 0).
    { rewrite <- (Z.opp_involutive x). rewrite Z.quot_opp_l by lia.
      pose proof (Z.quot_pos (- x) m ltac:(lia) ltac:(lia)). lia. }
    lia.
Qed.

Lemma lcg_seed_ok t a c m x0 :
  lcg_wf t a c m -> inT t x0 -> lcg_seed t a c m x0 = Some (lcg_seed_spec c (cmod t m) x0).
Proof.
  intros (Hwf & HM & Ha & Hc) Hx. unfold lcg_seed, lcg_seed_spec.
  pose proof Hwf as [Hw Hm]. unfold cmod in *. destruct (Z.eqb_spec m 0) as [->|Hnz].
  - destruct Hm as [[_ Hs]|]; [|lia]. unfold inT, imin, imax in Hx. rewrite Hs in Hx.
    cbn [bind]. destruct (Z.ltb_spec x0 0); [lia|]. cbn [bind]. rewrite Z.mod_small by lia. reflexivity.
  - rewrite remT_any by (try assumption; lia). cbn [bind].
    rewrite <- (rem_mod_fix x0 m) by lia.
    pose proof (Z.rem_bound_abs x0 m ltac:(lia)).
    destruct (Z.ltb_spec (Z.rem x0 m) 0).
    + unfold addT. rewrite norm_ok0; [reflexivity|assumption|lia].
    + reflexivity.
Qed.

Lemma lcg_max_ok t m : cm_wf t m -> lcg_max t m = cmod t m - 1.
Proof.
  intros H. pose proof (cmod_pos t m H) as Hpos. pose proof (cmod_le t m H) as Hle.
  unfold lcg_max, cmod in *. destruct H as [Hw Hm].
  destruct (bits_pow t Hw). destruct (Z.eqb_spec m 0) as [->|].
  - destruct Hm as [[_ Hs]|]; [|lia]. unfold cast. rewrite Hs.
    symmetry. apply Z.mod_unique with (-1); [left; lia|lia].
  - apply cast_ok0; [assumption|lia].
Qed.

Lemma lcg_seed_in c M x0 : 1 < M -> lcg_in c M (lcg_seed_spec c M x0).
Proof.
  intros HM. unfold lcg_in, lcg_seed_spec. pose proof (Z.mod_pos_bound x0 M ltac:(lia)).
  destruct (Z.eqb_spec c 0); cbn [andb]; [|lia].
  destruct (Z.eqb_spec (x0 mod M) 0); lia.
Qed.

Lemma lcg_spec_in a c M x :
  1 < M -> (c = 0 -> Z.gcd a M = 1) -> lcg_in c M x -> lcg_in c M (lcg_spec a c M x).
Proof.
  intros HM Hg Hx. unfold lcg_in, lcg_spec in *.
  pose proof (Z.mod_pos_bound (a * x + c) M ltac:(lia)) as Hb.
  destruct (Z.eqb_spec c 0) as [->|]; [|lia].
  specialize (Hg eq_refl). rewrite Z.add_0_r in *.
  assert ((a * x) mod M <> 0); [|lia].
  intros H0. apply Z.mod_divide in H0; [|lia].
  assert (Hr : rel_prime M a) by (apply rel_prime_sym, Zgcd_1_rel_prime; assumption).
  pose proof (Gauss M a x H0 Hr) as Hd. apply Z.divide_pos_le in Hd; lia.
Qed.

(* ---------- streaming ---------- *)

Lemma lcg_read_write t c m x y rest :
  cm_wf t m -> lcg_in c (cmod t m) x ->
  lcg_read t c m y (good_in (lcg_write x ++ rest)) = (x, good_in rest).
Proof.
  intros Hwf Hx. pose proof (cmod_le t m Hwf). unfold lcg_in in Hx.
  destruct (imax_bounds t (proj1 Hwf)) as [_ Hmin].
  unfold lcg_read, lcg_write, get_int, good_in. cbn [app toks failb].
  assert (0 <= x) by (destruct (c =? 0); lia).
  destruct (Z.leb_spec (imin t) x); [|lia]. destruct (Z.leb_spec x (imax t)); [|lia]. cbn [andb].
  rewrite lcg_max_ok by assumption. unfold lcg_min.
  destruct (Z.leb_spec (if c =? 0 then 1 else 0) x); [|lia].
  destruct (Z.leb_spec x (cmod t m - 1)); [|lia]. reflexivity.
Qed.

(* every read leaves either a state in range and a good stream, or the old
   state and a failed stream *)
Lemma lcg_read_cases t c m y s :
  cm_wf t m ->
  let '(y', s') := lcg_read t c m y s in
  (failb s' = false /\ exists rest, toks s = TInt y' :: rest /\ toks s' = rest /\ lcg_in c (cmod t m) y') \/
  (failb s' = true /\ y' = y).
Proof.
  intros Hwf. unfold lcg_read, get_int.
  destruct (failb s) eqn:Ef; [right; split; [exact Ef|reflexivity]|].
  destruct (toks s) as [|[z|] r] eqn:Et; [right; split; reflexivity| |right; split; reflexivity].
  destruct ((imin t <=? z) && (z <=? imax t)) eqn:Er; [|right; split; reflexivity].
  destruct ((lcg_min c <=? z) && (z <=? lcg_max t m)) eqn:Em; [|right; split; reflexivity].
  left. split; [reflexivity|]. exists r. split; [reflexivity|]. split; [reflexivity|].
  rewrite lcg_max_ok in Em by assumption. unfold lcg_in, lcg_min in *. lia.
Qed.
