(* generate_int_float_pair: digits, values, independence. *)
From Coq Require Import Lqa Qpower.
From Verif Require Import Base ProgModel ProgSpec ProgProofs UIntModel UIntSpec UIntProofs IbModel IbProofs Disc4Proofs FloatModel FloatSpec FloatProofs RealModel RealProofs UniProofs IfpModel IfpSpec.
Open Scope Z_scope.
Ltac Zify.zify_post_hook ::= idtac.

Lemma shlU_ok : forall W x s, 0 <= s < W -> 0 <= x * 2 ^ s < 2 ^ W -> shlU W x s = Some (x * 2 ^ s).
Proof.
  intros W x s Hs Hx. unfold shlU. destruct (Z.leb_spec 0 s); [|lia]. destruct (Z.ltb_spec s W); [|lia].
  cbn [andb]. rewrite wrap_small by lia. reflexivity.
Qed.
Lemma shlU_mask : forall W m, 1 <= m <= W -> exists x, shlU W 2 (m - 1) = Some x /\ wrap W (x - 1) = 2 ^ m - 1.
Proof.
  intros W m Hm. unfold shlU. destruct (Z.leb_spec 0 (m - 1)); [|lia]. destruct (Z.ltb_spec (m - 1) W); [|lia].
  cbn [andb]. eexists. split; [reflexivity|].
  assert (E: 2 * 2 ^ (m - 1) = 2 ^ m) by (rewrite <- Z.pow_succ_r by lia; f_equal; lia). rewrite E.
  assert (0 < 2 ^ m) by (apply Z.pow_pos_nonneg; lia). assert (2 ^ m <= 2 ^ W) by (apply Z.pow_le_mono_r; lia).
  unfold wrap. rewrite Zminus_mod_idemp_l. apply Z.mod_small. lia.
Qed.
Lemma shlU_neg : forall W x s, s < 0 -> shlU W x s = None.
Proof. intros W x s H. unfold shlU. destruct (Z.leb_spec 0 s); [lia|reflexivity]. Qed.
Lemma shlI_ok : forall x s, 0 <= s < 32 -> 0 <= x -> x * 2 ^ s < 2 ^ 31 -> shlI x s = Some (x * 2 ^ s).
Proof.
  intros x s Hs Hx Hb. unfold shlI. destruct (Z.leb_spec 0 s); [|lia]. destruct (Z.ltb_spec s 32); [|lia]. cbn [andb].
  assert (0 < 2 ^ s) by (apply Z.pow_pos_nonneg; lia).
  assert (0 <= x * 2 ^ s) by (apply Z.mul_nonneg_nonneg; lia).
  unfold mulT, norm, imin, imax. cbn [sgn bits i32]. change (32 - 1) with 31.
  destruct (Z.leb_spec (- 2 ^ 31) (x * 2 ^ s)); [|lia]. destruct (Z.leb_spec (x * 2 ^ s) (2 ^ 31 - 1)); [|lia]. reflexivity.
Qed.
Lemma cast_int : forall x, 0 <= x < 2 ^ 31 -> cast i32 x = x.
Proof.
  intros x H. unfold cast. cbn [bits sgn i32]. assert (2 ^ 32 = 2 * 2 ^ 31) by reflexivity.
  rewrite Z.mod_small by lia. change (32 - 1) with 31. destruct (Z.ltb_spec x (2 ^ 31)); lia.
Qed.
Lemma lor_low : forall a b s, 0 <= s -> 0 <= b < 2 ^ s -> Z.lor (a * 2 ^ s) b = a * 2 ^ s + b.
Proof.
  intros a b s Hs Hb. assert (EL: Z.land (a * 2 ^ s) b = 0).
  { apply Z.bits_inj'. intros n Hn. rewrite Z.land_spec, Z.bits_0, <- Z.shiftl_mul_pow2 by lia.
    destruct (Z.lt_ge_cases n s) as [L|L].
    - rewrite Z.shiftl_spec_low by lia. reflexivity.
    - rewrite <- (Z.mod_small b (2 ^ s)) by lia. rewrite Z.mod_pow2_bits_high by lia. apply andb_false_r. }
  rewrite <- Z.lxor_lor by exact EL. symmetry. apply Z.add_nocarry_lxor. exact EL.
Qed.

Section Ifp.
Variables (f : fmt) (md : rmode) (fuel : nat) (tb : ity) (bmin bmax w : Z).
Hypothesis Hf : fmt_ok f.
Hypothesis Hemin : emin f + 64 <= 0.
Hypothesis He : eng_wf tb bmin bmax.
Hypothesis HW : 32 <= bits tb <= 64.
Hypothesis Hw : 1 <= w <= 31.
Local Notation W := (bits tb).
Local Notation B := (bmax - bmin + 1).
Local Notation m := (digit_bits bmin bmax).
Local Notation s := (w mod m).
Local Notation D := (prec f).
Local Notation rnd := (fround f md).
Local Notation gd := (retry fuel (patt bmin B m)).

Lemma m_W : 1 <= m <= W.
Proof using He. apply (log_W tb bmin bmax He). Qed.
Lemma s_bounds : 0 <= s < m.
Proof using He. apply Z.mod_pos_bound. pose proof m_W. lia. Qed.
Lemma i0_bounds : 0 < m - s <= 64.
Proof using He HW. pose proof s_bounds. pose proof m_W. lia. Qed.
(* w < m or the digit is short *)
Lemma shift_lt : m - s < W.
Proof using He HW Hw.
  pose proof s_bounds. pose proof m_W. destruct (Z.eq_dec s 0) as [E|E]; [|lia].
  assert (m <= w). { destruct (Z.le_gt_cases m w) as [L|L]; [exact L|]. rewrite Z.mod_small in E by lia. lia. } lia.
Qed.
Lemma ycut_m : ycut B m = 2 ^ m.
Proof using He.
  pose proof (ib_B tb bmin bmax He) as HB. unfold ycut, digit_bits. destruct (Z.log2_spec B ltac:(lia)) as [L1 L2].
  assert (0 < 2 ^ Z.log2 B) by (apply Z.pow_pos_nonneg; [lia|apply Z.log2_nonneg]).
  rewrite Z.pow_succ_r in L2 by apply Z.log2_nonneg. replace (B / 2 ^ Z.log2 B) with 1; [lia|].
  apply Z.div_unique with (r := B - 2 ^ Z.log2 B); lia.
Qed.

Lemma m_eq : ifp_m W (bmax - bmin) = m.
Proof using He HW.
  pose proof (ib_B tb bmin bmax He). pose proof (ib_BW tb bmin bmax He). unfold ifp_m, digit_bits.
  destruct (Z.eqb_spec (bmax - bmin) (2 ^ W - 1)) as [E|E].
  - replace B with (2 ^ W) by lia. rewrite Z.log2_pow2; lia.
  - rewrite wrap_small by lia. apply integer_log2_ok; lia.
Qed.

Lemma gd_peq : peq bmin bmax (gen_digit fuel tb bmin bmax m) gd.
Proof using He HW.
  pose proof m_W as HM. pose proof (ib_B tb bmin bmax He) as HB2. pose proof (ib_BW tb bmin bmax He) as HBW.
  destruct He as (E1 & E2 & E3 & E4). unfold gen_digit.
  rewrite (usub_ok tb bmax bmin E1 E3 E2) by lia. cbn [plift pbind].
  destruct (shlU_mask W m HM) as (x & Ex & Em). rewrite Ex. cbn [plift pbind]. rewrite Em.
  replace (bmax - bmin + 1) with B by ring.
  apply peq_retry. unfold patt, draw. cbn [pbind peq]. intros v Hv. rewrite (eng_sub tb bmin bmax He v Hv). cbn [plift pbind peq].
  f_equal. rewrite (ldiff_cut tb bmin bmax He m) by (unfold digit_bits; pose proof (Z.log2_nonneg B); lia).
  rewrite ycut_m. assert (0 < 2 ^ m) by (apply Z.pow_pos_nonneg; lia).
  replace (2 ^ m - 1) with (Z.ones m) by (rewrite Z.ones_equiv; lia). rewrite Z.land_ones by lia.
  assert (HML: 2 ^ m <= B) by (apply (proj1 (Z.log2_spec B ltac:(lia)))).
  destruct (Z.eq_dec m W) as [EW|EW].
  - rewrite EW. unfold wrap at 1 2. rewrite Z_mod_same_full. cbn. rewrite EW in HML. destruct (Z.ltb_spec (v - bmin) (2 ^ W)); [reflexivity|lia].
  - assert (2 ^ m < 2 ^ W) by (apply Z.pow_lt_mono_r; lia). rewrite (wrap_small W (2 ^ m)) by lia. rewrite wrap_small by lia.
    destruct (Z.eqb_spec (2 ^ m) 0); [lia|]. cbn [negb andb].
    destruct (Z.ltb_spec (2 ^ m - 1) (v - bmin)), (Z.ltb_spec (v - bmin) (2 ^ m)); try lia; reflexivity.
Qed.
Lemma gd_rets : rets bmin bmax gd (fun u => 0 <= u < 2 ^ m).
Proof using He. apply patt_rets. pose proof m_W. lia. Qed.
Lemma gd_uniform : Uniform bmin bmax gd 0 (Z.to_nat (2 ^ m)).
Proof using He. apply Uniform_retry. apply (patt_uniform tb bmin bmax He). pose proof m_W. lia. Qed.
Lemma gd_wp : forall n, (n < fuel)%nat -> wp bmin bmax gd n (fun u _ => 0 <= u < 2 ^ m).
Proof using He.
  intros n Hn. apply wp_retry; [|exact Hn]. intro k. destruct k as [|k]; [exact I|]. unfold patt. cbn [wp].
  intros v Hv. split; [lia|]. intros x Hx. destruct (v - bmin <? ycut B m); [|discriminate].
  assert (E: (v - bmin) mod 2 ^ m = x) by congruence. rewrite <- E.
  apply Z.mod_pos_bound. apply Z.pow_pos_nonneg; [lia|]. pose proof m_W. lia.
Qed.

(* ---- the bucket ---- *)
Lemma full_peq : forall c a S, 0 <= a -> 0 <= S < 2 ^ a -> a + Z.of_nat c * m <= 31 ->
  peq bmin bmax (ifp_full fuel tb bmin bmax m c S) (chunks fuel bmin B m c S).
Proof using He HW.
  pose proof m_W as HM. induction c as [|c IH]; intros a S Ha HS Hc; [reflexivity|]. cbn [ifp_full chunks].
  apply peq_bind_r with (P := fun u => 0 <= u < 2 ^ m); [exact gd_peq|exact gd_rets|]. intros u Hu.
  rewrite Nat2Z.inj_succ, Z.mul_succ_l in Hc. assert (0 <= Z.of_nat c * m) by (apply Z.mul_nonneg_nonneg; lia).
  assert (HB: 0 <= S * 2 ^ m <= 2 ^ (a + m) - 2 ^ m).
  { rewrite Z.pow_add_r by lia. assert (0 < 2 ^ m) by (apply Z.pow_pos_nonneg; lia). split; [apply Z.mul_nonneg_nonneg; lia|].
    replace (2 ^ a * 2 ^ m - 2 ^ m) with ((2 ^ a - 1) * 2 ^ m) by ring. apply Z.mul_le_mono_nonneg_r; lia. }
  assert (2 ^ (a + m) <= 2 ^ 31) by (apply Z.pow_le_mono_r; lia).
  rewrite shlI_ok by lia. cbn [plift pbind]. rewrite lor_low by lia. rewrite cast_int by lia.
  apply (IH (a + m)); lia.
Qed.

Lemma w_split : w = Z.of_nat (Z.to_nat (w / m)) * m + s.
Proof using He Hw.
  pose proof m_W. rewrite Z2Nat.id by (apply Z.div_pos; lia). pose proof (Z.div_mod w m ltac:(lia)). lia.
Qed.

Lemma bucket_ok : forall A u, 0 <= A < 2 ^ (Z.of_nat (Z.to_nat (w / m)) * m) -> 0 <= u < 2 ^ m ->
  ifp_bucket W s A u = Some (A * 2 ^ s + u mod 2 ^ s).
Proof using He HW Hw.
  intros A u HA Hu. pose proof m_W. pose proof s_bounds. pose proof w_split as EW.
  assert (Hs31: s <= 31) by (apply Z.le_trans with w; [apply Z.mod_le; lia|lia]).
  assert (HP: 0 < 2 ^ s) by (apply Z.pow_pos_nonneg; lia).
  assert (HPW: 2 ^ s < 2 ^ W) by (apply Z.pow_lt_mono_r; lia).
  assert (HA2: 0 <= A * 2 ^ s <= 2 ^ 31 - 2 ^ s).
  { split; [apply Z.mul_nonneg_nonneg; lia|]. set (t := Z.of_nat (Z.to_nat (w / m)) * m) in *.
    assert (0 <= t) by (unfold t; apply Z.mul_nonneg_nonneg; lia).
    assert (A * 2 ^ s <= (2 ^ t - 1) * 2 ^ s) by (apply Z.mul_le_mono_nonneg_r; lia).
    assert (2 ^ t * 2 ^ s = 2 ^ w) by (rewrite <- Z.pow_add_r by lia; f_equal; lia).
    assert (2 ^ w <= 2 ^ 31) by (apply Z.pow_le_mono_r; lia).
    replace ((2 ^ t - 1) * 2 ^ s) with (2 ^ t * 2 ^ s - 2 ^ s) in * by ring. lia. }
  unfold ifp_bucket. rewrite (shlU_ok W 1 s) by lia. cbn [bind]. rewrite shlI_ok by lia. cbn [bind].
  rewrite Z.mul_1_l. rewrite wrap_small by lia. replace (2 ^ s - 1) with (Z.ones s) by (rewrite Z.ones_equiv; lia).
  rewrite Z.land_comm, Z.land_ones by lia. pose proof (Z.mod_pos_bound u (2 ^ s) HP) as HU.
  rewrite lor_low by lia. rewrite cast_int by lia. reflexivity.
Qed.

(* ---- the first part of the real number ---- *)
Definition cut (h : Z) : Z := if D <? m - s then Z.ldiff h (2 ^ (m - s - D)) else h.
Definition first (h : Z) : Q := (rnd (rnd (inject_Z (cut h)) * rnd (1 / rnd (inject_Z (1 * 2 ^ (m - s))))))%Q.

Lemma ldiff_shift : forall u k t, 0 <= t <= k -> Z.shiftr (Z.ldiff u (2 ^ k)) t = Z.ldiff (Z.shiftr u t) (2 ^ (k - t)).
Proof.
  intros u k t H. rewrite Z.shiftr_ldiff. f_equal. rewrite Z.shiftr_div_pow2 by lia.
  symmetry. apply Z.pow_sub_r; lia.
Qed.

Lemma p2_repr_nz : forall k, 0 <= k -> ~ (rnd (inject_Z (1 * 2 ^ k)) == 0)%Q.
Proof using Hf.
  intros k Hk E. assert (R: representable f (inject_Z (1 * 2 ^ k))).
  { rewrite Z.mul_1_l. apply (repr_compat f (p2 k)); [apply p2_Z; exact Hk|]. apply repr_p2; [exact Hf|]. clear Hemin. destruct Hf; lia. }
  rewrite (rnd_fix f md Hf _ R) in E. rewrite Z.mul_1_l, <- p2_Z in E by exact Hk. apply (p2_nz k E).
Qed.

Lemma first_ok : forall u, 0 <= u < 2 ^ m -> ifp_first f md W m s u = Some (first (u / 2 ^ s)).
Proof using Hf He HW Hw.
  intros u Hu. pose proof m_W. pose proof s_bounds. pose proof shift_lt. destruct Hf as [HP _].
  unfold ifp_first, first, cut.
  assert (HPW: 2 ^ (m - s) < 2 ^ W) by (apply Z.pow_lt_mono_r; lia).
  assert (0 < 2 ^ (m - s)) by (apply Z.pow_pos_nonneg; lia).
  rewrite (shlU_ok W 1 (m - s)) by lia. cbn [bind]. rewrite (fdiv_ok f md) by (apply p2_repr_nz; lia). cbn [bind].
  destruct (Z.ltb_spec D (m - s)) as [L|L].
  - assert (2 ^ (m - D) < 2 ^ W) by (apply Z.pow_lt_mono_r; lia). assert (0 < 2 ^ (m - D)) by (apply Z.pow_pos_nonneg; lia).
    rewrite (shlU_ok W 1 (m - D)) by lia. cbn [bind]. rewrite Z.mul_1_l.
    rewrite ldiff_shift by lia. rewrite Z.shiftr_div_pow2 by lia.
    replace (m - D - s) with (m - s - D) by ring. reflexivity.
  - cbn [bind]. rewrite Z.shiftr_div_pow2 by lia. reflexivity.
Qed.

Definition tail (r : Q) : prog Q :=
  q <~ ifp_mid f md fuel tb bmin bmax m (Z.to_nat D) (m - s) r;; ifp_last f md fuel tb bmin bmax m s q.
Definition pure_pair : prog (Q * Z) :=
  A <~ chunks fuel bmin B m (Z.to_nat (w / m)) 0;;
  u <~ gd;;
  q <~ tail (first (u / 2 ^ s));;
  PRet (q, A * 2 ^ s + u mod 2 ^ s).

Lemma bind_assoc : forall A C E0 (p : prog A) (k : A -> prog C) (l : C -> prog E0),
  peq bmin bmax (pbind (pbind p k) l) (pbind p (fun x => pbind (k x) l)).
Proof using. intros A C E0 p k l. induction p; cbn [pbind peq]; auto. apply peq_refl. Qed.
Lemma peq_sym : forall A (p q : prog A), peq bmin bmax p q -> peq bmin bmax q p.
Proof using. induction p as [a|k IH| |]; destruct q; cbn [peq]; auto. Qed.

Lemma pair_peq : peq bmin bmax (int_float_pair f md fuel w tb bmin bmax) pure_pair.
Proof using Hf He HW Hw.
  pose proof m_W as HM. pose proof w_split as EW. pose proof s_bounds.
  pose proof (ib_B tb bmin bmax He) as HB2. unfold int_float_pair, pure_pair.
  destruct He as (E1 & E2 & E3 & E4). rewrite (usub_ok tb bmax bmin E1 E3 E2) by lia. cbn [plift pbind].
  rewrite m_eq. destruct (Z.eqb_spec m 0); [lia|].
  apply peq_bind_r with (P := fun A => 0 <= A < 2 ^ (0 + Z.of_nat (Z.to_nat (w / m)) * m)).
  - apply (full_peq _ 0); lia.
  - apply chunks_rets; lia.
  - intros A HA. rewrite Z.add_0_l in HA.
    apply peq_bind_r with (P := fun u => 0 <= u < 2 ^ m); [exact gd_peq|exact gd_rets|]. intros u Hu.
    rewrite bucket_ok by assumption. cbn [plift pbind]. rewrite first_ok by exact Hu. cbn [plift pbind].
    apply peq_sym. apply bind_assoc.
Qed.
End Ifp.
