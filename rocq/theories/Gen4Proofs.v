(* seed_impl.hpp: the numbers of bits used by generate_from_int *)
From Verif Require Import Base NumProofs ProgModel ProgSpec ProgProofs UIntSpec UIntModel UIntProofs IbModel IbProofs SeedSpec SeedProofs GenSpec GenModel GenProofs Gen2Proofs Gen3Proofs.
Ltac Zify.zify_post_hook ::= idtac.

(* e xor (e-1) = 2^(tz+1)-1 *)
Lemma lxor_pred : forall e, 0 < e -> exists t, 0 <= t /\ e mod 2 ^ t = 0 /\ e mod 2 ^ (t + 1) <> 0 /\ 2 ^ t <= e /\
  Z.lxor (e - 1) e = 2 ^ (t + 1) - 1.
Proof.
  intros e0 He0. pattern e0. apply (Z_lt_induction (fun e => 0 < e -> exists t, 0 <= t /\ e mod 2 ^ t = 0 /\ e mod 2 ^ (t + 1) <> 0 /\ 2 ^ t <= e /\
    Z.lxor (e - 1) e = 2 ^ (t + 1) - 1)); [|lia|exact He0].
  clear e0 He0. intros e IH He. destruct (Z.Even_or_Odd e) as [(h & Eh)|(h & Eh)].
  - destruct (IH h ltac:(lia) ltac:(lia)) as (t & T1 & T2 & T3 & T4 & T5). exists (t + 1).
    assert (P : 2 ^ (t + 1) = 2 * 2 ^ t) by (rewrite Z.pow_add_r by lia; change (2 ^ 1) with 2; ring).
    assert (P' : 2 ^ (t + 1 + 1) = 2 * 2 ^ (t + 1)) by (rewrite Z.pow_add_r by lia; change (2 ^ 1) with 2; ring).
    pose proof (pos_pow t T1). pose proof (pos_pow (t + 1) ltac:(lia)).
    split; [lia|]. split; [rewrite Eh, P, Z.mul_mod_distr_l by lia; lia|].
    split; [rewrite Eh, P', Z.mul_mod_distr_l by lia; lia|]. split; [lia|].
    rewrite P'. replace (e - 1) with (2 * (h - 1) + 1) by lia. rewrite Eh.
    assert (L : Z.lxor (2 * (h - 1) + 1) (2 * h) = 2 * Z.lxor (h - 1) h + 1).
    { apply Z.bits_inj'. intros i Hi. rewrite Z.lxor_spec. destruct (Z.eq_dec i 0) as [->|N].
      - rewrite !Z.testbit_odd_0, Z.testbit_even_0. reflexivity.
      - replace i with (Z.succ (i - 1)) by lia. rewrite !Z.testbit_odd_succ, Z.testbit_even_succ by lia.
        rewrite Z.lxor_spec. reflexivity. }
    rewrite L, T5. lia.
  - exists 0. change (2 ^ (0 + 1)) with 2. change (2 ^ 0) with 1. split; [lia|]. split; [apply Z.mod_1_r|].
    split; [rewrite Eh, Z.add_comm, Z.mul_comm, Z_mod_plus_full; discriminate|]. split; [lia|].
    replace (e - 1) with (2 * h) by lia. rewrite Eh. change (2 - 1) with 1.
    apply Z.bits_inj'. intros i Hi. rewrite Z.lxor_spec. destruct (Z.eq_dec i 0) as [->|N].
    + rewrite Z.testbit_odd_0, Z.testbit_even_0. reflexivity.
    + replace i with (Z.succ (i - 1)) by lia. rewrite Z.testbit_odd_succ, Z.testbit_even_succ by lia.
      rewrite xorb_nilpotent. symmetry. replace 1 with (2 * 0 + 1) at 1 by reflexivity. rewrite Z.testbit_odd_succ by lia. apply Z.bits_0.
Qed.

(* R = e 2^c + low *)
Lemma mod_high : forall R c t, 0 <= R -> 0 <= c -> 0 <= t ->
  R mod 2 ^ (c + t) = 2 ^ c * ((R / 2 ^ c) mod 2 ^ t) + R mod 2 ^ c.
Proof.
  intros R c t HR Hc Ht. rewrite Z.pow_add_r by lia. pose proof (pos_pow c Hc). pose proof (pos_pow t Ht).
  rewrite Z.rem_mul_r by lia. ring.
Qed.

(* a value divisible by 2^t is divisible by 2^t' for t' <= t *)
Lemma mod_pow_le : forall e t t', 0 <= t' <= t -> e mod 2 ^ t = 0 -> e mod 2 ^ t' = 0.
Proof.
  intros e t t' H E. pose proof (pos_pow t' ltac:(lia)). pose proof (pos_pow t ltac:(lia)).
  apply Z.mod_divide in E; [|lia]. apply Z.mod_divide; [lia|].
  apply Z.divide_trans with (2 ^ t); [|exact E]. replace t with (t' + (t - t')) by lia. rewrite Z.pow_add_r by lia.
  apply Z.divide_factor_l.
Qed.

Lemma log2_small : forall b, 1 <= b -> Z.log2 b < b.
Proof. intros b H. apply Z.log2_lt_lin. lia. Qed.

Lemma used_bits_char : forall R t, 2 <= R -> 0 <= t ->
  let c := Z.log2 R - Z.log2 (Z.log2 R) in
  (R / 2 ^ c) mod 2 ^ t = 0 -> (R / 2 ^ c) mod 2 ^ (t + 1) <> 0 -> 2 ^ t <= R / 2 ^ c ->
  used_bits R (c + t).
Proof.
  intros R t HR Ht c T2 T3 T4. assert (Hl : 1 <= Z.log2 R) by (change 1 with (Z.log2 2); apply Z.log2_le_mono; lia).
  pose proof (log2_small (Z.log2 R) Hl). pose proof (Z.log2_nonneg (Z.log2 R)). assert (Hc : 1 <= c) by (unfold c; lia).
  pose proof (pos_pow c ltac:(lia)) as Pc. pose proof (Z.mod_pos_bound R _ Pc) as Bm.
  assert (LB : 2 ^ (c + t) <= R).
  { rewrite Z.pow_add_r by lia. apply Z.le_trans with (2 ^ c * (R / 2 ^ c)); [apply Z.mul_le_mono_nonneg_l; lia|apply Z.mul_div_le; lia]. }
  assert (LB' : c + t <= Z.log2 R) by (rewrite <- (Z.log2_pow2 (c + t)) by lia; apply Z.log2_le_mono; exact LB).
  unfold used_bits. fold c. split; [lia|]. split.
  - rewrite mod_high by lia. rewrite T2. lia.
  - intros B' HB'. replace B' with (c + (B' - c)) by lia. rewrite mod_high by lia.
    assert (N : (R / 2 ^ c) mod 2 ^ (B' - c) <> 0).
    { intro E. apply T3. apply mod_pow_le with (B' - c); [lia|exact E]. }
    pose proof (Z.mod_pos_bound (R / 2 ^ c) (2 ^ (B' - c)) (pos_pow (B' - c) ltac:(lia))) as Bx.
    set (x := (R / 2 ^ c) mod 2 ^ (B' - c)) in *. assert (M : 2 ^ c * 1 <= 2 ^ c * x) by (apply Z.mul_le_mono_nonneg_l; lia). lia.
Qed.

Lemma pw_le : forall W, W <= 64 -> W <= pw W <= 64.
Proof. intros. unfold pw. lia. Qed.

Lemma gi_bits_ok : forall W R, 2 <= W <= 64 -> 2 <= R <= 2 ^ W ->
  exists B, gi_bits W (R - 1) = Some B /\ used_bits R B /\ 1 <= B <= W /\ 2 ^ B <= R.
Proof.
  intros W R HW HR. pose proof (pw_le W ltac:(lia)) as Hpw.
  assert (Hl : 1 <= Z.log2 R) by (change 1 with (Z.log2 2); apply Z.log2_le_mono; lia).
  assert (HlW : Z.log2 R <= W) by (rewrite <- (Z.log2_pow2 W) by lia; apply Z.log2_le_mono; lia).
  pose proof (log2_small (Z.log2 R) Hl). pose proof (Z.log2_nonneg (Z.log2 R)).
  set (c := Z.log2 R - Z.log2 (Z.log2 R)) in *.
  pose proof (pos_pow W ltac:(lia)) as PW. pose proof (pos_pow c ltac:(lia)) as Pc.
  assert (EB : (if R - 1 =? 2 ^ W - 1 then W else integer_log2 (pw W) (pr W (R - 1 + 1))) = Z.log2 R).
  { destruct (Z.eqb_spec (R - 1) (2 ^ W - 1)) as [E|E].
    - replace R with (2 ^ W) by lia. rewrite Z.log2_pow2 by lia. reflexivity.
    - replace (R - 1 + 1) with R by ring. replace (pr W R) with R by (unfold pr; destruct (W <? 32); [reflexivity|symmetry; apply wrap_small; lia]).
      apply integer_log2_ok; [lia|]. assert (2 ^ W <= 2 ^ pw W) by (apply Z.pow_le_mono_r; lia). lia. }
  unfold gi_bits. rewrite EB. cbn zeta. rewrite (integer_log2_ok 32 (Z.log2 R)) by lia. fold c.
  destruct (Z.ltb_spec c 0); [unfold c in *; lia|]. replace (R - 1 + 1) with R by ring.
  assert (HC : (32 <= W /\ R = 2 ^ W) \/ (pr W R = R /\ (R < 2 ^ W \/ W < 32))).
  { unfold pr. destruct (Z.ltb_spec W 32); [right; split; [reflexivity|right; lia]|].
    destruct (Z.eq_dec R (2 ^ W)); [left; lia|right]. split; [apply wrap_small; lia|lia]. }
  assert (Hc1 : 1 <= c) by (unfold c; lia).
  assert (EX : R / 2 ^ c < 2 ^ W) by (apply Z.div_lt_upper_bound; [lia|]; assert (2 ^ 1 <= 2 ^ c) by (apply Z.pow_le_mono_r; lia); change (2 ^ 1) with 2 in *; nia).
  assert (Ep : 1 <= R / 2 ^ c).
  { apply Z.div_le_lower_bound; [lia|]. rewrite Z.mul_1_r. apply Z.le_trans with (2 ^ Z.log2 R); [apply Z.pow_le_mono_r; unfold c; lia|]. apply Z.log2_spec; lia. }
  destruct HC as [(HW32 & ER)|(ER & _)].
  - assert (E0 : wrap W (Z.shiftr (pr W R) c) = 0).
    { unfold pr. destruct (Z.ltb_spec W 32); [lia|]. rewrite ER. unfold wrap. rewrite Z.mod_same by lia. rewrite Z.shiftr_0_l. apply Z.mod_0_l. lia. }
    rewrite E0. cbn [Z.eqb]. exists (Z.log2 R). rewrite ER, Z.log2_pow2 by lia.
    split; [reflexivity|]. split; [|lia]. unfold used_bits. rewrite Z.log2_pow2 by lia.
    split; [lia|]. split; [rewrite Z.mod_same by lia; apply pos_pow; rewrite ER, Z.log2_pow2 in * by lia; lia|]. intros; lia.
  - rewrite ER, Z.shiftr_div_pow2 by lia. rewrite wrap_small by lia. set (e := R / 2 ^ c) in *.
    destruct (Z.eqb_spec e 0); [lia|]. 
    replace (pr W (e - 1)) with (e - 1) by (unfold pr; destruct (W <? 32); [reflexivity|symmetry; apply wrap_small; lia]).
    destruct (lxor_pred e ltac:(lia)) as (t & T1 & T2 & T3 & T4 & T5). rewrite T5.
    assert (Ht : t < W) by (apply (Z.pow_lt_mono_r_iff 2); lia).
    pose proof (pos_pow t T1) as Pt. assert (P2 : 2 ^ (t + 1) = 2 * 2 ^ t) by (rewrite Z.pow_add_r by lia; change (2 ^ 1) with 2; ring).
    assert (P3 : 2 ^ (t + 1) <= 2 ^ pw W) by (apply Z.pow_le_mono_r; lia).
    rewrite integer_log2_ok by lia.
    assert (LT : Z.log2 (2 ^ (t + 1) - 1) = t) by (apply Z.log2_unique; [lia|]; rewrite <- Z.add_1_r; lia).
    rewrite LT. exists (c + t). split; [reflexivity|].
    pose proof (used_bits_char R t ltac:(lia) T1 T2 T3 T4) as U. split; [exact U|].
    destruct U as (U1 & _). fold c in U1. split; [lia|].
    apply Z.le_trans with (2 ^ Z.log2 R); [apply Z.pow_le_mono_r; lia|]. apply Z.log2_spec; lia.
Qed.

Lemma gi_mask_ok : forall W B, 2 <= W <= 64 -> 1 <= B <= W -> gi_mask W B = Some (2 ^ B - 1).
Proof.
  intros W B HW HB. unfold gi_mask. pose proof (pw_le W ltac:(lia)).
  destruct (Z.ltb_spec (B - 1) 0); [lia|]. destruct (Z.leb_spec (pw W) (B - 1)); [lia|]. cbn [orb]. f_equal.
  rewrite Z.shiftl_mul_pow2 by lia. replace (2 * 2 ^ (B - 1)) with (2 ^ B) by (replace B with (B - 1 + 1) at 1 by ring; rewrite Z.pow_add_r by lia; change (2 ^ 1) with 2; ring).
  pose proof (pos_pow B ltac:(lia)). assert (2 ^ B <= 2 ^ W) by (apply Z.pow_le_mono_r; lia).
  unfold pr, wrap. destruct (Z.ltb_spec W 32).
  - apply Z.mod_small. lia.
  - rewrite Z.mod_mod by lia. rewrite Zminus_mod_idemp_l. apply Z.mod_small. lia.
Qed.

Lemma land_wrap : forall W a b, 0 <= W -> Z.land (a mod 2 ^ W) (b mod 2 ^ W) = Z.land a b mod 2 ^ W.
Proof.
  intros W a b HW. rewrite <- !Z.land_ones by lia. apply Z.bits_inj'. intros i Hi. rewrite !Z.land_spec.
  destruct (Z.testbit a i), (Z.testbit b i), (Z.testbit (Z.ones W) i); reflexivity.
Qed.

Lemma land_lnot_ones : forall R B, 0 <= B -> Z.land R (Z.lnot (2 ^ B - 1)) = 2 ^ B * (R / 2 ^ B).
Proof.
  intros R B HB. rewrite <- Z.ldiff_land. replace (2 ^ B - 1) with (Z.ones B) by (rewrite Z.ones_equiv; lia).
  rewrite Z.ldiff_ones_r by lia. rewrite Z.shiftl_mul_pow2, Z.shiftr_div_pow2 by lia. ring.
Qed.

Lemma gi_limit_ok : forall W R B, 2 <= W <= 64 -> 1 <= B <= W -> 2 <= R <= 2 ^ W -> 2 ^ B <= R ->
  gi_limit W (R - 1) (2 ^ B - 1) = 2 ^ B * (R / 2 ^ B) - 1.
Proof.
  intros W R B HW HB HR HBR. unfold gi_limit. replace (R - 1 + 1) with R by ring.
  pose proof (pos_pow B ltac:(lia)) as PB. pose proof (pos_pow W ltac:(lia)) as PW.
  assert (Hq : 1 <= R / 2 ^ B) by (apply Z.div_le_lower_bound; lia). pose proof (Z.mul_div_le R (2 ^ B) PB).
  assert (0 < 2 ^ B * (R / 2 ^ B)) by nia.
  unfold pr, wrap. destruct (Z.ltb_spec W 32).
  - rewrite land_lnot_ones by lia. apply Z.mod_small. lia.
  - rewrite land_wrap, land_lnot_ones by lia. rewrite Z.mod_mod by lia. rewrite Zminus_mod_idemp_l. apply Z.mod_small. lia.
Qed.

(* ---- one engine output, after rejection ---- *)
Lemma gi_attempt_ok : forall tb bmin bmax B d, eng_wf tb bmin bmax -> 2 ^ B <= bmax - bmin + 1 -> 1 <= B -> bmin <= d <= bmax ->
  let R := bmax - bmin + 1 in
  (v <~ plift (usub tb d bmin);; PRet (if negb (2 ^ B * (R / 2 ^ B) - 1 =? R - 1) && (2 ^ B * (R / 2 ^ B) - 1 <? v) then None else Some v)) =
  PRet (if useful bmin R B d then Some (d - bmin) else None).
Proof.
  intros tb bmin bmax B d (H1 & H2 & H3 & H4) HB HB1 Hd R. 
  assert (inT tb d) by (unfold inT in *; lia).
  rewrite usub_ok by (try assumption; lia). cbn [plift pbind]. f_equal. unfold useful.
  destruct (Z.eqb_spec (2 ^ B * (R / 2 ^ B) - 1) (R - 1)) as [E|E]; cbn [negb andb].
  - destruct (Z.ltb_spec (d - bmin) (2 ^ B * (R / 2 ^ B))); [reflexivity|]. unfold R in *. lia.
  - destruct (Z.ltb_spec (2 ^ B * (R / 2 ^ B) - 1) (d - bmin)), (Z.ltb_spec (d - bmin) (2 ^ B * (R / 2 ^ B))); try reflexivity; lia.
Qed.
