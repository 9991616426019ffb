(* Proofs about independent_bits_engine. *)
From Verif Require Import Base ProgModel ProgSpec ProgProofs UIntModel UIntSpec UIntProofs IbModel.

Ltac Zify.zify_post_hook ::= idtac.

(* ---- integer_log2 ---- *)
Lemma ilog2_impl_ok : forall k t a, 0 < t < 2 ^ (2 ^ (Z.of_nat k + 1)) -> ilog2_impl k t a = Z.log2 t + a.
Proof.
  induction k as [|k IH]; intros t a Ht.
  - cbn [ilog2_impl]. change (2 ^ (2 ^ (Z.of_nat 0 + 1))) with 4 in Ht.
    assert (t = 1 \/ t = 2 \/ t = 3) as [-> | [-> | ->]] by lia; reflexivity.
  - cbn [ilog2_impl]. set (s := 2 ^ Z.of_nat (S k)).
    assert (Hs: 0 < s) by (apply Z.pow_pos_nonneg; lia).
    assert (E: 2 ^ (Z.of_nat (S k) + 1) = s + s).
    { rewrite Z.pow_add_r by lia. change (2 ^ 1) with 2. unfold s. ring. }
    rewrite E, Z.pow_add_r in Ht by lia.
    assert (Hp: 0 < 2 ^ s) by (apply Z.pow_pos_nonneg; lia).
    assert (Es: 2 ^ (Z.of_nat k + 1) = s) by (unfold s; f_equal; lia).
    rewrite (Z.shiftr_div_pow2 t s) by lia.
    destruct (Z.eqb_spec (t / 2 ^ s) 0) as [Z0|Z0].
    + rewrite Z.shiftr_0_r. rewrite IH; [lia|]. rewrite Es. split; [lia|].
      apply Z.div_small_iff in Z0; lia.
    + rewrite (Z.shiftr_div_pow2 t s) by lia.
      assert (0 <= t / 2 ^ s) by (apply Z.div_pos; lia).
      rewrite IH; [|rewrite Es; split; [lia|apply Z.div_lt_upper_bound; lia]].
      rewrite <- Z.shiftr_div_pow2 by lia. rewrite Z.log2_shiftr by lia.
      assert (s <= Z.log2 t).
      { apply (proj1 (Z.log2_le_pow2 t s ltac:(lia))). destruct (Z.le_gt_cases (2 ^ s) t) as [L|L]; [exact L|].
        exfalso. apply Z0. apply Z.div_small. lia. }
      rewrite Z.max_r by lia. lia.
Qed.

Lemma integer_log2_ok : forall W t, W <= 64 -> 0 < t < 2 ^ W -> integer_log2 W t = Z.log2 t.
Proof.
  intros W t HW Ht. unfold integer_log2. destruct (Z.leb_spec W 32) as [L|L]; rewrite ilog2_impl_ok.
  - lia.
  - split; [lia|]. change (2 ^ (Z.of_nat 4 + 1)) with 32. apply Z.lt_le_trans with (2 ^ W); [lia|].
    apply Z.pow_le_mono_r; lia.
  - lia.
  - split; [lia|]. change (2 ^ (Z.of_nat 5 + 1)) with 64. apply Z.lt_le_trans with (2 ^ W); [lia|].
    apply Z.pow_le_mono_r; lia.
Qed.

(* ---- the mathematical content ---- *)
Definition ycut (B k : Z) : Z := 2 ^ k * (B / 2 ^ k).
Definition patt (bmin B k : Z) : prog (option Z) :=
  PDraw (fun v => PRet (if v - bmin <? ycut B k then Some ((v - bmin) mod 2 ^ k) else None)).
Fixpoint chunks (F : nat) (bmin B k : Z) (c : nat) (S : Z) : prog Z :=
  match c with
  | O => PRet S
  | Datatypes.S c' => x <~ retry F (patt bmin B k);; chunks F bmin B k c' (S * 2 ^ k + x)
  end.

Lemma ycut_bounds : forall B k, 0 < B -> 0 <= k <= Z.log2 B -> 2 ^ k <= ycut B k <= B.
Proof.
  intros B k HB Hk. unfold ycut. assert (0 < 2 ^ k) by (apply Z.pow_pos_nonneg; lia).
  split; [|apply Z.mul_div_le; lia].
  rewrite <- (Z.mul_1_r (2 ^ k)) at 1. apply Z.mul_le_mono_nonneg_l; [lia|].
  apply Z.div_le_lower_bound; [lia|]. rewrite Z.mul_1_r. apply (proj2 (Z.log2_le_pow2 B k ltac:(lia))). lia.
Qed.

Section Ib.
Variables (tb : ity) (bmin bmax : Z).
Hypothesis Hb : eng_wf tb bmin bmax.
Hypothesis HW64 : bits tb <= 64.
Local Notation W := (bits tb).
Local Notation B := (bmax - bmin + 1).

Lemma ib_W : 2 <= W. Proof. apply Hb. Qed.
Lemma ib_B : 2 <= B. Proof. destruct Hb as (_ & _ & _ & H). lia. Qed.
Lemma ib_BW : B <= 2 ^ W. Proof. exact (HBw tb bmin bmax Hb). Qed.

Lemma log_W : 1 <= Z.log2 B <= W.
Proof.
  pose proof ib_B. pose proof ib_BW. pose proof ib_W. split.
  - apply (proj1 (Z.log2_le_pow2 B 1 ltac:(lia))). change (2 ^ 1) with 2. lia.
  - rewrite <- (Z.log2_pow2 W) by lia. apply Z.log2_le_mono. exact ib_BW.
Qed.

Lemma ldiff_cut : forall k, 0 <= k <= Z.log2 B -> Z.ldiff (wrap W B) (2 ^ k - 1) = wrap W (ycut B k).
Proof.
  intros k Hk. pose proof ib_B. pose proof ib_BW. pose proof log_W. pose proof ib_W.
  replace (2 ^ k - 1) with (Z.ones k) by (rewrite Z.ones_equiv; lia).
  rewrite Z.ldiff_ones_r, Z.shiftl_mul_pow2, Z.shiftr_div_pow2 by lia.
  pose proof (ycut_bounds B k ltac:(lia) Hk). unfold ycut in *.
  assert (0 < 2 ^ k) by (apply Z.pow_pos_nonneg; lia).
  destruct (Z.eq_dec B (2 ^ W)) as [E|E].
  - rewrite E. unfold wrap. rewrite Z_mod_same_full. rewrite Z.div_0_l by lia.
    assert (E2: 2 ^ W = 2 ^ k * 2 ^ (W - k)) by (rewrite <- Z.pow_add_r by lia; f_equal; lia).
    rewrite E2 at 1. rewrite (Z.mul_comm (2 ^ k) (2 ^ (W - k))), Z.div_mul by lia.
    rewrite <- E2, Z_mod_same_full. reflexivity.
  - rewrite (wrap_small W B) by lia. rewrite wrap_small by lia. ring.
Qed.

Lemma calc_ok : forall w n, 1 <= n <= w -> w / n <= Z.log2 B ->
  exists y1 m1, ib_calc W w n (B - 1) =
    Some (Ibp (w / n) (n - w mod n) (wrap W (ycut B (w / n))) y1 (2 ^ (w / n) - 1) m1) /\
  (w / n + 1 <= Z.log2 B -> y1 = wrap W (ycut B (w / n + 1)) /\ m1 = 2 ^ (w / n + 1) - 1).
Proof.
  intros w n Hn Hk. pose proof log_W. pose proof ib_W. unfold ib_calc.
  assert (H1: 1 <= w / n) by (apply Z.div_le_lower_bound; lia).
  destruct (Z.eqb_spec (w / n) 0) as [E|_]; [lia|]. cbn [orb].
  destruct (Z.leb_spec W (w / n - 1)) as [E|_]; [lia|].
  set (k := w / n) in *.
  assert (Em: wrap W (wrap W (2 * 2 ^ (k - 1)) - 1) = 2 ^ k - 1).
  { rewrite <- Z.pow_succ_r by lia. replace (Z.succ (k - 1)) with k by lia.
    assert (0 < 2 ^ k <= 2 ^ W) by (split; [apply Z.pow_pos_nonneg; lia|apply Z.pow_le_mono_r; lia]).
    unfold wrap. rewrite Zminus_mod_idemp_l. apply Z.mod_small. lia. }
  rewrite Em. replace (B - 1 + 1) with B by ring. rewrite ldiff_cut by lia.
  eexists. eexists. split; [reflexivity|]. intro H2.
  assert (Em1: Z.lor (wrap W ((2 ^ k - 1) * 2)) 1 = 2 ^ (k + 1) - 1).
  { assert (Ek: 2 ^ (k + 1) = 2 * 2 ^ k) by (rewrite Z.add_1_r; apply Z.pow_succ_r; lia).
    assert (0 < 2 ^ k) by (apply Z.pow_pos_nonneg; lia).
    assert (2 ^ (k + 1) <= 2 ^ W) by (apply Z.pow_le_mono_r; lia).
    rewrite wrap_small by lia.
    assert (EL: Z.land ((2 ^ k - 1) * 2) 1 = 0).
    { change 1 with (Z.ones 1) at 2. rewrite Z.land_ones by lia. change (2 ^ 1) with 2. apply Z.mod_mul. lia. }
    assert (EO: Z.lor ((2 ^ k - 1) * 2) 1 = (2 ^ k - 1) * 2 + 1).
    { rewrite <- Z.lxor_lor by exact EL. symmetry. apply Z.add_nocarry_lxor. exact EL. }
    rewrite EO. lia. }
  rewrite Em1. split; [apply ldiff_cut; lia|reflexivity].
Qed.

Lemma n_ok : forall w, ib_n W w (B - 1) = Some ((w + Z.log2 B - 1) / Z.log2 B).
Proof.
  intro w. pose proof log_W as HL. pose proof ib_W. pose proof ib_B. pose proof ib_BW. unfold ib_n.
  assert (E: (if B - 1 =? 2 ^ W - 1 then W else integer_log2 W (wrap W (B - 1 + 1))) = Z.log2 B).
  { destruct (Z.eqb_spec (B - 1) (2 ^ W - 1)) as [E|E].
    - replace B with (2 ^ W) by lia. rewrite Z.log2_pow2; lia.
    - replace (B - 1 + 1) with B by ring. rewrite wrap_small by lia. apply integer_log2_ok; lia. }
  rewrite E. destruct (Z.eqb_spec (Z.log2 B) 0); [lia|reflexivity].
Qed.

(* what the code needs to know about n *)
Definition good_n (w n : Z) : Prop := 1 <= n <= w /\ w <= n * Z.log2 B.

Lemma good_n_w0 : forall w n, good_n w n -> 1 <= w / n <= Z.log2 B /\
  (w mod n <> 0 -> w / n + 1 <= Z.log2 B).
Proof.
  intros w n [[H1 H2] H3]. pose proof (Z.div_mod w n ltac:(lia)) as D.
  pose proof (Z.mod_pos_bound w n ltac:(lia)) as M.
  assert (Hle: n * (w / n) <= n * Z.log2 B) by lia.
  repeat split.
  - apply Z.div_le_lower_bound; lia.
  - apply (Z.mul_le_mono_pos_l _ _ n); lia.
  - intro Hne. assert (n * (w / n) < n * Z.log2 B) by lia.
    apply Z.le_succ_l. apply (Z.mul_lt_mono_pos_l n); lia.
Qed.

Lemma ceil_good : forall w, 1 <= w -> good_n w ((w + Z.log2 B - 1) / Z.log2 B).
Proof.
  intros w Hw. pose proof log_W as HL. set (m := Z.log2 B) in *. set (n := (w + m - 1) / m).
  pose proof (Z.div_mod (w + m - 1) m ltac:(lia)) as D. fold n in D.
  pose proof (Z.mod_pos_bound (w + m - 1) m ltac:(lia)) as M.
  split; [split|].
  - apply Z.div_le_lower_bound; lia.
  - apply Z.div_le_upper_bound; [lia|]. assert (m * 1 <= m * w) by (apply Z.mul_le_mono_nonneg_l; lia).
    assert (1 * w <= m * w) by (apply Z.mul_le_mono_nonneg_r; lia).
    assert (0 <= (m - 1) * (w - 1)) by (apply Z.mul_nonneg_nonneg; lia).
    replace ((m - 1) * (w - 1)) with (m * w - m - w + 1) in H1 by ring. lia.
  - rewrite Z.mul_comm. fold m. lia.
Qed.

(* the test that increments n *)
Lemma incr_cases : forall w n, 1 <= w -> n = (w + Z.log2 B - 1) / Z.log2 B ->
  wrap W (ycut B (w / n)) / n < wrap W (B - 1 - wrap W (ycut B (w / n)) + 1) ->
  B <> 3 -> n + 1 <= w.
Proof.
  intros w n Hw En Hlt HB3. pose proof (ceil_good w Hw) as HG. rewrite <- En in HG.
  pose proof log_W as HL. pose proof ib_B. pose proof ib_BW. pose proof ib_W.
  pose proof (good_n_w0 w n HG) as [Hk _]. destruct HG as [[G1 G2] G3].
  pose proof (ycut_bounds B (w / n) ltac:(lia) ltac:(lia)) as HY.
  destruct (Z.le_gt_cases (n + 1) w) as [L|L]; [exact L|exfalso].
  assert (Enw: n = w) by lia.
  assert (Ek: w / n = 1) by (rewrite Enw; apply Z.div_same; lia).
  rewrite Ek in *. unfold ycut in *. change (2 ^ 1) with 2 in *.
  pose proof (Z.div_mod B 2 ltac:(lia)) as D. pose proof (Z.mod_pos_bound B 2 ltac:(lia)) as M.
  assert (EB: B = 2 ^ W \/ B < 2 ^ W) by lia.
  destruct EB as [EB|EB].
  - assert (EY: 2 * (B / 2) = 2 ^ W).
    { rewrite EB. replace (2 ^ W) with (2 * 2 ^ (W - 1)) by (rewrite <- Z.pow_succ_r by lia; f_equal; lia).
      rewrite (Z.mul_comm 2 (2 ^ (W - 1))) at 1. rewrite Z.div_mul by lia. reflexivity. }
    rewrite EY in Hlt. replace (B - 1 - wrap W (2 ^ W) + 1) with (2 ^ W) in Hlt.
    + unfold wrap in Hlt. rewrite Z_mod_same_full in Hlt. rewrite Z.div_0_l in Hlt; lia.
    + unfold wrap. rewrite Z_mod_same_full. lia.
  - rewrite (wrap_small W (2 * (B / 2))) in Hlt by lia. rewrite wrap_small in Hlt by lia.
    replace (B - 1 - 2 * (B / 2) + 1) with (B mod 2) in Hlt by lia.
    assert (HD: 0 <= 2 * (B / 2) / n) by (apply Z.div_pos; lia).
    assert (Hodd: B mod 2 = 1) by lia.
    assert (E0: 2 * (B / 2) / n < 1) by lia.
    assert (n = 1 \/ 2 <= n) as [N1|N2] by lia.
    + rewrite N1, Z.div_1_r in E0. lia.
    + (* n = w >= 2, hence log2 B = 1 *)
      assert (Z.log2 B = 1).
      { destruct (Z.eq_dec (Z.log2 B) 1) as [e|e]; [exact e|exfalso].
        set (m := Z.log2 B) in *.
        pose proof (Z.mul_div_le (w + m - 1) m ltac:(lia)) as Q. rewrite <- En in Q.
        assert (HP: 0 < (m - 1) * (n - 1)) by (apply Z.mul_pos_pos; lia).
        replace ((m - 1) * (n - 1)) with (m * n - m - n + 1) in HP by ring. lia. }
      assert (HB4: B < 4).
      { change 4 with (2 ^ 2). apply (proj2 (Z.log2_lt_pow2 B 2 ltac:(lia))). lia. }
      assert (HB2': B = 2) by lia. rewrite HB2' in Hodd. discriminate Hodd.
Qed.

Lemma params_ok : forall w, 1 <= w -> B <> 3 \/ w <= 2 ->
  exists n y1 m1, good_n w n /\ ib_params W w (B - 1) =
    Some (n, Ibp (w / n) (n - w mod n) (wrap W (ycut B (w / n))) y1 (2 ^ (w / n) - 1) m1) /\
    (w mod n <> 0 -> y1 = wrap W (ycut B (w / n + 1)) /\ m1 = 2 ^ (w / n + 1) - 1).
Proof.
  intros w Hw H3. pose proof (ceil_good w Hw) as HG. unfold ib_params. rewrite n_ok. cbn [bind].
  set (n := (w + Z.log2 B - 1) / Z.log2 B) in *.
  pose proof (good_n_w0 w n HG) as [Hk Hk1].
  destruct (calc_ok w n (proj1 HG) ltac:(lia)) as (y1 & m1 & EC & HC). rewrite EC. cbn [bind ib_y0].
  destruct (Z.ltb_spec (wrap W (ycut B (w / n)) / n) (wrap W (B - 1 - wrap W (ycut B (w / n)) + 1))) as [L|L].
  - assert (Hn: n + 1 <= w).
    { destruct (Z.eq_dec B 3) as [E3|E3]; [|apply incr_cases; auto].
      (* B = 3, w <= 2 *)
      exfalso. pose proof ib_W. destruct HG as [HG1 HG2].
      assert (4 <= 2 ^ W) by (change 4 with (2 ^ 2); apply Z.pow_le_mono_r; lia).
      assert (En: n = w) by (unfold n; rewrite E3; change (Z.log2 3) with 1; rewrite Z.div_1_r; lia).
      rewrite En, Z.div_same in L by lia. rewrite E3 in L. change (ycut 3 1) with 2 in L.
      rewrite (wrap_small W 2) in L by lia. change (3 - 1 - 2 + 1) with 1 in L. rewrite wrap_small in L by lia.
      assert (w = 1 \/ w = 2) as [-> | ->] by lia; cbn in L; lia. }
    assert (HG': good_n w (n + 1)).
    { destruct HG as [[G1 G2] G3]. split; [lia|]. pose proof log_W.
      assert (n * Z.log2 B <= (n + 1) * Z.log2 B) by (apply Z.mul_le_mono_nonneg_r; lia). lia. }
    pose proof (good_n_w0 w (n + 1) HG') as [Hj Hj1].
    destruct (calc_ok w (n + 1) (proj1 HG') ltac:(lia)) as (y1' & m1' & EC' & HC'). rewrite EC'. cbn [bind].
    exists (n + 1), y1', m1'. split; [exact HG'|]. split; [reflexivity|]. intro Hne. apply HC'. apply Hj1. exact Hne.
  - exists n, y1, m1. split; [exact HG|]. split; [reflexivity|]. intro Hne. apply HC. apply Hk1. exact Hne.
Qed.

Lemma att_peq : forall k, 0 <= k <= Z.log2 B ->
  peq bmin bmax (ib_att tb bmin (wrap W (ycut B k)) (2 ^ k - 1)) (patt bmin B k).
Proof.
  intros k Hk. unfold ib_att, patt, draw. cbn [pbind peq]. intros v Hv.
  rewrite (eng_sub tb bmin bmax Hb v Hv). cbn [plift pbind peq].
  pose proof ib_B. pose proof ib_BW. pose proof (ycut_bounds B k ltac:(lia) Hk) as HY.
  assert (0 < 2 ^ k) by (apply Z.pow_pos_nonneg; lia).
  assert (E: wrap W (wrap W (ycut B k) - 1) = ycut B k - 1).
  { unfold wrap. rewrite Zminus_mod_idemp_l. apply Z.mod_small. lia. }
  rewrite E. replace (2 ^ k - 1) with (Z.ones k) by (rewrite Z.ones_equiv; lia). rewrite Z.land_ones by lia.
  destruct (Z.ltb_spec (ycut B k - 1) (v - bmin)), (Z.ltb_spec (v - bmin) (ycut B k)); try lia; reflexivity.
Qed.

Lemma patt_rets : forall F k, 0 <= k -> rets bmin bmax (retry F (patt bmin B k)) (fun x => 0 <= x < 2 ^ k).
Proof.
  intros F k Hk. apply rets_retry. unfold patt. cbn [rets]. intros v Hv a Ha.
  destruct (v - bmin <? ycut B k); [|discriminate]. assert (E: (v - bmin) mod 2 ^ k = a) by congruence. rewrite <- E.
  apply Z.mod_pos_bound. apply Z.pow_pos_nonneg; lia.
Qed.

Lemma loop_peq : forall F WU k c a S, 0 <= k <= Z.log2 B -> k < WU -> 0 <= a -> a + Z.of_nat c * k <= WU ->
  0 <= S < 2 ^ a ->
  peq bmin bmax (ib_loop F tb bmin WU k (wrap W (ycut B k)) (2 ^ k - 1) c S) (chunks F bmin B k c S).
Proof.
  intros F WU k c. induction c as [|c IH]; intros a S Hk HkU Ha HU HS; [reflexivity|].
  cbn [ib_loop chunks]. apply peq_bind_r with (P := fun x => 0 <= x < 2 ^ k).
  - apply peq_retry. apply att_peq. exact Hk.
  - apply patt_rets. lia.
  - intros x Hx. destruct (Z.leb_spec WU k); [lia|].
    rewrite Nat2Z.inj_succ, Z.mul_succ_l in HU.
    assert (HB: 0 <= S * 2 ^ k <= 2 ^ (a + k) - 2 ^ k).
    { rewrite Z.pow_add_r by lia. split; [apply Z.mul_nonneg_nonneg; lia|].
      replace (2 ^ a * 2 ^ k - 2 ^ k) with ((2 ^ a - 1) * 2 ^ k) by ring. apply Z.mul_le_mono_nonneg_r; lia. }
    assert (2 ^ (a + k) <= 2 ^ WU).
    { assert (0 <= Z.of_nat c * k) by (apply Z.mul_nonneg_nonneg; lia). apply Z.pow_le_mono_r; lia. }
    rewrite (wrap_small WU (S * 2 ^ k)) by lia. rewrite (wrap_small WU (S * 2 ^ k + x)) by lia.
    apply IH with (a := a + k); lia.
Qed.

Lemma chunks_rets : forall F k c a S, 0 <= k -> 0 <= a -> 0 <= S < 2 ^ a ->
  rets bmin bmax (chunks F bmin B k c S) (fun x => 0 <= x < 2 ^ (a + Z.of_nat c * k)).
Proof.
  intros F k c. induction c as [|c IH]; intros a S Hk Ha HS.
  - cbn [chunks rets]. change (Z.of_nat 0) with 0. rewrite Z.mul_0_l, Z.add_0_r. exact HS.
  - cbn [chunks]. eapply rets_bind; [apply patt_rets; exact Hk|]. intros x Hx. cbn beta in Hx.
    replace (a + Z.of_nat (Datatypes.S c) * k) with (a + k + Z.of_nat c * k) by lia.
    apply IH; [lia|lia|]. rewrite Z.pow_add_r by lia.
    assert (HX: 0 <= S * 2 ^ k <= (2 ^ a - 1) * 2 ^ k).
    { split; [apply Z.mul_nonneg_nonneg; lia|apply Z.mul_le_mono_nonneg_r; lia]. }
    replace ((2 ^ a - 1) * 2 ^ k) with (2 ^ a * 2 ^ k - 2 ^ k) in HX by ring. lia.
Qed.

Definition pure_ib (F : nat) (w n : Z) : prog Z :=
  S <~ chunks F bmin B (w / n) (Z.to_nat (n - w mod n)) 0;;
  chunks F bmin B (w / n + 1) (Z.to_nat (w mod n)) S.

Lemma next_peq : forall F WU w, 1 <= w <= WU -> B <> 3 \/ w <= 2 ->
  exists n, good_n w n /\ peq bmin bmax (ib_next F tb bmin bmax WU w) (pure_ib F w n).
Proof.
  intros F WU w Hw H3. destruct (params_ok w ltac:(lia) H3) as (n & y1 & m1 & HG & EP & HP).
  exists n. split; [exact HG|]. unfold ib_next, pure_ib.
  destruct (good_n_w0 w n HG) as [Hk Hk1]. destruct HG as [[G1 G2] G3].
  assert (EU: usub tb bmax bmin = Some (B - 1)).
  { rewrite (eng_sub tb bmin bmax Hb bmax) by (pose proof ib_B; lia). f_equal. ring. }
  rewrite EU. cbn [plift pbind]. rewrite EP. cbn [plift pbind fst snd ib_w0 ib_n0 ib_y0 ib_y1 ib_m0 ib_m1].
  pose proof (Z.div_mod w n ltac:(lia)) as D. pose proof (Z.mod_pos_bound w n ltac:(lia)) as M.
  destruct (Z.eqb_spec n 1) as [E1|E1].
  - rewrite E1, Z.mod_1_r, Z.div_1_r in *. change (Z.to_nat (1 - 0)) with 1%nat. change (Z.to_nat 0) with 0%nat.
    cbn [chunks]. apply peq_trans with (x <~ retry F (patt bmin B w);; PRet (wrap WU x)).
    + apply peq_bind; [apply peq_retry; apply att_peq; lia|]. intro x. reflexivity.
    + assert (K: forall p : prog Z, rets bmin bmax p (fun x => 0 <= x < 2 ^ w) ->
        peq bmin bmax (pbind p (fun x => PRet (wrap WU x))) (S <~ pbind p (fun x => PRet (0 * 2 ^ w + x));; PRet S)).
      { induction p as [x|g IHp| |]; cbn [pbind peq rets]; auto.
        intro Hx. assert (2 ^ w <= 2 ^ WU) by (apply Z.pow_le_mono_r; lia). rewrite wrap_small by lia. ring. }
      apply K. apply patt_rets. lia.
  - replace (n - (n - w mod n)) with (w mod n) by ring.
    assert (HkW: w / n + 1 <= w).
    { assert (2 * (w / n) <= n * (w / n)) by (apply Z.mul_le_mono_nonneg_r; lia). lia. }
    assert (EN: Z.of_nat (Z.to_nat (n - w mod n)) = n - w mod n) by (apply Z2Nat.id; lia).
    assert (ER: Z.of_nat (Z.to_nat (w mod n)) = w mod n) by (apply Z2Nat.id; lia).
    assert (Esum: 0 + (n - w mod n) * (w / n) + (w mod n) * (w / n + 1) = w).
    { rewrite D at 5. ring. }
    assert (0 <= (w mod n) * (w / n + 1)) by (apply Z.mul_nonneg_nonneg; lia).
    assert (0 <= (n - w mod n) * (w / n)) by (apply Z.mul_nonneg_nonneg; lia).
    apply peq_bind_r with (P := fun x => 0 <= x < 2 ^ (0 + (n - w mod n) * (w / n))).
    + apply loop_peq with (a := 0); rewrite ?EN; try lia.
    + pose proof (chunks_rets F (w / n) (Z.to_nat (n - w mod n)) 0 0 ltac:(lia) ltac:(lia) ltac:(lia)) as HR.
      rewrite EN in HR. exact HR.
    + intros S HS. cbn beta in HS. destruct (Z.eq_dec (w mod n) 0) as [Z0|Z0].
      * rewrite Z0. reflexivity.
      * destruct (HP Z0) as [-> ->].
        assert (w / n + 1 < w).
        { assert (2 * (w / n) <= n * (w / n)) by (apply Z.mul_le_mono_nonneg_r; lia). lia. }
        apply loop_peq with (a := 0 + (n - w mod n) * (w / n)); rewrite ?ER; try lia.
Qed.

(* ---- uniformity ---- *)
Lemma patt_uniform : forall k, 0 <= k -> UniformAtt bmin bmax (patt bmin B k) 0 (Z.to_nat (2 ^ k)).
Proof.
  intros k Hk n f g H1 H2. destruct n as [|n]; [reflexivity|]. cbn [patt E].
  specialize (H1 n). specialize (H2 n).
  assert (Hp: 0 < 2 ^ k) by (apply Z.pow_pos_nonneg; lia). pose proof ib_B.
  set (a := Z.to_nat (2 ^ k)) in *. set (b := Z.to_nat (B / 2 ^ k)).
  assert (Ea: Z.of_nat a = 2 ^ k) by (apply Z2Nat.id; lia).
  assert (Eb: Z.of_nat b = B / 2 ^ k) by (apply Z2Nat.id; apply Z.div_pos; lia).
  assert (Eab: Z.of_nat (a * b) = ycut B k) by (unfold ycut; rewrite Nat2Z.inj_mul, Ea, Eb; reflexivity).
  assert (Hc: (a * b <= Z.to_nat B)%nat).
  { apply Nat2Z.inj_le. rewrite Eab, Z2Nat.id by lia. unfold ycut. apply Z.mul_div_le. lia. }
  assert (K: forall (q : option Z -> nat -> Z),
    ssum (Z.to_nat B) (fun i => q (if bmin + i - bmin <? ycut B k then Some ((bmin + i - bmin) mod 2 ^ k) else None) n) =
    Z.of_nat b * ssum a (fun w => q (Some (0 + w)) n) + Z.of_nat (Z.to_nat B - a * b) * q None n).
  { intro q. rewrite (ssum_split (a * b)) by exact Hc. f_equal.
    - rewrite ssum_radix. rewrite (ssum_ext b _ (fun _ => ssum a (fun w => q (Some (0 + w)) n))); [apply ssum_const|].
      intros j Hj. apply ssum_ext. intros i Hi. replace (bmin + (i + Z.of_nat a * j) - bmin) with (i + Z.of_nat a * j) by ring.
      rewrite Ea in *.
      assert (2 ^ k * (j + 1) <= 2 ^ k * (B / 2 ^ k)) by (apply Z.mul_le_mono_nonneg_l; lia).
      destruct (Z.ltb_spec (i + 2 ^ k * j) (ycut B k)) as [L|L]; [|unfold ycut in L; lia].
      do 2 f_equal. rewrite Z.mul_comm, Z_mod_plus_full. apply Z.mod_small. lia.
    - rewrite (ssum_ext _ _ (fun _ => q None n)); [apply ssum_const|].
      intros i Hi. rewrite Eab. destruct (Z.ltb_spec (bmin + (ycut B k + i) - bmin) (ycut B k)); [lia|reflexivity]. }
  cbn [E]. rewrite (K f), (K g), H1, H2. reflexivity.
Qed.

Lemma Uniform_digit : forall p q a k, 0 <= a -> 0 <= k ->
  Uniform bmin bmax p 0 (Z.to_nat (2 ^ a)) -> Uniform bmin bmax q 0 (Z.to_nat (2 ^ k)) ->
  Uniform bmin bmax (S <~ p;; x <~ q;; PRet (S * 2 ^ k + x)) 0 (Z.to_nat (2 ^ (a + k))).
Proof.
  intros p q a k Ha Hk Hp Hq n f g Hs. rewrite !E_bind. apply Hp. intro m.
  assert (K: forall h : Z -> nat -> Z,
    ssum (Z.to_nat (2 ^ a)) (fun w => E bmin bmax (x <~ q;; PRet ((0 + w) * 2 ^ k + x)) m h) =
    E bmin bmax q m (fun x m' => ssum (Z.to_nat (2 ^ a)) (fun w => h (w * 2 ^ k + x) m'))).
  { intro h. rewrite E_ssum. apply ssum_ext. intros i Hi. rewrite E_bind. apply E_ext. intros x m'. reflexivity. }
  rewrite !K. apply Hq. intro m'.
  assert (0 < 2 ^ a) by (apply Z.pow_pos_nonneg; lia). assert (0 < 2 ^ k) by (apply Z.pow_pos_nonneg; lia).
  assert (L: forall h : Z -> nat -> Z,
    ssum (Z.to_nat (2 ^ k)) (fun w => ssum (Z.to_nat (2 ^ a)) (fun w0 => h (w0 * 2 ^ k + (0 + w)) m')) =
    ssum (Z.to_nat (2 ^ (a + k))) (fun w => h (0 + w) m')).
  { intro h. rewrite ssum_swap. rewrite Z.pow_add_r, Z.mul_comm, Z2Nat.inj_mul, ssum_radix by lia.
    apply ssum_ext. intros i Hi. apply ssum_ext. intros j Hj. f_equal. rewrite Z2Nat.id by lia. ring. }
  rewrite !L. apply Hs.
Qed.

Lemma Uniform_chunks : forall F k c a p, 0 <= a -> 0 <= k ->
  Uniform bmin bmax p 0 (Z.to_nat (2 ^ a)) ->
  Uniform bmin bmax (S <~ p;; chunks F bmin B k c S) 0 (Z.to_nat (2 ^ (a + Z.of_nat c * k))).
Proof.
  intros F k c. induction c as [|c IH]; intros a p Ha Hk Hp.
  - change (Z.of_nat 0) with 0. rewrite Z.mul_0_l, Z.add_0_r.
    intros n f g Hs. cbn [chunks]. rewrite !E_bind. cbn [E]. apply Hp. exact Hs.
  - replace (a + Z.of_nat (S c) * k) with (a + k + Z.of_nat c * k) by lia.
    intros n f g Hs.
    pose proof (IH (a + k) (S <~ p;; x <~ retry F (patt bmin B k);; PRet (S * 2 ^ k + x)) ltac:(lia) Hk
      (Uniform_digit p (retry F (patt bmin B k)) a k Ha Hk Hp (Uniform_retry _ _ _ _ _ F (patt_uniform k Hk))) n f g Hs) as HU.
    assert (K: forall h : Z -> nat -> Z, E bmin bmax (S <~ p;; chunks F bmin B k (Datatypes.S c) S) n h =
      E bmin bmax (S0 <~ (S <~ p;; x <~ retry F (patt bmin B k);; PRet (S * 2 ^ k + x));; chunks F bmin B k c S0) n h).
    { intro h. rewrite !E_bind. apply E_ext. intros S m. cbn [chunks]. rewrite !E_bind. apply E_ext. intros x m'. reflexivity. }
    rewrite !K. exact HU.
Qed.

Lemma pure_uniform : forall F w n, good_n w n -> Uniform bmin bmax (pure_ib F w n) 0 (Z.to_nat (2 ^ w)).
Proof.
  intros F w n HG. destruct (good_n_w0 w n HG) as [Hk _]. destruct HG as [[G1 G2] G3].
  pose proof (Z.div_mod w n ltac:(lia)) as D. pose proof (Z.mod_pos_bound w n ltac:(lia)) as M.
  assert (EN: Z.of_nat (Z.to_nat (n - w mod n)) = n - w mod n) by (apply Z2Nat.id; lia).
  assert (ER: Z.of_nat (Z.to_nat (w mod n)) = w mod n) by (apply Z2Nat.id; lia).
  assert (H0: 0 <= (n - w mod n) * (w / n)) by (apply Z.mul_nonneg_nonneg; lia).
  assert (U0: Uniform bmin bmax (PRet 0) 0 (Z.to_nat (2 ^ 0))).
  { intros m f g Hs. cbn [E]. exact (Hs m). }
  pose proof (Uniform_chunks F (w / n) (Z.to_nat (n - w mod n)) 0 (PRet 0) ltac:(lia) ltac:(lia) U0) as U1.
  rewrite EN in U1. cbn [pbind] in U1.
  pose proof (Uniform_chunks F (w / n + 1) (Z.to_nat (w mod n)) _ _ (Z.add_nonneg_nonneg _ _ (Z.le_refl 0) H0) ltac:(lia) U1) as U2.
  rewrite ER in U2. replace (0 + (n - w mod n) * (w / n) + w mod n * (w / n + 1)) with w in U2; [exact U2|].
  rewrite D at 1. ring.
Qed.

(* ---- range, absence of undefined behaviour ---- *)
Lemma pure_wp : forall F w n, good_n w n -> forall l, (l < F)%nat ->
  wp bmin bmax (pure_ib F w n) l (fun x _ => 0 <= x < 2 ^ w).
Proof.
  intros F w n HG l Hl. destruct (good_n_w0 w n HG) as [Hk _]. destruct HG as [[G1 G2] G3].
  pose proof (Z.div_mod w n ltac:(lia)) as D. pose proof (Z.mod_pos_bound w n ltac:(lia)) as M.
  assert (EN: Z.of_nat (Z.to_nat (n - w mod n)) = n - w mod n) by (apply Z2Nat.id; lia).
  assert (ER: Z.of_nat (Z.to_nat (w mod n)) = w mod n) by (apply Z2Nat.id; lia).
  assert (H0: 0 <= (n - w mod n) * (w / n)) by (apply Z.mul_nonneg_nonneg; lia).
  assert (C: forall k, 0 <= k -> forall c a S l, (l < F)%nat -> 0 <= a -> 0 <= S < 2 ^ a ->
    wp bmin bmax (chunks F bmin B k c S) l (fun x _ => 0 <= x < 2 ^ (a + Z.of_nat c * k))).
  { intros k Hk0 c. induction c as [|c IH]; intros a S l0 Hl0 Ha HS.
    - cbn [chunks wp]. change (Z.of_nat 0) with 0. rewrite Z.mul_0_l, Z.add_0_r. exact HS.
    - cbn [chunks]. apply wp_bind.
      apply wp_mono with (Q := fun x m => 0 <= x < 2 ^ k).
      + intros x m Hm Hx. replace (a + Z.of_nat (Datatypes.S c) * k) with (a + k + Z.of_nat c * k) by lia.
        apply IH; [lia|lia|]. rewrite Z.pow_add_r by lia.
        assert (HX: 0 <= S * 2 ^ k <= (2 ^ a - 1) * 2 ^ k).
        { split; [apply Z.mul_nonneg_nonneg; lia|apply Z.mul_le_mono_nonneg_r; lia]. }
        replace ((2 ^ a - 1) * 2 ^ k) with (2 ^ a * 2 ^ k - 2 ^ k) in HX by ring. lia.
      + apply wp_retry; [|exact Hl0]. intro m. destruct m as [|m]; [exact I|]. unfold patt. cbn [wp].
        intros v Hv. split; [lia|]. intros x Hx. destruct (v - bmin <? ycut B k); [|discriminate].
        assert (E: (v - bmin) mod 2 ^ k = x) by congruence. rewrite <- E.
        apply Z.mod_pos_bound. apply Z.pow_pos_nonneg; lia. }
  unfold pure_ib. apply wp_bind. eapply wp_mono; [|apply (C (w / n) ltac:(lia) _ 0 0 l Hl); [lia|lia]].
  intros S m Hm HS. cbn beta in HS. rewrite EN in HS.
  eapply wp_mono; [|apply (C (w / n + 1) ltac:(lia) _ _ S m ltac:(lia) (Z.add_nonneg_nonneg _ _ (Z.le_refl 0) H0) HS)].
  intros x m' Hm' Hx. cbn beta in Hx. rewrite ER in Hx.
  replace (0 + (n - w mod n) * (w / n) + w mod n * (w / n + 1)) with w in Hx; [exact Hx|].
  rewrite D at 1. ring.
Qed.

Lemma ib_range_thm : forall F WU w ds, 1 <= w <= WU -> B <> 3 \/ w <= 2 -> valid_draws bmin bmax ds -> (length ds < F)%nat ->
  exec (ib_next F tb bmin bmax WU w) ds = OMore \/
  exists v rest, exec (ib_next F tb bmin bmax WU w) ds = ORet v rest /\ ib_min <= v <= ib_max w.
Proof.
  intros F WU w ds Hw H3 Hd HF. destruct (next_peq F WU w Hw H3) as (n & HG & HE).
  rewrite (peq_exec _ _ _ _ _ ds HE Hd).
  destruct (wp_exec _ _ _ _ ds _ (pure_wp F w n HG (length ds) HF) Hd) as [H|(a & rest & H1 & H2 & _)].
  - left. exact H.
  - right. exists a, rest. split; [exact H1|]. unfold ib_min, ib_max. lia.
Qed.

Lemma ib_uniform_thm : forall F WU w n v1 v2, 1 <= w <= WU -> B <> 3 \/ w <= 2 ->
  0 <= v1 < 2 ^ w -> 0 <= v2 < 2 ^ w ->
  count bmin bmax (ib_next F tb bmin bmax WU w) n v1 = count bmin bmax (ib_next F tb bmin bmax WU w) n v2.
Proof.
  intros F WU w n v1 v2 Hw H3 H1 H2. destruct (next_peq F WU w Hw H3) as (k & HG & HE).
  rewrite !(peq_count _ _ _ _ _ _ HE).
  apply Uniform_count with (lo := 0) (len := Z.to_nat (2 ^ w)).
  - apply pure_uniform. exact HG.
  - rewrite Z2Nat.id; lia.
  - rewrite Z2Nat.id; lia.
Qed.

(* every value is returned for some outputs *)
Lemma patt_exec : forall F k x rest, (0 < F)%nat -> 0 <= k <= Z.log2 B -> 0 <= x < 2 ^ k ->
  exec (retry F (patt bmin B k)) (bmin + x :: rest) = ORet x rest.
Proof.
  intros F k x rest HF Hk Hx. destruct F as [|F]; [lia|]. cbn [retry patt pbind exec].
  pose proof (ycut_bounds B k ltac:(pose proof ib_B; lia) Hk).
  replace (bmin + x - bmin) with x by ring.
  destruct (Z.ltb_spec x (ycut B k)); [|lia]. rewrite Z.mod_small by lia. reflexivity.
Qed.

Lemma chunks_exec : forall F k c S x rest, (0 < F)%nat -> 0 <= k <= Z.log2 B -> 0 <= x < 2 ^ (Z.of_nat c * k) ->
  exists ds, length ds = c /\ valid_draws bmin bmax ds /\
    exec (chunks F bmin B k c S) (ds ++ rest) = ORet (S * 2 ^ (Z.of_nat c * k) + x) rest.
Proof.
  intros F k c. induction c as [|c IH]; intros S x rest HF Hk Hx.
  - exists []. split; [reflexivity|]. split; [constructor|]. cbn [chunks app exec].
    change (Z.of_nat 0) with 0 in *. rewrite Z.mul_0_l, Z.pow_0_r in *. f_equal. lia.
  - assert (Ec: Z.of_nat (Datatypes.S c) * k = k + Z.of_nat c * k) by lia. rewrite Ec in *.
    assert (0 <= Z.of_nat c * k) by (apply Z.mul_nonneg_nonneg; lia).
    rewrite Z.pow_add_r in * by lia. set (P := 2 ^ (Z.of_nat c * k)) in *.
    assert (HP: 0 < P) by (apply Z.pow_pos_nonneg; lia).
    assert (Hq: 0 <= x / P < 2 ^ k).
    { split; [apply Z.div_pos; lia|]. apply Z.div_lt_upper_bound; lia. }
    destruct (IH (S * 2 ^ k + x / P) (x mod P) rest HF Hk (Z.mod_pos_bound x P HP)) as (ds & L & V & X).
    exists (bmin + x / P :: ds). split; [cbn [length]; lia|]. split.
    + constructor; [|exact V]. pose proof (ycut_bounds B k ltac:(pose proof ib_B; lia) Hk). lia.
    + cbn [chunks app]. rewrite (exec_bind_ret _ _ _ _ _ _ _ (patt_exec F k (x / P) (ds ++ rest) HF Hk Hq)).
      rewrite X. f_equal. pose proof (Z.div_mod x P ltac:(lia)) as DM.
      transitivity (S * (2 ^ k * P) + (P * (x / P) + x mod P)); [ring|]. rewrite <- DM. reflexivity.
Qed.

Lemma ib_onto_thm : forall F WU w v, (0 < F)%nat -> 1 <= w <= WU -> B <> 3 \/ w <= 2 -> ib_min <= v <= ib_max w ->
  exists ds, valid_draws bmin bmax ds /\ exec (ib_next F tb bmin bmax WU w) ds = ORet v [] /\
    Z.of_nat (length ds) <= w.
Proof.
  intros F WU w v HF Hw H3 Hv'.
  assert (Hv: 0 <= v < 2 ^ w) by (unfold ib_min, ib_max in Hv'; lia). clear Hv'. destruct (next_peq F WU w Hw H3) as (n & HG & HE).
  destruct (good_n_w0 w n HG) as [Hk Hk1]. destruct HG as [[G1 G2] G3].
  pose proof (Z.div_mod w n ltac:(lia)) as D. pose proof (Z.mod_pos_bound w n ltac:(lia)) as M.
  assert (EN: Z.of_nat (Z.to_nat (n - w mod n)) = n - w mod n) by (apply Z2Nat.id; lia).
  assert (ER: Z.of_nat (Z.to_nat (w mod n)) = w mod n) by (apply Z2Nat.id; lia).
  assert (H0: 0 <= (n - w mod n) * (w / n)) by (apply Z.mul_nonneg_nonneg; lia).
  assert (H1: 0 <= w mod n * (w / n + 1)) by (apply Z.mul_nonneg_nonneg; lia).
  assert (Ew: (n - w mod n) * (w / n) + w mod n * (w / n + 1) = w) by (rewrite D at 5; ring).
  set (P := 2 ^ (w mod n * (w / n + 1))).
  assert (HP: 0 < P) by (apply Z.pow_pos_nonneg; lia).
  assert (Hq: 0 <= v / P < 2 ^ ((n - w mod n) * (w / n))).
  { split; [apply Z.div_pos; lia|]. apply Z.div_lt_upper_bound; [lia|]. unfold P.
    rewrite <- Z.pow_add_r by lia. rewrite Z.add_comm, Ew. lia. }
  assert (X2: exists ds, length ds = Z.to_nat (w mod n) /\ valid_draws bmin bmax ds /\
    exec (chunks F bmin B (w / n + 1) (Z.to_nat (w mod n)) (v / P)) (ds ++ []) = ORet v []).
  { destruct (Z.eq_dec (w mod n) 0) as [Z0|Z0].
    - exists []. rewrite Z0. split; [reflexivity|]. split; [constructor|]. cbn [chunks app exec Z.to_nat].
      f_equal. unfold P. rewrite Z0, Z.mul_0_l, Z.pow_0_r. apply Z.div_1_r.
    - destruct (chunks_exec F (w / n + 1) (Z.to_nat (w mod n)) (v / P) (v mod P) [] HF ltac:(specialize (Hk1 Z0); lia)) as (ds & L & V & X).
      + rewrite ER. apply Z.mod_pos_bound. exact HP.
      + exists ds. split; [exact L|]. split; [exact V|]. rewrite X. f_equal. rewrite ER. fold P.
        rewrite (Z.mul_comm (v / P) P). symmetry. apply Z.div_mod. lia. }
  destruct X2 as (d2 & L2 & V2 & X2).
  destruct (chunks_exec F (w / n) (Z.to_nat (n - w mod n)) 0 (v / P) (d2 ++ []) HF ltac:(lia)) as (d1 & L1 & V1 & X1).
  { rewrite EN. exact Hq. }
  exists (d1 ++ d2).
  assert (V: valid_draws bmin bmax (d1 ++ d2)) by (apply Forall_app; split; assumption).
  split; [exact V|]. split.
  - rewrite (peq_exec _ _ _ _ _ _ HE V). unfold pure_ib. rewrite app_nil_r in X1, X2.
    rewrite (exec_bind_ret _ _ _ _ _ _ _ X1). rewrite Z.mul_0_l, Z.add_0_l. exact X2.
  - rewrite app_length, L1, L2, Nat2Z.inj_add, EN, ER. lia.
Qed.
End Ib.

(* engines with three values *)
Lemma ib_three : forall F tb bmin WU w, eng_wf tb bmin (bmin + 2) -> bits tb <= 64 -> 3 <= w ->
  ib_next F tb bmin (bmin + 2) WU w = PUB.
Proof.
  intros F tb bmin WU w Hb HW Hw. unfold ib_next.
  rewrite (eng_sub tb bmin (bmin + 2) Hb (bmin + 2)) by lia. cbn [plift pbind].
  replace (bmin + 2 - bmin) with 2 by ring. pose proof (ib_W tb bmin (bmin + 2) Hb) as H2.
  assert (E: ib_params (bits tb) w 2 = None); [|rewrite E; reflexivity].
  pose proof (n_ok tb bmin (bmin + 2) Hb HW w) as EN. replace (bmin + 2 - bmin + 1) with 3 in EN by ring.
  change (3 - 1) with 2 in EN. change (Z.log2 3) with 1 in EN. rewrite Z.div_1_r in EN.
  replace (w + 1 - 1) with w in EN by ring. unfold ib_params. rewrite EN. cbn [bind].
  destruct (calc_ok tb bmin (bmin + 2) Hb w w ltac:(lia)) as (y1 & m1 & EC & _).
  { rewrite Z.div_same by lia. replace (bmin + 2 - bmin + 1) with 3 by ring. change (Z.log2 3) with 1. lia. }
  replace (bmin + 2 - bmin + 1) with 3 in EC by ring. change (3 - 1) with 2 in EC. rewrite EC. cbn [bind ib_y0].
  rewrite Z.div_same by lia. change (ycut 3 1) with 2.
  assert (4 <= 2 ^ bits tb) by (change 4 with (2 ^ 2); apply Z.pow_le_mono_r; lia).
  rewrite (wrap_small _ 2) by lia. change (2 - 2 + 1) with 1. rewrite wrap_small by lia.
  rewrite (Z.div_small 2 w) by lia. change (0 <? 1) with true. cbv iota.
  unfold ib_calc. rewrite (Z.div_small w (w + 1)) by lia. reflexivity.
Qed.
