(* seed_impl.hpp: generate *)
From Verif Require Import Base ProgModel ProgSpec ProgProofs UIntModel UIntProofs IbModel IbProofs GenSpec GenModel.
Ltac Zify.zify_post_hook ::= idtac.

(* ---- words ---- *)
Lemma words_length : forall n S, length (words n S) = n.
Proof. intros. unfold words. rewrite map_length, seq_length. reflexivity. Qed.
Lemma words_S : forall k S, words (k + 1) S = words k S ++ [S / 2 ^ (32 * Z.of_nat k) mod 2 ^ 32].
Proof. intros. unfold words. rewrite Nat.add_comm. cbn [Nat.add]. rewrite seq_S, map_app. reflexivity. Qed.
Lemma words_ext : forall k S T, 0 <= S -> 0 <= T -> S mod 2 ^ (32 * Z.of_nat k) = T mod 2 ^ (32 * Z.of_nat k) -> words k S = words k T.
Proof.
  intros k S T HS HT E. unfold words. apply map_ext_in. intros j Hj. apply in_seq in Hj.
  assert (G : forall X, X / 2 ^ (32 * Z.of_nat j) mod 2 ^ 32 = (X mod 2 ^ (32 * Z.of_nat k)) / 2 ^ (32 * Z.of_nat j) mod 2 ^ 32).
  { intros X. assert (P : 2 ^ (32 * Z.of_nat k) = 2 ^ (32 * Z.of_nat j) * (2 ^ 32 * 2 ^ (32 * Z.of_nat k - 32 * Z.of_nat j - 32))).
    { rewrite <- !Z.pow_add_r by lia. f_equal. lia. }
    assert (P1 : 0 < 2 ^ (32 * Z.of_nat j)) by (apply Z.pow_pos_nonneg; lia).
    assert (P2 : 0 < 2 ^ (32 * Z.of_nat k - 32 * Z.of_nat j - 32)) by (apply Z.pow_pos_nonneg; lia).
    set (a := 2 ^ (32 * Z.of_nat j)) in *. set (b := 2 ^ (32 * Z.of_nat k - 32 * Z.of_nat j - 32)) in *.
    rewrite P. rewrite Z.rem_mul_r by lia. rewrite Z.mul_comm, Z.div_add by lia.
    rewrite (Z.div_small (X mod a) a) by (apply Z.mod_pos_bound; lia). rewrite Z.add_0_l.
    rewrite Z.rem_mul_r by lia. rewrite (Z.mul_comm (2 ^ 32)), Z.mod_add by lia. rewrite Zmod_mod. reflexivity. }
  rewrite (G S), (G T), E. reflexivity.
Qed.
Lemma words_low : forall k S t v, 0 <= S -> 0 <= v -> 32 * Z.of_nat k <= t -> words k (S + 2 ^ t * v) = words k S.
Proof.
  intros k S t v HS Hv Ht. assert (0 < 2 ^ t) by (apply Z.pow_pos_nonneg; lia). apply words_ext; [nia|lia|].
  assert (P : 2 ^ t = 2 ^ (32 * Z.of_nat k) * 2 ^ (t - 32 * Z.of_nat k)) by (rewrite <- Z.pow_add_r by lia; f_equal; lia).
  rewrite P. replace (S + 2 ^ (32 * Z.of_nat k) * 2 ^ (t - 32 * Z.of_nat k) * v)
    with (S + (2 ^ (t - 32 * Z.of_nat k) * v) * 2 ^ (32 * Z.of_nat k)) by ring.
  apply Z.mod_add. apply Z.pow_nonzero; lia.
Qed.
Lemma words_step : forall k S, 0 <= S -> S / 2 ^ (32 * Z.of_nat k) / 2 ^ 32 = S / 2 ^ (32 * Z.of_nat (k + 1)).
Proof.
  intros k S HS. rewrite Z.div_div by (try apply Z.pow_nonzero; try apply Z.pow_pos_nonneg; lia).
  f_equal. rewrite <- Z.pow_add_r by lia. f_equal. lia.
Qed.

(* ---- the body of the loop ---- *)
(* S: value of the digits so far, t: number of bits *)
Definition ginv (B : Z) (n : nat) (S t : Z) (st : gst) : Prop :=
  0 <= g_rem st < 32 /\ t = 32 * Z.of_nat (length (g_out st)) + g_rem st /\ 0 <= S < 2 ^ t /\
  g_out st = words (length (g_out st)) S /\ g_saved st = S / 2 ^ (32 * Z.of_nat (length (g_out st))) /\
  (length (g_out st) < n)%nat /\ (B mod 32 = 0 -> g_rem st = 0).

Definition body_ok (B L : Z) (n : nat) (body : gst -> Z -> option (list Z + gst)) : Prop :=
  forall S t st x, ginv B n S t st -> 0 <= x < L ->
  if 32 * Z.of_nat n <=? t + B
  then body st x = Some (inl (words n (S + 2 ^ t * (x mod 2 ^ B))))
  else exists st', body st x = Some (inr st') /\ ginv B n (S + 2 ^ t * (x mod 2 ^ B)) (t + B) st'.

Lemma put_ok : forall n k T, (k < n)%nat ->
  put n (words k T) (T / 2 ^ (32 * Z.of_nat k) mod 2 ^ 32) = Some (words (k + 1) T).
Proof.
  intros n k T Hk. unfold put. rewrite words_length. destruct (Nat.ltb_spec k n); [|lia]. rewrite words_S. reflexivity.
Qed.
Lemma full_ok : forall n k T, full n (words k T) = (k =? n)%nat.
Proof. intros. unfold full. rewrite words_length. reflexivity. Qed.

Lemma pos_pow : forall e, 0 <= e -> 0 < 2 ^ e.
Proof. intros. apply Z.pow_pos_nonneg; lia. Qed.

Lemma gi_words_ok : forall W n T, 33 <= W -> 0 <= T -> forall cnt k, (k < n)%nat ->
  gi_words W n cnt (T / 2 ^ (32 * Z.of_nat k)) (words k T) =
    Some (if (n <=? k + cnt)%nat then inl (words n T)
          else inr (T / 2 ^ (32 * Z.of_nat (k + cnt)), words (k + cnt) T)).
Proof.
  intros W n T HW HT. induction cnt as [|c IH]; intros k Hk.
  - rewrite Nat.add_0_r. destruct (Nat.leb_spec n k); [lia|]. reflexivity.
  - cbn [gi_words]. unfold shrW, pw. destruct (Z.leb_spec (Z.max 32 W) 32); [lia|].
    change (32 <? 0) with false. cbn [orb bind]. unfold wrap. rewrite put_ok by exact Hk. cbn [bind].
    rewrite full_ok. rewrite Z.shiftr_div_pow2 by lia. rewrite words_step by exact HT.
    destruct (Nat.eqb_spec (k + 1) n) as [<-|Hne].
    + destruct (Nat.leb_spec (k + 1) (k + S c)); [reflexivity|lia].
    + rewrite IH by lia. replace (k + 1 + c)%nat with (k + S c)%nat by lia. reflexivity.
Qed.
Lemma gr_words_ok : forall n T, 0 <= T -> forall cnt k v, (k < n)%nat -> 0 <= snd v ->
  Z.shiftr (fst v) (snd v) = T / 2 ^ (32 * Z.of_nat k) ->
  exists v', gr_words n cnt v (words k T) =
    Some (if (n <=? k + cnt)%nat then inl (words n T) else inr (v', words (k + cnt) T)) /\
    Z.shiftr (fst v') (snd v') = T / 2 ^ (32 * Z.of_nat (k + cnt)).
Proof.
  intros n T HT. induction cnt as [|c IH]; intros k v Hk Hv Ev.
  - rewrite Nat.add_0_r. destruct (Nat.leb_spec n k); [lia|]. exists v. split; [reflexivity|exact Ev].
  - cbn [gr_words]. unfold gr_low. rewrite Ev. rewrite put_ok by exact Hk. cbn [bind]. rewrite full_ok.
    assert (Ev' : Z.shiftr (fst v) (snd v + 32) = T / 2 ^ (32 * Z.of_nat (k + 1))).
    { rewrite <- words_step by exact HT. rewrite <- Ev. rewrite <- Z.shiftr_shiftr by lia.
      rewrite (Z.shiftr_div_pow2 _ 32) by lia. reflexivity. }
    destruct (Nat.eqb_spec (k + 1) n) as [<-|Hne].
    + destruct (Nat.leb_spec (k + 1) (k + S c)) as [_|]; [|lia].
      exists (T / 2 ^ (32 * Z.of_nat (k + S c)), 0). split; [reflexivity|]. cbn [fst snd]. apply Z.shiftr_0_r.
    + destruct (IH (k + 1)%nat (fst v, snd v + 32) ltac:(lia) ltac:(cbn [snd]; lia) Ev') as (v' & E & E').
      replace (k + 1 + c)%nat with (k + S c)%nat in * by lia. exists v'. split; [exact E|exact E'].
Qed.

(* arithmetic of the word under construction *)
Lemma lor_disjoint : forall a b r, 0 <= r -> 0 <= a < 2 ^ r -> 0 <= b -> Z.lor a (b * 2 ^ r) = a + b * 2 ^ r.
Proof.
  intros a b r Hr Ha Hb. assert (D : Z.land a (b * 2 ^ r) = 0).
  { apply Z.bits_inj'. intros i Hi. rewrite Z.land_spec, Z.bits_0.
    destruct (Z.lt_ge_cases i r) as [H|H].
    - rewrite Z.mul_pow2_bits_low by lia. apply andb_false_r.
    - replace (Z.testbit a i) with false; [reflexivity|]. symmetry.
      rewrite Z.testbit_odd, Z.shiftr_div_pow2 by lia. rewrite Z.div_small; [reflexivity|].
      split; [lia|]. apply Z.lt_le_trans with (2 ^ r); [lia|]. apply Z.pow_le_mono_r; lia. }
  rewrite <- Z.lxor_lor by exact D. symmetry. apply Z.add_nocarry_lxor. exact D.
Qed.

Lemma word_join : forall saved v r, 0 <= r < 32 -> 0 <= saved < 2 ^ r -> 0 <= v ->
  Z.lor saved (wrap 32 (Z.shiftl (v mod 2 ^ (32 - r)) r)) = (saved + 2 ^ r * v) mod 2 ^ 32.
Proof.
  intros saved v r Hr Hs Hv. pose proof (pos_pow r ltac:(lia)) as P1. pose proof (pos_pow (32 - r) ltac:(lia)) as P2.
  assert (P : 2 ^ 32 = 2 ^ (32 - r) * 2 ^ r) by (rewrite <- Z.pow_add_r by lia; f_equal; lia).
  pose proof (Z.mod_pos_bound v _ P2) as Bm. rewrite Z.shiftl_mul_pow2 by lia. unfold wrap.
  rewrite Z.mod_small.
  2:{ rewrite P. split; [nia|]. apply Z.mul_lt_mono_pos_r; lia. }
  rewrite lor_disjoint by lia.
  apply Z.mod_unique_pos with (v / 2 ^ (32 - r)).
  - rewrite P. split; [nia|]. assert (v mod 2 ^ (32 - r) * 2 ^ r <= (2 ^ (32 - r) - 1) * 2 ^ r) by (apply Z.mul_le_mono_nonneg_r; lia). nia.
  - rewrite P. rewrite (Z.div_mod v (2 ^ (32 - r))) at 1 by lia. ring.
Qed.
Lemma word_rest : forall saved v r, 0 <= r <= 32 -> 0 <= saved < 2 ^ r -> 0 <= v ->
  v / 2 ^ (32 - r) = (saved + 2 ^ r * v) / 2 ^ 32.
Proof.
  intros saved v r Hr Hs Hv. pose proof (pos_pow r ltac:(lia)) as P1. pose proof (pos_pow (32 - r) ltac:(lia)) as P2.
  assert (P : 2 ^ 32 = 2 ^ r * 2 ^ (32 - r)) by (rewrite <- Z.pow_add_r by lia; f_equal; lia).
  rewrite P, <- Z.div_div by lia. f_equal. rewrite Z.mul_comm, Z.div_add by lia. rewrite Z.div_small by lia. lia.
Qed.

Lemma total_range : forall B n S t st v, 1 <= B -> ginv B n S t st -> 0 <= v < 2 ^ B -> 0 <= S + 2 ^ t * v < 2 ^ (t + B).
Proof.
  intros B n S t st v HB HI Hv.
  destruct HI as (I1 & I2 & I3 & _). assert (0 <= t) by lia. pose proof (pos_pow t ltac:(lia)).
  rewrite Z.pow_add_r by lia. nia.
Qed.
Lemma total_out : forall B n S t st v, ginv B n S t st -> 0 <= v < 2 ^ B -> g_out st = words (length (g_out st)) (S + 2 ^ t * v).
Proof.
  intros B n S t st v HI Hv.
  destruct HI as (I1 & I2 & I3 & I4 & _). rewrite words_low by lia. exact I4.
Qed.
Lemma total_word : forall B n S t st v, ginv B n S t st -> (S + 2 ^ t * v) / 2 ^ (32 * Z.of_nat (length (g_out st))) = g_saved st + 2 ^ g_rem st * v.
Proof.
  intros B n S t st v HI.
  destruct HI as (I1 & I2 & I3 & I4 & I5 & _). rewrite I5, I2, Z.pow_add_r by lia.
  pose proof (pos_pow (32 * Z.of_nat (length (g_out st))) ltac:(lia)).
  rewrite <- Z.mul_assoc, Z.mul_comm, Z.div_add by lia. reflexivity.
Qed.
Lemma saved_range : forall B n S t st, ginv B n S t st -> 0 <= g_saved st < 2 ^ g_rem st.
Proof.
  intros B n S t st HI.
  destruct HI as (I1 & I2 & I3 & I4 & I5 & _). rewrite I5. pose proof (pos_pow (32 * Z.of_nat (length (g_out st))) ltac:(lia)).
  split; [apply Z.div_pos; lia|]. apply Z.div_lt_upper_bound; [lia|]. rewrite <- Z.pow_add_r by lia. rewrite <- I2. lia.
Qed.

Lemma finish : forall B n T e k avail, 0 <= T < 2 ^ e -> 0 <= avail -> e = 32 * Z.of_nat k + avail ->
  (k + Z.to_nat (avail / 32) < n)%nat -> (B mod 32 = 0 -> avail mod 32 = 0) ->
  ginv B n T e (Gst (avail - 32 * Z.of_nat (Z.to_nat (avail / 32))) (T / 2 ^ (32 * Z.of_nat (k + Z.to_nat (avail / 32))))
                    (words (k + Z.to_nat (avail / 32)) T)) /\
  0 <= T / 2 ^ (32 * Z.of_nat (k + Z.to_nat (avail / 32))) < 2 ^ 32.
Proof.
  intros B n T e k avail HT Ha He Hk Hm.
  assert (D : 0 <= avail / 32) by (apply Z.div_pos; lia).
  pose proof (Z.div_mod avail 32 ltac:(lia)) as DM. pose proof (Z.mod_pos_bound avail 32 ltac:(lia)) as Bm.
  pose proof (pos_pow (32 * Z.of_nat (k + Z.to_nat (avail / 32))) ltac:(lia)) as P.
  split.
  - unfold ginv. cbn [g_rem g_saved g_out]. rewrite words_length. repeat split; try lia; try reflexivity.
  - split; [apply Z.div_pos; lia|]. apply Z.div_lt_upper_bound; [lia|]. rewrite <- Z.pow_add_r by lia.
    apply Z.lt_le_trans with (2 ^ e); [lia|]. apply Z.pow_le_mono_r; lia.
Qed.

Lemma land_mask : forall x B, 0 <= B -> Z.land x (2 ^ B - 1) = x mod 2 ^ B.
Proof. intros. replace (2 ^ B - 1) with (Z.ones B) by (rewrite Z.ones_equiv; lia). apply Z.land_ones. lia. Qed.

Lemma shl32_ok : forall x s, 0 <= s < 32 -> shl32 x s = Some (wrap 32 (Z.shiftl x s)).
Proof. intros x s Hs. unfold shl32. destruct (Z.ltb_spec s 0); [lia|]. destruct (Z.leb_spec 32 s); [lia|]. reflexivity. Qed.
Lemma shrW_ok : forall W x s, 0 <= s < pw W -> shrW W x s = Some (Z.shiftr x s).
Proof. intros W x s Hs. unfold shrW. destruct (Z.ltb_spec s 0); [lia|]. destruct (Z.leb_spec (pw W) s); [lia|]. reflexivity. Qed.

Lemma low_bits : forall v r, 0 < r < 32 -> 0 <= v ->
  Z.land (wrap 32 v) (wrap 32 (wrap 32 (Z.shiftl 1 (32 - r)) - 1)) = v mod 2 ^ (32 - r).
Proof.
  intros v r Hr Hv. unfold wrap. rewrite Z.shiftl_mul_pow2, Z.mul_1_l by lia.
  assert (P : 2 ^ (32 - r) < 2 ^ 32) by (apply Z.pow_lt_mono_r; lia). pose proof (pos_pow (32 - r) ltac:(lia)) as P0.
  rewrite (Z.mod_small (2 ^ (32 - r))) by lia. rewrite (Z.mod_small (2 ^ (32 - r) - 1)) by lia.
  rewrite land_mask by lia.
  replace (2 ^ 32) with (2 ^ (32 - r) * 2 ^ r) by (rewrite <- Z.pow_add_r by lia; f_equal; lia).
  pose proof (pos_pow r ltac:(lia)). rewrite Z.rem_mul_r by lia. rewrite (Z.mul_comm (2 ^ (32 - r))), Z.mod_add by lia.
  apply Zmod_mod.
Qed.

Lemma accum_ok : forall B n S t st v, 1 <= B -> ginv B n S t st -> 0 <= v < 2 ^ B -> B < 32 - g_rem st ->
  wrap 32 v = v /\
  ginv B n (S + 2 ^ t * v) (t + B) (Gst (g_rem st + B) (Z.lor (g_saved st) (wrap 32 (Z.shiftl v (g_rem st)))) (g_out st)).
Proof.
  intros B n S t st v HB HI Hv Hlt. pose proof HI as (I1 & I2 & I3 & I4 & I5 & I6 & I7).
  pose proof (saved_range B n S t st HI) as Hs. pose proof (total_range B n S t st v HB HI Hv) as TR.
  pose proof (pos_pow (g_rem st) ltac:(lia)) as Pr.
  assert (HvB : v * 2 ^ g_rem st < 2 ^ 32).
  { apply Z.lt_le_trans with (2 ^ B * 2 ^ g_rem st); [apply Z.mul_lt_mono_pos_r; lia|].
    rewrite <- Z.pow_add_r by lia. apply Z.pow_le_mono_r; lia. }
  split.
  { unfold wrap. apply Z.mod_small. split; [lia|]. nia. }
  rewrite Z.shiftl_mul_pow2 by lia. unfold wrap. rewrite Z.mod_small by nia. rewrite lor_disjoint by lia.
  unfold ginv. cbn [g_rem g_saved g_out]. repeat split; try lia.
  - apply (total_out B n S t st v HI Hv).
  - rewrite (total_word B n S t st v HI). ring.
  - intros E. rewrite Z.mod_small in E by lia. lia.
Qed.

Lemma gi_complete_ok : forall W B n S t st v, 1 <= B <= W -> W <= 64 -> ginv B n S t st -> 0 <= v < 2 ^ B -> B mod 32 <> 0 ->
  32 - g_rem st <= B \/ 32 < B ->
  exists k avail, 0 <= avail /\ t + B = 32 * Z.of_nat k + avail /\
  (gi_complete W B n st v = Some (inl (words n (S + 2 ^ t * v))) /\ k = n \/
   (k < n)%nat /\ gi_complete W B n st v = Some (inr ((S + 2 ^ t * v) / 2 ^ (32 * Z.of_nat k), avail, words k (S + 2 ^ t * v))) /\
   (B < 32 -> avail < 32)).
Proof.
  intros W B n S t st v HB HW HI Hv Hm Hc. pose proof HI as (I1 & I2 & I3 & I4 & I5 & I6 & I7).
  pose proof (saved_range B n S t st HI) as Hs. pose proof (total_range B n S t st v ltac:(lia) HI Hv) as TR.
  pose proof (total_out B n S t st v HI Hv) as TO. pose proof (total_word B n S t st v HI) as TW.
  set (T := S + 2 ^ t * v) in *. set (k := length (g_out st)) in *.
  assert (HB32 : B <> 32) by (intro; subst; apply Hm; reflexivity).
  unfold gi_complete. destruct ((B <? 32) || negb (g_rem st =? 0)) eqn:Ec.
  - assert (Hr : 0 < g_rem st).
    { apply orb_true_iff in Ec. destruct Ec as [Ec|Ec].
      - apply Z.ltb_lt in Ec. destruct Hc; lia.
      - apply negb_true_iff, Z.eqb_neq in Ec. lia. }
    assert (Hle : 32 - g_rem st <= B) by lia.
    rewrite shl32_ok by lia. cbn [bind]. rewrite low_bits by lia.
    rewrite shrW_ok by (unfold pw; lia). cbn [bind]. rewrite shl32_ok by lia. cbn [bind].
    rewrite word_join by lia. rewrite <- TW. rewrite TO. rewrite put_ok by exact I6. cbn [bind]. rewrite full_ok.
    exists (k + 1)%nat, (B - (32 - g_rem st)). split; [lia|]. split; [lia|].
    destruct (Nat.eqb_spec (k + 1) n) as [<-|Hne].
    + left. split; reflexivity.
    + right. split; [lia|]. split; [|lia]. rewrite Z.shiftr_div_pow2 by lia.
      rewrite (word_rest (g_saved st) v (g_rem st)) by lia. rewrite <- TW, words_step by lia. reflexivity.
  - apply orb_false_iff in Ec. destruct Ec as [Ec1 Ec2]. apply Z.ltb_ge in Ec1. apply negb_false_iff, Z.eqb_eq in Ec2.
    exists k, B. split; [lia|]. split; [lia|]. right. split; [exact I6|]. split; [|lia].
    rewrite TW, Ec2. rewrite <- TO. rewrite Ec2 in Hs. change (2 ^ 0) with 1 in *. replace (g_saved st) with 0 by lia.
    rewrite Z.add_0_l, Z.mul_1_l. reflexivity.
Qed.

Lemma gi_body_ok : forall W B n L, 1 <= B <= W -> W <= 64 -> body_ok B L n (gi_body W B (2 ^ B - 1) n).
Proof.
  intros W B n L HB HW S t st x HI Hx. pose proof (pos_pow B ltac:(lia)) as PB.
  pose proof (Z.mod_pos_bound x (2 ^ B) PB) as Hv. unfold gi_body. rewrite land_mask by lia.
  set (v := x mod 2 ^ B) in *. clearbody v.
  pose proof HI as (I1 & I2 & I3 & I4 & I5 & I6 & I7).
  pose proof (saved_range B n S t st HI) as Hs. pose proof (total_range B n S t st v ltac:(lia) HI Hv) as TR.
  pose proof (total_out B n S t st v HI Hv) as TO. pose proof (total_word B n S t st v HI) as TW.
  set (T := S + 2 ^ t * v) in *. set (k := length (g_out st)) in *.
  destruct (Z.eqb_spec B 32) as [E32|N32].
  { assert (R0 : g_rem st = 0) by (apply I7; rewrite E32; reflexivity).
    rewrite R0 in *. change (2 ^ 0) with 1 in *. replace (g_saved st) with 0 in TW by lia. rewrite Z.add_0_l, Z.mul_1_l in TW.
    unfold wrap. rewrite <- TW. rewrite TO, put_ok by exact I6. cbn [bind]. rewrite full_ok.
    destruct (Z.leb_spec (32 * Z.of_nat n) (t + B)).
    - assert (En : (k + 1 = n)%nat) by lia. rewrite En, Nat.eqb_refl. reflexivity.
    - destruct (Nat.eqb_spec (k + 1) n); [lia|]. eexists. split; [reflexivity|].
      unfold ginv. cbn [g_rem g_saved g_out]. rewrite words_length. repeat split; try lia.
      rewrite I5, !Z.div_small; [reflexivity| |].
      + replace (32 * Z.of_nat (k + 1)) with (t + B) by lia. exact TR.
      + replace (32 * Z.of_nat k) with t by lia. exact I3. }
  destruct (Z.eqb_spec (B mod 32) 0) as [E0|N0].
  { assert (R0 : g_rem st = 0) by (apply I7; exact E0).
    pose proof (Z.div_mod B 32 ltac:(lia)) as DM. rewrite E0 in DM.
    assert (1 <= B / 32) by lia.
    rewrite R0 in *. change (2 ^ 0) with 1 in *. replace (g_saved st) with 0 in TW by lia. rewrite Z.add_0_l, Z.mul_1_l in TW.
    rewrite <- TW. rewrite TO. rewrite gi_words_ok by lia. cbn [bind].
    destruct (Z.leb_spec (32 * Z.of_nat n) (t + B)).
    - destruct (Nat.leb_spec n (k + Z.to_nat (B / 32))); [reflexivity|lia].
    - destruct (Nat.leb_spec n (k + Z.to_nat (B / 32))); [lia|]. eexists. split; [reflexivity|].
      unfold ginv. cbn [g_rem g_saved g_out]. rewrite words_length. repeat split; try lia.
      rewrite I5, !Z.div_small; [reflexivity| |].
      + replace (32 * Z.of_nat (k + Z.to_nat (B / 32))) with (t + B) by lia. exact TR.
      + replace (32 * Z.of_nat k) with t by lia. exact I3. }
  destruct ((B <? 32) && (B <? 32 - g_rem st)) eqn:Ea.
  { apply andb_true_iff in Ea. destruct Ea as [A1 A2]. apply Z.ltb_lt in A1, A2.
    destruct (accum_ok B n S t st v ltac:(lia) HI Hv A2) as [W1 G]. rewrite W1. rewrite shl32_ok by lia. cbn [bind].
    destruct (Z.leb_spec (32 * Z.of_nat n) (t + B)); [lia|]. eexists. split; [reflexivity|exact G]. }
  assert (Hc : 32 - g_rem st <= B \/ 32 < B).
  { apply andb_false_iff in Ea. destruct Ea as [A|A]; apply Z.ltb_ge in A; lia. }
  destruct (gi_complete_ok W B n S t st v HB HW HI Hv N0 Hc) as (j & avail & A0 & A1 & [(C1 & C2)|(C1 & C2 & C3)]); rewrite C2 || rewrite C1; cbn [bind].
  - subst j. destruct (Z.leb_spec (32 * Z.of_nat n) (t + B)); [reflexivity|lia].
  - pose proof (Z.div_mod avail 32 ltac:(lia)) as DM. pose proof (Z.mod_pos_bound avail 32 ltac:(lia)) as Bm.
    assert (D0 : 0 <= avail / 32) by (apply Z.div_pos; lia).
    fold T. destruct (Z.leb_spec 32 B) as [Hb|Hb].
    + rewrite gi_words_ok by lia. cbn [bind].
      destruct (Z.leb_spec (32 * Z.of_nat n) (t + B)).
      * destruct (Nat.leb_spec n (j + Z.to_nat (avail / 32))); [reflexivity|lia].
      * destruct (Nat.leb_spec n (j + Z.to_nat (avail / 32))); [lia|].
        destruct (finish B n T (t + B) j avail TR A0 A1 ltac:(lia) ltac:(lia)) as [G1 G2].
        eexists. split; [reflexivity|]. unfold wrap. rewrite Z.mod_small by exact G2. exact G1.
    + assert (Z0 : avail / 32 = 0) by (apply Z.div_small; lia).
      destruct (Z.leb_spec (32 * Z.of_nat n) (t + B)); [lia|].
      destruct (finish B n T (t + B) j avail TR A0 A1 ltac:(rewrite Z0; lia) ltac:(lia)) as [G1 G2].
      rewrite Z0 in G1, G2. change (Z.to_nat 0) with 0%nat in *. rewrite Nat.add_0_r in *. change (32 * Z.of_nat 0) with 0 in *. rewrite Z.sub_0_r in G1.
      eexists. split; [reflexivity|]. unfold wrap. rewrite Z.mod_small by exact G2. exact G1.
Qed.
