From Verif Require Import Base StreamModel BitsProofs LfsModel LfsSpec.
Ltac Zify.zify_post_hook ::= idtac.

Lemma ones_bit : forall n i, 0 <= n -> 0 <= i -> Z.testbit (Z.ones n) i = (i <? n).
Proof.
  intros n i Hn Hi. destruct (Z.ltb_spec i n).
  - apply Z.ones_spec_low. lia.
  - apply Z.ones_spec_high. lia.
Qed.
Lemma ones_range : forall n, 0 <= n -> 0 <= Z.ones n < 2 ^ n.
Proof. intros n Hn. rewrite Z.ones_equiv. pose proof (Z.pow_pos_nonneg 2 n). lia. Qed.
Lemma wrap_bit : forall W x i, 0 <= i < W -> Z.testbit (wrap W x) i = Z.testbit x i.
Proof. intros W x i H. unfold wrap. apply Z.mod_pow2_bits_low. lia. Qed.
Lemma wrap_rng : forall W x, 0 <= W -> 0 <= wrap W x < 2 ^ W.
Proof. intros. unfold wrap. apply Z.mod_pos_bound. apply Z.pow_pos_nonneg; lia. Qed.

(* digits of the next word, counted from the left *)
Lemma next_bit : forall p v j, lfs_params p -> 0 <= j < lw p ->
  Z.testbit (lfs_next p v) (lw p - 1 - j) =
  if j <? lk p - ls p then Z.testbit v (lw p - 1 - (j + ls p))
  else xorb (Z.testbit v (lw p - 1 - (j - (lk p - ls p)))) (Z.testbit v (lw p - 1 - (j - (lk p - ls p) + lq p))).
Proof.
  intros [W w k q s] v j (H1 & H2 & H3 & H4 & H5) Hj. unfold lfs_next, lfs_mask. cbn [lW lw lk lq ls] in *.
  rewrite Z.lxor_spec, wrap_bit, Z.shiftr_spec, Z.land_spec, Z.lxor_spec by lia.
  rewrite !Z.shiftl_spec by lia. rewrite !Z.land_spec. rewrite (ones_bit w (w - 1 - j + (k - s))) by lia.
  destruct (Z.ltb_spec j (k - s)) as [L|L].
  - destruct (Z.ltb_spec (w - 1 - j + (k - s)) w); [lia|]. rewrite andb_false_r, xorb_false_r.
    replace (w - 1 - j - s) with (w - 1 - (j + s)) by lia.
    destruct (Z.lt_ge_cases (w - 1 - (j + s)) 0) as [N|N]; [rewrite !Z.testbit_neg_r by lia; reflexivity|].
    rewrite wrap_bit, Z.shiftl_spec, !ones_bit by lia.
    destruct (Z.ltb_spec (w - 1 - (j + s) - (w - k)) w); [|lia].
    destruct (Z.ltb_spec (w - 1 - (j + s)) w); [|lia]. rewrite !andb_true_r. reflexivity.
  - destruct (Z.ltb_spec (w - 1 - j + (k - s)) w); [|lia]. rewrite andb_true_r, (wrap_bit W _ (w - 1 - j + (k - s))) by lia. rewrite (Z.shiftl_spec v) by lia.
    match goal with |- xorb (?a && ?b) _ = _ => replace (a && b) with false end.
    + rewrite xorb_false_l, xorb_comm. f_equal; f_equal; lia.
    + symmetry. destruct (Z.lt_ge_cases (w - 1 - j - s) 0) as [N|N]; [rewrite Z.testbit_neg_r by lia; reflexivity|].
      rewrite wrap_bit, Z.shiftl_spec by lia. rewrite (Z.testbit_neg_r _ (w - 1 - j - s - (w - k))) by lia.
      rewrite andb_false_l, andb_false_r. reflexivity.
Qed.

Lemma next_range : forall p v, lfs_params p -> 0 <= v < 2 ^ lW p -> 0 <= lfs_next p v < 2 ^ lW p.
Proof.
  intros [W w k q s] v (H1 & H2 & H3 & H4 & H5) Hv. unfold lfs_next, lfs_mask. cbn [lW lw lk lq ls] in *.
  apply lxor_range; [lia|apply wrap_rng; lia|]. rewrite Z.shiftr_div_pow2 by lia. apply div2_range; [lia|lia|].
  pose proof (ones_range w ltac:(lia)).
  apply land_range_l; [lia| |lia]. apply lxor_range; [lia|apply wrap_rng; lia|exact Hv].
Qed.

(* the bit sequence that continues given bits *)
Fixpoint tau (m : nat) (k q : Z) (f : Z -> bool) (n : Z) : bool :=
  match m with
  | O => f n
  | S m' => if n <? k then f n else xorb (tau m' k q f (n - k)) (tau m' k q f (n - k + q))
  end.
Definition taus (k q : Z) (f : Z -> bool) (n : Z) : bool := tau (Z.to_nat n) k q f n.

Lemma tau_fuel : forall k q f, 0 < q -> 2 * q < k -> forall m1 m2 n, n <= Z.of_nat m1 -> n <= Z.of_nat m2 ->
  tau m1 k q f n = tau m2 k q f n.
Proof.
  intros k q f Hq Hk. induction m1 as [|m1 IH]; intros [|m2] n H1 H2; cbn [tau].
  - reflexivity.
  - destruct (Z.ltb_spec n k); [reflexivity|lia].
  - destruct (Z.ltb_spec n k); [reflexivity|lia].
  - destruct (Z.ltb_spec n k); [reflexivity|]. f_equal; apply IH; lia.
Qed.
Lemma taus_low : forall k q f n, n < k -> taus k q f n = f n.
Proof. intros k q f n H. unfold taus. destruct (Z.to_nat n); cbn [tau]; [reflexivity|]. destruct (Z.ltb_spec n k); [reflexivity|lia]. Qed.
Lemma taus_rec : forall k q f, 0 < q -> 2 * q < k -> tausworthe k q (taus k q f).
Proof.
  intros k q f Hq Hk n Hn. unfold taus at 1.
  destruct (Z.to_nat (n + k)) as [|m] eqn:E; [lia|]. cbn [tau]. destruct (Z.ltb_spec (n + k) k); [lia|].
  unfold taus. f_equal; [replace (n + k - k) with n by lia|replace (n + k - k + q) with (n + q) by lia]; apply tau_fuel; lia.
Qed.

Lemma next_word : forall p a off v len, lfs_params p -> tausworthe (lk p) (lq p) a -> 0 <= off ->
  lk p <= len <= lw p -> word_at (lw p) len a off v ->
  word_at (lw p) (Z.min (lw p) (len + (lk p - lq p - ls p))) a (off + ls p) (lfs_next p v).
Proof.
  intros p a off v len HP Ha Ho Hl Hv j Hj. pose proof HP as HP'.
  destruct HP' as (H1 & H2 & H3 & H4 & H5). rewrite next_bit; [|exact HP|lia].
  destruct (Z.ltb_spec j (lk p - ls p)).
  - rewrite Hv by lia. f_equal. lia.
  - rewrite !Hv by lia. replace (off + ls p + j) with (off + (j - (lk p - ls p)) + lk p) by lia.
    rewrite Ha by lia. f_equal; f_equal; lia.
Qed.

Lemma run_word : forall p v, lfs_params p -> exists a, tausworthe (lk p) (lq p) a /\
  forall t, word_at (lw p) (lfs_len p t) a (Z.of_nat t * ls p) (iter t (lfs_next p) v).
Proof.
  intros p v HP. exists (taus (lk p) (lq p) (fun j => Z.testbit v (lw p - 1 - j))).
  pose proof HP as (H1 & H2 & H3 & H4 & H5). pose proof (taus_rec (lk p) (lq p) (fun j => Z.testbit v (lw p - 1 - j)) H2 H4) as HR.
  split; [exact HR|]. unfold lfs_len. intro t.
  assert (G: forall t u off, 0 <= off -> forall len, lk p <= len <= lw p ->
    word_at (lw p) len (taus (lk p) (lq p) (fun j => Z.testbit v (lw p - 1 - j))) off u ->
    word_at (lw p) (Z.min (lw p) (len + Z.of_nat t * (lk p - lq p - ls p)))
      (taus (lk p) (lq p) (fun j => Z.testbit v (lw p - 1 - j))) (off + Z.of_nat t * ls p) (iter t (lfs_next p) u)).
  { clear t. induction t as [|t IH]; intros u off Ho len Hlen Hu; cbn [iter].
    - intros j Hj. rewrite Hu by lia. f_equal. lia.
    - specialize (IH (lfs_next p u) (off + ls p)). intros j Hj.
      rewrite (IH ltac:(lia) (Z.min (lw p) (len + (lk p - lq p - ls p)))); [f_equal; lia|lia| |].
      + apply next_word; try assumption. 
      + split; [lia|]. destruct Hj as [_ Hj]. rewrite Nat2Z.inj_succ in Hj. nia. }
  intros j Hj. pose proof (G t v 0 ltac:(lia) (lk p) ltac:(lia)) as G0. apply G0; [|exact Hj].
  intros i Hi. rewrite taus_low by lia. f_equal.
Qed.

(* ---- a live register stays live ---- *)
Lemma next_dead : forall p v, lfs_params p -> lfs_dead p (lfs_next p v) -> lfs_dead p v.
Proof.
  intros p v HP HD. pose proof HP as (H1 & H2 & H3 & H4 & H5).
  assert (A: forall j, ls p <= j < lk p -> Z.testbit v (lw p - 1 - j) = false).
  { intros j Hj. pose proof (HD (j - ls p) ltac:(lia)) as E. rewrite next_bit in E by (assumption || lia).
    destruct (Z.ltb_spec (j - ls p) (lk p - ls p)); [|lia]. rewrite <- E. f_equal. lia. }
  assert (B: forall n j, (Z.to_nat (ls p - j) <= n)%nat -> 0 <= j < lk p -> Z.testbit v (lw p - 1 - j) = false).
  { induction n as [|n IH]; intros j Hn Hj.
    - apply A. lia.
    - destruct (Z.lt_ge_cases j (ls p)) as [L|L]; [|apply A; lia].
      pose proof (HD (j + (lk p - ls p)) ltac:(lia)) as E. rewrite next_bit in E by (assumption || lia).
      destruct (Z.ltb_spec (j + (lk p - ls p)) (lk p - ls p)); [lia|].
      replace (j + (lk p - ls p) - (lk p - ls p)) with j in E by lia.
      rewrite (IH (j + lq p)) in E by lia. rewrite xorb_false_r in E. exact E. }
  intros j Hj. apply (B (Z.to_nat (ls p - j)) j); [lia|exact Hj].
Qed.
Lemma iter_dead : forall p, lfs_params p -> forall n v, lfs_dead p (iter n (lfs_next p) v) -> lfs_dead p v.
Proof.
  intros p HP. induction n as [|n IH]; intros v H; [exact H|]. cbn [iter] in H. apply next_dead; [exact HP|]. apply IH. exact H.
Qed.

Lemma land_ones_mod : forall x n, 0 <= n -> Z.land x (Z.ones n) = x mod 2 ^ n.
Proof. intros. apply Z.land_ones. lia. Qed.

Lemma dead_small : forall p v, lfs_params p -> 0 <= v < 2 ^ lw p -> lfs_dead p v -> v < 2 ^ (lw p - lk p).
Proof.
  intros p v HP Hv HD. pose proof HP as (H1 & H2 & H3 & H4 & H5). apply lt_pow2_bits; [lia|lia|]. intros i Hi.
  destruct (Z.lt_ge_cases i (lw p)) as [L|L]; [|apply (bits_above _ (lw p)); lia].
  pose proof (HD (lw p - 1 - i) ltac:(lia)) as E. rewrite <- E. f_equal. lia.
Qed.

(* seeding *)
Lemma seed_ok : forall p s0, lfs_params p -> lw p - lk p <= 30 ->
  exists v, lfs_seed p s0 = Some v /\ 0 <= v < 2 ^ lw p /\ ~ lfs_dead p v /\
    (v = s0 mod 2 ^ lw p \/ v = s0 mod 2 ^ lw p + 2 ^ (lw p - lk p)).
Proof.
  intros p s0 HP Hk. pose proof HP as (H1 & H2 & H3 & H4 & H5). unfold lfs_seed, int_bit, lfs_mask.
  rewrite land_ones_mod by lia.
  assert (Hw: 0 < 2 ^ lw p) by (apply Z.pow_pos_nonneg; lia).
  assert (HwW: 2 ^ lw p <= 2 ^ lW p) by (apply Z.pow_le_mono_r; lia).
  assert (Hd: 2 ^ (lw p - lk p) * 2 <= 2 ^ lw p).
  { replace (2 ^ lw p) with (2 ^ (lw p - lk p) * 2 ^ lk p) by (rewrite <- Z.pow_add_r by lia; f_equal; lia).
    assert (2 ^ 1 <= 2 ^ lk p) by (apply Z.pow_le_mono_r; lia).
    assert (0 < 2 ^ (lw p - lk p)) by (apply Z.pow_pos_nonneg; lia). nia. }
  pose proof (Z.mod_pos_bound s0 (2 ^ lw p) Hw) as Hm.
  destruct (Z.ltb_spec (lw p - lk p) 0); [lia|]. destruct (Z.leb_spec 32 (lw p - lk p)); [lia|]. cbn [orb].
  destruct (Z.eqb_spec (lw p - lk p) 31); [lia|]. cbn [bind].
  rewrite (Z.mod_small (2 ^ (lw p - lk p))) by (split; [apply Z.pow_nonneg; lia|lia]).
  destruct (Z.ltb_spec (s0 mod 2 ^ lw p) (2 ^ (lw p - lk p))) as [L|L].
  - eexists. split; [reflexivity|]. unfold wrap. rewrite Z.mod_small by lia. split; [lia|]. split; [|right; reflexivity].
    intro HD. apply dead_small in HD; [|exact HP|lia]. lia.
  - eexists. split; [reflexivity|]. split; [lia|]. split; [|left; reflexivity].
    intro HD. apply dead_small in HD; [|exact HP|lia]. lia.
Qed.

Lemma iter_range : forall p, lfs_params p -> forall n v, 0 <= v < 2 ^ lW p -> 0 <= iter n (lfs_next p) v < 2 ^ lW p.
Proof.
  intros p HP. induction n as [|n IH]; intros v Hv; [exact Hv|]. cbn [iter]. apply IH. apply next_range; assumption.
Qed.

Lemma discard_iter : forall p n v, lfs_discard p n v = iter n (lfs_next p) v.
Proof. intros p n. unfold lfs_discard. induction n as [|n IH]; intro v; [reflexivity|]. cbn [iter snd lfs_step]. apply IH. Qed.

Lemma max_ones : forall p, lfs_params p -> lfs_max p = 2 ^ lw p - 1.
Proof. intros p (H1 & H2). unfold lfs_max, lfs_mask. rewrite Z.ones_equiv. lia. Qed.

Lemma range_thm : forall p v n, lfs_params p -> lW p = lw p -> 0 <= v < 2 ^ lW p ->
  lfs_min <= iter n (lfs_next p) v <= lfs_max p.
Proof.
  intros p v n HP HW Hv. rewrite max_ones by exact HP. pose proof (iter_range p HP n v Hv) as H. rewrite HW in H.
  unfold lfs_min. lia.
Qed.

Lemma live_thm : forall p s0, lfs_params p -> lw p - lk p <= 30 ->
  exists v, lfs_seed p s0 = Some v /\ 0 <= v < 2 ^ lw p /\ forall n, ~ lfs_dead p (iter n (lfs_next p) v).
Proof.
  intros p s0 HP Hk. destruct (seed_ok p s0 HP Hk) as (v & E & Hv & HD & _). exists v. split; [exact E|]. split; [exact Hv|].
  intros n H. apply HD. apply (iter_dead p HP n). exact H.
Qed.

Lemma seed_thm : forall p s0, lfs_params p -> lw p - lk p <= 30 ->
  exists v, lfs_seed p s0 = Some v /\ ~ lfs_dead p v /\
    (v = s0 mod 2 ^ lw p \/ v = s0 mod 2 ^ lw p + 2 ^ (lw p - lk p)).
Proof. intros p s0 HP Hk. destruct (seed_ok p s0 HP Hk) as (v & E & _ & HD & H). exists v. split; [exact E|]. split; assumption. Qed.

Lemma dead_thm : forall p v n, lfs_params p -> lfs_dead p v -> lfs_dead p (iter n (lfs_next p) v).
Proof.
  intros p v n HP. revert v. induction n as [|n IH]; intros v HD; [exact HD|]. cbn [iter]. apply IH. clear IH.
  destruct (run_word p v HP) as (a & Ha & HW). pose proof HP as (H1 & H2 & H3 & H4 & H5).
  assert (Z0: forall m j, (Z.to_nat j <= m)%nat -> 0 <= j -> a j = false).
  { induction m as [|m IHm]; intros j Hm Hj.
    - rewrite <- (HD j ltac:(lia)). specialize (HW 0%nat j). cbn [iter] in HW. rewrite HW by (unfold lfs_len; lia). f_equal.
    - destruct (Z.lt_ge_cases j (lk p)) as [L|L].
      + rewrite <- (HD j ltac:(lia)). specialize (HW 0%nat j). cbn [iter] in HW. rewrite HW by (unfold lfs_len; lia). f_equal.
      + replace j with (j - lk p + lk p) by lia. rewrite Ha by lia. rewrite !IHm by lia. reflexivity. }
  intros j Hj. specialize (HW 1%nat j). cbn [iter] in HW. rewrite HW by (unfold lfs_len; lia). apply (Z0 (Z.to_nat (Z.of_nat 1 * ls p + j))); lia.
Qed.

Lemma full_thm : forall p v, lfs_params p -> exists a, tausworthe (lk p) (lq p) a /\
  forall t, lw p <= lk p + Z.of_nat t * (lk p - lq p - ls p) ->
  word_at (lw p) (lw p) a (Z.of_nat t * ls p) (iter t (lfs_next p) v).
Proof.
  intros p v HP. destruct (run_word p v HP) as (a & Ha & HW). exists a. split; [exact Ha|]. intros t Ht j Hj.
  apply HW. unfold lfs_len. lia.
Qed.

(* ---- witnesses ---- *)
Definition taus_a (W : Z) : lfp := Lfp W 32 31 13 12.
Lemma taus_a_params : lfs_params (taus_a 32) /\ lfs_params (taus_a 64).
Proof. unfold lfs_params, taus_a; cbn; lia. Qed.
Lemma wide_wrong : exists p s0 v n, lfs_params p /\ lW p = 64 /\ lfs_seed p s0 = Some v /\
  lfs_max p < iter n (lfs_next p) v.
Proof.
  exists (taus_a 64), (2 ^ 32 - 1), (2 ^ 32 - 1), 1%nat. split; [apply taus_a_params|]. split; [reflexivity|].
  split; vm_compute; reflexivity.
Qed.
Lemma low_digits_wrong : exists p s0 v, lfs_params p /\ lW p = lw p /\ lfs_seed p s0 = Some v /\
  ~ word_obeys p (iter 50 (lfs_next p) v).
Proof.
  exists (Lfp 32 32 5 1 4), 0x80000123, 0x80000123. split; [unfold lfs_params; cbn; lia|]. split; [reflexivity|].
  split; [vm_compute; reflexivity|]. intro H.
  assert (B: forallb (fun j => Bool.eqb (Z.testbit (iter 50 (lfs_next (Lfp 32 32 5 1 4)) 0x80000123) (32 - 1 - (j + 5)))
    (xorb (Z.testbit (iter 50 (lfs_next (Lfp 32 32 5 1 4)) 0x80000123) (32 - 1 - j))
          (Z.testbit (iter 50 (lfs_next (Lfp 32 32 5 1 4)) 0x80000123) (32 - 1 - (j + 1))))) (map Z.of_nat (seq 0 27)) = false)
    by (vm_compute; reflexivity).
  rewrite <- not_true_iff_false in B. apply B. apply forallb_forall. intros j Hj. apply in_map_iff in Hj.
  destruct Hj as (i & <- & Hi). apply in_seq in Hi. apply eqb_true_iff. apply H. cbn [lw lk]. lia.
Qed.
Lemma wide_seed_wrong : exists p s0 v, lfs_params p /\ lW p = 64 /\ 0 <= s0 < 2 ^ lw p /\ lfs_seed p s0 = Some v /\ lfs_dead p v.
Proof.
  exists (Lfp 64 34 3 1 2), (2 ^ 31), 0. split; [unfold lfs_params; cbn; lia|]. split; [reflexivity|]. split; [cbn; lia|].
  split; [vm_compute; reflexivity|]. intros j Hj. apply Z.testbit_0_l.
Qed.
Lemma seed_undefined : exists p, lfs_params p /\ lW p = lw p /\ forall s0, lfs_seed p s0 = None.
Proof. exists (Lfp 64 64 31 3 2). split; [unfold lfs_params; cbn; lia|]. split; reflexivity. Qed.
