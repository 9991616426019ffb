(* Reduction of gen_uint to its mathematical content, and its properties. *)
From Verif Require Import Base ProgModel ProgSpec ProgProofs UIntModel UIntSpec UIntProofs.

Ltac Zify.zify_post_hook ::= idtac.

Lemma pow_bracket : forall B, 2 <= B -> forall N, B <= N ->
  exists k : nat, (1 <= k)%nat /\ B ^ Z.of_nat k <= N < B ^ Z.of_nat k * B.
Proof.
  intros B HB N. assert (HN: 0 <= N \/ N < 0) by lia. destruct HN as [HN|HN]; [|lia].
  revert N HN. apply (Zlt_0_ind (fun N => B <= N -> exists k : nat, (1 <= k)%nat /\ B ^ Z.of_nat k <= N < B ^ Z.of_nat k * B)).
  intros N IH HN0 HN. destruct (Z.lt_ge_cases N (B * B)) as [L|L].
  - exists 1%nat. change (Z.of_nat 1) with 1. rewrite Z.pow_1_r. lia.
  - pose proof (Z.div_mod N B ltac:(lia)) as D. pose proof (Z.mod_pos_bound N B ltac:(lia)) as M.
    assert (H1: B <= N / B) by (apply Z.div_le_lower_bound; lia).
    destruct (IH (N / B)) as (k & Hk & H2 & H3); [split; [lia|apply Z.div_lt; lia]|exact H1|].
    exists (S k). split; [lia|]. rewrite Nat2Z.inj_succ, Z.pow_succ_r by lia.
    assert (B * B ^ Z.of_nat k <= B * (N / B)) by (apply Z.mul_le_mono_nonneg_l; lia).
    assert (B * (N / B + 1) <= B * (B ^ Z.of_nat k * B)) by (apply Z.mul_le_mono_nonneg_l; lia).
    replace (B * B ^ Z.of_nat k * B) with (B * (B ^ Z.of_nat k * B)) by ring. lia.
Qed.

Section Code.
Variables (tb : ity) (bmin bmax : Z).
Hypothesis Hb : eng_wf tb bmin bmax.
Let B := bmax - bmin + 1.

Lemma brange_ok : usub tb bmax bmin = Some (B - 1).
Proof using Hb.
  destruct Hb as (H1 & H2 & H3 & H4). rewrite usub_ok; try assumption; [|lia]. f_equal. unfold B. lia.
Qed.

Lemma small_peq : forall d F t lo hi, ui_wf t lo hi -> hi - lo <= B - 1 ->
  peq bmin bmax (gen_uint (S d) F tb bmin bmax t lo hi) (pgen_small F bmin B (hi - lo) lo).
Proof using Hb.
  intros d F t lo hi (Ht & Hlo & Hhi & Hle) HR. pose proof (HB2 tb bmin bmax Hb) as HB.
  pose proof (HBw tb bmin bmax Hb) as HW. fold B in HB, HW.
  assert (Hwb: 2 <= bits tb) by (destruct Hb as (H & _); exact H).
  cbn [gen_uint]. rewrite usub_ok by assumption. cbn [plift pbind].
  rewrite brange_ok. cbn [plift pbind]. unfold pgen_small.
  set (R := hi - lo) in *. assert (HR0: 0 <= R) by (unfold R; lia).
  destruct (Z.eqb_spec R 0) as [E0|E0]; [reflexivity|].
  destruct (Z.eqb_spec (B - 1) R) as [E1|E1].
  - cbn [draw pbind peq]. intros v Hv. rewrite (eng_sub tb bmin bmax Hb v Hv). cbn [plift pbind].
    assert (HI: inT t (v - bmin + lo)) by (apply inT_between with lo hi; try assumption; unfold B, R in *; lia).
    assert (HV: 0 <= v - bmin < 2 ^ bits tb) by (unfold B in *; lia).
    rewrite uadd_ok by (try assumption; lia). cbn [plift peq]. lia.
  - destruct (Z.ltb_spec (B - 1) R) as [L|L]; [lia|].
    rewrite bucket_ok by lia. cbn [plift pbind]. apply peq_retry.
    unfold ui_bucket_attempt, small_att. cbn [draw pbind peq]. intros v Hv.
    rewrite (eng_sub tb bmin bmax Hb v Hv). cbn [plift pbind].
    replace (B - 1 + 1) with B by ring.
    assert (Hbk: 1 <= B / (R + 1)) by (apply Z.div_le_lower_bound; lia).
    destruct (Z.eqb_spec (B / (R + 1)) 0) as [Z0|Z0]; [lia|].
    rewrite (wrap_small (bits tb) R) by lia.
    destruct (Z.leb_spec ((v - bmin) / (B / (R + 1))) R) as [L2|L2]; [|reflexivity].
    assert (0 <= (v - bmin) / (B / (R + 1))) by (apply Z.div_pos; lia).
    assert (HI: inT t ((v - bmin) / (B / (R + 1)) + lo)) by (apply inT_between with lo hi; try assumption; unfold R in *; lia).
    rewrite uadd_ok by (try assumption; lia). cbn [plift pbind peq]. f_equal. lia.
Qed.

Lemma small_rets : forall F R lo, 0 <= R <= B - 1 ->
  rets bmin bmax (pgen_small F bmin B R lo) (fun v => lo <= v <= lo + R).
Proof using Hb.
  intros F R lo HR. pose proof (HB2 tb bmin bmax Hb) as HB. fold B in HB. unfold pgen_small.
  destruct (Z.eqb_spec R 0); [cbn [rets]; lia|].
  destruct (Z.eqb_spec (B - 1) R); [cbn [rets]; intros v Hv; unfold B in *; lia|].
  apply rets_retry. cbn [small_att rets]. intros v Hv a Ha.
  destruct (Z.leb_spec ((v - bmin) / (B / (R + 1))) R) as [L|L]; [|discriminate].
  assert (1 <= B / (R + 1)) by (apply Z.div_le_lower_bound; lia).
  assert (0 <= (v - bmin) / (B / (R + 1))) by (apply Z.div_pos; lia).
  injection Ha as <-. lia.
Qed.

Lemma acc_rets : forall j r m, 0 < m -> 0 <= r < m ->
  rets bmin bmax (acc bmin B j r m) (fun x => 0 <= x < m * B ^ Z.of_nat j).
Proof using Hb.
  pose proof (HB2 tb bmin bmax Hb) as HB. fold B in HB.
  induction j as [|j IH]; intros r m Hm Hr; cbn [acc rets].
  - change (Z.of_nat 0) with 0. rewrite Z.pow_0_r. lia.
  - intros v Hv. assert (Hx: 0 <= v - bmin < B) by (unfold B; lia).
    pose proof (mul_step bmin bmax (v - bmin) m Hx Hm) as Hxm. fold B in Hxm.
    replace (m * B ^ Z.of_nat (S j)) with (m * B * B ^ Z.of_nat j)
      by (rewrite Nat2Z.inj_succ, Z.pow_succ_r by lia; ring).
    apply IH; lia.
Qed.

Lemma big_peq : forall F t lo hi k, ui_wf t lo hi -> B - 1 < hi - lo ->
  (1 <= k)%nat -> B ^ Z.of_nat k <= hi - lo + 1 < B ^ Z.of_nat k * B ->
  peq bmin bmax (gen_uint 2 F tb bmin bmax t lo hi) (retry F (big_att F bmin B t (hi - lo) lo k)).
Proof using Hb.
  intros F t lo hi k (Ht & Hlo & Hhi & Hle) HR Hk HM. pose proof (HB2 tb bmin bmax Hb) as HB.
  fold B in HB.
  pose proof (inT_diff t hi lo Ht Hhi Hlo) as HRw.
  change (gen_uint 2 F tb bmin bmax t lo hi) with
    (range <~ plift (usub t hi lo);;
     brange <~ plift (usub tb bmax bmin);;
      if range =? 0 then PRet lo
      else if brange =? range then
        v <~ draw;;
        x <~ plift (usub tb v bmin);;
        plift (uadd (bits tb) t x lo)
      else if brange <? range then
        retry F (ui_attempt tb bmin t lo range brange
          (fun r => gen_uint 1 F tb bmin bmax (utype t) 0 r))
      else
        bucket <~ plift (ui_bucket (bits tb) range brange);;
        retry F (ui_bucket_attempt tb bmin t lo range bucket)).
  rewrite usub_ok by assumption. cbn [plift pbind]. rewrite brange_ok. cbn [plift pbind].
  set (R := hi - lo) in *.
  destruct (Z.eqb_spec R 0); [lia|]. destruct (Z.eqb_spec (B - 1) R); [lia|].
  destruct (Z.ltb_spec (B - 1) R); [|lia].
  apply peq_retry. unfold ui_attempt. rewrite limit_ok by lia. cbn [plift pbind].
  replace (B - 1 + 1) with B by ring.
  set (M := B ^ Z.of_nat k) in *.
  assert (HMp: 0 < M) by (apply Z.pow_pos_nonneg; lia).
  assert (Hkw: Z.of_nat k <= bits t).
  { apply (Z.pow_le_mono_r_iff 2); [lia|lia|].
    assert (2 ^ Z.of_nat k <= M) by (apply Z.pow_le_mono_l; lia). lia. }
  eapply peq_trans.
  { apply peq_bind; [|intros a; apply peq_refl].
    apply (loop_peq tb bmin bmax Hb (bits t) R ltac:(lia) ltac:(fold B; lia) k _ 0 1); fold B; fold M;
      rewrite ?Z.mul_1_l; try lia. }
  fold B. fold M. rewrite !Z.mul_1_l. unfold big_att. fold M.
  assert (PB: forall (A C D : Type) (p : prog A) (f : A -> C) (g : C -> prog D),
     peq bmin bmax (pbind (pbind p (fun x => PRet (f x))) g) (pbind p (fun x => g (f x)))).
  { clear. intros A C D p f g. induction p; simpl; auto. apply peq_refl. }
  eapply peq_trans; [apply PB|].
  apply peq_bind_r with (P := fun x => 0 <= x < M); [apply peq_refl| |].
  { pose proof (acc_rets k 0 1 ltac:(lia) ltac:(lia)) as H1. fold M in H1. rewrite Z.mul_1_l in H1. exact H1. }
  intros r Hr. destruct (Z.eqb_spec M (R + 1)) as [E|E]; [reflexivity|].
  destruct (Z.eqb_spec M 0); [lia|].
  assert (Hq0: 0 <= R / M) by (apply Z.div_pos; lia).
  assert (HqB: R / M < B) by (apply Z.div_lt_upper_bound; lia).
  assert (HqM: M * (R / M) <= R) by (apply Z.mul_div_le; lia).
  assert (HqR: R / M <= R) by (rewrite <- (Z.div_1_r R) at 2; apply Z.div_le_compat_l; lia).
  apply peq_bind_r with (P := fun x => 0 <= x <= R / M).
  - replace (R / M) with (R / M - 0) at 2 by ring. apply small_peq; [|lia].
    split; [exact Ht|]. split; [apply inT_utype; lia|]. split; [apply inT_utype; lia|]. lia.
  - pose proof (small_rets F (R / M) 0 ltac:(lia)) as H1. rewrite Z.add_0_l in H1. exact H1.
  - intros inc Hinc.
    assert (HiM: inc * M <= R / M * M) by (apply Z.mul_le_mono_nonneg_r; lia).
    assert (Hi0: 0 <= inc * M) by (apply Z.mul_nonneg_nonneg; lia).
    assert (HX: inc <= (2 ^ bits t - 1) / M) by (apply Z.div_le_lower_bound; lia).
    destruct (Z.ltb_spec ((2 ^ bits t - 1) / M) inc); [lia|].
    rewrite (wrap_small (bits t) (inc * M)) by lia.
    destruct (Z.leb_spec (r + inc * M) R) as [L|L].
    + rewrite (wrap_small (bits t) (r + inc * M)) by lia.
      destruct (Z.ltb_spec (r + inc * M) (inc * M)); [lia|].
      destruct (Z.ltb_spec R (r + inc * M)); [lia|].
      assert (HI: inT t (r + inc * M + lo)) by (apply inT_between with lo hi; try assumption; unfold R in *; lia).
      rewrite uadd_ok by (try assumption; lia). cbn [plift pbind peq]. f_equal. lia.
    + destruct (Z.lt_ge_cases (r + inc * M) (2 ^ bits t)) as [L2|L2].
      * rewrite (wrap_small (bits t) (r + inc * M)) by lia.
        destruct (Z.ltb_spec (r + inc * M) (inc * M)); [lia|].
        destruct (Z.ltb_spec R (r + inc * M)); [|lia]. reflexivity.
      * assert (EW: wrap (bits t) (r + inc * M) = r + inc * M - 2 ^ bits t).
        { unfold wrap. symmetry. apply Z.mod_unique with (q := 1); [left|]; lia. }
        rewrite EW. destruct (Z.ltb_spec (r + inc * M - 2 ^ bits t) (inc * M)); [|lia]. reflexivity.
Qed.

(* ---- the pure generator: acc ---- *)
Lemma acc_wp : forall j n r m, 0 < m -> 0 <= r < m ->
  wp bmin bmax (acc bmin B j r m) n (fun x n' => 0 <= x < m * B ^ Z.of_nat j /\ n = (n' + j)%nat).
Proof using Hb.
  pose proof (HB2 tb bmin bmax Hb) as HB. fold B in HB.
  induction j as [|j IH]; intros n r m Hm Hr; cbn [acc wp].
  - change (Z.of_nat 0) with 0. rewrite Z.pow_0_r. lia.
  - destruct n as [|n]; [exact I|]. intros v Hv. assert (Hx: 0 <= v - bmin < B) by (unfold B; lia).
    pose proof (mul_step bmin bmax (v - bmin) m Hx Hm) as Hxm. fold B in Hxm.
    replace (m * B ^ Z.of_nat (S j)) with (m * B * B ^ Z.of_nat j)
      by (rewrite Nat2Z.inj_succ, Z.pow_succ_r by lia; ring).
    eapply wp_mono; [|apply IH; lia]. intros a n' Hn' [H1 H2]. lia.
Qed.

Lemma acc_E : forall j n r m f, 
  E bmin bmax (acc bmin B j r m) n f =
  if (j <=? n)%nat then ssum (Z.to_nat (B ^ Z.of_nat j)) (fun x => f (r + x * m) (n - j)%nat) else 0.
Proof using Hb.
  pose proof (HB2 tb bmin bmax Hb) as HB. fold B in HB.
  induction j as [|j IH]; intros n r m f; cbn [acc E].
  - change (Z.of_nat 0) with 0. rewrite Z.pow_0_r. change (Z.to_nat 1) with 1%nat. cbn [ssum Nat.leb].
    change (Z.of_nat 0) with 0. rewrite Z.mul_0_l, Z.add_0_r, Nat.sub_0_r. reflexivity.
  - destruct n as [|n]; [reflexivity|]. fold B. cbn [Nat.leb Nat.sub].
    rewrite (ssum_ext _ _ (fun i => if (j <=? n)%nat then
       ssum (Z.to_nat (B ^ Z.of_nat j)) (fun x => f (r + (i + B * x) * m) (n - j)%nat) else 0)).
    2:{ intros i Hi. rewrite IH. destruct (j <=? n)%nat; [|reflexivity]. apply ssum_ext.
        intros x Hx. f_equal. ring. }
    destruct (j <=? n)%nat.
    2:{ apply ssum_zero. }
    rewrite Nat2Z.inj_succ, Z.pow_succ_r by lia.
    rewrite Z2Nat.inj_mul; [|lia|apply Z.pow_nonneg; lia].
    rewrite ssum_radix. rewrite ssum_swap. apply ssum_ext. intros x Hx. apply ssum_ext. intros i Hi.
    rewrite Z2Nat.id by lia. reflexivity.
Qed.

Lemma acc_exec : forall j r m y rest, 0 <= y < B ^ Z.of_nat j ->
  exists ds, length ds = j /\ valid_draws bmin bmax ds /\
    exec (acc bmin B j r m) (ds ++ rest) = ORet (r + y * m) rest.
Proof using Hb.
  pose proof (HB2 tb bmin bmax Hb) as HB. fold B in HB.
  induction j as [|j IH]; intros r m y rest Hy.
  - exists []. change (Z.of_nat 0) with 0 in Hy. rewrite Z.pow_0_r in Hy.
    split; [reflexivity|]. split; [constructor|]. cbn. replace (r + y * m) with r; [reflexivity|].
    replace y with 0 by lia. ring.
  - rewrite Nat2Z.inj_succ, Z.pow_succ_r in Hy by lia.
    pose proof (Z.div_mod y B ltac:(lia)) as D. pose proof (Z.mod_pos_bound y B ltac:(lia)) as Hm.
    destruct (IH (r + y mod B * m) (m * B) (y / B) rest) as (ds & H1 & H2 & H3).
    { split; [apply Z.div_pos; lia|apply Z.div_lt_upper_bound; lia]. }
    exists (bmin + y mod B :: ds). split; [simpl; lia|]. split.
    + constructor; [unfold B in *; lia|exact H2].
    + cbn [acc exec app]. replace (bmin + y mod B - bmin) with (y mod B) by ring. rewrite H3. f_equal.
      rewrite D at 3. ring.
Qed.

(* a run of acc that is not finished can be finished with r <= any *)
Lemma acc_more : forall j r m ds, exec (acc bmin B j r m) ds = OMore ->
  exists ds' x, valid_draws bmin bmax ds' /\ exec (acc bmin B j r m) (ds ++ ds') = ORet x [].
Proof using Hb.
  assert (Hle: bmin <= bmax) by (destruct Hb as (_ & _ & _ & H); lia).
  induction j as [|j IH]; intros r m ds H; cbn [acc exec] in H; [discriminate|].
  destruct ds as [|v ds].
  - destruct (acc_exec (S j) r m 0 [] ) as (d & H1 & H2 & H3).
    { split; [lia|]. apply Z.pow_pos_nonneg; [|lia]. unfold B. lia. }
    exists d. eexists. split; [exact H2|]. rewrite app_nil_r in H3. exact H3.
  - destruct (IH _ _ _ H) as (d & x & H2 & H3). exists d, x. split; [exact H2|exact H3].
Qed.

(* ---- small generator ---- *)
Section Small.
Variables (F : nat) (R lo : Z).
Hypothesis HR : 0 <= R <= B - 1.

Lemma small_att_wp : forall n, wp bmin bmax (small_att bmin B R lo) n
  (fun r m => (m < n)%nat /\ forall a, r = Some a -> lo <= a <= lo + R).
Proof using Hb HR.
  pose proof (HB2 tb bmin bmax Hb) as HB. fold B in HB.
  intros [|n]; [exact I|]. cbn [small_att wp]. intros v Hv. split; [lia|].
  intros a Ha. destruct (Z.leb_spec ((v - bmin) / (B / (R + 1))) R) as [L|L]; [|discriminate].
  assert (1 <= B / (R + 1)) by (apply Z.div_le_lower_bound; lia).
  assert (0 <= (v - bmin) / (B / (R + 1))) by (apply Z.div_pos; lia).
  injection Ha as <-. lia.
Qed.

(* values, and the number of draws when R > 0 *)
Lemma small_wp : forall n, (n < F)%nat ->
  wp bmin bmax (pgen_small F bmin B R lo) n
    (fun v m => lo <= v <= lo + R /\ (R <> 0 -> (m < n)%nat)).
Proof using Hb HR.
  intros n Hn. unfold pgen_small.
  destruct (Z.eqb_spec R 0) as [E0|E0]; [cbn [wp]; lia|].
  destruct (Z.eqb_spec (B - 1) R) as [E1|E1].
  { destruct n as [|n]; [exact I|]. cbn [wp]. intros v Hv. unfold B in *. lia. }
  destruct F as [|f]; [lia|]. cbn [retry]. apply wp_bind.
  eapply wp_mono; [|apply small_att_wp].
  intros [a|] m Hm [H1 H2]; cbn [wp].
  - specialize (H2 a eq_refl). lia.
  - eapply wp_mono; [|apply wp_retry with (Q := fun v _ => lo <= v <= lo + R); [|lia]].
    + intros a m' Hm' Ha. split; [exact Ha|lia].
    + intro n'. eapply wp_mono; [|apply small_att_wp]. intros a m' _ [H3 H4]. split; [exact H3|].
      intros b Hb'. apply H4. exact Hb'.
Qed.

Lemma ssum_bucket : forall s r c (g : Z -> Z) h, (0 < s)%nat -> (s * r <= c)%nat ->
  ssum c (fun x => if x / Z.of_nat s <? Z.of_nat r then g (x / Z.of_nat s) else h) =
  Z.of_nat s * ssum r g + Z.of_nat (c - s * r) * h.
Proof.
  intros s r c g h Hs Hc. rewrite (ssum_split (s * r) c) by exact Hc. f_equal.
  - rewrite ssum_radix.
    rewrite (ssum_ext r _ (fun j => Z.of_nat s * g j)).
    { clear. induction r as [|r IH]; cbn [ssum]; [lia|]. rewrite IH. ring. }
    intros j Hj. rewrite (ssum_ext s _ (fun _ => g j)).
    { apply ssum_const. }
    intros i Hi. assert (E: (i + Z.of_nat s * j) / Z.of_nat s = j).
    { symmetry. apply Z.div_unique with (r := i); [left; exact Hi|]. ring. }
    rewrite E. destruct (Z.ltb_spec j (Z.of_nat r)); [reflexivity|lia].
  - rewrite (ssum_ext _ _ (fun _ => h)); [apply ssum_const|].
    intros i Hi.
    assert (Z.of_nat r <= (Z.of_nat (s * r) + i) / Z.of_nat s).
    { apply Z.div_le_lower_bound; [lia|]. rewrite Nat2Z.inj_mul. lia. }
    destruct (Z.ltb_spec ((Z.of_nat (s * r) + i) / Z.of_nat s) (Z.of_nat r)); [lia|reflexivity].
Qed.

Lemma small_uniform : Uniform bmin bmax (pgen_small F bmin B R lo) lo (Z.to_nat (R + 1)).
Proof using Hb HR.
  pose proof (HB2 tb bmin bmax Hb) as HB. fold B in HB.
  unfold pgen_small.
  destruct (Z.eqb_spec R 0) as [E0|E0].
  { intros n f g H. cbn [E]. specialize (H n). rewrite E0 in H. change (Z.to_nat (0 + 1)) with 1%nat in H.
    cbn [ssum] in H. change (Z.of_nat 0) with 0 in H. rewrite !Z.add_0_l, Z.add_0_r in H. exact H. }
  destruct (Z.eqb_spec (B - 1) R) as [E1|E1].
  { intros n f g H. destruct n as [|n]; [reflexivity|]. cbn [E]. specialize (H n).
    fold B. replace B with (R + 1) by lia.
    rewrite (ssum_ext _ _ (fun w => f (lo + w) n)).
    2:{ intros i Hi. do 2 f_equal. ring. }
    rewrite H. apply ssum_ext. intros i Hi. do 2 f_equal. ring. }
  apply Uniform_retry. intros n f g H1 H2.
  destruct n as [|n]; [reflexivity|]. cbn [small_att E]. fold B.
  specialize (H1 n). specialize (H2 n).
  assert (Hs: 1 <= B / (R + 1)) by (apply Z.div_le_lower_bound; lia).
  assert (Hm: (R + 1) * (B / (R + 1)) <= B) by (apply Z.mul_div_le; lia).
  set (s := Z.to_nat (B / (R + 1))). set (r := Z.to_nat (R + 1)) in *.
  assert (Es: Z.of_nat s = B / (R + 1)) by (apply Z2Nat.id; lia).
  assert (Er: Z.of_nat r = R + 1) by (apply Z2Nat.id; lia).
  assert (Hc: (s * r <= Z.to_nat B)%nat).
  { apply Nat2Z.inj_le. rewrite Nat2Z.inj_mul, Es, Er, Z2Nat.id by lia.
    rewrite Z.mul_comm. exact Hm. }
  assert (K: forall (q : option Z -> nat -> Z),
    ssum (Z.to_nat B) (fun i => q (if (bmin + i - bmin) / (B / (R + 1)) <=? R
       then Some (lo + (bmin + i - bmin) / (B / (R + 1))) else None) n) =
    Z.of_nat s * ssum r (fun w => q (Some (lo + w)) n) + Z.of_nat (Z.to_nat B - s * r) * q None n).
  { intro q. rewrite <- (ssum_bucket s r (Z.to_nat B) (fun w => q (Some (lo + w)) n) (q None n)) by lia.
    apply ssum_ext. intros i Hi. rewrite Es, Er. replace (bmin + i - bmin) with i by ring.
    destruct (Z.leb_spec (i / (B / (R + 1))) R), (Z.ltb_spec (i / (B / (R + 1))) (R + 1)); try lia; reflexivity. }
  rewrite !K, H1, H2. reflexivity.
Qed.

(* every value is reached with as few draws as possible *)
Lemma small_exec : forall y rest, (0 < F)%nat -> 0 <= y <= R ->
  exists ds, length ds = (if Z.eqb R 0 then 0 else 1)%nat /\ valid_draws bmin bmax ds /\
    exec (pgen_small F bmin B R lo) (ds ++ rest) = ORet (lo + y) rest.
Proof using Hb HR.
  pose proof (HB2 tb bmin bmax Hb) as HB. fold B in HB.
  intros y rest HF Hy. unfold pgen_small.
  destruct (Z.eqb_spec R 0) as [E0|E0].
  { exists []. split; [reflexivity|]. split; [constructor|]. cbn. f_equal. lia. }
  destruct (Z.eqb_spec (B - 1) R) as [E1|E1].
  { exists [bmin + y]. split; [reflexivity|]. split.
    - constructor; [unfold B in *; lia|constructor].
    - cbn. f_equal. lia. }
  assert (Hs: 1 <= B / (R + 1)) by (apply Z.div_le_lower_bound; lia).
  assert (Hm: (R + 1) * (B / (R + 1)) <= B) by (apply Z.mul_div_le; lia).
  assert (Hys: y * (B / (R + 1)) <= R * (B / (R + 1))) by (apply Z.mul_le_mono_nonneg_r; lia).
  assert (Hy0: 0 <= y * (B / (R + 1))) by (apply Z.mul_nonneg_nonneg; lia).
  exists [bmin + y * (B / (R + 1))]. split; [reflexivity|]. split.
  - constructor; [|constructor]. unfold B in *. lia.
  - destruct F as [|f]; [lia|]. cbn [retry small_att pbind app exec].
    replace (bmin + y * (B / (R + 1)) - bmin) with (y * (B / (R + 1))) by ring.
    rewrite Z.div_mul by lia. destruct (Z.leb_spec y R); [|lia]. reflexivity.
Qed.
End Small.

(* a run of the small generator that is not finished can be finished with lo *)
Lemma small_more : forall F R lo ds, 0 <= R <= B - 1 -> exec (pgen_small F bmin B R lo) ds = OMore ->
  exists ds', valid_draws bmin bmax ds' /\ exec (pgen_small F bmin B R lo) (ds ++ ds') = ORet lo [].
Proof using Hb.
  intros F R lo ds HR H. pose proof (HB2 tb bmin bmax Hb) as HB. fold B in HB.
  assert (Hs: 1 <= B / (R + 1)) by (apply Z.div_le_lower_bound; lia).
  unfold pgen_small in *.
  destruct (Z.eqb_spec R 0); [discriminate|]. destruct (Z.eqb_spec (B - 1) R).
  - destruct ds; [|discriminate]. exists [bmin]. split; [constructor; [unfold B in *; lia|constructor]|].
    cbn. f_equal. lia.
  - apply retry_more_inv in H. destruct H as (F' & ds' & _ & H2 & _ & H4).
    destruct ds' as [|v ds']; [|cbn in H2; discriminate].
    exists [bmin]. split; [constructor; [unfold B in *; lia|constructor]|].
    rewrite H4. cbn. rewrite Z.sub_diag, Z.div_0_l by lia. destruct (Z.leb_spec 0 R); [|lia].
    cbn. rewrite Z.add_0_r. reflexivity.
Qed.

End Code.
