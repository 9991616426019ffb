(* Proofs about the Mersenne twister: running backwards, equality, text form. *)
From Verif Require Import Base StreamModel RingModel RingProofs SwcProofs Swc2Proofs WinProofs BitsProofs MtModel MtSpec MtProofs TemperProofs.
Ltac Zify.zify_post_hook ::= idtac.

Lemma list_ext : forall (a b : list Z), length a = length b -> (forall j, (j < length a)%nat -> nth j a 0 = nth j b 0) -> a = b.
Proof. intros a b H1 H2. apply (nth_ext _ _ 0 0); assumption. Qed.

Section Mt2.
Variable p : mtp.
Hypothesis HP : mt_params p.
Hypothesis HR : mt_reversible p.
Notation n := (mn p).
Notation m := (mm p).
Notation r := (mr p).
Notation w := (mw p).
Notation inm := (inw (mn p) (mV p)).
Notation mst := (wst (mG p)).
Notation msq := (sqn (mG p)).
Notation un := (ut (mw p) (ma p)).

Lemma untwist_ut : forall v, 0 <= v < 2 ^ w -> untwist p v = un v.
Proof.
  intros v Hv. pose proof (w_le_W p HP) as HWw. destruct HP as [HW [Hw [Hm [Hr Ha]]]]. destruct HR as [Hat Hm2].
  unfold untwist, ut.
  assert (E: (Z.land v (Z.shiftl 1 (w - 1)) =? 0) = negb (Z.testbit v (w - 1))).
  { rewrite Z.shiftl_1_l. destruct (Z.testbit v (w - 1)) eqn:T; simpl.
    - apply Z.eqb_neq. intro H. apply (f_equal (fun z => Z.testbit z (w - 1))) in H.
      rewrite Z.land_spec, T, Z.pow2_bits_true, Z.testbit_0_l in H by lia. discriminate.
    - apply Z.eqb_eq. apply Z.bits_inj'. intros i Hi. rewrite Z.land_spec, Z.testbit_0_l.
      destruct (Z.eq_dec i (w - 1)) as [->|N]; [rewrite T; reflexivity|].
      rewrite Z.pow2_bits_false by lia. apply andb_false_r. }
  rewrite E. pose proof (ut_range w (ma p) ltac:(lia) ltac:(lia) v Hv) as HU. unfold ut in HU.
  destruct (Z.testbit v (w - 1)); cbn [negb].
  - unfold wrap. rewrite Z.shiftl_mul_pow2 by lia. change (2 ^ 1) with 2.
    rewrite Z.mod_small by lia. rewrite Z.mul_comm. rewrite <- disjoint_add; [reflexivity|].
    change 1 with (Z.ones 1). rewrite Z.land_ones by lia. change (2 ^ 1) with 2. rewrite Z.mul_comm. apply Z.mod_mul. lia.
  - unfold wrap. rewrite Z.shiftl_mul_pow2 by lia. change (2 ^ 1) with 2. rewrite Z.mul_comm. apply Z.mod_small. lia.
Qed.

Definition Nm (x : list Z) : Prop := nth 0 x 0 mod 2 ^ r = un (Z.lxor (nth (m - 1) x 0) (nth (n - 1) x 0)) mod 2 ^ r.

Lemma aw : 1 <= w /\ 2 ^ (w - 1) <= ma p < 2 ^ w.
Proof. destruct HP as [HW [Hw [Hm [Hr Ha]]]]. destruct HR as [Hat Hm2]. lia. Qed.
Lemma mbnd : (2 <= m /\ m < n)%nat.
Proof. destruct HP as [HW [Hw [Hm [Hr Ha]]]]. destruct HR as [Hat Hm2]. lia. Qed.
Lemma rbnd : 1 <= r < w.
Proof. destruct HP as [HW [Hw [Hm [Hr Ha]]]]. lia. Qed.

Lemma vnth : forall x j, inm x -> (j < n)%nat -> 0 <= nth j x 0 < 2 ^ w.
Proof. intros x j Hx Hj. apply (inw_nth _ _ x j Hx Hj). Qed.
Lemma vxor : forall x i j, inm x -> (i < n)%nat -> (j < n)%nat -> 0 <= Z.lxor (nth i x 0) (nth j x 0) < 2 ^ w.
Proof. intros x i j Hx Hi Hj. pose proof aw. apply lxor_range; [lia|apply vnth; auto|apply vnth; auto]. Qed.
Lemma un_tw : forall y, 0 <= y < 2 ^ w -> un (tw (ma p) y) = y.
Proof. intros y Hy. destruct aw. apply ut_tw; lia. Qed.
Lemma tw_un : forall v, 0 <= v < 2 ^ w -> tw (ma p) (un v) = v.
Proof. intros y Hy. destruct aw. apply tw_ut; lia. Qed.
Lemma un_rng : forall v, 0 <= v < 2 ^ w -> 0 <= un v < 2 ^ w.
Proof. intros v Hv. destruct aw. apply ut_range; lia. Qed.

Lemma xor_cancel : forall a b, Z.lxor a (Z.lxor a b) = b.
Proof. intros. rewrite <- Z.lxor_assoc, Z.lxor_nilpotent. apply Z.lxor_0_l. Qed.

Lemma normal_Nm : forall x, inm x -> (mt_normal p x <-> Nm x).
Proof.
  intros x Hx. pose proof mbnd. pose proof rbnd. unfold mt_normal, Nm. split.
  - intros [v [Hv E]]. rewrite twist_word_tw in E. rewrite E, xor_cancel.
    rewrite un_tw by (apply yy_range; [lia|exact Hv|apply vnth; [exact Hx|lia]]). symmetry. apply yy_low_mod. lia.
  - intro E. exists (un (Z.lxor (nth (m - 1) x 0) (nth (n - 1) x 0))).
    assert (HX: 0 <= Z.lxor (nth (m - 1) x 0) (nth (n - 1) x 0) < 2 ^ w) by (apply vxor; [exact Hx|lia|lia]).
    split; [apply un_rng; exact HX|].
    rewrite twist_word_tw. rewrite (yy_mod_r (mr p) _ _ _ ltac:(lia) E), yy_same, tw_un by exact HX. symmetry. apply xor_cancel.
Qed.

Definition bk (x : list Z) : Z :=
  yy r (un (Z.lxor (nth (m - 1) x 0) (nth (n - 1) x 0))) (un (Z.lxor (nth (m - 2) x 0) (nth (n - 2) x 0))).
Definition mback (x : list Z) : list Z := bk x :: firstn (n - 1) x.

Lemma bk_rng : forall x, inm x -> 0 <= bk x < 2 ^ w.
Proof.
  intros x Hx. pose proof mbnd. pose proof rbnd. unfold bk.
  apply yy_range; [lia| |]; apply un_rng; apply vxor; try exact Hx; lia.
Qed.
Lemma mback_inm : forall x, inm x -> inm (mback x).
Proof.
  intros x Hx. pose proof (bk_rng x Hx) as HB. pose proof mbnd. destruct Hx as [H1 H2]. split.
  - unfold mback. cbn [length]. rewrite firstn_length. lia.
  - intros v [<-|Hv]; [exact HB|]. apply H2. rewrite <- (firstn_skipn (n - 1) x). apply in_or_app. left. exact Hv.
Qed.
Lemma mback_nth : forall x j, inm x -> (S j < n)%nat -> nth (S j) (mback x) 0 = nth j x 0.
Proof.
  intros x j [H1 H2] Hj. unfold mback. change (nth (S j) (bk x :: firstn (n - 1) x) 0) with (nth j (firstn (n - 1) x) 0).
  rewrite <- (firstn_skipn (n - 1) x) at 2. rewrite app_nth1; [reflexivity|]. rewrite firstn_length. lia.
Qed.
Lemma mback_0 : forall x, nth 0 (mback x) 0 = bk x.
Proof. reflexivity. Qed.
Lemma mst_inm : forall x, inm x -> inm (mst x).
Proof. intros x Hx. apply (wst_inw n (mG p) (mV p) (mn1 p HP) (mG_V p HP) x Hx). Qed.
Lemma mst_nth : forall x j, inm x -> (S j < n)%nat -> nth j (mst x) 0 = nth (S j) x 0.
Proof. intros x j Hx Hj. apply (wst_nth n (mG p) (mV p) (mn1 p HP) x j Hx Hj). Qed.
Lemma mst_last : forall x, inm x -> nth (n - 1) (mst x) 0 = mG p x.
Proof. intros x Hx. apply (wst_last n (mG p) (mV p) (mn1 p HP) x Hx). Qed.

Lemma mst_Nm : forall x, inm x -> Nm (mst x).
Proof.
  intros x Hx. pose proof mbnd. pose proof rbnd. unfold Nm. rewrite mst_last by exact Hx.
  rewrite !mst_nth by (try exact Hx; lia). unfold mG. replace (S (m - 1)) with m by lia. rewrite xor_cancel.
  rewrite un_tw by (apply yy_range; [lia| |]; apply vnth; try exact Hx; lia). symmetry. apply yy_low_mod. lia.
Qed.
Lemma mback_Nm : forall x, inm x -> Nm (mback x).
Proof.
  intros x Hx. pose proof mbnd. pose proof rbnd. unfold Nm. rewrite mback_0.
  replace (m - 1)%nat with (S (m - 2)) by lia. replace (n - 1)%nat with (S (n - 2)) by lia.
  rewrite !mback_nth by (try exact Hx; lia). unfold bk. apply yy_low_mod. lia.
Qed.

Lemma mst_back : forall x, inm x -> Nm x -> mst (mback x) = x.
Proof.
  intros x Hx HN. pose proof mbnd. pose proof rbnd. pose proof (mback_inm x Hx) as HB. pose proof (mst_inm _ HB) as HM.
  apply list_ext; [destruct HM, Hx; lia|]. intros j Hj. assert (Hjn: (j < n)%nat) by (destruct HM; lia).
  destruct (Nat.eq_dec j (n - 1)) as [->|E].
  - rewrite mst_last by exact HB. unfold mG. rewrite mback_0. replace m with (S (m - 1)) at 1 by lia.
    rewrite !mback_nth by (try exact Hx; lia). unfold bk. rewrite yy_up by lia.
    rewrite (yy_mod_r (mr p) _ _ _ ltac:(lia) HN), yy_same. rewrite tw_un by (apply vxor; try exact Hx; lia). apply xor_cancel.
  - rewrite mst_nth by (try exact HB; lia). apply mback_nth; [exact Hx|lia].
Qed.
Lemma back_mst : forall x, inm x -> Nm x -> mback (mst x) = x.
Proof.
  intros x Hx HN. pose proof mbnd. pose proof rbnd. pose proof (mst_inm x Hx) as HM. pose proof (mback_inm _ HM) as HB.
  apply list_ext; [destruct HB, Hx; lia|]. intros j Hj. assert (Hjn: (j < n)%nat) by (destruct HB; lia).
  destruct j as [|j].
  - rewrite mback_0. unfold bk. rewrite mst_last by exact Hx. rewrite !mst_nth by (try exact Hx; lia).
    unfold mG. replace (S (m - 1)) with m by lia. rewrite xor_cancel.
    rewrite un_tw by (apply yy_range; [lia| |]; apply vnth; try exact Hx; lia). rewrite yy_up by lia.
    replace (S (m - 2)) with (m - 1)%nat by lia. replace (S (n - 2)) with (n - 1)%nat by lia.
    rewrite <- (yy_mod_r (mr p) _ _ _ ltac:(lia) HN). apply yy_same.
  - rewrite mback_nth by (try exact HM; lia). apply mst_nth; [exact Hx|lia].
Qed.

Lemma iter_mst_inm : forall k x, inm x -> inm (iter k mst x).
Proof. intros k x Hx. apply (iter_inw n (mG p) (mV p) (mn1 p HP) (mG_V p HP) k x Hx). Qed.
Lemma iter_mst_Nm : forall k x, inm x -> Nm x -> Nm (iter k mst x).
Proof. intros [|k] x Hx HN; [exact HN|]. rewrite iter_succ. apply mst_Nm, iter_mst_inm, Hx. Qed.
Lemma iter_back_inm : forall k x, inm x -> inm (iter k mback x).
Proof. induction k as [|k IH]; intros x Hx; [exact Hx|]. cbn [iter]. apply IH, mback_inm, Hx. Qed.
Lemma iter_back_Nm : forall k x, inm x -> Nm x -> Nm (iter k mback x).
Proof. intros [|k] x Hx HN; [exact HN|]. rewrite iter_succ. apply mback_Nm, iter_back_inm, Hx. Qed.
Lemma iter_mst_back : forall k x, inm x -> Nm x -> iter k mst (iter k mback x) = x.
Proof.
  induction k as [|k IH]; intros x Hx HN; [reflexivity|]. rewrite iter_succ. cbn [iter].
  rewrite IH by (auto using mback_inm, mback_Nm). apply mst_back; assumption.
Qed.
Lemma iter_back_mst : forall k x, inm x -> Nm x -> iter k mback (iter k mst x) = x.
Proof.
  induction k as [|k IH]; intros x Hx HN; [reflexivity|]. rewrite iter_succ. cbn [iter].
  rewrite IH by (auto using mst_inm, mst_Nm). apply back_mst; assumption.
Qed.

(* ---- rewind ---- *)
Lemma find_ok : forall x back sz j, inm x -> length back = sz -> (sz < n)%nat -> (1 <= j < n)%nat ->
  rewind_find p x back sz j = Some (nth (j - 1) (rev back ++ firstn (n - sz) x) 0).
Proof.
  intros x back sz j [H1 H2] HB Hsz Hj. unfold rewind_find. cbv zeta.
  destruct (Nat.lt_ge_cases (j - 1) sz) as [L|L].
  - assert (E: ((j + n - sz + n - 1) mod n = n + j - 1 - sz)%nat).
    { replace (j + n - sz + n - 1)%nat with (n + j - 1 - sz + 1 * n)%nat by lia. rewrite Nat.mod_add by lia.
      apply Nat.mod_small. lia. }
    rewrite E. destruct (Nat.ltb_spec (n + j - 1 - sz) (n - sz)); [lia|].
    rewrite get_nth by lia. f_equal. rewrite app_nth1 by (rewrite rev_length; lia). rewrite rev_nth by lia. f_equal. lia.
  - assert (E: ((j + n - sz + n - 1) mod n = j - 1 - sz)%nat).
    { replace (j + n - sz + n - 1)%nat with (j - 1 - sz + 2 * n)%nat by lia. rewrite Nat.mod_add by lia.
      apply Nat.mod_small. lia. }
    rewrite E. destruct (Nat.ltb_spec (j - 1 - sz) (n - sz)); [|lia].
    rewrite get_nth by lia. f_equal. rewrite app_nth2 by (rewrite rev_length; lia). rewrite rev_length, HB.
    rewrite <- (firstn_skipn (n - sz) x) at 1. rewrite app_nth1; [reflexivity|]. rewrite firstn_length. lia.
Qed.

Lemma back_form : forall x sz, inm x -> (sz < n)%nat -> forall back, length back = sz ->
  iter sz mback x = rev back ++ firstn (n - sz) x ->
  iter (S sz) mback x = rev (back ++ [bk (iter sz mback x)]) ++ firstn (n - S sz) x.
Proof.
  intros x sz Hx Hsz back HB E. rewrite iter_succ. unfold mback at 1. rewrite E at 2.
  rewrite rev_app_distr. cbn [rev app]. f_equal.
  rewrite firstn_app. rewrite rev_length, HB. rewrite firstn_firstn. f_equal.
  - apply firstn_all2. rewrite rev_length. lia.
  - f_equal. lia.
Qed.

Lemma rewind_loop_ok : forall cnt sz x back y0, inm x -> length back = sz -> (sz + cnt <= n)%nat ->
  iter sz mback x = rev back ++ firstn (n - sz) x ->
  y0 = un (Z.lxor (nth (m - 1) (iter sz mback x) 0) (nth (n - 1) (iter sz mback x) 0)) ->
  exists b, rewind_loop p x cnt sz y0 back = Some b /\ length b = (sz + cnt)%nat /\
    iter (sz + cnt) mback x = rev b ++ firstn (n - (sz + cnt)) x.
Proof.
  induction cnt as [|c IH]; intros sz x back y0 Hx HB Hc E Hy.
  - exists back. rewrite Nat.add_0_r. auto.
  - cbn [rewind_loop]. pose proof mbnd. pose proof rbnd.
    rewrite !find_ok by (try assumption; lia). cbn [bind]. rewrite <- E.
    pose proof (iter_back_inm sz x Hx) as HW. set (W := iter sz mback x) in *.
    rewrite untwist_ut by (apply vxor; [exact HW|lia|lia]).
    pose proof (un_rng _ (vxor W (m - 1) (n - 1) HW ltac:(lia) ltac:(lia))) as Hy0.
    pose proof (un_rng _ (vxor W (m - 2) (n - 2) HW ltac:(lia) ltac:(lia))) as Hy1.
    pose proof (w_le_W p HP) as HWw.
    replace (m - 1 - 1)%nat with (m - 2)%nat by lia. replace (n - 1 - 1)%nat with (n - 2)%nat by lia.
    rewrite mask_yy by (rewrite ?Hy; destruct HP as [? [? _]]; lia).
    assert (EB: yy r y0 (un (Z.lxor (nth (m - 2) W 0) (nth (n - 2) W 0))) = bk W) by (rewrite Hy; reflexivity).
    rewrite EB. destruct (IH (S sz) x (back ++ [bk W]) (un (Z.lxor (nth (m - 2) W 0) (nth (n - 2) W 0)))) as [b [F1 [F2 F3]]].
    + exact Hx.
    + rewrite app_length. cbn [length]. lia.
    + lia.
    + apply back_form; try assumption. lia.
    + rewrite iter_succ. fold W. replace (m - 1)%nat with (S (m - 2)) by lia. replace (n - 1)%nat with (S (n - 2)) by lia.
      rewrite !mback_nth by (try exact HW; lia). reflexivity.
    + exists b. rewrite F1. split; [reflexivity|]. rewrite Nat.add_succ_r. auto.
Qed.

Lemma rewind_ok : forall x z, inm x -> (z <= n)%nat ->
  exists b, mt_rewind p x z = Some b /\ length b = z /\ iter z mback x = rev b ++ firstn (n - z) x.
Proof.
  intros x z Hx Hz. pose proof mbnd. unfold mt_rewind. assert (EL: length x = n) by (destruct Hx; assumption).
  rewrite !get_nth by lia. cbn [bind]. rewrite untwist_ut by (apply vxor; [exact Hx|lia|lia]).
  apply (rewind_loop_ok z 0 x [] _ Hx eq_refl ltac:(lia)); [|reflexivity].
  cbn [iter rev app]. rewrite Nat.sub_0_r, <- EL. symmetry. apply firstn_all.
Qed.

(* ---- text form ---- *)
Lemma print_ok : forall st, inm (mx st) -> (mi st <= n)%nat -> mt_print p st = Some (iter (n - mi st) mback (mx st)).
Proof.
  intros [x i] Hx Hi. cbn [mx mi] in *. unfold mt_print. cbn [mx mi]. destruct (Nat.eqb_spec i n) as [->|E].
  - rewrite Nat.sub_diag. cbn [iter]. f_equal. destruct Hx as [H1 _]. rewrite <- H1. apply firstn_all.
  - destruct (rewind_ok x (n - i) Hx ltac:(lia)) as [b [F1 [F2 F3]]]. rewrite F1. cbn [bind]. f_equal. rewrite F3.
    f_equal. f_equal. lia.
Qed.

(* ---- equality ---- *)
Lemma eq_loop1_ok : forall cnt j x y off, (j + cnt <= length x)%nat -> (j + cnt + off <= length y)%nat ->
  exists b, eq_loop1 x y off cnt j = Some b /\ (b = true <-> forall k, (j <= k < j + cnt)%nat -> nth k x 0 = nth (k + off) y 0).
Proof.
  induction cnt as [|c IH]; intros j x y off H1 H2; cbn [eq_loop1].
  - exists true. split; [reflexivity|]. split; [intros _ k Hk; lia|reflexivity].
  - rewrite !get_nth by lia. cbn [bind]. destruct (Z.eqb_spec (nth j x 0) (nth (j + off) y 0)) as [E|E].
    + destruct (IH (S j) x y off ltac:(lia) ltac:(lia)) as [b [F1 F2]]. exists b. split; [exact F1|]. rewrite F2. split.
      * intros H k Hk. destruct (Nat.eq_dec k j) as [->|N]; [exact E|apply H; lia].
      * intros H k Hk. apply H. lia.
    + exists false. split; [reflexivity|]. split; [discriminate|]. intro H. exfalso. apply E, H. lia.
Qed.
Lemma eq_loop2_ok : forall cnt j back y off, length back = off -> (j + cnt <= off)%nat -> (off <= length y)%nat ->
  exists b, eq_loop2 back y off cnt j = Some b /\ (b = true <-> forall k, (j <= k < j + cnt)%nat -> nth k (rev back) 0 = nth k y 0).
Proof.
  induction cnt as [|c IH]; intros j back y off H1 H2 H3; cbn [eq_loop2].
  - exists true. split; [reflexivity|]. split; [intros _ k Hk; lia|reflexivity].
  - rewrite !get_nth by lia. cbn [bind].
    assert (ER: nth (off - 1 - j) back 0 = nth j (rev back) 0) by (rewrite rev_nth by lia; f_equal; lia). rewrite ER.
    destruct (Z.eqb_spec (nth j (rev back) 0) (nth j y 0)) as [E|E].
    + destruct (IH (S j) back y off H1 ltac:(lia) H3) as [b [F1 F2]]. exists b. split; [exact F1|]. rewrite F2. split.
      * intros H k Hk. destruct (Nat.eq_dec k j) as [->|N]; [exact E|apply H; lia].
      * intros H k Hk. apply H. lia.
    + exists false. split; [reflexivity|]. split; [discriminate|]. intro H. exfalso. apply E, H. lia.
Qed.

Lemma nth_firstn_lt : forall (x : list Z) k j, (j < k)%nat -> nth j (firstn k x) 0 = nth j x 0.
Proof.
  induction x as [|a x IH]; intros k j H; [rewrite firstn_nil; reflexivity|].
  destruct k as [|k]; [lia|]. destruct j as [|j]; [reflexivity|]. cbn [firstn nth]. apply IH. lia.
Qed.

Lemma equal_imp_ok : forall a b, inm (mx a) -> inm (mx b) -> (mi a <= mi b <= n)%nat ->
  exists e, equal_imp p a b = Some e /\ (e = true <-> iter (mi b - mi a) mback (mx a) = mx b).
Proof.
  intros [x i] [y j] Hx Hy Hij. cbn [mx mi] in *. unfold equal_imp. cbn [mx mi]. cbv zeta.
  set (off := (j - i)%nat). assert (Hoff: (off <= n)%nat) by lia.
  assert (ELx: length x = n) by (destruct Hx; assumption). assert (ELy: length y = n) by (destruct Hy; assumption).
  destruct (eq_loop1_ok (n - off) 0 x y off ltac:(lia) ltac:(lia)) as [e1 [F1 F2]]. rewrite F1. cbn [bind].
  destruct (rewind_ok x off Hx Hoff) as [back [R1 [R2 R3]]].
  assert (HL: length (rev back ++ firstn (n - off) x) = n) by (rewrite app_length, rev_length, firstn_length; lia).
  assert (HI: (rev back ++ firstn (n - off) x = y) <->
     (forall k, (0 <= k < 0 + off)%nat -> nth k (rev back) 0 = nth k y 0) /\
     (forall k, (0 <= k < 0 + (n - off))%nat -> nth k x 0 = nth (k + off) y 0)).
  { split.
    - intro E. split; intros k Hk.
      + rewrite <- E. rewrite app_nth1 by (rewrite rev_length; lia). reflexivity.
      + rewrite <- E. rewrite app_nth2 by (rewrite rev_length; lia). rewrite rev_length, R2.
        replace (k + off - off)%nat with k by lia. symmetry. apply nth_firstn_lt. lia.
    - intros [H1 H2]. apply list_ext; [lia|]. intros k Hk. rewrite HL in Hk.
      destruct (Nat.lt_ge_cases k off) as [L|L].
      + rewrite app_nth1 by (rewrite rev_length; lia). apply H1. lia.
      + rewrite app_nth2 by (rewrite rev_length; lia). rewrite rev_length, R2. rewrite nth_firstn_lt by lia.
        rewrite H2 by lia. f_equal. lia. }
  rewrite R3. destruct e1.
  - rewrite R1. cbn [bind]. destruct (eq_loop2_ok off 0 back y off R2 ltac:(lia) ltac:(lia)) as [e2 [G1 G2]].
    exists e2. split; [exact G1|]. rewrite HI, G2. split; [intro H; split; [exact H|apply F2; reflexivity]|intros [H _]; exact H].
  - exists false. split; [reflexivity|]. rewrite HI. split; [discriminate|]. intros [_ H]. apply F2. exact H.
Qed.
End Mt2.
