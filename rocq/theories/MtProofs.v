(* Proofs about the Mersenne twister: the recurrence. *)
From Verif Require Import Base RingModel RingProofs SwcProofs Swc2Proofs WinProofs BitsProofs MtModel MtSpec.
Ltac Zify.zify_post_hook ::= idtac.

Lemma ones_bits : forall W i, 0 <= W -> 0 <= i -> Z.testbit (2 ^ W - 1) i = (i <? W).
Proof.
  intros W i HW Hi. replace (2 ^ W - 1) with (Z.ones W) by (rewrite Z.ones_equiv; lia).
  destruct (Z.ltb_spec i W); [apply Z.ones_spec_low; lia|apply Z.ones_spec_high; lia].
Qed.
Lemma upper_mask_bits : forall p i, 0 <= mr p < mW p -> 0 <= i ->
  Z.testbit (upper_mask p) i = (mr p <=? i) && (i <? mW p).
Proof.
  intros p i Hr Hi. unfold upper_mask, wrap, mt_ones. rewrite lower_bits by lia.
  destruct (Z.ltb_spec i (mW p)); simpl; [|rewrite andb_false_r; reflexivity]. rewrite andb_true_r.
  destruct (Z.leb_spec (mr p) i).
  - rewrite Z.shiftl_spec_high by lia. rewrite ones_bits by lia. apply Z.ltb_lt. lia.
  - apply Z.shiftl_spec_low. lia.
Qed.
Lemma lower_mask_bits : forall p i, 0 <= mr p < mW p -> 0 <= i -> Z.testbit (lower_mask p) i = (i <? mr p).
Proof.
  intros p i Hr Hi. unfold lower_mask. rewrite Z.lxor_spec, upper_mask_bits by lia. unfold mt_ones. rewrite ones_bits by lia.
  destruct (Z.ltb_spec i (mW p)), (Z.leb_spec (mr p) i), (Z.ltb_spec i (mr p)); simpl; try reflexivity; lia.
Qed.
Lemma upper_mask_nn : forall p, 0 <= mW p -> 0 <= upper_mask p.
Proof. intros p H. unfold upper_mask, wrap. apply Z.mod_pos_bound. apply Z.pow_pos_nonneg; lia. Qed.
Lemma lower_mask_nn : forall p, 0 <= mW p -> 0 <= lower_mask p.
Proof.
  intros p H. unfold lower_mask, mt_ones. apply Z.lxor_nonneg. pose proof (upper_mask_nn p H).
  assert (0 < 2 ^ mW p) by (apply Z.pow_pos_nonneg; lia). lia.
Qed.

Lemma land_upper : forall p x, 0 <= mr p < mW p -> 0 <= x < 2 ^ mW p -> Z.land x (upper_mask p) = x - x mod 2 ^ mr p.
Proof.
  intros p x Hr Hx. apply Z.bits_inj'. intros i Hi. rewrite Z.land_spec, upper_bits, upper_mask_bits by lia.
  destruct (Z.ltb_spec i (mW p)); [rewrite andb_true_r; apply andb_comm|].
  rewrite (bits_above x (mW p)) by lia. rewrite !andb_false_r. reflexivity.
Qed.
Lemma land_lower : forall p x, 0 <= mr p < mW p -> 0 <= x -> Z.land x (lower_mask p) = x mod 2 ^ mr p.
Proof.
  intros p x Hr Hx. apply Z.bits_inj'. intros i Hi. rewrite Z.land_spec, lower_bits, lower_mask_bits by lia. apply andb_comm.
Qed.
Lemma mask_yy : forall p u v, 0 <= mr p < mW p -> 0 <= u < 2 ^ mW p -> 0 <= v ->
  Z.lor (Z.land u (upper_mask p)) (Z.land v (lower_mask p)) = yy (mr p) u v.
Proof. intros. rewrite land_upper, land_lower by lia. symmetry. apply yy_lor. lia. Qed.

Lemma twist_word_tw : forall p u v, twist_word p u v = tw (ma p) (yy (mr p) u v).
Proof. reflexivity. Qed.

Section Mt.
Variable p : mtp.
Hypothesis HP : mt_params p.

Lemma w_le_W : 2 ^ mw p <= 2 ^ mW p.
Proof. destruct HP as [? [? _]]. apply Z.pow_le_mono_r; lia. Qed.

Lemma tw_val_tw : forall xj xj1 xo, 0 <= xj < 2 ^ mw p -> 0 <= xj1 < 2 ^ mw p ->
  tw_val p xj xj1 xo = Z.lxor xo (tw (ma p) (yy (mr p) xj xj1)).
Proof.
  intros xj xj1 xo H1 H2. pose proof w_le_W. destruct HP as [HW [Hw [Hn [Hr Ha]]]].
  unfold tw_val, tw. rewrite mask_yy by lia. rewrite Z.shiftr_div_pow2 by lia. change (2 ^ 1) with 2.
  rewrite Z.lxor_assoc. do 2 f_equal. rewrite odd_yy by lia.
  change 1 with (Z.ones 1) at 1. rewrite Z.land_ones by lia. change (2 ^ 1) with 2. rewrite Zmod_odd.
  destruct (Z.odd xj1); unfold wrap; rewrite ?Z.mul_1_l, ?Z.mul_0_l; apply Z.mod_small; lia.
Qed.

Definition mG (W : list Z) : Z := Z.lxor (nth (mm p) W 0) (tw (ma p) (yy (mr p) (nth 0 W 0) (nth 1 W 0))).
Definition mV (v : Z) : Prop := 0 <= v < 2 ^ mw p.
Notation inm := (inw (mn p) mV).
Notation mst := (wst mG).
Notation msq := (sqn mG).

Lemma mn_pos : (2 <= mn p)%nat.
Proof. destruct HP as [_ [_ [H _]]]. lia. Qed.

Lemma mn1 : (1 <= mn p)%nat.
Proof. pose proof mn_pos. lia. Qed.

Lemma mG_V : forall W, inm W -> mV (mG W).
Proof.
  intros W HW. pose proof mn_pos. destruct HP as [? [Hw [Hn [Hr Ha]]]]. unfold mG, mV.
  assert (E: forall j, (j < mn p)%nat -> 0 <= nth j W 0 < 2 ^ mw p) by (intros j Hj; apply (inw_nth _ _ _ _ HW Hj)).
  apply lxor_range; [lia|apply E; lia|]. apply tw_range; [lia|lia|]. apply yy_range; [lia|apply E; lia|apply E; lia].
Qed.

Lemma one_put : forall j x o, inm x -> (j < mn p)%nat -> (o < mn p)%nat ->
  o = (if (j + mm p <? mn p)%nat then j + mm p else j + mm p - mn p)%nat ->
  bind (get x j) (fun xj => bind (get x (if (j + 1 <? mn p)%nat then j + 1 else 0)%nat) (fun xj1 => bind (get x o) (fun xo =>
    upd x j (tw_val p xj xj1 xo)))) = Some (gput mG j x).
Proof.
  intros j x o Hx Hj Ho Eo. pose proof mn_pos.
  assert (EL: length x = mn p) by (destruct Hx; assumption).
  assert (Hj1: ((if j + 1 <? mn p then j + 1 else 0) < mn p)%nat) by (destruct (Nat.ltb_spec (j + 1) (mn p)); lia).
  rewrite !get_nth by lia. cbn [bind]. rewrite upd_some by lia. f_equal. unfold gput. do 2 f_equal.
  rewrite tw_val_tw by (apply (inw_nth _ _ x _ Hx); lia).
  destruct HP as [_ [_ [Hm _]]].
  unfold mG. rewrite !nth_rot by lia. rewrite EL. rewrite Nat.add_0_r.
  destruct (Nat.ltb_spec j (mn p)); [|lia]. f_equal; [f_equal; exact Eo|]. do 3 f_equal.
  destruct (Nat.ltb_spec (j + 1) (mn p)); lia.
Qed.

Lemma loop_a_ok : forall cnt j x, inm x -> (j + cnt <= mn p - mm p)%nat -> tw_loop_a p cnt j x = Some (gseg mG cnt j x).
Proof.
  induction cnt as [|c IH]; intros j x Hx H; [reflexivity|]. cbn [tw_loop_a gseg].
  destruct HP as [_ [_ [Hm _]]].
  pose proof (one_put j x (j + mm p) Hx ltac:(lia) ltac:(lia)) as E.
  destruct (Nat.ltb_spec (j + mm p) (mn p)); [|lia]. destruct (Nat.ltb_spec (j + 1) (mn p)); [|lia].
  specialize (E eq_refl).
  destruct (get x j) as [xj|]; [|discriminate E]. cbn [bind] in *.
  destruct (get x (j + 1)) as [xj1|]; [|discriminate E]. cbn [bind] in *.
  destruct (get x (j + mm p)) as [xo|]; [|discriminate E]. cbn [bind] in *. rewrite E. cbn [bind].
  apply IH; [|lia]. apply gput_inw; [lia|exact mG_V|exact Hx|lia].
Qed.
Lemma loop_b_ok : forall cnt j x, inm x -> (mn p - mm p <= j)%nat -> (j + cnt <= mn p - 1)%nat ->
  tw_loop_b p cnt j x = Some (gseg mG cnt j x).
Proof.
  induction cnt as [|c IH]; intros j x Hx H H'; [reflexivity|]. cbn [tw_loop_b gseg].
  destruct HP as [_ [_ [Hm _]]].
  pose proof (one_put j x (j - (mn p - mm p)) Hx ltac:(lia) ltac:(lia)) as E.
  destruct (Nat.ltb_spec (j + mm p) (mn p)); [lia|]. destruct (Nat.ltb_spec (j + 1) (mn p)); [|lia].
  specialize (E ltac:(lia)).
  destruct (get x j) as [xj|]; [|discriminate E]. cbn [bind] in *.
  destruct (get x (j + 1)) as [xj1|]; [|discriminate E]. cbn [bind] in *.
  destruct (get x (j - (mn p - mm p))) as [xo|]; [|discriminate E]. cbn [bind] in *. rewrite E. cbn [bind].
  apply IH; [|lia|lia]. apply gput_inw; [lia|exact mG_V|exact Hx|lia].
Qed.

Lemma twist_ok : forall x, inm x -> mt_twist p x = Some (iter (mn p) mst x).
Proof.
  intros x Hx. pose proof mn_pos as Hn2.
  pose proof HP as HP'. destruct HP' as [_ [_ [Hm _]]].
  pose proof (Nat.mod_le (mn p - mm p) 6 ltac:(lia)) as H1.
  pose proof (Nat.mod_le (mm p - 1) 6 ltac:(lia)) as H2.
  unfold mt_twist. cbv zeta.
  set (e1 := ((mn p - mm p) mod 6)%nat) in *. set (e2 := ((mm p - 1) mod 6)%nat) in *. clearbody e1 e2.
  rewrite loop_a_ok by (auto; lia). cbn [bind].
  assert (G1: inm (gseg mG (mn p - mm p - e1) 0 x)) by (apply gseg_inw; [lia|exact mG_V|exact Hx|lia]).
  rewrite loop_a_ok by (auto; lia). cbn [bind].
  change (gseg mG e1 (mn p - mm p - e1) (gseg mG (mn p - mm p - e1) 0 x))
    with (gseg mG e1 (0 + (mn p - mm p - e1)) (gseg mG (mn p - mm p - e1) 0 x)). rewrite <- gseg_app.
  replace (mn p - mm p - e1 + e1)%nat with (mn p - mm p)%nat by lia.
  assert (G2: inm (gseg mG (mn p - mm p) 0 x)) by (apply gseg_inw; [lia|exact mG_V|exact Hx|lia]).
  rewrite loop_b_ok by (auto; lia). cbn [bind].
  change (gseg mG (mn p - 1 - e2 - (mn p - mm p)) (mn p - mm p) (gseg mG (mn p - mm p) 0 x))
    with (gseg mG (mn p - 1 - e2 - (mn p - mm p)) (0 + (mn p - mm p)) (gseg mG (mn p - mm p) 0 x)). rewrite <- gseg_app.
  replace (mn p - mm p + (mn p - 1 - e2 - (mn p - mm p)))%nat with (mn p - 1 - e2)%nat by lia.
  assert (G3: inm (gseg mG (mn p - 1 - e2) 0 x)) by (apply gseg_inw; [lia|exact mG_V|exact Hx|lia]).
  rewrite loop_b_ok by (auto; lia). cbn [bind].
  change (gseg mG e2 (mn p - 1 - e2) (gseg mG (mn p - 1 - e2) 0 x))
    with (gseg mG e2 (0 + (mn p - 1 - e2)) (gseg mG (mn p - 1 - e2) 0 x)). rewrite <- gseg_app.
  replace (mn p - 1 - e2 + e2)%nat with (mn p - 1)%nat by lia.
  assert (G4: inm (gseg mG (mn p - 1) 0 x)) by (apply gseg_inw; [lia|exact mG_V|exact Hx|lia]).
  set (x4 := gseg mG (mn p - 1) 0 x) in *.
  pose proof (one_put (mn p - 1) x4 (mm p - 1) G4 ltac:(lia) ltac:(lia)) as E.
  destruct (Nat.ltb_spec (mn p - 1 + mm p) (mn p)); [lia|].
  destruct (Nat.ltb_spec (mn p - 1 + 1) (mn p)); [lia|]. specialize (E ltac:(lia)). rewrite E.
  f_equal. rewrite <- (gseg_all (mn p) mG mV ltac:(lia) mG_V x Hx).
  transitivity (gseg mG (mn p - 1 + 1) 0 x); [|f_equal; lia].
  rewrite gseg_app. cbn [gseg]. f_equal.
Qed.

Lemma msq_sequence : forall x, inm x -> mt_sequence p x (msq x).
Proof.
  intros x Hx. pose proof mn_pos. pose proof HP as HP'. destruct HP' as [_ [_ [Hm _]]]. split.
  - intros j Hj. apply (sqn_start (mn p) mG mV mn1 mG_V x j Hx). exact Hj.
  - intros k. rewrite (sqn_rec (mn p) mG mV mn1 mG_V x k Hx). unfold mG at 1.
    rewrite !(sqn_window (mn p) mG mV mn1 mG_V x _ _ Hx) by lia. rewrite Nat.add_0_r. reflexivity.
Qed.

Lemma seq_map_ext : forall (f g : nat -> Z) a b n, (forall j, f (a + j)%nat = g (b + j)%nat) -> map f (seq a n) = map g (seq b n).
Proof.
  intros f g a b n. revert a b. induction n as [|n IH]; intros a b H; [reflexivity|]. cbn [seq map]. f_equal.
  - specialize (H O). rewrite !Nat.add_0_r in H. exact H.
  - apply IH. intro j. specialize (H (S j)). rewrite !Nat.add_succ_r in H. exact H.
Qed.

Lemma mt_next_sq : forall st, inm (mx st) -> (mi st <= mn p)%nat ->
  exists st', mt_next p st = Some (mt_temper p (msq (mx st) (mi st)), st') /\ inm (mx st') /\ (mi st' <= mn p)%nat /\
    (if (mi st =? mn p)%nat then mx st' = iter (mn p) mst (mx st) /\ mi st' = 1%nat
     else mx st' = mx st /\ mi st' = S (mi st)) /\
    forall n, msq (mx st') (mi st' + n) = msq (mx st) (S (mi st) + n).
Proof.
  intros [x i] Hx Hi. cbn [mx mi] in *. unfold mt_next. cbn [mx mi]. pose proof mn_pos.
  assert (EL: length x = mn p) by (destruct Hx; assumption).
  destruct (Nat.eqb_spec i (mn p)) as [E|E].
  - subst i. rewrite twist_ok by exact Hx. cbn [bind mx mi].
    pose proof (iter_inw (mn p) mG mV mn1 mG_V (mn p) x Hx) as HX.
    rewrite get_nth by (destruct HX; lia). cbn [bind].
    exists (Mt (iter (mn p) mst x) 1). cbn [mx mi]. split; [reflexivity|]. split; [exact HX|]. split; [lia|].
    split; [auto|]. intro n. rewrite sqn_iter. f_equal. lia.
  - cbn [bind mx mi]. rewrite get_nth by lia. cbn [bind].
    exists (Mt x (S i)). cbn [mx mi]. split.
    + do 2 f_equal. rewrite (sqn_start (mn p) mG mV mn1 mG_V x i Hx) by lia. reflexivity.
    + split; [exact Hx|]. split; [lia|]. auto.
Qed.

Lemma mt_run_sq : forall n st, inm (mx st) -> (mi st <= mn p)%nat ->
  exists st', run (mt_next p) n st = Some (map (fun k => mt_temper p (msq (mx st) k)) (seq (mi st) n), st') /\
    inm (mx st') /\ (mi st' <= mn p)%nat /\ (forall k, msq (mx st') (mi st' + k) = msq (mx st) (mi st + n + k)) /\
    exists q, (mi st + n = q * mn p + mi st')%nat /\ mx st' = iter (q * mn p) mst (mx st).
Proof.
  induction n as [|n IH]; intros st Hx Hi.
  - exists st. cbn [run seq map]. split; [reflexivity|]. split; [exact Hx|]. split; [exact Hi|]. split.
    + intro k. f_equal. lia.
    + exists O. split; [lia|reflexivity].
  - destruct (mt_next_sq st Hx Hi) as [st1 [E1 [E2 [E3 [EQ E4]]]]].
    destruct (IH st1 E2 E3) as [st' [F1 [F2 [F3 [F4 [q [F5 F6]]]]]]].
    exists st'. cbn [run]. rewrite E1. cbn [bind fst snd]. rewrite F1. cbn [bind fst snd seq map].
    split; [|split; [exact F2|split; [exact F3|split]]].
    + do 3 f_equal. apply seq_map_ext. intro j. f_equal. apply E4.
    + intro k. rewrite F4. rewrite <- Nat.add_assoc. rewrite E4. f_equal. lia.
    + destruct (Nat.eqb_spec (mi st) (mn p)) as [E|E]; destruct EQ as [Q1 Q2].
      * exists (S q). split; [lia|]. rewrite F6, Q1. rewrite <- iter_plus. f_equal.
      * exists q. split; [lia|]. rewrite F6, Q1. reflexivity.
Qed.
End Mt.
