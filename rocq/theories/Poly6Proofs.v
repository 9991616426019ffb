(* mod_pow_x and class polynomial. *)
From Coq Require Import NArith Ring.
From Verif Require Import Base PolyModel PolySpec PolyProofs Poly2Proofs Poly3Proofs Poly4Proofs Poly5Proofs.
Open Scope nat_scope.
Open Scope gf_scope.
Ltac Zify.zify_post_hook ::= idtac.

Section Pow.
Variable W : nat.
Hypothesis HW : 2 <= W.
Local Notation dg := (dg W).
Local Notation reg := (reg W).
Local Notation frame := (frame W).

Lemma HW1 : 1 <= W. Proof using HW. lia. Qed.

Lemma Xm_inj0 : forall k a, X k (x) a = 0%N -> a = 0%N.
Proof using HW.
  intros k a H. apply coef_ext. intro i. rewrite coef_0. assert (C: coef (X k (x) a) (k + i) = false) by (rewrite H; apply coef_0).
  rewrite coef_Xm in C. destruct (Nat.ltb_spec (k + i) k); [lia|]. rewrite <- C. f_equal. lia.
Qed.
Lemma pval_split : forall l n, n <= length l -> pval W l = reg l 0 n (+) X (W * n) (x) reg l n (length l - n).
Proof using HW. intros l n H. rewrite pval_reg. replace (length l) with (n + (length l - n)) at 1 by lia. rewrite reg_split. reflexivity. Qed.
Lemma pval_low : forall l n, dg l -> n <= length l -> deg_lt (pval W l) (W * n) -> pval W l = reg l 0 n /\ reg l n (length l - n) = 0%N.
Proof using HW.
  intros l n D L H. pose proof (pval_split l n L) as E.
  assert (Z: X (W * n) (x) reg l n (length l - n) = 0%N).
  { apply coef_ext. intro k. rewrite coef_0. destruct (Nat.lt_ge_cases k (W * n)) as [Q|Q].
    - rewrite coef_Xm. destruct (Nat.ltb_spec k (W * n)); [reflexivity|lia].
    - assert (C: coef (pval W l) k = xorb (coef (reg l 0 n) k) (coef (X (W * n) (x) reg l n (length l - n)) k)) by (rewrite E at 1; apply coef_xor).
      rewrite (H k Q), (reg_deg W l 0 n D k Q), xorb_false_l in C. symmetry. exact C. }
  split; [rewrite E, Z; apply xor_0_r|]. apply (Xm_inj0 _ _ Z).
Qed.
Lemma frame_low : forall l l' n, frame l l' 0 n -> n <= length l -> reg l n (length l - n) = 0%N -> pval W l' = reg l' 0 n.
Proof using HW.
  intros l l' n F L Z. pose proof F as (FL & _ & _). rewrite (pval_split l' n) by lia. rewrite FL, (frame_reg W _ _ _ _ n (length l - n) F), Z by lia. rewrite gm_0_r. apply xor_0_r.
Qed.

(* x^e *)
Definition XN (e : N) : N := N.shiftl 1 e.
Lemma XN_X : forall e, XN e = X (N.to_nat e).
Proof using HW. intro e. unfold XN, X. rewrite N2Nat.id. reflexivity. Qed.
Lemma XN_double : forall e (b : bool), XN (N.double e + (if b then 1 else 0))%N = (if b then X 1 else 1%N) (x) (XN e (x) XN e).
Proof using HW.
  intros e b. rewrite !XN_X, <- X_add. rewrite N.double_spec. destruct b.
  - rewrite <- X_add. f_equal. lia.
  - rewrite gm_1_l. f_equal. lia.
Qed.
Lemma shr_step : forall e i, N.shiftr e (N.of_nat i) = (N.double (N.shiftr e (N.of_nat (S i))) + (if coef e i then 1 else 0))%N.
Proof using HW.
  intros e i. rewrite Nat2N.inj_succ, N.shiftr_succ_r. assert (C: coef e i = N.odd (N.shiftr e (N.of_nat i))).
  { rewrite <- N.bit0_odd. unfold coef. rewrite N.shiftr_spec by lia. rewrite N.add_0_l. reflexivity. }
  rewrite C. pose proof (N.div2_odd (N.shiftr e (N.of_nat i))) as H. rewrite N.double_spec. unfold N.b2n in H. destruct (N.odd (N.shiftr e (N.of_nat i))); lia.
Qed.
Lemma high_bit_ok : forall e i, (0 < e)%N -> (e < 2 ^ N.of_nat (S i))%N -> N.shiftr e (N.of_nat (high_bit e i)) = 1%N.
Proof using HW.
  intros e i. revert e. induction i as [|i IH]; intros e H0 H1.
  - cbn in *. assert (e = 1%N) by lia. subst. reflexivity.
  - cbn [high_bit]. fold (coef e (S i)). destruct (coef e (S i)) eqn:C.
    + apply coef_ext. intro k. rewrite coef_shr. destruct k as [|k].
      * cbn [plus]. rewrite C. reflexivity.
      * rewrite coef_1. apply deg_iff in H1. apply H1. lia.
    + apply IH; [exact H0|]. apply deg_iff. apply deg_iff in H1. intros k Hk. destruct (Nat.eq_dec k (S i)) as [->|NE]; [exact C|]. apply H1. lia.
Qed.

Lemma pow_loop_ok : W = W / 2 + W / 2 -> sqr_check W = true -> forall e md M d, dg md -> length md = ceil (d + 1) W -> pval W md = M -> coef M d = true -> deg_lt M (d + 1) ->
  forall i sm out, sm_of W sm M d -> dg out -> length out = 2 * ceil (d + 1) W -> sm_fits W (2 * ceil (d + 1) W) d (sm_block sm) (2 * (d + 1) - 1) ->
  deg_lt (pval W out) d -> cg M (pval W out) (XN (N.shiftr e (N.of_nat i))) ->
  exists out', pow_loop W i e md (d + 1) sm out = Some out' /\ length out' = length out /\ dg out' /\ deg_lt (pval W out') d /\ cg M (pval W out') (XN e).
Proof using HW.
  intros Hev Hsq e md M d Dm Lm EM HT HM. set (n := ceil (d + 1) W) in *. pose proof (ceil_ge (d + 1) W HW1) as Hn. fold n in Hn.
  induction i as [|i IH]; intros sm out Hsm Do Lo HF HD HC.
  - exists out. cbn [pow_loop]. change (N.of_nat 0) with 0%N in HC. rewrite N.shiftr_0_r in HC. repeat split; assumption.
  - cbn [pow_loop]. change ((d + 1 + W - 1) / W) with (ceil (d + 1) W). fold n. 
    destruct (sqr_array_ok W HW1 Hev Hsq out n ltac:(lia) Do) as (o1 & E1 & F1 & R1). rewrite E1. cbn [bind]. pose proof F1 as (L1 & _ & D1).
    destruct (pval_low out n Do ltac:(lia) ltac:(apply (deg_mono _ _ _ HD); lia)) as [P0 _].
    assert (V1: pval W o1 = pval W out (x) pval W out). { rewrite (pval_reg W o1), L1, Lo, R1, <- P0. reflexivity. }
    assert (DV1: deg_lt (pval W o1) (2 * (d + 1) - 1)). { rewrite V1. apply (deg_gm' _ _ d d); [exact HD|exact HD|lia]. }
    destruct (sm_apply_ok W HW1 M d HT HM (2 * (d + 1)) sm o1 (2 * (d + 1) - 1)) as (o2 & sm2 & E2 & S2 & B2 & L2 & D2 & DV2 & C2).
    { lia. } { exact Hsm. } { apply D1; exact Do. } { apply (deg_mono _ _ _ DV1). lia. } { rewrite L1, Lo. exact HF. } { rewrite L1, Lo. nia. }
    rewrite E2. cbn [bind fst snd].
    assert (C2': cg M (pval W o2) (XN (N.shiftr e (N.of_nat (S i))) (x) XN (N.shiftr e (N.of_nat (S i))))).
    { apply (cg_trans _ _ _ _ C2). rewrite V1. apply cg_mul; exact HC. }
    assert (STEP: exists o5, (if N.testbit e (N.of_nat i) then
          out <- shift_left W o2 n 1;; d0 <- rd out ((d + 1 - 1) / W);; mask <- dshl W 1 ((d + 1 - 1) mod W);;
          if (N.land d0 mask =? 0)%N then Some out else add_to n md 0 out 0 else Some o2) = Some o5 /\
        length o5 = length out /\ dg o5 /\ deg_lt (pval W o5) d /\ cg M (pval W o5) (XN (N.shiftr e (N.of_nat i)))).
    { rewrite shr_step. rewrite XN_double. fold (coef e i). destruct (coef e i).
      - destruct (pval_low o2 n D2 ltac:(lia) ltac:(apply (deg_mono _ _ _ DV2); lia)) as [P2 Z2].
        destruct (shift_left_ok W HW1 o2 n 1 ltac:(lia) ltac:(lia) D2) as (o3 & E3 & F3 & R3). rewrite E3. cbn [bind]. pose proof F3 as (L3 & _ & D3).
        pose proof (frame_low _ _ _ F3 ltac:(lia) Z2) as P3.
        assert (V3: pval W o3 = X 1 (x) pval W o2). { rewrite P3, R3, <- P2. apply mod_deg. apply (deg_mono _ (1 + d)); [apply deg_Xm; exact DV2|lia]. }
        assert (DV3: deg_lt (pval W o3) (d + 1)). { rewrite V3. apply (deg_mono _ (1 + d)); [apply deg_Xm; exact DV2|lia]. }
        replace (d + 1 - 1) with d by lia. destruct (divmod d W HW1) as [ED MD]. rewrite rd_at by nia. cbn [bind]. rewrite dshl_ok by exact MD. cbn [bind].
        rewrite bit_test by exact MD. rewrite <- (coef_pval' W HW1 o3 d (D3 D2)).
        assert (CG3: cg M (pval W o3) (X 1 (x) (XN (N.shiftr e (N.of_nat (S i))) (x) XN (N.shiftr e (N.of_nat (S i)))))).
        { rewrite V3. apply cg_mul; [apply cg_refl|exact C2']. }
        destruct (coef (pval W o3) d) eqn:CB; cbn [negb].
        + destruct (add_to_ok W n md 0 o3 0 ltac:(lia) ltac:(lia) Dm (D3 D2)) as (o4 & E4 & F4 & R4). exists o4. split; [exact E4|]. pose proof F4 as (L4 & _ & D4).
          destruct (pval_low o3 n (D3 D2) ltac:(lia) ltac:(apply (deg_mono _ _ _ DV3); lia)) as [_ Z3].
          pose proof (frame_low _ _ _ F4 ltac:(lia) Z3) as P4.
          assert (V4: pval W o4 = pval W o3 (+) M). { rewrite P4, R4, P3. f_equal. rewrite <- EM, pval_reg, Lm. reflexivity. }
          split; [lia|]. split; [apply D4, D3, D2|]. split.
          * intros k Hk. rewrite V4, coef_xor. destruct (Nat.eq_dec k d) as [->|NE]; [rewrite CB, HT; reflexivity|]. rewrite DV3, HM by lia. reflexivity.
          * apply (cg_trans _ _ (pval W o3)); [|exact CG3]. rewrite V4. replace (pval W o3 (+) M) with (pval W o3 (+) 1%N (x) M) by ring. apply cg_xor.
        + exists o3. split; [reflexivity|]. split; [lia|]. split; [apply D3; exact D2|]. split; [|exact CG3].
          intros k Hk. destruct (Nat.eq_dec k d) as [->|NE]; [exact CB|]. apply DV3. lia.
      - exists o2. split; [reflexivity|]. split; [lia|]. split; [exact D2|]. split; [exact DV2|]. rewrite gm_1_l. exact C2'. }
    destruct STEP as (o5 & E5 & L5 & D5 & DV5 & C5). rewrite E5. cbn [bind].
    destruct (IH sm2 o5 S2 D5 ltac:(lia) ltac:(rewrite B2; exact HF) DV5 C5) as (o6 & E6 & L6 & D6 & DV6 & C6). exists o6. split; [exact E6|]. split; [lia|]. auto.
Qed.

Lemma at_init : forall n k v, at_ (v :: repeat 0%N n) k = if k =? 0 then v else 0%N.
Proof using HW. intros n k v. destruct k; [reflexivity|]. cbn [Nat.eqb]. apply (at_repeat n k). Qed.

(* out[0] = v; the others are set to 0 *)
Lemma init_ok : forall n v, 1 <= n -> deg_lt v W -> exists o, (out <- wr (repeat 0%N (n * 2)) 0 v;; fill0 (n - 1) out 1) = Some o /\ length o = n * 2 /\ dg o /\ pval W o = v.
Proof using HW.
  intros n v Hn Hv. destruct (wr_frame W (repeat 0%N (n * 2)) 0 v ltac:(rewrite repeat_length; lia) Hv) as (o & E & F & V). rewrite E. cbn [bind].
  pose proof F as (FL & FO & FD). rewrite repeat_length in FL.
  destruct (fill0_ok W (n - 1) o 1 ltac:(lia)) as (o2 & E2 & F2 & Z2). pose proof F2 as (FL2 & FO2 & FD2). exists o2. split; [exact E2|]. split; [lia|].
  split; [apply FD2, FD, dg_repeat|]. rewrite pval_reg. replace (length o2) with (1 + (n * 2 - 1)) by lia. rewrite reg_split, reg_first. rewrite FO2, V by lia.
  rewrite (reg_0 W o2 _ (n * 2 - 1)); [rewrite gm_0_r; apply xor_0_r|]. intros i Hi. destruct (Nat.lt_ge_cases i n) as [L|L]; [apply Z2; lia|].
  rewrite FO2, FO by lia. apply at_repeat.
Qed.
Lemma ops_pow_ok : W = W / 2 + W / 2 -> sqr_check W = true -> forall e md M d, dg md -> length md = ceil (d + 1) W -> pval W md = M -> coef M d = true -> deg_lt M (d + 1) -> 2 <= d -> (e < 2 ^ 64)%N ->
  (forall b, block_of M d b -> sm_fits W (2 * ceil (d + 1) W) d b (2 * (d + 1) - 1)) ->
  exists out, ops_mod_pow_x W e md (d + 1) (repeat 0%N (length md * 2)) = Some out /\ length out = 2 * ceil (d + 1) W /\ dg out /\ deg_lt (pval W out) d /\ cg M (pval W out) (XN e).
Proof using HW.
  intros Hev Hsq e md M d Dm Lm EM HT HM Hd He HF. unfold ops_mod_pow_x. change ((d + 1 + W - 1) / W) with (ceil (d + 1) W). rewrite Lm. set (n := ceil (d + 1) W) in *.
  pose proof (ceil_ge (d + 1) W HW1) as Hn. fold n in Hn. assert (1 <= n) by nia.
  destruct (N.eqb_spec e 0) as [->|NZ].
  - destruct (init_ok n 1%N ltac:(lia)) as (o & E & L & D & V); [change 1%N with (X 0); apply deg_X; lia|]. exists o. split; [exact E|]. split; [lia|]. split; [exact D|].
    rewrite V. split; [change 1%N with (X 0); apply deg_X; lia|apply cg_refl].
  - destruct (init_ok n 2%N ltac:(lia)) as (o & E & L & D & V); [change 2%N with (X 1); apply deg_X; lia|].
    destruct (wr (repeat 0%N (n * 2)) 0 2%N) as [o0|]; [|discriminate]. cbn [bind] in E. cbn [bind]. rewrite E. cbn [bind].
    destruct (sparse_mod_ok W HW1 md d Dm ltac:(rewrite Lm; fold n; lia) ltac:(rewrite EM; exact HT)) as (sm & ES & S1 & S2). rewrite ES. cbn [bind]. rewrite EM in S1, S2.
    destruct (pow_loop_ok Hev Hsq e md M d Dm ltac:(fold n; lia) EM HT HM (high_bit e 63) sm o S1 D ltac:(fold n; lia) (HF _ S2)) as (o' & E' & L' & D' & V' & C').
    + rewrite V. change 2%N with (X 1). apply deg_X. lia.
    + rewrite high_bit_ok; [rewrite V; apply cg_refl|lia|exact He].
    + exists o'. split; [exact E'|]. split; [lia|]. auto.
Qed.

(* ---- class polynomial ---- *)
Definition pwf (p : polynomial) : Prop :=
  length (p_storage p) = ceil (p_size p) W /\ dg (p_storage p) /\ deg_lt (pval W (p_storage p)) (p_size p).
Definition pv (p : polynomial) : N := pval W (p_storage p).

Lemma at_app_zero : forall l n m k, at_ (firstn n l ++ repeat 0%N m) k = if k <? n then at_ l k else 0%N.
Proof using HW.
  intros l n m k. unfold at_. destruct (Nat.lt_ge_cases k (length (firstn n l))) as [L|L].
  - rewrite app_nth1 by exact L. rewrite firstn_length in L. destruct (Nat.ltb_spec k n); [|lia].
    pose proof (at_part l 0 n k ltac:(lia)) as H0. unfold part, at_ in H0. rewrite skipn_O in H0. exact H0.
  - rewrite app_nth2 by exact L. rewrite firstn_length in L. fold (at_ (repeat 0%N m) (k - length (firstn n l))). rewrite at_repeat.
    destruct (Nat.ltb_spec k n); [|reflexivity]. symmetry. apply nth_overflow. lia.
Qed.
Lemma resize_ok : forall p n, dg (p_storage p) -> exists q, p_resize W p n = Some q /\ p_size q = n /\ pwf q /\ pv q = (pv p mod 2 ^ N.of_nat n)%N.
Proof using HW.
  intros p n D. unfold p_resize. change ((n + W - 1) / W) with (ceil n W). set (len := ceil n W).
  set (st := firstn len (p_storage p) ++ repeat 0%N (len - length (p_storage p))).
  assert (LS: length st = len). { unfold st. rewrite app_length, firstn_length, repeat_length. lia. }
  assert (AS: forall k, at_ st k = if k <? len then at_ (p_storage p) k else 0%N) by (intro; apply at_app_zero).
  assert (DS: dg st). { intros k. rewrite AS. destruct (k <? len); [apply D|apply deg_0]. }
  destruct (divmod n W HW1) as [EN MN]. pose proof (ceil_div n W HW1) as CN. fold len in CN.
  destruct (Nat.eqb_spec (n mod W) 0) as [Z|NZ].
  - exists (Polynomial st n). split; [reflexivity|]. split; [reflexivity|].
    assert (EV: pval W st = (pv p mod 2 ^ N.of_nat n)%N).
    { apply coef_ext. intro k. rewrite coef_mod. unfold pv. rewrite !(coef_pval' W HW1) by assumption. rewrite AS. destruct (divmod k W HW1) as [EK MK].
      destruct (Nat.ltb_spec (k / W) len), (Nat.ltb_spec k n); try nia; [reflexivity|apply coef_0]. }
    split; [|exact EV]. split; [exact LS|]. split; [exact DS|]. cbn [p_storage p_size]. rewrite EV. apply deg_mod.
  - destruct (Nat.eqb_spec len 0) as [Q|Q]; [lia|]. rewrite dshl_ok by exact MN. cbn [bind]. rewrite bit_mask, dpred_X by (try exact HW1; exact MN).
    rewrite rd_at by lia. cbn [bind].
    destruct (wr_frame W st (len - 1) (N.land (at_ st (len - 1)) (N.ones (N.of_nat (n mod W)))) ltac:(lia)) as (st' & E & F & V); [apply and_deg_l; apply DS|].
    rewrite E. cbn [bind]. exists (Polynomial st' n). split; [reflexivity|]. split; [reflexivity|]. pose proof F as (FL & FO & FD).
    assert (EV: pval W st' = (pv p mod 2 ^ N.of_nat n)%N).
    { apply coef_ext. intro k. rewrite coef_mod. unfold pv. rewrite !(coef_pval' W HW1) by auto. destruct (divmod k W HW1) as [EK MK].
      destruct (Nat.eq_dec (k / W) (len - 1)) as [EQ|NE].
      - rewrite EQ, V, coef_and, coef_ones, AS. destruct (Nat.ltb_spec (len - 1) len); [|lia].
        destruct (Nat.ltb_spec (k mod W) (n mod W)), (Nat.ltb_spec k n); try nia; first [apply andb_true_r|apply andb_false_r].
      - rewrite FO, AS by lia. destruct (Nat.ltb_spec (k / W) len), (Nat.ltb_spec k n); try nia; [reflexivity|apply coef_0]. }
    split; [|exact EV]. split; [cbn [p_storage p_size]; lia|]. split; [apply FD; exact DS|]. cbn [p_storage p_size]. rewrite EV. apply deg_mod.
Qed.
Lemma ensure_ok : forall p i, pwf p -> exists q, p_ensure W p i = Some q /\ p_size q = Nat.max (p_size p) (i + 1) /\ pwf q /\ pv q = pv p.
Proof using HW.
  intros p i (P1 & P2 & P3). unfold p_ensure. destruct (Nat.leb_spec (p_size p) i) as [L|L].
  - destruct (resize_ok p (i + 1) P2) as (q & E & S & F & V). exists q. split; [exact E|]. split; [lia|]. split; [exact F|]. rewrite V. apply mod_deg. apply (deg_mono _ _ _ P3). lia.
  - exists p. split; [reflexivity|]. split; [lia|]. split; [repeat split; assumption|reflexivity].
Qed.
Lemma pwf_index : forall p i, pwf p -> i < p_size p -> i / W < length (p_storage p).
Proof using HW. intros p i (P1 & _ & _) H. rewrite P1. pose proof (ceil_ge (p_size p) W HW1). destruct (divmod i W HW1). nia. Qed.
Lemma get_ok : forall p i, pwf p -> exists q, p_get W p i = Some (coef (pv p) i, q) /\ p_size q = Nat.max (p_size p) (i + 1) /\ pwf q /\ pv q = pv p.
Proof using HW.
  intros p i P. destruct (ensure_ok p i P) as (q & E & S & F & V). unfold p_get. rewrite E. cbn [bind]. destruct (divmod i W HW1) as [EI MI].
  rewrite rd_at by (apply pwf_index; [exact F|lia]). cbn [bind]. rewrite dshl_ok by exact MI. cbn [bind]. rewrite bit_test, negb_involutive by exact MI.
  exists q. rewrite <- V. unfold pv. rewrite (coef_pval' W HW1) by apply F. auto.
Qed.
Lemma cget_ok : forall p i, pwf p -> p_cget W p i = Some (coef (pv p) i).
Proof using HW.
  intros p i P. unfold p_cget. destruct (Nat.ltb_spec i (p_size p)) as [L|L].
  - destruct (divmod i W HW1) as [EI MI]. rewrite rd_at by (apply pwf_index; assumption). cbn [bind]. rewrite dshl_ok by exact MI. cbn [bind]. rewrite bit_test, negb_involutive by exact MI.
    unfold pv. rewrite (coef_pval' W HW1) by apply P. reflexivity.
  - destruct P as (_ & _ & P). unfold pv. rewrite P by exact L. reflexivity.
Qed.
(* writing one digit *)
Lemma put_ok : forall q i v, pwf q -> i < p_size q -> deg_lt v W -> (forall k, p_size q <= W * (i / W) + k -> coef v k = false) ->
  exists st, wr (p_storage q) (i / W) v = Some st /\ pwf (Polynomial st (p_size q)) /\
    forall k, coef (pval W st) k = if k / W =? i / W then coef v (k mod W) else coef (pv q) k.
Proof using HW.
  intros q i v P Hi Hv HB. destruct (wr_frame W (p_storage q) (i / W) v (pwf_index q i P Hi) Hv) as (st & E & F & V). pose proof F as (FL & FO & FD). pose proof P as (P1 & P2 & P3).
  exists st. split; [exact E|].
  assert (B: forall k, coef (pval W st) k = if k / W =? i / W then coef v (k mod W) else coef (pv q) k).
  { intro k. unfold pv. rewrite !(coef_pval' W HW1) by auto. destruct (Nat.eqb_spec (k / W) (i / W)) as [EQ|NE]; [rewrite EQ, V; reflexivity|]. rewrite FO by lia. reflexivity. }
  split; [|exact B]. split; [cbn [p_storage p_size]; lia|]. split; [apply FD; exact P2|]. cbn [p_storage p_size]. intros k Hk. rewrite B.
  destruct (Nat.eqb_spec (k / W) (i / W)) as [EQ|NE]; [|apply P3; exact Hk]. apply HB. destruct (divmod k W HW1). rewrite <- EQ. lia.
Qed.
Lemma digit_high : forall q i k, pwf q -> p_size q <= W * (i / W) + k -> coef (at_ (p_storage q) (i / W)) k = false.
Proof using HW.
  intros q i k (P1 & P2 & P3) H. destruct (Nat.lt_ge_cases k W) as [L|L]; [|apply P2; exact L]. rewrite <- (coef_pval W HW1) by assumption. apply P3. exact H.
Qed.
Lemma dnot_coef : forall x k, coef (dnot W x) k = xorb (coef x k) (k <? W).
Proof using HW. intros. unfold dnot. rewrite coef_xor, coef_ones. reflexivity. Qed.
Lemma set_ok : forall p i b, pwf p -> exists q, p_set W p i b = Some q /\ p_size q = Nat.max (p_size p) (i + 1) /\ pwf q /\
  forall k, coef (pv q) k = if k =? i then b else coef (pv p) k.
Proof using HW.
  intros p i b P. destruct (ensure_ok p i P) as (q & E & S & F & V). unfold p_set. rewrite E. cbn [bind]. destruct (divmod i W HW1) as [EI MI].
  rewrite rd_at by (apply pwf_index; [exact F|lia]). cbn [bind]. rewrite dshl_ok by exact MI. cbn [bind]. rewrite bit_mask by exact MI.
  set (v := if b then N.lor (at_ (p_storage q) (i / W)) (X (i mod W)) else N.land (at_ (p_storage q) (i / W)) (dnot W (X (i mod W)))).
  assert (CV: forall k, coef v k = if k =? i mod W then b else coef (at_ (p_storage q) (i / W)) k).
  { intro k. pose proof F as (_ & DQ & _). unfold v. destruct b; [rewrite coef_or, coef_X|rewrite coef_and, dnot_coef, coef_X]; destruct (Nat.eqb_spec k (i mod W)) as [->|NE].
    - apply orb_true_r.
    - apply orb_false_r.
    - destruct (Nat.ltb_spec (i mod W) W); [|lia]. apply andb_false_r.
    - rewrite xorb_false_l. destruct (Nat.ltb_spec k W); [apply andb_true_r|]. rewrite (DQ _ k) by lia. reflexivity. }
  destruct (put_ok q i v F ltac:(lia)) as (st & E2 & F2 & B2).
  { intros k Hk. rewrite CV. destruct (Nat.eqb_spec k (i mod W)); [lia|]. apply F. exact Hk. }
  { intros k Hk. rewrite CV. destruct (Nat.eqb_spec k (i mod W)); [lia|]. apply digit_high; assumption. }
  rewrite E2. cbn [bind]. exists (Polynomial st (p_size q)). split; [reflexivity|]. split; [exact S|]. split; [exact F2|].
  intro k. unfold pv at 1. cbn [p_storage]. rewrite B2, CV, V. destruct (divmod k W HW1) as [EK MK].
  destruct (Nat.eqb_spec k i) as [->|NE]; [rewrite !Nat.eqb_refl; reflexivity|].
  destruct (Nat.eqb_spec (k / W) (i / W)) as [Q|Q]; [|reflexivity]. destruct (Nat.eqb_spec (k mod W) (i mod W)) as [R|R]; [rewrite Q, R in EK; lia|].
  rewrite <- Q, <- V. unfold pv. symmetry. apply (coef_pval' W HW1). apply F.
Qed.
Lemma xor_ok : forall p i b, pwf p -> exists q, p_xor W p i b = Some q /\ p_size q = Nat.max (p_size p) (i + 1) /\ pwf q /\
  forall k, coef (pv q) k = if k =? i then xorb (coef (pv p) i) b else coef (pv p) k.
Proof using HW.
  intros p i b P. destruct (ensure_ok p i P) as (q & E & S & F & V). unfold p_xor. rewrite E. cbn [bind]. destruct (divmod i W HW1) as [EI MI].
  rewrite rd_at by (apply pwf_index; [exact F|lia]). cbn [bind]. rewrite dshl_ok by exact MI. cbn [bind].
  assert (EM: trunc W (N.shiftl (if b then 1 else 0) (N.of_nat (i mod W))) = if b then X (i mod W) else 0%N).
  { destruct b; [apply bit_mask; exact MI|]. rewrite N.shiftl_0_l. unfold trunc. apply N.mod_0_l. apply N.pow_nonzero. discriminate. } rewrite EM.
  set (v := N.lxor (at_ (p_storage q) (i / W)) (if b then X (i mod W) else 0%N)).
  assert (CV: forall k, coef v k = if k =? i mod W then xorb (coef (at_ (p_storage q) (i / W)) k) b else coef (at_ (p_storage q) (i / W)) k).
  { intro k. unfold v. rewrite coef_xor. destruct b; [rewrite coef_X|rewrite coef_0]; destruct (k =? i mod W); rewrite ?xorb_false_r; reflexivity. }
  destruct (put_ok q i v F ltac:(lia)) as (st & E2 & F2 & B2).
  { intros k Hk. rewrite CV. destruct (Nat.eqb_spec k (i mod W)); [lia|]. apply F. exact Hk. }
  { intros k Hk. rewrite CV. destruct (Nat.eqb_spec k (i mod W)); [lia|]. apply digit_high; assumption. }
  rewrite E2. cbn [bind]. exists (Polynomial st (p_size q)). split; [reflexivity|]. split; [exact S|]. split; [exact F2|].
  intro k. unfold pv at 1. cbn [p_storage]. rewrite B2, CV. destruct (divmod k W HW1) as [EK MK].
  assert (PC: forall j, coef (at_ (p_storage q) (j / W)) (j mod W) = coef (pv p) j). { intro j. rewrite <- V. unfold pv. symmetry. apply (coef_pval' W HW1). apply F. }
  destruct (Nat.eqb_spec k i) as [->|NE]; [rewrite !Nat.eqb_refl, PC; reflexivity|].
  destruct (Nat.eqb_spec (k / W) (i / W)) as [Q|Q]; [|rewrite V; reflexivity]. destruct (Nat.eqb_spec (k mod W) (i mod W)) as [R|R]; [rewrite Q, R in EK; lia|].
  rewrite <- Q. apply PC.
Qed.
Lemma empty_wf : pwf p_empty /\ pv p_empty = 0%N.
Proof using HW.
  split; [|reflexivity]. split; [|split].
  - cbn. unfold ceil. cbn [plus]. rewrite Nat.div_small by lia. reflexivity.
  - intros i. cbn. destruct i; apply deg_0.
  - intros k Hk. apply coef_0.
Qed.
Lemma normalize_ok : forall fuel p d, pwf p -> coef (pv p) d = true -> deg_lt (pv p) (d + 1) -> p_size p <= fuel + (d + 1) ->
  exists q, p_normalize W fuel p = Some q /\ p_size q = d + 1 /\ pwf q /\ pv q = pv p.
Proof using HW.
  induction fuel as [|fuel IH]; intros p d P HT HD Hf.
  all: assert (SZ: d < p_size p) by (destruct (Nat.lt_ge_cases d (p_size p)) as [|L]; [assumption|]; destruct P as (_ & _ & P); unfold pv in HT; rewrite (P d L) in HT; discriminate).
  all: cbn [p_normalize]; destruct (Nat.eqb_spec (p_size p) 0); [lia|]; destruct (get_ok p (p_size p - 1) P) as (q & E & S & F & V); rewrite E; cbn [bind fst snd].
  - replace (p_size p - 1) with d by lia. rewrite HT. exists q. split; [reflexivity|]. split; [lia|]. auto.
  - destruct (coef (pv p) (p_size p - 1)) eqn:C.
    + exists q. split; [reflexivity|]. split; [|auto]. destruct (Nat.lt_ge_cases (p_size p) (d + 2)); [lia|]. rewrite (HD (p_size p - 1)) in C by lia. discriminate.
    + destruct (resize_ok q (p_size q - 1) ltac:(apply F)) as (r & E2 & S2 & F2 & V2). rewrite E2. cbn [bind].
      assert (ND: p_size p <> d + 1). { intro EQ. replace (p_size p - 1) with d in C by lia. congruence. }
      assert (PV: pv r = pv p). { rewrite V2, V. apply mod_deg. apply (deg_mono _ _ _ HD). lia. }
      destruct (IH r d F2) as (s & E3 & S3 & F3 & V3); [rewrite PV; exact HT|rewrite PV; exact HD|lia|]. exists s. split; [exact E3|]. split; [exact S3|]. split; [exact F3|]. congruence.
Qed.

Lemma p_pow_ok : W = W / 2 + W / 2 -> sqr_check W = true -> forall e p d, pwf p -> coef (pv p) d = true -> deg_lt (pv p) (d + 1) -> 2 <= d -> (e < 2 ^ 64)%N ->
  (forall b, block_of (pv p) d b -> sm_fits W (2 * ceil (d + 1) W) d b (2 * (d + 1) - 1)) ->
  exists q, p_mod_pow_x W e p = Some q /\ p_size q = d /\ pwf q /\ cg (pv p) (pv q) (XN e).
Proof using HW.
  intros Hev Hsq e p d P HT HD Hd He HF. unfold p_mod_pow_x.
  destruct (normalize_ok (p_size p) p d P HT HD ltac:(lia)) as (m & E & S & F & V). rewrite E. cbn [bind]. pose proof F as (F1 & F2 & F3). rewrite S in F1.
  pose proof (ceil_ge (d + 1) W HW1). destruct (Nat.eqb_spec (length (p_storage m)) 0) as [Z|NZ]; [rewrite Z in F1; nia|].
  rewrite S. destruct (ops_pow_ok Hev Hsq e (p_storage m) (pv p) d F2 F1 V HT HD Hd He HF) as (o & E2 & L2 & D2 & V2 & C2). rewrite E2. cbn [bind].
  replace (d + 1 - 1) with d by lia.
  destruct (resize_ok (Polynomial o ((d + 1) * 2)) d D2) as (q & E3 & S3 & F3' & V3). exists q. split; [exact E3|]. split; [exact S3|]. split; [exact F3'|].
  rewrite V3. unfold pv at 2. cbn [p_storage]. rewrite mod_deg by exact V2. exact C2.
Qed.
End Pow.

Lemma check64 : sqr_check 64 = true. Proof. vm_compute. reflexivity. Qed.
Lemma check32 : sqr_check 32 = true. Proof. vm_compute. reflexivity. Qed.
