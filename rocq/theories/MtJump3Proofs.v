(* reconstruct_state recovers n words from the lowest bits of k + 1 of them. *)
From Coq Require Import NArith.
From Verif Require Import Base RingModel SwcProofs BitsProofs MtModel MtSpec MtProofs PolyModel PolySpec PolyProofs Poly2Proofs MtJumpModel MtJumpSpec MtJumpProofs MtJump2Proofs.
Open Scope nat_scope.
Ltac Zify.zify_post_hook ::= idtac.

Lemma upd_get : forall (x : list Z) i v, i < length x ->
  exists y, upd x i v = Some y /\ length y = length x /\ forall j, nth j y 0%Z = if j =? i then v else nth j x 0%Z.
Proof.
  intros x i v H. exists (firstn i x ++ v :: skipn (S i) x). unfold upd. destruct (Nat.ltb_spec i (length x)); [|lia]. split; [reflexivity|]. split.
  - rewrite app_length, firstn_length. cbn [length]. rewrite skipn_length. lia.
  - revert i H H0. induction x as [|a x IH]; intros i H H0 j; [cbn in H; lia|]. destruct i as [|i].
    + destruct j; reflexivity.
    + cbn [firstn skipn app]. destruct j as [|j]; [reflexivity|]. cbn [nth]. change (S j =? S i) with (j =? i). apply IH; cbn in H; lia.
Qed.
Lemma slot_ne : forall n a d, 0 < d < n -> (a + d) mod n <> a mod n.
Proof.
  intros n a d H E. pose proof (Nat.div_mod a n ltac:(lia)). pose proof (Nat.div_mod (a + d) n ltac:(lia)). rewrite E in H1.
  assert (d = n * ((a + d) / n) - n * (a / n)) by lia. assert (n * ((a + d) / n - a / n) = d) by (rewrite Nat.mul_sub_distr_l; lia).
  destruct ((a + d) / n - a / n) as [|q]; [lia|]. nia.
Qed.
Lemma slot_same : forall n a, 0 < n -> (a + n) mod n = a mod n.
Proof. intros n a H. replace (a + n) with (a + 1 * n) by lia. apply Nat.mod_add. lia. Qed.

Section R.
Variable D : nat.
Variable p : mtp.
Hypothesis HP : mt_params p.
Hypothesis HJ : mt_jump_params p.
Local Notation n := (n p).
Local Notation m := (m p).
Local Notation w := (w p).
Local Notation r := (r p).
Local Notation k := (k p).
Local Notation ab := (ab p).
Local Notation need t b := (t + need0 n r b).

Lemma W_w : mW p = Z.of_nat w.
Proof using HP HJ. destruct (sizes p HP HJ) as (E & _). destruct HJ as (J & _). lia. Qed.
Lemma wrap_shl : forall y c, bit (wrap (mW p) (Z.shiftl y 1)) c = match c with O => false | S c' => if c <? w then bit y c' else false end.
Proof using HP HJ.
  intros y c. unfold bit, wrap. rewrite W_w, lower_bits by lia. destruct c as [|c].
  - rewrite Z.shiftl_spec_low by lia. apply andb_false_r.
  - rewrite Z.shiftl_spec by lia. replace (Z.of_nat (S c) - 1)%Z with (Z.of_nat c) by lia. destruct (Z.ltb_spec (Z.of_nat (S c)) (Z.of_nat w)), (Nat.ltb_spec (S c) w); try lia; reflexivity.
Qed.
Lemma rec_y_range : forall y b, (0 <= rec_y p y b < 2 ^ Z.of_nat w)%Z.
Proof using HP HJ.
  intros y b. destruct (sizes p HP HJ) as (E & _ & S1 & S2 & _). unfold rec_y, wrap. rewrite W_w. assert (P: (0 < 2 ^ Z.of_nat w)%Z) by (apply Z.pow_pos_nonneg; lia).
  destruct b; [|apply Z.mod_pos_bound; exact P]. apply lor_range; [lia|apply Z.mod_pos_bound; exact P|]. split; [lia|]. apply Z.pow_gt_1; lia.
Qed.
Lemma rec_y_bit : forall y b c, c < w -> bit (rec_y p y b) c = match c with O => b | S c' => xorb (bit y c') (b && ab c') end.
Proof using HP HJ.
  intros y b c Hc. unfold rec_y. destruct b.
  - unfold bit at 1. rewrite Z.lor_spec. fold (bit (wrap (mW p) (Z.shiftl (Z.lxor y (ma p)) 1)) c). rewrite wrap_shl. destruct c as [|c]; [reflexivity|].
    destruct (Nat.ltb_spec (S c) w); [|lia]. rewrite bit_xor. cbn [andb]. unfold MtJump2Proofs.ab. fold (bit (ma p) c).
    replace (Z.testbit 1 (Z.of_nat (S c))) with false; [apply orb_false_r|]. symmetry. apply (bits_above 1 1); lia.
  - rewrite wrap_shl. destruct c as [|c]; [reflexivity|]. destruct (Nat.ltb_spec (S c) w); [|lia]. cbn [andb]. symmetry. apply xorb_false_r.
Qed.
Lemma need_S_low : forall c, S c < r -> need0 n r (S c) = (n - 1) + need0 n r c.
Proof using. intros c H. unfold need0. destruct (Nat.ltb_spec (S c) r); [|lia]. destruct (Nat.ltb_spec c r); [|lia]. lia. Qed.
Lemma need_S_high : forall c, r <= S c -> need0 n r (S c) = n + need0 n r c.
Proof using.
  intros c H. unfold need0. destruct (Nat.ltb_spec (S c) r); [lia|]. destruct (Nat.ltb_spec c r).
  - replace (S c - r + 1) with 1 by lia. replace (r - 1) with c by lia. lia.
  - replace (S c - r + 1) with (S (c - r + 1)) by lia. lia.
Qed.
Lemma need_mono : forall b c, b <= c -> need0 n r b <= need0 n r c.
Proof using.
  intros b c H. induction H as [|c H IH]; [lia|]. destruct (Nat.lt_ge_cases (S c) r); [rewrite need_S_low by assumption|rewrite need_S_high by assumption]; lia.
Qed.

Definition inr (x : list Z) : Prop := length x = n /\ forall t, (0 <= nth t x 0 < 2 ^ Z.of_nat w)%Z.
Lemma upd_inr : forall x i v, inr x -> i < n -> (0 <= v < 2 ^ Z.of_nat w)%Z ->
  exists y, upd x i v = Some y /\ inr y /\ forall j, nth j y 0%Z = if j =? i then v else nth j x 0%Z.
Proof using.
  intros x i v (L & R) Hi Hv. destruct (upd_get x i v ltac:(lia)) as (y & E & Ly & N). exists y. split; [exact E|]. split; [|exact N]. split; [lia|].
  intro t. rewrite N. destruct (t =? i); [exact Hv|apply R].
Qed.

(* before the step j: the words j + 2 - n, ..., j + 1 and the upper part of the word
   j + 1 - n (in y0), as far as the bits known determine them *)
Definition Inv (Y : nat -> Z) (j : nat) (s : list Z * Z) : Prop :=
  inr (fst s) /\ (0 <= snd s < 2 ^ Z.of_nat w)%Z /\
  (forall t b, j + 2 - n <= t <= j + 1 -> b < w -> need t b <= k -> bit (nth (t mod n) (fst s) 0%Z) b = bit (Y t) b) /\
  (n <= j + 1 -> forall b, r <= b < w -> need (j + 1 - n) b <= k -> bit (snd s) b = bit (Y (j + 1 - n)) b).

Lemma rec_step_ok : forall Y e q j s, mtbits p Y e -> (forall t, t <= k -> p_cget D q t = Some (e t)) -> n - 1 <= j <= k + 1 ->
  Inv Y j s -> exists s', rec_step D p q j s = Some s' /\ Inv Y (j - 1) s'.
Proof using HP HJ.
  intros Y e q j [x y0] (YR & YB) Hq Hj (I1 & I2 & I3 & I4). cbn [fst snd] in *. destruct (sizes p HP HJ) as (E & E2 & S1 & S2 & S3 & S4 & _).
  pose proof I1 as (IL & IR). unfold rec_step. cbn [fst snd]. change (mn p) with n. change (mm p) with m.
  assert (MB: forall a, a mod n < n) by (intro; apply Nat.mod_upper_bound; lia).
  rewrite !get_nth by (rewrite IL; apply MB). cbn [bind]. rewrite Hq by lia. cbn [bind].
  set (u := nth (j mod n) x 0%Z). set (v := nth ((j + m) mod n) x 0%Z). set (y1 := rec_y p (Z.lxor u v) (e (j + 1 - n))).
  pose proof (rec_y_range (Z.lxor u v) (e (j + 1 - n))) as R1. fold y1 in R1.
  rewrite mask_yy by (rewrite ?W_w; lia).
  assert (RY: (0 <= yy (mr p) y0 y1 < 2 ^ Z.of_nat w)%Z) by (apply yy_range; [lia|exact I2|exact R1]).
  destruct (upd_inr x ((j + 1) mod n) _ I1 (MB _) RY) as (x' & EU & IX & NX). rewrite EU. cbn [bind]. exists (x', y1). split; [reflexivity|].
  assert (Bu: forall b, b < w -> need j b <= k -> bit u b = bit (Y j) b). { intros b Hb Hn. apply I3; [lia|exact Hb|exact Hn]. }
  assert (Bv: forall b, b < w -> need (j + m - n) b <= k -> bit v b = bit (Y (j + m - n)) b).
  { intros b Hb Hn. rewrite <- I3; [|lia|exact Hb|exact Hn]. unfold v. do 2 f_equal. rewrite <- (slot_same n (j + m - n)) by lia. f_equal. lia. }
  assert (YL: forall b, b < r -> need (j + 1 - n) b <= k -> bit y1 b = bit (Y (j + 1 - n)) b).
  { intros b Hb Hn. unfold y1. rewrite rec_y_bit by lia. rewrite YB by lia. destruct b as [|c]; [reflexivity|]. rewrite need_S_low in Hn by exact Hb.
    rewrite bit_xor, Bu, Bv by lia. rewrite !YB by lia. rewrite act_B. destruct (Nat.ltb_spec (S c) r); [|lia].
    replace (j + 1 - n + (n - 1)) with j by lia. replace (j + 1 - n + (m - 1)) with (j + m - n) by lia. reflexivity. }
  assert (YH: n <= j -> forall b, r <= b < w -> need (j - n) b <= k -> bit y1 b = bit (Y (j - n)) b).
  { intros Hjn b Hb Hn. unfold y1. rewrite rec_y_bit by lia. rewrite YB by lia. destruct b as [|c]; [lia|]. rewrite need_S_high in Hn by lia.
    rewrite bit_xor, Bu, Bv by lia. rewrite !YB by lia. rewrite act_B. destruct (Nat.ltb_spec (S c) r); [lia|].
    replace (j - n + n) with j by lia. replace (j - n + m) with (j + m - n) by lia. replace (j - n + 1) with (j + 1 - n) by lia. reflexivity. }
  split; [exact IX|]. split; [exact R1|]. cbn [fst snd]. split.
  - intros t b Ht Hb Hn. rewrite NX. destruct (Nat.eq_dec t (j + 1 - n)) as [->|NE].
    + replace ((j + 1 - n) mod n) with ((j + 1) mod n) by (rewrite <- (slot_same n (j + 1 - n)) by lia; f_equal; lia). rewrite Nat.eqb_refl.
      unfold bit at 1. rewrite yy_bits by lia. destruct (Z.ltb_spec (Z.of_nat b) (mr p)) as [L|L]; [apply YL; [lia|exact Hn]|]. apply I4; [lia|lia|exact Hn].
    + destruct (Nat.eqb_spec (t mod n) ((j + 1) mod n)) as [EQ|_].
      * exfalso. replace (j + 1) with (t + (j + 1 - t)) in EQ by lia. symmetry in EQ. revert EQ. apply slot_ne. lia.
      * apply I3; [lia|exact Hb|exact Hn].
  - intros Hn1 b Hb Hn. replace (j - 1 + 1 - n) with (j - n) in * by lia. apply YH; [lia|exact Hb|exact Hn].
Qed.

Lemma reconstruct_ok : forall Y e q x, mtbits p Y e -> (forall t, t <= k -> p_cget D q t = Some (e t)) -> inr x ->
  exists x', reconstruct_state D p q x = Some (Mt x' 0) /\ inr x' /\ forall t, t < n -> nth t x' 0%Z = Y t.
Proof using HP HJ.
  intros Y e q x HY Hq Hx. pose proof HY as (YR & YB). destruct (sizes p HP HJ) as (E & E2 & S1 & S2 & S3 & S4 & _). pose proof (k_big p HP HJ) as [KB KB2]. pose proof (k_val p HP HJ) as KV.
  unfold reconstruct_state. change (num_bits p) with k. change (mn p) with n.
  assert (MB: forall a, a mod n < n) by (intro; apply Nat.mod_upper_bound; lia).
  match goal with |- context [floop ?b 0 n x] => destruct (floop_inv (list Z) (fun i x => inr x /\ forall t, t < i -> nth ((k - n + 1 + t) mod n) x 0%Z = (if e (k - n + 1 + t) then 1%Z else 0%Z)) b n x) as (x1 & E1 & I1 & V1) end.
  - split; [exact Hx|]. intros t Ht. lia.
  - intros i y Hi (Iy & Vy). rewrite Hq by lia. cbn [bind].
    destruct (upd_inr y ((k - n + 1 + i) mod n) (if e (k - n + 1 + i) then 1%Z else 0%Z) Iy (MB _)) as (y' & E' & I' & V').
    { assert (1 < 2 ^ Z.of_nat w)%Z by (apply Z.pow_gt_1; lia). destruct (e (k - n + 1 + i)); lia. }
    exists y'. split; [exact E'|]. split; [exact I'|]. intros t Ht. rewrite V'. destruct (Nat.eq_dec t i) as [->|NE]; [rewrite Nat.eqb_refl; reflexivity|].
    destruct (Nat.eqb_spec ((k - n + 1 + t) mod n) ((k - n + 1 + i) mod n)) as [EQ|_]; [|apply Vy; lia].
    exfalso. replace (k - n + 1 + i) with (k - n + 1 + t + (i - t)) in EQ by lia. symmetry in EQ. revert EQ. apply slot_ne. lia.
  - rewrite E1. cbn [bind].
    match goal with |- context [floop ?b 0 (k + 3 - n) (x1, 0%Z)] => destruct (floop_inv (list Z * Z) (fun i s => Inv Y (k + 1 - i) s) b (k + 3 - n) (x1, 0%Z)) as (s & E3 & I3) end.
    + rewrite Nat.sub_0_r. split; [exact I1|]. split; [cbn [snd]; split; [lia|apply Z.pow_pos_nonneg; lia]|]. cbn [fst snd]. split.
      * intros t b Ht Hb Hn. destruct b as [|c].
        -- unfold need0 in Hn. destruct (Nat.ltb_spec 0 r); [|lia]. replace t with (k - n + 1 + (t + n - 1 - k)) at 1 by lia. rewrite V1 by lia. replace (k - n + 1 + (t + n - 1 - k)) with t by lia.
           rewrite YB by lia. change (act (B p 0) e t) with (e t). destruct (e t); reflexivity.
        -- exfalso. pose proof (need_mono 1 (S c) ltac:(lia)). destruct (Nat.lt_ge_cases 1 r); [rewrite need_S_low in H by assumption|rewrite need_S_high in H by assumption]; lia.
      * intros _ b Hb Hn. exfalso. pose proof (need_mono r b ltac:(lia)). replace r with (S (r - 1)) in H at 2 by lia. rewrite need_S_high in H by lia. lia.
    + intros i s Hi Is. destruct (rec_step_ok Y e q (k + 1 - i) s HY Hq ltac:(lia) Is) as (s' & E' & I'). exists s'. split; [exact E'|]. replace (k + 1 - S i) with (k + 1 - i - 1) by lia. exact I'.
    + rewrite E3. cbn [bind]. exists (fst s). split; [reflexivity|]. destruct I3 as (J1 & J2 & J3 & J4). split; [exact J1|].
      intros t Ht. apply (bit_ext _ _ w); [apply J1|apply YR|]. intros b Hb. rewrite <- (J3 t b); [rewrite Nat.mod_small by exact Ht; reflexivity|lia|exact Hb|].
      pose proof (need_mono b (w - 1) ltac:(lia)). lia.
Qed.
End R.
