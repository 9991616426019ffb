(* The bits of the words of a Mersenne twister in terms of the lowest bits. *)
From Coq Require Import NArith Ring.
From Verif Require Import Base RingModel BitsProofs MtModel MtSpec MtProofs PolySpec PolyProofs MtJumpModel MtJumpSpec MtJumpProofs.
Open Scope nat_scope.
Open Scope gf_scope.
Ltac Zify.zify_post_hook ::= idtac.

Definition bit (v : Z) (b : nat) : bool := Z.testbit v (Z.of_nat b).

(* the number with given bits *)
Fixpoint bword (n : nat) (f : nat -> bool) : Z :=
  match n with
  | O => 0%Z
  | S k => ((if f O then 1 else 0) + 2 * bword k (fun i => f (S i)))%Z
  end.
Lemma bword_range : forall n f, (0 <= bword n f < 2 ^ Z.of_nat n)%Z.
Proof.
  induction n as [|n IH]; intro f; cbn [bword]; [change (2 ^ Z.of_nat 0)%Z with 1%Z; lia|]. specialize (IH (fun i => f (S i))).
  rewrite Nat2Z.inj_succ, Z.pow_succ_r by lia. destruct (f O); lia.
Qed.
Lemma bword_bit : forall n f i, bit (bword n f) i = if i <? n then f i else false.
Proof.
  unfold bit. induction n as [|n IH]; intros f i; cbn [bword]; [apply Z.testbit_0_l|]. destruct i as [|i].
  - cbn [Nat.ltb Nat.leb]. change (Z.of_nat 0) with 0%Z. destruct (f O); [rewrite Z.add_comm; apply Z.testbit_odd_0|rewrite Z.add_0_l; apply Z.testbit_even_0].
  - rewrite Nat2Z.inj_succ. change (S i <? S n) with (i <? n). rewrite <- (IH (fun i => f (S i))).
    destruct (f O); [rewrite Z.add_comm; apply Z.testbit_odd_succ; lia|rewrite Z.add_0_l; apply Z.testbit_even_succ; lia].
Qed.
Lemma bit_ext : forall u v n, (0 <= u < 2 ^ Z.of_nat n)%Z -> (0 <= v < 2 ^ Z.of_nat n)%Z -> (forall i, i < n -> bit u i = bit v i) -> u = v.
Proof.
  intros u v n Hu Hv H. apply Z.bits_inj'. intros i Hi. replace i with (Z.of_nat (Z.to_nat i)) by lia.
  destruct (Nat.lt_ge_cases (Z.to_nat i) n) as [L|L]; [apply H; exact L|]. rewrite (bits_above u (Z.of_nat n)), (bits_above v (Z.of_nat n)) by (try assumption; lia). reflexivity.
Qed.
Lemma bit_high : forall v n i, (0 <= v < 2 ^ Z.of_nat n)%Z -> n <= i -> bit v i = false.
Proof. intros v n i H L. unfold bit. apply (bits_above v (Z.of_nat n)); [exact H|lia]. Qed.
Lemma bit_xor : forall u v i, bit (Z.lxor u v) i = xorb (bit u i) (bit v i).
Proof. intros. unfold bit. apply Z.lxor_spec. Qed.

Lemma xsum_app : forall a b f, xsum (a + b) f = xorb (xsum a f) (xsum b (fun i => f (a + i))).
Proof. intros a b f. induction b as [|b IH]; [rewrite Nat.add_0_r; symmetry; apply xorb_false_r|]. rewrite Nat.add_succ_r. cbn [xsum]. rewrite IH. apply xorb_assoc. Qed.
Lemma xsum_rev : forall a f, xsum a f = xsum a (fun i => f (a - i - 1)).
Proof.
  induction a as [|a IH]; intro f; [reflexivity|]. rewrite (xsum_head a (fun i => f (S a - i - 1))). cbn [xsum]. rewrite xorb_comm. f_equal; [f_equal; lia|]. rewrite IH. apply xsum_ext. intros i Hi. f_equal; lia.
Qed.

Section J.
Variable p : mtp.
Hypothesis HP : mt_params p.
Hypothesis HJ : mt_jump_params p.
Definition n := mn p.
Definition m := mm p.
Definition w := Z.to_nat (mw p).
Definition r := Z.to_nat (mr p).
Definition ab (c : nat) : bool := Z.testbit (ma p) (Z.of_nat c).
Definition B (b : nat) : N := bit_poly n m r ab b.
Definition phi : N := mt_polynomial p.
Definition k : nat := num_bits p.

Lemma sizes : Z.of_nat w = mw p /\ Z.of_nat r = mr p /\ 1 <= r /\ r < w /\ 2 <= m /\ m < n /\ (32 <= Z.of_nat w)%Z.
Proof using HP HJ. destruct HP as (H1 & H2 & H3 & H4 & H5). destruct HJ as (J1 & J2 & J3). unfold w, r, n, m. repeat split; lia. Qed.
Lemma a_range : (0 <= ma p < 2 ^ Z.of_nat w)%Z.
Proof using HP HJ. destruct HP as (H1 & H2 & H3 & H4 & H5). destruct sizes as (E & _). rewrite E. exact H5. Qed.
Lemma k_val : k = n - 1 + need0 n r (w - 1).
Proof using HP HJ.
  destruct sizes as (E & E2 & S1 & S2 & S3 & S4 & _). unfold k, num_bits. fold w n r. unfold need0. destruct (Nat.ltb_spec (w - 1) r).
  - replace r with w by lia. lia.
  - replace (w - 1 - r + 1) with (w - r) by lia. nia.
Qed.
Lemma phi_lead : lead false phi k.
Proof using HP HJ.
  destruct sizes as (E & E2 & S1 & S2 & S3 & S4 & _). rewrite k_val. unfold phi, mt_polynomial. cbv zeta. fold n m r w.
  destruct (bit_poly_lead n m r ab (w - 1) S3 S4 S1) as [L Z].
  assert (P: xorb (Nat.odd (w - 1) && adj n m) (adj (n - 1) (m - 1)) = false).
  { rewrite adj_S by lia. destruct HJ as (J1 & J2 & [J|J]).
    - replace (adj n m) with false; [rewrite andb_false_r; reflexivity|]. symmetry. apply Nat.eqb_neq. unfold n, m. lia.
    - replace (Nat.odd (w - 1)) with true; [destruct (adj n m); reflexivity|]. symmetry. rewrite <- E in J. apply Z.even_spec in J. destruct J as [q J]. apply Nat.odd_spec. exists (Z.to_nat q - 1). lia. }
  rewrite <- P. apply lead_step; [exact Z|exact L|lia|]. destruct (Z.testbit (ma p) (mw p - 1)); [apply (deg_X 0); lia|apply deg_0].
Qed.
Lemma k_big : n + 2 <= k /\ 2 * n <= k.
Proof using HP HJ. destruct sizes as (E & E2 & S1 & S2 & S3 & S4 & S5). unfold k, num_bits. fold w n r. nia. Qed.

(* one step of the recurrence, bit by bit *)
Lemma twist_bit : forall u v c, bit (twist_word p u v) c = xorb (if S c <? r then bit v (S c) else bit u (S c)) (bit v 0 && ab c).
Proof using HP HJ.
  intros u v c. destruct sizes as (E & E2 & S1 & _). rewrite twist_word_tw. unfold tw. rewrite bit_xor, odd_yy by lia. f_equal.
  - unfold bit. rewrite <- Z.div2_div, Z.div2_spec, Z.shiftr_spec by lia. rewrite yy_bits by lia.
    replace (Z.of_nat c + 1)%Z with (Z.of_nat (S c)) by lia. destruct (Nat.ltb_spec (S c) r), (Z.ltb_spec (Z.of_nat (S c)) (mr p)); try lia; reflexivity.
  - unfold bit at 2. change (Z.of_nat 0) with 0%Z. rewrite Z.bit0_odd. destruct (Z.odd v); [reflexivity|apply Z.testbit_0_l].
Qed.

(* words of w bits following the recurrence *)
Definition mtrec (Y : nat -> Z) : Prop :=
  (forall t, (0 <= Y t < 2 ^ Z.of_nat w)%Z) /\ forall t, Y (t + n) = Z.lxor (Y (t + m)) (twist_word p (Y t) (Y (t + 1))).
(* every bit of every word is given by the lowest bits *)
Definition mtbits (Y : nat -> Z) (e : nat -> bool) : Prop :=
  (forall t, (0 <= Y t < 2 ^ Z.of_nat w)%Z) /\ (forall t b, b < w -> bit (Y t) b = act (B b) e t).
Definition killed (e : nat -> bool) : Prop := forall t, act phi e t = false.

Lemma act_phi : forall e t, act phi e t = xorb (xorb (act (B (w - 1)) e (t + (n - 1))) (act (B (w - 1)) e (t + (m - 1)))) (e t && ab (w - 1)).
Proof using HP HJ. intros e t. destruct sizes as (E & _ & S1 & S2 & _). unfold phi, mt_polynomial. cbv zeta. fold n m r w. change (fun c => Z.testbit (ma p) (Z.of_nat c)) with ab. fold (B (w - 1)). rewrite !act_xor, !act_shl. f_equal.
  replace (Z.testbit (ma p) (mw p - 1)) with (ab (w - 1)) by (unfold ab; f_equal; lia). destruct (ab (w - 1)); [rewrite andb_true_r|rewrite andb_false_r]; reflexivity. Qed.
Lemma act_B : forall e t b, act (B (S b)) e t =
  if S b <? r then xorb (xorb (act (B b) e (t + (n - 1))) (act (B b) e (t + (m - 1)))) (e t && ab b)
  else xorb (xorb (act (B b) e (t + n)) (act (B b) e (t + m))) (e (t + 1) && ab b).
Proof using.
  intros e t b. unfold B. cbn [bit_poly]. fold (B b). destruct (S b <? r); rewrite !act_xor, !act_shl; f_equal; destruct (ab b); rewrite ?andb_true_r, ?andb_false_r; try reflexivity.
  rewrite Nat.add_1_r. reflexivity.
Qed.

Lemma rec_bit : forall Y t c, mtrec Y -> xorb (bit (Y (t + n)) c) (xorb (bit (Y (t + m)) c) (bit (Y (t + 1)) 0 && ab c)) = if S c <? r then bit (Y (t + 1)) (S c) else bit (Y t) (S c).
Proof using HP HJ.
  intros Y t c (H1 & H2). rewrite H2, bit_xor, twist_bit. destruct (bit (Y (t + m)) c), (bit (Y (t + 1)) 0 && ab c), (if S c <? r then bit (Y (t + 1)) (S c) else bit (Y t) (S c)); reflexivity.
Qed.
Lemma rec_bits : forall Y, mtrec Y -> mtbits (fun t => Y (t + 1)) (fun t => bit (Y (t + 1)) 0) /\ killed (fun t => bit (Y (t + 1)) 0).
Proof using HP HJ.
  intros Y HY. destruct sizes as (E & E2 & S1 & S2 & S3 & S4 & _). set (e := fun t => bit (Y (t + 1)) 0).
  assert (K: forall b t, bit (Y (t + 1)) b = act (B b) e t).
  { induction b as [|b IH]; intro t; [reflexivity|]. rewrite act_B, <- !IH. unfold e.
    destruct (Nat.ltb_spec (S b) r) as [L|L].
    - pose proof (rec_bit Y t b HY) as R. destruct (Nat.ltb_spec (S b) r); [|lia]. rewrite <- R. replace (t + (n - 1) + 1) with (t + n) by lia. replace (t + (m - 1) + 1) with (t + m) by lia. symmetry. apply xorb_assoc.
    - pose proof (rec_bit Y (t + 1) b HY) as R. destruct (Nat.ltb_spec (S b) r); [lia|]. rewrite <- R. replace (t + n + 1) with (t + 1 + n) by lia. replace (t + m + 1) with (t + 1 + m) by lia. symmetry. apply xorb_assoc. }
  split; [split; [intro t; apply (proj1 HY)|intros t b _; apply K]|].
  intro t. rewrite act_phi, <- !K. unfold e. pose proof (rec_bit Y t (w - 1) HY) as R.
  replace (S (w - 1)) with w in R by lia. destruct (Nat.ltb_spec w r); [lia|]. rewrite (bit_high (Y t) w) in R by (try apply (proj1 HY); lia).
  replace (t + (n - 1) + 1) with (t + n) by lia. replace (t + (m - 1) + 1) with (t + m) by lia. rewrite xorb_assoc. exact R.
Qed.

(* conversely the bits given by a sequence killed by phi make words that follow the
   recurrence, and the first of them has a predecessor *)
Lemma bits_rec : forall Y e, mtbits Y e -> killed e -> mtrec Y /\
  exists v, (0 <= v < 2 ^ Z.of_nat w)%Z /\ Y (n - 1) = Z.lxor (Y (m - 1)) (twist_word p v (Y 0)).
Proof using HP HJ.
  intros Y e (H1 & H2) HK. destruct sizes as (E & E2 & S1 & S2 & S3 & S4 & _). pose proof a_range as AR.
  assert (RG: forall u v, (0 <= u < 2 ^ Z.of_nat w)%Z -> (0 <= v < 2 ^ Z.of_nat w)%Z -> (0 <= twist_word p u v < 2 ^ Z.of_nat w)%Z).
  { intros u v Hu Hv. rewrite twist_word_tw. apply tw_range; [lia|exact AR|]. apply yy_range; [lia|exact Hu|exact Hv]. }
  assert (Z0: forall t, bit (Y t) 0 = e t) by (intro t; rewrite H2 by lia; reflexivity).
  assert (TOP: forall t, xorb (bit (Y (t + (n - 1))) (w - 1)) (bit (Y (t + (m - 1))) (w - 1)) = e t && ab (w - 1)).
  { intro t. rewrite !H2 by lia. specialize (HK t). rewrite act_phi in HK. destruct (act (B (w - 1)) e (t + (n - 1))), (act (B (w - 1)) e (t + (m - 1))), (e t && ab (w - 1)); try reflexivity; discriminate. }
  assert (LOW: forall t c, S c < r -> xorb (bit (Y (t + (n - 1))) c) (bit (Y (t + (m - 1))) c) = xorb (bit (Y t) (S c)) (e t && ab c)).
  { intros t c L. rewrite !H2 by lia. rewrite act_B. destruct (Nat.ltb_spec (S c) r); [|lia]. rewrite xorb_assoc, xorb_nilpotent. symmetry. apply xorb_false_r. }
  split.
  - split; [exact H1|]. intro t. apply (bit_ext _ _ w); [apply H1| |]; [apply lxor_range; [lia|apply H1|apply RG; apply H1]|].
    intros c Hc. rewrite bit_xor, twist_bit. rewrite Z0.
    destruct (Nat.eq_dec c (w - 1)) as [->|NE].
    + pose proof (TOP (t + 1)) as T. replace (t + 1 + (n - 1)) with (t + n) in T by lia. replace (t + 1 + (m - 1)) with (t + m) in T by lia.
      replace (S (w - 1)) with w by lia. destruct (Nat.ltb_spec w r); [lia|]. rewrite (bit_high (Y t) w) by (try apply H1; lia). rewrite <- T.
      destruct (bit (Y (t + n)) (w - 1)), (bit (Y (t + m)) (w - 1)); reflexivity.
    + destruct (Nat.ltb_spec (S c) r) as [L|L].
      * pose proof (LOW (t + 1) c L) as T. replace (t + 1 + (n - 1)) with (t + n) in T by lia. replace (t + 1 + (m - 1)) with (t + m) in T by lia. rewrite <- T.
        destruct (bit (Y (t + n)) c), (bit (Y (t + m)) c); reflexivity.
      * rewrite !H2 by lia. rewrite act_B. destruct (Nat.ltb_spec (S c) r); [lia|].
        destruct (act (B c) e (t + n)), (act (B c) e (t + m)), (e (t + 1) && ab c); reflexivity.
  - set (v := bword w (fun b => match b with O => false | S c => xorb (xorb (bit (Y (n - 1)) c) (bit (Y (m - 1)) c)) (e 0 && ab c) end)).
    pose proof (bword_range w) as BR. exists v. split; [apply BR|]. apply (bit_ext _ _ w); [apply H1|apply lxor_range; [lia|apply H1|apply RG; [apply BR|apply H1]]|].
    intros c Hc. rewrite bit_xor, twist_bit, Z0. unfold v. rewrite bword_bit.
    destruct (Nat.ltb_spec (S c) r) as [L|L].
    + pose proof (LOW 0 c L) as T. cbn [plus] in T. rewrite <- T. destruct (bit (Y (n - 1)) c), (bit (Y (m - 1)) c); reflexivity.
    + destruct (Nat.ltb_spec (S c) w) as [Q|Q].
      * destruct (bit (Y (n - 1)) c), (bit (Y (m - 1)) c), (e 0 && ab c); reflexivity.
      * replace c with (w - 1) by lia. pose proof (TOP 0) as T. cbn [plus] in T. rewrite <- T. destruct (bit (Y (n - 1)) (w - 1)), (bit (Y (m - 1)) (w - 1)); reflexivity.
Qed.
(* such words exist *)
Lemma bits_words : forall e, mtbits (fun t => bword w (fun b => act (B b) e t)) e.
Proof using. intro e. split; [intro t; apply bword_range|]. intros t b Hb. rewrite bword_bit. destruct (Nat.ltb_spec b w); [reflexivity|lia]. Qed.

(* ---- the sequence that starts with k - 1 zeros and a one ---- *)
Fixpoint ewin (t : nat) (l : nat) : bool :=
  match t with
  | O => l =? k - 1
  | S t => if l <? k - 1 then ewin t (S l) else xsum k (fun l => coef phi l && ewin t l)
  end.
Definition imp (t : nat) : bool := ewin t 0.
Lemma ewin_imp : forall l t, l < k -> ewin t l = imp (t + l).
Proof using HP HJ.
  induction l as [|l IH]; intros t Hl; [rewrite Nat.add_0_r; reflexivity|]. replace (t + S l) with (S t + l) by lia. rewrite <- IH by lia. cbn [ewin].
  destruct (Nat.ltb_spec l (k - 1)); [reflexivity|lia].
Qed.
Lemma imp_start : forall l, l < k -> imp l = (l =? k - 1).
Proof using HP HJ. intros l Hl. change l with (0 + l) at 1. rewrite <- ewin_imp by exact Hl. reflexivity. Qed.
Lemma imp_killed : killed imp.
Proof using HP HJ.
  intro t. pose proof k_big as [KB _]. destruct phi_lead as (L1 & L2 & _). rewrite (act_sum (k + 1)) by exact L2. rewrite Nat.add_1_r. cbn [xsum]. rewrite L1. cbn [andb].
  replace (t + k) with (S t + (k - 1)) by lia. rewrite <- (ewin_imp (k - 1) (S t)) by lia. cbn [ewin]. destruct (Nat.ltb_spec (k - 1) (k - 1)); [lia|].
  rewrite (xsum_ext k (fun l => coef phi l && ewin t l) (fun l => coef phi l && imp (t + l))); [apply xorb_nilpotent|]. intros i Hi. rewrite ewin_imp by exact Hi. reflexivity.
Qed.
Lemma imp_k : imp k = false.
Proof using HP HJ.
  pose proof k_big as [KB _]. pose proof (imp_killed 0) as H. destruct phi_lead as (L1 & L2 & L3). rewrite (act_sum (k + 1)) in H by exact L2. rewrite Nat.add_1_r in H. cbn [xsum plus] in H.
  rewrite L1 in H. cbn [andb] in H. rewrite xsum_false in H; [rewrite xorb_false_l in H; exact H|]. intros i Hi. rewrite imp_start by exact Hi. destruct (Nat.eqb_spec i (k - 1)) as [->|NE]; [|apply andb_false_r].
  rewrite L3 by lia. reflexivity.
Qed.
(* the coefficients of phi from the bits that follow *)
Lemma phi_coefs : forall j, j < k -> coef phi (k - j - 1) = xorb (imp (k + j)) (xsum j (fun i => coef phi (k - i - 1) && imp (k + (j - i - 1)))).
Proof using HP HJ.
  intros j Hj. pose proof k_big as [KB _]. pose proof (imp_killed j) as H. destruct phi_lead as (L1 & L2 & L3). rewrite (act_sum (k + 1)) in H by exact L2.
  replace (k + 1) with ((k - j - 1) + S (S j)) in H by lia. rewrite xsum_app in H.
  rewrite xsum_false in H. 2:{ intros i Hi. rewrite imp_start by lia. destruct (Nat.eqb_spec (j + i) (k - 1)); [lia|]. apply andb_false_r. }
  rewrite xorb_false_l, xsum_head in H. cbn [xsum] in H. rewrite Nat.add_0_r in H. rewrite imp_start in H by lia. destruct (Nat.eqb_spec (j + (k - j - 1)) (k - 1)); [|lia].
  replace (k - j - 1 + S j) with k in H by lia. rewrite L1, andb_true_r in H. cbn [andb] in H. rewrite (Nat.add_comm j k) in H. rewrite (xsum_rev j) in H.
  rewrite (xsum_ext j _ (fun i => coef phi (k - i - 1) && imp (k + (j - i - 1)))) in H. 2:{ intros i Hi. f_equal; f_equal; lia. }
  destruct (coef phi (k - j - 1)), (imp (k + j)), (xsum j (fun i => coef phi (k - i - 1) && imp (k + (j - i - 1)))); try reflexivity; discriminate.
Qed.
End J.
