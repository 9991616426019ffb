(* get_characteristic_polynomial and discard_many. *)
From Coq Require Import NArith Ring.
From Verif Require Import Base RingModel SwcProofs WinProofs BitsProofs MtModel MtSpec MtProofs Mt3Proofs MtWit PolyModel PolySpec PolyProofs Poly2Proofs Poly3Proofs Poly4Proofs Poly5Proofs Poly6Proofs PolyProps MtJumpModel MtJumpSpec MtJumpProofs MtJump2Proofs MtJump3Proofs.
Open Scope nat_scope.
Ltac Zify.zify_post_hook ::= idtac.

Lemma land1 : forall v, negb (Z.land v 1 =? 0)%Z = bit v 0.
Proof.
  intro v. unfold bit. change (Z.of_nat 0) with 0%Z. rewrite Z.bit0_odd. change 1%Z with (Z.ones 1) at 1. rewrite Z.land_ones by lia. change (2 ^ 1)%Z with 2%Z. rewrite Zmod_odd.
  destruct (Z.odd v); reflexivity.
Qed.

Lemma get_loose : forall D q i, 2 <= D -> dg D (p_storage q) -> i < p_size q -> i / D < length (p_storage q) -> p_get D q i = Some (coef (pv D q) i, q).
Proof.
  intros D q i HD Hg Hi Hl. unfold p_get, p_ensure. destruct (Nat.leb_spec (p_size q) i); [lia|]. cbn [bind].
  assert (HD1: 1 <= D) by lia. destruct (divmod i D HD1) as [EI MI].
  rewrite rd_at by exact Hl. cbn [bind]. rewrite dshl_ok by exact MI. cbn [bind]. rewrite bit_test, negb_involutive by exact MI.
  unfold pv. rewrite (coef_pval' D HD1) by exact Hg. reflexivity.
Qed.

Fixpoint seed_seq (p : mtp) (v : Z) (i : nat) : Z :=
  match i with
  | O => v mod 2 ^ mw p
  | S i => (mf p * Z.lxor (seed_seq p v i) (seed_seq p v i / 2 ^ (mw p - 2)) + Z.of_nat (i + 1)) mod 2 ^ mw p
  end%Z.
Lemma seed_wf : forall p v, mt_params p -> mt_temper_params p -> 3 <= mn p -> exists st, mt_seed p v = Some st /\ mt_wf p st.
Proof.
  intros p v HP HT Hn. destruct (mt_seed_ok p v (seed_seq p v) HP HT Hn) as (st & X & E & W & _); [|eauto]. split; [reflexivity|]. intro i. rewrite Nat.add_1_r. cbn [seed_seq]. rewrite Nat.add_1_r. reflexivity.
Qed.

Section C.
Variable D : nat.
Hypothesis HD : 2 <= D.
Variable p : mtp.
Hypothesis HP : mt_params p.
Hypothesis HT : mt_temper_params p.
Hypothesis HJ : mt_jump_params p.
Local Notation n := (n p).
Local Notation m := (m p).
Local Notation w := (w p).
Local Notation k := (k p).
Local Notation phi := (phi p).
Local Notation imp := (imp p).
Local Notation pwf := (pwf D).
Local Notation pv := (pv D).

(* the state st stands at the word 0 of the sequence X *)
Definition at_word (st : mt) (X : nat -> Z) : Prop :=
  inm p (mx st) /\ mi st <= mn p /\ forall j, msq p (mx st) (mi st + j) = X j.
Lemma at_word_ext : forall st X Y, at_word st X -> (forall j, X j = Y j) -> at_word st Y.
Proof using. intros st X Y (A & B & C) H. split; [exact A|]. split; [exact B|]. intro j. rewrite C. apply H. Qed.

Lemma mt_bit_ok : forall st X, at_word st X -> exists st', mt_bit p st = Some (bit (X 0) 0, st') /\ at_word st' (fun j => X (S j)).
Proof using HP HT HJ HD.
  intros [x i] X (Hx & Hi & HX). cbn [mx mi] in *. unfold mt_bit. cbn [mx mi]. pose proof (mn_pos p HP).
  assert (EL: length x = mn p) by (destruct Hx; assumption).
  destruct (Nat.leb_spec (mn p) i) as [L|L].
  - assert (i = mn p) by lia. subst i. rewrite (twist_ok p HP) by exact Hx. cbn [bind mx mi].
    pose proof (iter_inw (mn p) (mG p) (mV p) (mn1 p HP) (mG_V p HP) (mn p) x Hx) as HX'.
    rewrite get_nth by (destruct HX'; lia). cbn [bind]. rewrite land1.
    exists (Mt (iter (mn p) (mst p) x) 1). cbn [mx mi]. split.
    + do 3 f_equal. rewrite <- HX. rewrite <- sqn_iter. rewrite (sqn_start (mn p) (mG p) (mV p) (mn1 p HP) (mG_V p HP) _ 0 HX') by lia. reflexivity.
    + split; [exact HX'|]. split; [cbn [mi]; lia|]. cbn [mx mi]. intro j. rewrite sqn_iter. rewrite <- HX. f_equal; lia.
  - cbn [bind mx mi]. rewrite get_nth by lia. cbn [bind]. rewrite land1. exists (Mt x (S i)). split.
    + do 3 f_equal. rewrite <- HX. rewrite Nat.add_0_r. symmetry. apply (sqn_start (mn p) (mG p) (mV p) (mn1 p HP) (mG_V p HP) x i Hx). lia.
    + split; [exact Hx|]. split; [cbn [mi]; lia|]. cbn [mx mi]. intro j. rewrite <- HX. f_equal; lia.
Qed.

Lemma as_polynomial_ok : forall size st X, at_word st X ->
  exists q st', as_polynomial D p size st = Some (q, st') /\ pwf q /\ p_size q = size /\ (forall j, j < size -> coef (pv q) j = bit (X j) 0).
Proof using HP HT HJ HD.
  intros size st X HX. unfold as_polynomial. destruct (empty_wf D HD) as [W0 V0].
  match goal with |- context [floop ?b 0 size ?i0] => destruct (floop_inv (polynomial * mt) (fun i s => pwf (fst s) /\ p_size (fst s) = i /\ at_word (snd s) (fun j => X (i + j)) /\ (forall j, j < i -> coef (pv (fst s)) j = bit (X j) 0)) b size i0) as ([q st'] & E & I1 & I2 & I3 & I4) end.
  - cbn [fst snd]. split; [exact W0|]. split; [reflexivity|]. split; [exact HX|]. intros j Hj. lia.
  - intros i [q s] Hi (I1 & I2 & I3 & I4). cbn [fst snd] in *. destruct (mt_bit_ok s _ I3) as (s' & E & I3'). rewrite E. cbn [bind fst snd]. rewrite Nat.add_0_r.
    destruct (set_ok D HD q i (bit (X i) 0) I1) as (q' & E' & S' & W' & C'). rewrite E'. cbn [bind]. exists (q', s'). split; [reflexivity|]. cbn [fst snd].
    split; [exact W'|]. split; [lia|]. split; [apply (at_word_ext _ _ _ I3'); intro j; f_equal; lia|]. intros j Hj. rewrite C'. destruct (Nat.eqb_spec j i) as [->|]; [reflexivity|apply I4; lia].
  - exists q, st'. auto.
Qed.

(* the words found by reconstruct_state *)
Lemma inm_inr : forall x, inm p x -> inr p x.
Proof using HP HT HJ HD.
  intros x Hx. destruct (sizes p HP HJ) as (E & _). pose proof Hx as [L V]. split; [exact L|]. intro t. rewrite E. destruct (Nat.lt_ge_cases t (length x)) as [Q|Q].
  - apply V. apply nth_In. exact Q.
  - rewrite nth_overflow by exact Q. split; [lia|]. apply Z.pow_pos_nonneg; lia.
Qed.
Lemma inr_inm : forall x, inr p x -> inm p x.
Proof using HP HT HJ HD. intros x [L V]. destruct (sizes p HP HJ) as (E & _). split; [exact L|]. intros z Hz. apply (In_nth _ _ 0%Z) in Hz. destruct Hz as (t & _ & <-). unfold mV. rewrite <- E. apply V. Qed.
Lemma found_at : forall x' Y, inr p x' -> (forall t, t < n -> nth t x' 0%Z = Y t) -> mtrec p Y -> at_word (Mt x' 0) Y.
Proof using HP HT HJ HD.
  intros x' Y Hx HY (R1 & R2). pose proof (inr_inm x' Hx) as Hm. split; [exact Hm|]. split; [cbn [mi]; lia|]. cbn [mx mi]. intro j. rewrite Nat.add_0_l.
  apply (mt_sequence_unique p x'); [exact HP|apply msq_sequence; assumption|]. split; [intros t Ht; symmetry; apply HY; exact Ht|exact R2].
Qed.

Lemma phi_step_ok : forall P Q j, pwf P -> pwf Q -> j < k -> (forall i, i < k -> coef (pv Q) i = imp (k + i)) ->
  coef (pv P) k = true -> deg_lt (pv P) (k + 1) ->
  (forall i, i < k -> coef (pv P) (k - i - 1) = if i <? j then coef phi (k - i - 1) else xsum j (fun l => coef phi (k - l - 1) && imp (k + (i - l - 1)))) ->
  exists P' Q', phi_step D p j (P, Q) = Some (P', Q') /\ pwf P' /\ pwf Q' /\ (forall i, i < k -> coef (pv Q') i = imp (k + i)) /\
    coef (pv P') k = true /\ deg_lt (pv P') (k + 1) /\
    (forall i, i < k -> coef (pv P') (k - i - 1) = if i <? S j then coef phi (k - i - 1) else xsum (S j) (fun l => coef phi (k - l - 1) && imp (k + (i - l - 1)))).
Proof using HP HT HJ HD.
  intros P Q j WP WQ Hj HQ HK HDg HI. unfold phi_step. change (num_bits p) with k. cbn [fst snd].
  destruct (get_ok D HD Q j WQ) as (Q1 & E1 & _ & WQ1 & VQ1). rewrite E1. cbn [bind fst snd].
  destruct (get_ok D HD P (k - j - 1) WP) as (P1 & E2 & _ & WP1 & VP1). rewrite E2. cbn [bind fst snd].
  rewrite HQ by exact Hj. pose proof (HI j Hj) as Hj'. rewrite Nat.ltb_irrefl in Hj'. rewrite Hj'. rewrite <- (phi_coefs p HP HJ j Hj). clear Hj'.
  set (val := coef phi (k - j - 1)).
  destruct (set_ok D HD P1 (k - j - 1) val WP1) as (P2 & E3 & _ & WP2 & VP2). rewrite E3. cbn [bind].
  assert (C2: forall c, c <> k - j - 1 -> coef (pv P2) c = coef (pv P) c). { intros c Hc. rewrite VP2. destruct (Nat.eqb_spec c (k - j - 1)); [contradiction|]. rewrite VP1. reflexivity. }
  assert (C3: coef (pv P2) (k - j - 1) = val) by (rewrite VP2, Nat.eqb_refl; reflexivity).
  destruct val eqn:EV.
  - match goal with |- context [floop ?b 0 ?cnt ?i0] => destruct (floop_inv (polynomial * polynomial) (fun t s => pwf (fst s) /\ pwf (snd s) /\ pv (snd s) = pv Q /\
        forall c, coef (pv (fst s)) c = if (k - (j + 1) - t <=? c) && (c <? k - (j + 1)) then xorb (coef (pv P2) c) (imp (k + (k - 1 - c - j - 1))) else coef (pv P2) c) b cnt i0) as ([P' Q'] & E & I1 & I2 & I3 & I4) end.
    + cbn [fst snd]. split; [exact WP2|]. split; [exact WQ1|]. split; [exact VQ1|]. intro c. destruct (Nat.leb_spec (k - (j + 1) - 0) c), (Nat.ltb_spec c (k - (j + 1))); try reflexivity. lia.
    + intros t [A B] Ht (I1 & I2 & I3 & I4). cbn [fst snd] in *. destruct (get_ok D HD B (j + 1 + t - j - 1) I2) as (B1 & F1 & _ & WB & VB). rewrite F1. cbn [bind fst snd].
      destruct (xor_ok D HD A (k - (j + 1 + t) - 1) (coef (pv B) (j + 1 + t - j - 1)) I1) as (A1 & F2 & _ & WA & VA). rewrite F2. cbn [bind]. exists (A1, B1). split; [reflexivity|]. cbn [fst snd].
      split; [exact WA|]. split; [exact WB|]. split; [congruence|]. intro c. rewrite VA, !I4. rewrite I3, HQ by lia.
      destruct (Nat.eqb_spec c (k - (j + 1 + t) - 1)) as [->|NE].
      * destruct (Nat.leb_spec (k - (j + 1) - t) (k - (j + 1 + t) - 1)); [lia|]. destruct (Nat.leb_spec (k - (j + 1) - S t) (k - (j + 1 + t) - 1)); [|lia]. destruct (Nat.ltb_spec (k - (j + 1 + t) - 1) (k - (j + 1))); [|lia].
        cbn [andb]. do 2 f_equal. lia.
      * destruct (Nat.leb_spec (k - (j + 1) - t) c), (Nat.leb_spec (k - (j + 1) - S t) c); try reflexivity; lia.
    + cbn [fst snd] in *. exists P', Q'. split; [exact E|]. split; [exact I1|]. split; [exact I2|]. split; [intros i Hi; rewrite I3; apply HQ; exact Hi|]. split; [|split].
      * rewrite I4. destruct (Nat.ltb_spec k (k - (j + 1))); [lia|]. rewrite andb_false_r. rewrite C2 by lia. exact HK.
      * intros c Hc. rewrite I4. destruct (Nat.ltb_spec c (k - (j + 1))); [lia|]. rewrite andb_false_r. rewrite C2 by lia. apply HDg. exact Hc.
      * intros i Hi. rewrite I4. destruct (Nat.ltb_spec i (S j)) as [L|L].
        -- destruct (Nat.ltb_spec (k - i - 1) (k - (j + 1))); [lia|]. rewrite andb_false_r. destruct (Nat.eq_dec i j) as [->|NE]; [rewrite C3; symmetry; exact EV|]. rewrite C2 by lia. rewrite HI by exact Hi. destruct (Nat.ltb_spec i j); [reflexivity|lia].
        -- destruct (Nat.ltb_spec (k - i - 1) (k - (j + 1))); [|lia]. destruct (Nat.leb_spec (k - (j + 1) - (k - (j + 1))) (k - i - 1)); [|lia]. cbn [andb]. rewrite C2 by lia. rewrite HI by exact Hi.
           destruct (Nat.ltb_spec i j); [lia|]. cbn [xsum]. f_equal. fold val. rewrite EV. cbn [andb]. f_equal. lia.
  - exists P2, Q1. split; [reflexivity|]. split; [exact WP2|]. split; [exact WQ1|]. split; [intros i Hi; rewrite VQ1; apply HQ; exact Hi|]. split; [|split].
    + rewrite C2 by lia. exact HK.
    + intros c Hc. rewrite C2 by lia. apply HDg. exact Hc.
    + intros i Hi. destruct (Nat.eq_dec i j) as [->|NE]; [rewrite C3; destruct (Nat.ltb_spec j (S j)); [symmetry; exact EV|lia]|]. rewrite C2 by lia. rewrite HI by exact Hi.
      destruct (Nat.ltb_spec i j), (Nat.ltb_spec i (S j)); try lia; [reflexivity|]. cbn [xsum]. fold val. rewrite EV. cbn [andb]. symmetry. apply xorb_false_r.
Qed.

Lemma char_ok : exists q, characteristic_polynomial D p = Some q /\ pwf q /\ pv q = phi.
Proof using HP HT HJ HD.
  pose proof (k_big p HP HJ) as [KB _]. destruct (empty_wf D HD) as [W0 V0]. unfold characteristic_polynomial. change (num_bits p) with k.
  destruct (set_ok D HD p_empty (k - 1) true W0) as (h & E1 & _ & W1 & C1). rewrite E1. cbn [bind].
  destruct (sizes p HP HJ) as (_ & _ & _ & _ & S3 & S4 & _).
  destruct (seed_wf p 5489 HP HT) as (s0 & E2 & (Hx & _)); [change (mn p) with n; lia|]. rewrite E2. cbn [bind].
  set (Y := fun t => bword w (fun b => act (B p b) imp t)). pose proof (bits_words p imp) as HB. fold Y in HB.
  destruct (bits_rec p HP HJ Y imp HB (imp_killed p HP HJ)) as [HR2 _].
  assert (Y0: forall t, bit (Y t) 0 = imp t). { intro t. destruct HB as [_ HB]. destruct (sizes p HP HJ) as (_ & _ & S1 & S2 & _). rewrite HB by lia. reflexivity. }
  destruct (reconstruct_ok D p HP HJ Y imp h (mx s0) HB) as (x1 & E3 & I1 & V1).
  { intros t Ht. rewrite (cget_ok D HD) by exact W1. f_equal. rewrite C1, V0, coef_0. destruct (Nat.eq_dec t k) as [->|NE]; [rewrite (imp_k p HP HJ); destruct (Nat.eqb_spec k (k - 1)); [lia|reflexivity]|].
    rewrite (imp_start p HP HJ) by lia. destruct (t =? k - 1); reflexivity. }
  { apply inm_inr. exact Hx. }
  rewrite E3. cbn [bind]. pose proof (found_at x1 Y I1 V1 HR2) as A1.
  match goal with |- context [floop ?b 0 k (Mt x1 0)] => destruct (floop_inv mt (fun i st => at_word st (fun j => Y (i + j))) b k (Mt x1 0)) as (s2 & E4 & A2) end.
  { exact A1. }
  { intros i st Hi A. destruct (mt_bit_ok st _ A) as (st' & E & A'). rewrite E. cbn [bind fst snd]. rewrite Nat.add_0_r, Y0, (imp_start p HP HJ), Bool.eqb_reflx by exact Hi. exists st'. split; [reflexivity|].
    apply (at_word_ext _ _ _ A'). intro j. f_equal. lia. }
  rewrite E4. cbn [bind]. destruct (set_ok D HD p_empty k true W0) as (P0 & E5 & _ & W5 & C5). rewrite E5. cbn [bind].
  destruct (as_polynomial_ok k s2 _ A2) as (Q0 & s3 & E6 & W6 & _ & C6). rewrite E6. cbn [bind fst].
  destruct (floop_inv (polynomial * polynomial) (fun j s => pwf (fst s) /\ pwf (snd s) /\ (forall i, i < k -> coef (pv (snd s)) i = imp (k + i)) /\ coef (pv (fst s)) k = true /\ deg_lt (pv (fst s)) (k + 1) /\
     (forall i, i < k -> coef (pv (fst s)) (k - i - 1) = if i <? j then coef phi (k - i - 1) else xsum j (fun l => coef phi (k - l - 1) && imp (k + (i - l - 1))))) (phi_step D p) k (P0, Q0)) as ([P Q] & E7 & I2 & _ & _ & K1 & K2 & K3).
  { cbn [fst snd]. split; [exact W5|]. split; [exact W6|]. split; [intros i Hi; rewrite C6, Y0 by exact Hi; reflexivity|].
    assert (C: forall c, coef (pv P0) c = (c =? k)) by (intro c; rewrite C5, V0, coef_0; destruct (c =? k); reflexivity). split; [rewrite C; apply Nat.eqb_refl|]. split.
    - intros c Hc. rewrite C. apply Nat.eqb_neq. lia.
    - intros i Hi. rewrite C. destruct (Nat.eqb_spec (k - i - 1) k); [lia|reflexivity]. }
  { intros j [P Q] Hj (I1' & I2 & I3 & I4 & I5 & I6). cbn [fst snd] in *. destruct (phi_step_ok P Q j I1' I2 Hj I3 I4 I5 I6) as (P' & Q' & E & R). exists (P', Q'). split; [exact E|exact R]. }
  rewrite E7. cbn [bind fst snd] in *. exists P. split; [reflexivity|]. split; [exact I2|]. destruct (phi_lead p HP HJ) as (L1 & L2 & _).
  apply coef_ext. intro c. destruct (Nat.lt_ge_cases c k) as [L|L].
  - replace c with (k - (k - c - 1) - 1) by lia. rewrite K3 by lia. destruct (Nat.ltb_spec (k - c - 1) k); [reflexivity|lia].
  - destruct (Nat.eq_dec c k) as [->|NE]; [congruence|]. rewrite K2, L2 by lia. reflexivity.
Qed.

Lemma killed_shift : forall Y z, mtrec p Y -> mtrec p (fun t => Y (z + t)).
Proof using. intros Y z (H1 & H2). split; [intro; apply H1|]. intro t. rewrite !Nat.add_assoc. apply H2. Qed.

(* discard_many; Y is the sequence with a word before the present one *)
Lemma many_ok : forall z st Y, D = 32 \/ D = 64 -> mtrec p Y -> at_word st (fun j => Y (j + 1)) -> (z < 2 ^ 64)%N ->
  (forall b, gap phi k b -> division_fits D (2 * ceil (k + 1) D) k b (2 * k + 1)) ->
  exists x', mt_discard_many D p z st = Some (Mt x' 0) /\ inr p x' /\ (forall t, t < n -> nth t x' 0%Z = Y (N.to_nat z + (t + 1))) /\ at_word (Mt x' 0) (fun j => Y (N.to_nat z + (j + 1))).
Proof using HP HT HJ HD.
  intros z st Y HD2 HY HA Hz HF. pose proof (k_big p HP HJ) as [KB _]. destruct (sizes p HP HJ) as (_ & _ & _ & _ & S3 & S4 & _). destruct (empty_wf D HD) as [W0 V0]. destruct (phi_lead p HP HJ) as (L1 & L2 & _).
  unfold mt_discard_many. change (num_bits p) with k. destruct char_ok as (q & E1 & W1 & V1). rewrite E1. cbn [bind].
  destruct (C46_mod_pow_x_partial D z q k HD2 (to_holds D q W1)) as (g & E2 & Sg & Hg & Cg); try (change (pval D (p_storage q)) with (pv q); rewrite V1; assumption); try lia; try exact Hz.
  change (pval D (p_storage q)) with (pv q) in Cg. rewrite V1 in Cg. change (pval D (p_storage g)) with (pv g) in Cg. apply of_holds in Hg. rewrite E2. cbn [bind].
  pose (s := fun t => bit (Y (t + 1)) 0). destruct (rec_bits p HP HJ Y HY) as [HB HK]. fold s in HB, HK.
  match goal with |- context [floop ?b 0 (k * 2) ?i0] => destruct (floop_inv (polynomial * mt) (fun t c => pwf (fst c) /\ at_word (snd c) (fun j => Y (t + j + 1)) /\ p_size (fst c) = (if t =? 0 then 0 else 2 * k) /\ (forall l, l < t -> coef (pv (fst c)) (2 * k - l - 1) = s l)) b (k * 2) i0) as ([h st1] & E3 & W3 & A3 & Z3 & C3) end.
  { cbn [fst snd]. split; [exact W0|]. split; [exact HA|]. split; [reflexivity|]. intros l Hl. lia. }
  { intros t [c s1] Ht (I1 & I2 & I3 & I4). cbn [fst snd] in *. destruct (mt_bit_ok s1 _ I2) as (s1' & E & A'). rewrite E. cbn [bind fst snd]. rewrite Nat.add_0_r.
    destruct (set_ok D HD c (2 * k - t - 1) (bit (Y (t + 1)) 0) I1) as (c' & E' & S' & W' & C'). rewrite E'. cbn [bind]. exists (c', s1'). split; [reflexivity|]. cbn [fst snd]. split; [exact W'|].
    split; [apply (at_word_ext _ _ _ A'); intro j; f_equal; lia|]. split.
    - rewrite S', I3. destruct t; cbn [Nat.eqb]; lia.
    - intros l Hl. rewrite C'. destruct (Nat.eqb_spec (2 * k - l - 1) (2 * k - t - 1)); [replace l with t by lia; reflexivity|apply I4; lia]. }
  cbn [fst snd] in *. rewrite E3. cbn [bind fst snd]. destruct (Nat.eqb_spec (k * 2) 0) as [|_]; [lia|].
  assert (LG: 1 <= length (p_storage g)). { destruct Hg as (LL & _). rewrite LL, Sg. pose proof (ceil_ge k D ltac:(lia)). destruct (ceil k D); lia. }
  assert (LH: 2 * k <= D * length (p_storage h)). { destruct W3 as (LL & _). rewrite LL, Z3. apply ceil_ge. lia. }
  destruct (p_mul_ok D ltac:(lia) g h (proj1 (proj2 Hg)) (proj1 (proj2 W3))) as (gh & E4 & S4' & L4 & D4 & V4).
  { intro N0. rewrite N0 in LG. cbn in LG. lia. } { intro N0. rewrite N0 in LH. cbn in LH. lia. }
  rewrite E4. cbn [bind]. change (pval D (p_storage gh)) with (pv gh) in V4. apply product_gm in V4.
  assert (CG: forall j, j <= k -> coef (pv gh) (2 * k - j - 1) = s (N.to_nat z + j)).
  { intros j Hj. rewrite V4. rewrite (xsum_ext (S (2 * k - j - 1)) _ (fun i => coef (pv g) i && s (j + i))).
    2:{ intros i Hi. f_equal. change (pval D (p_storage h)) with (pv h). rewrite <- C3 by lia. f_equal. lia. }
    rewrite <- act_sum. 2:{ apply (deg_mono _ k); [rewrite <- Sg; apply Hg|lia]. }
    rewrite (act_cong phi _ _ s Cg HK). change (N.shiftl 1 z) with (XN z). rewrite (XN_X D HD), act_X. f_equal. lia. }
  match goal with |- context [floop ?b 0 (k + 1) ?i0] => destruct (floop_inv (polynomial * polynomial) (fun t c => fst c = gh /\ pwf (snd c) /\ (forall l, l < t -> coef (pv (snd c)) l = s (N.to_nat z + l))) b (k + 1) i0) as ([gh' r] & E5 & _ & W5 & C5) end.
  { cbn [fst snd]. split; [reflexivity|]. split; [exact W0|]. intros l Hl. lia. }
  { intros t [c r] Ht (I1 & I2 & I3). cbn [fst snd] in *. subst c. rewrite (get_loose D gh) by (try exact D4; try lia; rewrite L4; apply Nat.div_lt_upper_bound; nia).
    cbn [bind fst snd]. destruct (set_ok D HD r t (coef (pv gh) (2 * k - t - 1)) I2) as (r' & E' & _ & W' & C'). rewrite E'. cbn [bind]. exists (gh, r'). split; [reflexivity|]. cbn [fst snd].
    split; [reflexivity|]. split; [exact W'|]. intros l Hl. rewrite C'. destruct (Nat.eqb_spec l t) as [->|]; [apply CG; lia|apply I3; lia]. }
  cbn [fst snd] in *. rewrite E5. cbn [bind fst snd].
  pose proof (killed_shift Y (N.to_nat z) HY) as HZ. destruct (rec_bits p HP HJ _ HZ) as [HBz _]. cbn beta in HBz.
  destruct (reconstruct_ok D p HP HJ _ _ r (mx st1) HBz) as (x' & E6 & I6 & V6).
  { intros t Ht. rewrite (cget_ok D HD) by exact W5. f_equal. rewrite C5 by lia. unfold s. do 2 f_equal. lia. }
  { apply inm_inr. apply A3. }
  exists x'. split; [exact E6|]. split; [exact I6|]. split; [exact V6|]. apply found_at; [exact I6|exact V6|].
  pose proof (killed_shift Y (N.to_nat z + 1) HY) as (R1 & R2). split; [intro; apply HY|]. intro t. cbn beta in R2. specialize (R2 t).
  replace (N.to_nat z + (t + n + 1)) with (N.to_nat z + 1 + (t + n)) by lia. replace (N.to_nat z + (t + m + 1)) with (N.to_nat z + 1 + (t + m)) by lia.
  replace (N.to_nat z + (t + 1 + 1)) with (N.to_nat z + 1 + (t + 1)) by lia. replace (N.to_nat z + (t + 1)) with (N.to_nat z + 1 + t) by lia. exact R2.
Qed.

(* the sequence with a word before the present one *)
Lemma state_seq : forall st, mt_wf p st -> (1 <= mi st \/ mt_normal p (mx st)) -> exists Y, mtrec p Y /\ at_word st (fun j => Y (j + 1)).
Proof using HP HT HJ HD.
  intros st (Hx & Hi) H. destruct (sizes p HP HJ) as (E & _ & _ & _ & S3 & S4 & _). pose proof (msq_sequence p HP (mx st) Hx) as (Q1 & Q2).
  assert (RG: forall t, (0 <= msq p (mx st) t < 2 ^ Z.of_nat w)%Z). { intro t. rewrite E. apply (sqn_val (mn p) (mG p) (mV p) (mn1 p HP) (mG_V p HP) (mx st) _ Hx). }
  assert (C: 1 <= mi st \/ (mi st = 0 /\ mt_normal p (mx st))) by (destruct H; [left; assumption|]; destruct (mi st); [right; auto|left; lia]). destruct C as [C|(C & v & Hv & EV)].
  - exists (fun t => msq p (mx st) (mi st - 1 + t)). split.
    + split; [intro; apply RG|]. intro t. rewrite !Nat.add_assoc. apply Q2.
    + split; [exact Hx|]. split; [exact Hi|]. intro j. f_equal. lia.
  - exists (fun t => match t with O => v | S t => msq p (mx st) t end). split.
    + split; [intros [|t]; [rewrite E; exact Hv|apply RG]|]. intros [|t].
      * cbn [plus]. change (mn p) with n in *. change (mm p) with m in *. replace n with (S (n - 1)) at 1 by lia. replace m with (S (m - 1)) at 1 by lia. rewrite !Q1 by (change (mn p) with n; lia). exact EV.
      * cbn [plus]. apply Q2.
    + split; [exact Hx|]. split; [exact Hi|]. intro j. rewrite C, Nat.add_1_r. reflexivity.
Qed.

Lemma jump_ok : forall z st, D = 32 \/ D = 64 -> mt_wf p st -> (1 <= mi st \/ mt_normal p (mx st)) -> (z < 2 ^ 64)%N ->
  (forall b, gap phi k b -> division_fits D (2 * ceil (k + 1) D) k b (2 * k + 1)) ->
  exists st', mt_discard_many D p z st = Some st' /\ mt_wf p st' /\ mt_normal p (mx st') /\ forall j, msq p (mx st') (mi st' + j) = msq p (mx st) (mi st + N.to_nat z + j).
Proof using HP HT HJ HD.
  intros z st HD2 HW HN Hz HF. destruct (state_seq st HW HN) as (Y & HY & HA). destruct (sizes p HP HJ) as (E & _ & _ & _ & S3 & S4 & _).
  destruct (many_ok z st Y HD2 HY HA Hz HF) as (x' & E1 & I1 & V1 & (A1 & A2 & A3)). exists (Mt x' 0). split; [exact E1|]. split; [split; assumption|]. split.
  - destruct HY as (R1 & R2). exists (Y (N.to_nat z)). split; [rewrite <- E; apply R1|]. cbn [mx]. change (mn p) with n. change (mm p) with m. rewrite !V1 by lia.
    replace (N.to_nat z + (n - 1 + 1)) with (N.to_nat z + n) by lia. replace (N.to_nat z + (m - 1 + 1)) with (N.to_nat z + m) by lia. apply R2.
  - intro j. rewrite A3. destruct HA as (_ & _ & HA). rewrite <- Nat.add_assoc, HA. f_equal. lia.
Qed.
End C.
