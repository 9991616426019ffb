(* Periods of subtract with carry and of the ranlux engines. *)
From Coq Require Import ZArith List Lia Znumtheory Zpow_facts.
From Verif Require Import Base RingModel RingProofs SwcModel SwcSpec SwcProofs AdaptModel AdaptSpec AdaptProofs RlxModel RlxSpec RlxProofs OrdProofs.
Import ListNotations. Open Scope Z_scope.

Lemma eng_out_shift {S} (f : S -> Z * S) s n k : eng_out f s (n + k) = eng_out f (eng_after f n s) k.
Proof. rewrite !eng_out_after, eng_after_add. reflexivity. Qed.

Section Period.
  Context (w : Z) (s r : nat) (up : list Z -> nat -> nat -> Z -> option (list Z * Z)).
  Context (Hup : up_ok w r up) (Hs : swc_params s r) (Hw : 0 < w).
  Let f := swc_total up s r.
  Let m := swc_modulus w s r.
  Let X := swc_lcg w s r.

  Let Hw0 : 0 <= w. Proof. lia. Qed.

  Lemma mpos : 0 < m.
  Proof. exact (m_pos w s r Hs Hw0). Qed.

  Lemma lcg_return st P : swc_wf w r st -> 0 < X st < m -> 2 ^ (w * Z.of_nat P) mod m = 1 mod m -> X (eng_after f P st) = X st.
  Proof.
    intros H HI HP. pose proof mpos as Hm.
    pose proof (after_lcg w s r up Hup Hs Hw0 st P H) as E. fold m f in E. fold (X (eng_after f P st)) (X st) in E.
    pose proof (inner_after w s r up Hup Hs Hw0 st P H HI) as HI'. fold m f in HI'. fold (X (eng_after f P st)) in HI'.
    rewrite Z.mul_mod, HP, <- Z.mul_mod, Z.mul_1_l in E by lia. rewrite !Z.mod_small in E by lia. exact E.
  Qed.

  Lemma repeats_if st P : swc_wf w r st -> 0 < X st < m -> 2 ^ (w * Z.of_nat P) mod m = 1 mod m -> repeats f st P.
  Proof.
    intros H HI HP n. rewrite Nat.add_comm. rewrite eng_out_shift.
    apply (same_lcg_after w s r up Hup Hs Hw0); auto.
    - apply (after_wf w s r up Hup Hs Hw0). exact H.
    - apply lcg_return; assumption.
  Qed.

  (* a state that comes back *)
  Lemma return_order a P : swc_wf w r a -> 0 < X a < m -> prime m -> X (eng_after f P a) = X a -> 2 ^ (w * Z.of_nat P) mod m = 1.
  Proof.
    intros H HI Hp E0. pose proof (prime_ge_2 m Hp).
    pose proof (after_lcg w s r up Hup Hs Hw0 a P H) as E. fold m f in E. fold (X (eng_after f P a)) (X a) in E.
    rewrite E0 in E.
    assert (HD: (m | X a * (2 ^ (w * Z.of_nat P) - 1))).
    { apply Z.mod_divide; [lia|].
      replace (X a * (2 ^ (w * Z.of_nat P) - 1)) with (2 ^ (w * Z.of_nat P) * X a - X a) by ring.
      rewrite Zminus_mod, E, Z.sub_diag. apply Z.mod_0_l. lia. }
    apply Gauss in HD.
    - destruct HD as [k Hk]. replace (2 ^ (w * Z.of_nat P)) with (1 + k * m) by lia.
      rewrite Z.mod_add by lia. apply one_mod. lia.
    - apply prime_rel_prime; [exact Hp|]. intros HD0. apply Z.divide_pos_le in HD0; lia.
  Qed.

  Lemma history_nth st n j : swc_wf w r st -> (j < r)%nat -> (r <= n + j)%nat ->
    nth j (swc_history (eng_after f n st)) 0 = eng_out f st (n + j - r).
  Proof.
    intros H Hj Hn. pose proof (history_after w s r up Hup Hs Hw0 st n H) as E. fold f in E. rewrite E.
    assert (HL: length (swc_history st) = r).
    { unfold swc_history. rewrite map_length, seq_length. apply H. }
    assert (HLo: length (eng_outs f st n) = n) by (unfold eng_outs; rewrite map_length, seq_length; reflexivity).
    assert (EN: forall (l : list Z) k, nth j (skipn k l) 0 = nth (k + j) l 0).
    { intros l k. revert l. induction k as [|k IH]; intros [|x l]; cbn [skipn]; try reflexivity.
      - destruct j; reflexivity.
      - change (S k + j)%nat with (S (k + j)). cbn [nth]. apply IH. }
    rewrite EN. rewrite app_nth2 by lia. rewrite HL. unfold eng_outs.
    rewrite (nth_indep _ 0 (eng_out f st 0)) by (rewrite map_length, seq_length; lia).
    rewrite map_nth. rewrite seq_nth by lia. reflexivity.
  Qed.

  Lemma history_length st : swc_wf w r st -> length (swc_history st) = r.
  Proof. intros H. unfold swc_history. rewrite map_length, seq_length. apply H. Qed.

  Lemma repeats_only_if st P : swc_wf w r st -> 0 < X st < m -> prime m -> repeats f st P -> 2 ^ (w * Z.of_nat P) mod m = 1.
  Proof.
    intros H HI Hp HR.
    set (a := eng_after f r st).
    assert (Ha: swc_wf w r a) by (apply (after_wf w s r up Hup Hs Hw0); exact H).
    assert (HIa: 0 < X a < m) by (apply (inner_after w s r up Hup Hs Hw0); assumption).
    apply (return_order a P Ha HIa Hp).
    assert (Hb: swc_wf w r (eng_after f P a)) by (apply (after_wf w s r up Hup Hs Hw0); exact Ha).
    assert (EH: swc_history (eng_after f P a) = swc_history a).
    { apply (nth_ext _ _ 0 0).
      - rewrite !history_length by assumption. reflexivity.
      - intros j Hj. rewrite history_length in Hj by exact Hb. unfold a. rewrite <- eng_after_add.
        rewrite !history_nth by (auto; lia). rewrite <- (HR (r + j - r)%nat). f_equal. lia. }
    assert (EV: fst (f (eng_after f P a)) = fst (f a)).
    { unfold a. rewrite <- eng_after_add. rewrite <- !eng_out_after. apply HR. }
    destruct (total_step w s r up Hup Hs Hw0 a Ha) as [_ [_ [_ [_ [V1 _]]]]].
    destruct (total_step w s r up Hup Hs Hw0 _ Hb) as [_ [_ [_ [_ [V2 _]]]]].
    fold f in V1, V2. rewrite EV in V2. rewrite V2 in V1.
    assert (Hb2: 2 <= 2 ^ w) by (change 2 with (2 ^ 1) at 1; apply Z.pow_le_mono_r; lia).
    assert (HD: (2 ^ w | - X (eng_after f P a) - - X a)).
    { apply Z.mod_divide; [lia|]. unfold X. rewrite Zminus_mod, V1, Z.sub_diag. apply Z.mod_0_l. lia. }
    unfold X, swc_lcg in HD |- *. rewrite EH in HD |- *.
    destruct Ha as [_ [_ [_ Ca]]]. destruct Hb as [_ [_ [_ Cb]]]. destruct HD as [k Hk].
    assert (- 2 < k * 2 ^ w < 2) by lia. assert (k = 0) by nia. subst k. lia.
  Qed.

  Lemma repeats_mul {S} (g : S -> Z * S) a P k : repeats g a P -> repeats g a (k * P).
  Proof.
    intros H. induction k as [|k IH]; intros n; [f_equal; lia|].
    replace (n + Datatypes.S k * P)%nat with (n + k * P + P)%nat by lia. rewrite H. apply IH.
  Qed.

  (* two states whose histories agree except for the oldest value *)
  Lemma near_lcg a b : (s < r)%nat -> swc_wf w r a -> swc_wf w r b ->
    (forall j, (1 <= j < r)%nat -> nth j (swc_history a) 0 = nth j (swc_history b) 0) ->
    - 2 ^ w <= X a - X b <= 2 ^ w.
  Proof.
    intros Hsr Ha Hb E. pose proof (history_length a Ha) as La. pose proof (history_length b Hb) as Lb.
    pose proof (wf_awf w r a Ha) as [_ [Va Ca]]. pose proof (wf_awf w r b Hb) as [_ [Vb Cb]].
    unfold abs in Va, Vb, Ca, Cb. cbn [fst snd] in Va, Vb, Ca, Cb.
    rewrite <- history_rot in Va by (destruct Ha as [? [? _]]; lia).
    rewrite <- history_rot in Vb by (destruct Hb as [? [? _]]; lia).
    unfold X, swc_lcg. destruct (swc_history a) as [|x ta]; [cbn in La; lia|].
    destruct (swc_history b) as [|y tb]; [cbn in Lb; lia|]. cbn [length] in La, Lb.
    assert (ET: ta = tb).
    { apply (nth_ext _ _ 0 0); [lia|]. intros j Hj. specialize (E (S j) ltac:(lia)). exact E. }
    subst tb. replace (r - s)%nat with (S (r - s - 1)) by lia. cbn [skipn digits].
    pose proof (Va x (or_introl eq_refl)). pose proof (Vb y (or_introl eq_refl)). lia.
  Qed.

  Section Block.
    Context (p u : Z) (Hu : 1 <= u <= p) (Hp64 : p < 2 ^ 64) (Hur : Z.of_nat r - 1 <= u) (Hsr : (s < r)%nat).

    Lemma block_out st j i : 0 <= i < u ->
      eng_out (db_next p u f) (db_init st) (Z.to_nat u * j + Z.to_nat i) = eng_out f st (Z.to_nat p * j + Z.to_nat i).
    Proof.
      intros Hi. rewrite db_output by lia. f_equal. rewrite Nat2Z.inj_add, Nat2Z.inj_mul, !Z2Nat.id by lia.
      replace (u * Z.of_nat j + i) with (i + Z.of_nat j * u) by ring.
      rewrite Z.div_add, Z.mod_add by lia. rewrite Z.div_small, Z.mod_small by lia. rewrite Z.add_0_l.
      rewrite Z2Nat.inj_add by nia. rewrite Z2Nat.inj_mul by lia. rewrite Nat2Z.id. reflexivity.
    Qed.

    Lemma block_repeats st P j : swc_wf w r st -> 0 < X st < m -> prime m ->
      2 ^ (w * (p * Z.of_nat j)) mod m = 2 ^ (w * 2) mod m -> 2 ^ (w * 3) + 2 ^ w < m ->
      repeats (db_next p u f) (db_init st) P -> 2 ^ (w * (p * Z.of_nat P)) mod m = 1.
    Proof.
      intros H HI Hp Hj Hbig HR. pose proof mpos as Hm.
      assert (HB: forall k i, 0 <= i < u ->
        eng_out f st (Z.to_nat p * (k + P) + Z.to_nat i) = eng_out f st (Z.to_nat p * k + Z.to_nat i)).
      { intros k i Hi. rewrite <- !block_out by exact Hi.
        rewrite <- (repeats_mul _ _ P (Z.to_nat u) HR (Z.to_nat u * k + Z.to_nat i)%nat). f_equal. lia. }
      set (a := eng_after f (Z.to_nat u) st). set (b := eng_after f (Z.to_nat p * P) a).
      assert (Ha: swc_wf w r a) by (apply (after_wf w s r up Hup Hs Hw0); exact H).
      assert (Hb: swc_wf w r b) by (apply (after_wf w s r up Hup Hs Hw0); exact Ha).
      assert (HIa: 0 < X a < m) by (apply (inner_after w s r up Hup Hs Hw0); assumption).
      assert (HN: forall k, - 2 ^ w <= X (eng_after f (Z.to_nat p * k) a) - X (eng_after f (Z.to_nat p * k) b) <= 2 ^ w).
      { intros k. apply near_lcg; [exact Hsr| | |].
        - apply (after_wf w s r up Hup Hs Hw0). exact Ha.
        - apply (after_wf w s r up Hup Hs Hw0). exact Hb.
        - intros i Hi. unfold b, a. rewrite <- !eng_after_add. rewrite !history_nth by (auto; lia).
          specialize (HB k (u + Z.of_nat i - Z.of_nat r) ltac:(lia)).
          rewrite Z2Nat.inj_sub, Z2Nat.inj_add, !Nat2Z.id in HB by lia.
          replace (Z.to_nat u + Z.to_nat p * k + i - r)%nat with (Z.to_nat p * k + (Z.to_nat u + i - r))%nat by lia.
          rewrite <- HB. f_equal. lia. }
      pose proof (HN j) as N1. pose proof (HN 0%nat) as N0. rewrite Nat.mul_0_r in N0. change (- 2 ^ w <= X a - X b <= 2 ^ w) in N0.
      pose proof (after_lcg w s r up Hup Hs Hw0 a (Z.to_nat p * j) Ha) as EA.
      pose proof (after_lcg w s r up Hup Hs Hw0 b (Z.to_nat p * j) Hb) as EB.
      rewrite Nat2Z.inj_mul, Z2Nat.id in EA, EB by lia. fold m f in EA, EB.
      set (c := 2 ^ (w * (p * Z.of_nat j))) in *.
      fold (X a) (X b) (X (eng_after f (Z.to_nat p * j) a)) (X (eng_after f (Z.to_nat p * j) b)) in EA, EB.
      set (Xa := X (eng_after f (Z.to_nat p * j) a)) in *. set (Xb := X (eng_after f (Z.to_nat p * j) b)) in *.
      assert (HD: (m | 2 ^ (w * 2) * (Xa - Xb) - (X a - X b))).
      { apply Z.mod_divide; [lia|]. rewrite Zminus_mod.
        rewrite (Z.mul_mod (2 ^ (w * 2))) by lia. rewrite <- Hj. rewrite <- Z.mul_mod by lia.
        rewrite Z.mul_sub_distr_l. rewrite (Zminus_mod (c * Xa)). rewrite EA, EB. rewrite <- (Zminus_mod (X a)).
        rewrite Z.sub_diag. apply Z.mod_0_l. lia. }
      assert (HB1: 2 <= 2 ^ w) by (change 2 with (2 ^ 1) at 1; apply Z.pow_le_mono_r; lia).
      assert (E2: 2 ^ (w * 2) = 2 ^ w * 2 ^ w) by (rewrite <- Z.pow_add_r by lia; f_equal; ring).
      assert (E3: 2 ^ (w * 3) = 2 ^ w * 2 ^ w * 2 ^ w) by (rewrite <- !Z.pow_add_r by lia; f_equal; ring).
      rewrite E2 in HD. rewrite E3 in Hbig. set (B := 2 ^ w) in *. 
      destruct HD as [k Hk].
      assert (HBB: - (B * B * B) <= B * B * (Xa - Xb) <= B * B * B) by nia.
      assert (- m < k * m < m) by (clear -Hbig N0 HBB Hk; lia). assert (k = 0) by nia. subst k.
      assert (X a - X b = B * B * (Xa - Xb)) by lia.
      assert (ED: Xa - Xb = 0).
      { assert (HQ: 2 * B <= B * B) by nia. set (d := Xa - Xb) in *. set (Q := B * B) in *. clearbody d Q.
        destruct (Z.lt_trichotomy d 0) as [L|[L|L]]; [|exact L|].
        - assert (Q * d <= - Q) by nia. lia.
        - assert (Q <= Q * d) by nia. lia. }
      pose proof (return_order a (Z.to_nat p * P) Ha HIa Hp) as RO. fold b in RO.
      rewrite Nat2Z.inj_mul, Z2Nat.id in RO by lia. apply RO. rewrite ED in *. lia.
    Qed.

    Lemma block_repeats_if st k : swc_wf w r st -> 0 < X st < m -> 2 ^ (w * (p * Z.of_nat k)) mod m = 1 mod m ->
      repeats (db_next p u f) (db_init st) (Z.to_nat u * k).
    Proof.
      intros H HI HP n.
      assert (En: exists j i, 0 <= i < u /\ n = (Z.to_nat u * j + Z.to_nat i)%nat).
      { exists (n / Z.to_nat u)%nat, (Z.of_nat (n mod Z.to_nat u)).
        pose proof (Nat.mod_upper_bound n (Z.to_nat u) ltac:(lia)). split; [lia|].
        rewrite Nat2Z.id. apply Nat.div_mod. lia. }
      destruct En as [j [i [Hi ->]]].
      replace (Z.to_nat u * j + Z.to_nat i + Z.to_nat u * k)%nat with (Z.to_nat u * (j + k) + Z.to_nat i)%nat by lia.
      rewrite !block_out by exact Hi.
      replace (Z.to_nat p * (j + k) + Z.to_nat i)%nat with (Z.to_nat p * j + Z.to_nat i + Z.to_nat p * k)%nat by lia.
      apply repeats_if; auto. rewrite Nat2Z.inj_mul, Z2Nat.id by lia. exact HP.
    Qed.
  End Block.
End Period.

(* seeding never gives one of the two fixed points *)
Lemma seeded_inner w s r st : 0 < w -> swc_params s r -> (s < r)%nat -> swc_wf w r st -> kk st = 0%nat ->
  (cy st = 1 <-> nth (r - 1) (xs st) 0 = 0) -> 0 < swc_lcg w s r st < swc_modulus w s r.
Proof.
  intros Hw Hs Hsr H Hk HC. rewrite lcg_xval by exact H. pose proof (wf_awf w r st H) as Ha.
  pose proof (xval_range w s r (abs st) ltac:(lia) Hs Ha) as HR.
  assert (EA: abs st = (xs st, cy st)).
  { unfold abs. rewrite Hk. unfold rot. cbn [skipn firstn]. rewrite app_nil_r. reflexivity. }
  destruct H as [HL _].
  assert (HIn: In (nth (r - 1) (xs st) 0) (xs st)) by (apply nth_In; unfold swc_params in Hs; lia).
  assert (xval w s r (abs st) <> 0).
  { intros E. apply (xval_zero w s r (abs st) Hw Hs Hsr Ha) in E. rewrite EA in E. cbn [fst snd] in E. destruct E as [E1 E2].
    apply E1 in HIn. apply HC in HIn. lia. }
  assert (xval w s r (abs st) <> swc_modulus w s r).
  { intros E. apply (xval_max w s r (abs st) Hw Hs Hsr Ha) in E. rewrite EA in E. cbn [fst snd] in E. destruct E as [E1 E2].
    apply E1 in HIn. apply HC in E2. assert (2 <= 2 ^ w) by (change 2 with (2 ^ 1) at 1; apply Z.pow_le_mono_r; lia). lia. }
  lia.
Qed.

Lemma modulus_form w s r : 0 <= w -> swc_params s r -> exists z, swc_modulus w s r = 1 + 2 ^ w * z.
Proof.
  intros Hw Hs. unfold swc_params in Hs.
  exists (2 ^ (w * (Z.of_nat r - 1)) - 2 ^ (w * (Z.of_nat s - 1))). unfold swc_modulus.
  rewrite Z.mul_sub_distr_l, <- !Z.pow_add_r by nia.
  replace (w + w * (Z.of_nat r - 1)) with (w * Z.of_nat r) by ring.
  replace (w + w * (Z.of_nat s - 1)) with (w * Z.of_nat s) by ring. ring.
Qed.

Section Fixed.
  Context (w : Z) (s r : nat) (up : list Z -> nat -> nat -> Z -> option (list Z * Z)).
  Context (Hup : up_ok w r up) (Hs : swc_params s r) (Hw : 0 <= w).
  Let f := swc_total up s r.
  Let m := swc_modulus w s r.

  Lemma fixed_zero st n : swc_wf w r st -> swc_lcg w s r st = 0 -> eng_out f st n = 0.
  Proof.
    intros H E. assert (Hb: 0 < 2 ^ w) by (apply Z.pow_pos_nonneg; lia).
    assert (EN: swc_lcg w s r (eng_after f n st) = 0).
    { induction n as [|n IH]; [exact E|]. rewrite eng_after_S.
      pose proof (after_wf w s r up Hup Hs Hw st n H) as Hn. fold f in Hn.
      destruct (total_step w s r up Hup Hs Hw _ Hn) as [_ [_ [_ [E1 [E2 _]]]]]. fold f m in E1, E2.
      rewrite IH in E1, E2. rewrite Z.mod_0_l in E2 by lia. rewrite E2 in E1. nia. }
    rewrite eng_out_after. pose proof (after_wf w s r up Hup Hs Hw st n H) as Hn. fold f in Hn.
    destruct (total_step w s r up Hup Hs Hw _ Hn) as [_ [_ [_ [_ [E2 _]]]]]. fold f in E2. rewrite E2, EN.
    apply Z.mod_0_l. lia.
  Qed.

  Lemma fixed_max st n : swc_wf w r st -> swc_lcg w s r st = m -> eng_out f st n = 2 ^ w - 1.
  Proof.
    intros H E. assert (Hb: 0 < 2 ^ w) by (apply Z.pow_pos_nonneg; lia).
    assert (EM: (- m) mod 2 ^ w = 2 ^ w - 1).
    { destruct (modulus_form w s r Hw Hs) as [z Hz]. fold m in Hz. symmetry. apply Zmod_unique with (- z - 1); lia. }
    assert (EN: swc_lcg w s r (eng_after f n st) = m).
    { induction n as [|n IH]; [exact E|]. rewrite eng_after_S.
      pose proof (after_wf w s r up Hup Hs Hw st n H) as Hn. fold f in Hn.
      destruct (total_step w s r up Hup Hs Hw _ Hn) as [_ [_ [_ [E1 [E2 _]]]]]. fold f m in E1, E2.
      rewrite IH in E1, E2. rewrite EM in E2. rewrite E2 in E1.
      apply Z.mul_reg_l with (2 ^ w); [lia|]. rewrite E1. ring. }
    rewrite eng_out_after. pose proof (after_wf w s r up Hup Hs Hw st n H) as Hn. fold f in Hn.
    destruct (total_step w s r up Hup Hs Hw _ Hn) as [_ [_ [_ [_ [E2 _]]]]]. fold f in E2. rewrite E2, EN. exact EM.
  Qed.
End Fixed.

(* p prime to N: some multiple of p is 2 modulo N *)
Lemma hit_two p N : 0 < p -> 2 < N -> Z.gcd p N = 1 -> exists j k, p * Z.of_nat j = 2 + N * k /\ 0 <= k.
Proof.
  intros Hp HN HG. assert (HR: rel_prime p N) by (apply Zgcd_1_rel_prime; exact HG).
  destruct (rel_prime_bezout p N HR) as [u v E].
  exists (Z.to_nat ((2 * u) mod N)). pose proof (Z.mod_pos_bound (2 * u) N ltac:(lia)) as HB.
  rewrite Z2Nat.id by lia. pose proof (Z.div_mod (2 * u) N ltac:(lia)) as HD.
  set (q := 2 * u / N) in *. set (t := (2 * u) mod N) in *.
  exists (- 2 * v - p * q). assert (EQ: p * t = 2 + N * (- 2 * v - p * q)).
  { replace t with (2 * u - N * q) by lia. replace (2 + N * (-2 * v - p * q)) with (2 * 1 + N * (- 2 * v - p * q)) by ring.
    rewrite <- E. ring. }
  split; [exact EQ|]. assert (0 <= p * t) by nia. 
  destruct (Z.lt_ge_cases (- 2 * v - p * q) 0) as [L|L]; [|exact L]. exfalso.
  assert (N * (- 2 * v - p * q) <= - N) by nia. lia.
Qed.

(* the ranlux engines whose modulus m is prime and for which 2^w has order N *)
Lemma rlx_period w s r up p u N st P : up_ok w r up -> swc_params s r -> (s < r)%nat -> 0 < w ->
  1 <= u <= p -> p < 2 ^ 64 -> Z.of_nat r - 1 <= u -> prime (swc_modulus w s r) ->
  2 < N -> Z.gcd p N = 1 ->
  (forall Q, 0 <= Q -> (2 ^ (w * Q) mod swc_modulus w s r = 1 <-> (N | Q))) ->
  2 ^ (w * 3) + 2 ^ w < swc_modulus w s r ->
  swc_wf w r st -> 0 < swc_lcg w s r st < swc_modulus w s r ->
  (repeats (db_next p u (swc_total up s r)) (db_init st) P -> (N | Z.of_nat P)) /\
  ((u * N | Z.of_nat P) -> repeats (db_next p u (swc_total up s r)) (db_init st) P).
Proof.
  intros Hup Hs Hsr Hw Hu Hp64 Hur Hp HN HG HO Hbig Hwf HI. pose proof (prime_ge_2 _ Hp) as Hm.
  set (m := swc_modulus w s r) in *. split.
  - intros HR. destruct (hit_two p N ltac:(lia) HN HG) as [j [k [Ej Hk]]].
    assert (H2: 2 ^ (w * (p * Z.of_nat j)) mod m = 2 ^ (w * 2) mod m).
    { rewrite Ej, Z.mul_add_distr_l, Z.pow_add_r by nia. rewrite Z.mul_mod by lia.
      assert (E: 2 ^ (w * (N * k)) mod m = 1) by (apply HO; [nia|apply Z.divide_factor_l]).
      rewrite E, Z.mul_1_r, Z.mod_mod by lia. reflexivity. }
    pose proof (block_repeats w s r up Hup Hs Hw p u Hu Hp64 Hur Hsr st P j Hwf HI Hp H2 Hbig HR) as E.
    fold m in E. apply HO in E; [|nia]. apply Gauss with p; [exact E|].
    apply rel_prime_sym. apply Zgcd_1_rel_prime. exact HG.
  - intros [k Hk].
    assert (HP: exists j, P = (Z.to_nat u * j)%nat /\ (N | Z.of_nat j)).
    { assert (0 <= k) by (destruct (Z.lt_ge_cases k 0) as [L|L]; [|exact L]; exfalso; assert (0 < u * N) by nia; nia).
      exists (Z.to_nat (k * N)). split; [|rewrite Z2Nat.id by nia; apply Z.divide_factor_r].
      apply Nat2Z.inj. rewrite Nat2Z.inj_mul, !Z2Nat.id by nia. rewrite Hk. ring. }
    destruct HP as [j [-> Hj]].
    apply (block_repeats_if w s r up Hup Hs Hw p u Hu Hp64); auto.
    fold m. rewrite (one_mod m) by lia. apply HO; [nia|]. apply Z.divide_mul_r. exact Hj.
Qed.
