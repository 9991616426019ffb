(* Subtract with carry as a linear congruential generator: the algebra. *)
From Coq Require Import ZArith List Lia Znumtheory Zpow_facts.
From Verif Require Import Base RingModel RingProofs SwcModel SwcSpec SwcProofs AdaptModel AdaptSpec RlxModel RlxSpec.
Import ListNotations. Open Scope Z_scope.

Lemma digits_app b l l' : digits b (l ++ l') = digits b l + b ^ Z.of_nat (length l) * digits b l'.
Proof.
  induction l as [|x l IH]; [cbn [app digits length Z.of_nat]; rewrite Z.pow_0_r; ring|].
  cbn [app digits length]. rewrite IH, Nat2Z.inj_succ, Z.pow_succ_r by lia. ring.
Qed.

Lemma digits_bound b l : 1 <= b -> (forall v, In v l -> 0 <= v < b) -> 0 <= digits b l <= b ^ Z.of_nat (length l) - 1.
Proof.
  intros Hb. induction l as [|x l IH]; intros H; [cbn; lia|].
  cbn [digits length]. rewrite Nat2Z.inj_succ, Z.pow_succ_r by lia.
  specialize (H x (or_introl eq_refl)) as Hx.
  specialize (IH (fun v Hv => H v (or_intror Hv))). nia.
Qed.

Lemma digits_zero b l : 1 <= b -> (forall v, In v l -> 0 <= v < b) -> digits b l = 0 -> forall v, In v l -> v = 0.
Proof.
  intros Hb. induction l as [|x l IH]; intros H E v Hv; [destruct Hv|].
  specialize (H x (or_introl eq_refl)) as Hx.
  pose proof (digits_bound b l Hb (fun v Hv => H v (or_intror Hv))). cbn [digits] in E.
  assert (digits b l = 0) by nia.
  destruct Hv as [<- | Hv]; [lia|]. apply IH; auto. intros u Hu. apply H. right. exact Hu.
Qed.

Lemma digits_max b l : 1 <= b -> (forall v, In v l -> 0 <= v < b) -> digits b l = b ^ Z.of_nat (length l) - 1 ->
  forall v, In v l -> v = b - 1.
Proof.
  intros Hb. induction l as [|x l IH]; intros H E v Hv; [destruct Hv|].
  specialize (H x (or_introl eq_refl)) as Hx.
  pose proof (digits_bound b l Hb (fun v Hv => H v (or_intror Hv))) as HB. cbn [digits length] in E.
  rewrite Nat2Z.inj_succ, Z.pow_succ_r in E by lia.
  assert (digits b l = b ^ Z.of_nat (length l) - 1) by nia.
  destruct Hv as [<- | Hv]; [nia|]. apply IH; auto. intros u Hu. apply H. right. exact Hu.
Qed.

Lemma digits_all_zero b l : (forall v, In v l -> v = 0) -> digits b l = 0.
Proof.
  induction l as [|x l IH]; intros H; [reflexivity|]. cbn [digits]. rewrite IH by (intros v Hv; apply H; right; exact Hv).
  rewrite (H x (or_introl eq_refl)). ring.
Qed.

Lemma digits_all_max b l : (forall v, In v l -> v = b - 1) -> digits b l = b ^ Z.of_nat (length l) - 1.
Proof.
  induction l as [|x l IH]; intros H; [reflexivity|]. cbn [digits length].
  rewrite IH by (intros v Hv; apply H; right; exact Hv).
  rewrite (H x (or_introl eq_refl)). rewrite Nat2Z.inj_succ, Z.pow_succ_r by lia. ring.
Qed.

(* one value in, one value out *)
Lemma digits_slide b l v : l <> [] ->
  b * digits b (tl (l ++ [v])) = digits b l - nth 0 l 0 + b ^ Z.of_nat (length l) * v.
Proof.
  intros H. destruct l as [|x l]; [congruence|]. cbn [app tl nth digits length].
  rewrite digits_app. cbn [digits]. rewrite Nat2Z.inj_succ, Z.pow_succ_r by lia. ring.
Qed.

Lemma tl_skipn {A} k (l : list A) : tl (skipn k l) = skipn k (tl l).
Proof.
  revert l. induction k as [|k IH]; intros [|x l]; try reflexivity.
  cbn [tl]. destruct l as [|y l]; [destruct k; reflexivity|]. cbn [skipn]. rewrite IH. reflexivity.
Qed.

(* the congruential state of a window and a carry *)
Definition xval (w : Z) (s r : nat) (a : list Z * Z) : Z :=
  digits (2 ^ w) (fst a) - digits (2 ^ w) (skipn (r - s) (fst a)) + snd a.

Definition awf (w : Z) (r : nat) (a : list Z * Z) : Prop :=
  length (fst a) = r /\ (forall v, In v (fst a) -> 0 <= v < 2 ^ w) /\ (snd a = 0 \/ snd a = 1).

Lemma wf_awf w r st : swc_wf w r st -> awf w r (abs st).
Proof.
  intros H. split; [apply (abs_length w r st H)|]. destruct H as [_ [_ [HV HC]]]. split; [|exact HC].
  intros v Hv. unfold abs in Hv. cbn [fst] in Hv. apply In_rot in Hv. apply HV. exact Hv.
Qed.

Lemma lcg_xval w s r st : swc_wf w r st -> swc_lcg w s r st = xval w s r (abs st).
Proof.
  intros [HL [HK _]]. unfold swc_lcg, xval, abs. cbn [fst snd]. rewrite history_rot by lia. reflexivity.
Qed.

Lemma pow_b w n : 0 <= w -> (2 ^ w) ^ Z.of_nat n = 2 ^ (w * Z.of_nat n).
Proof. intros Hw. rewrite <- Z.pow_mul_r by lia. reflexivity. Qed.

Lemma xval_step w s r a : 0 <= w -> swc_params s r -> awf w r a ->
  2 ^ w * xval w s r (snd (astep w s r a)) = xval w s r a + swc_modulus w s r * fst (astep w s r a) /\
  fst (astep w s r a) = (- xval w s r a) mod 2 ^ w.
Proof.
  intros Hw Hs [HL [HV HC]]. unfold swc_params in Hs. destruct a as [W c]. cbn [fst snd] in *.
  assert (Hb: 1 <= 2 ^ w) by (pose proof (Z.pow_pos_nonneg 2 w); lia).
  unfold astep. cbn [fst snd]. set (d := nth (r - s) W 0 - nth 0 W 0 - c). set (v := d mod 2 ^ w).
  set (c' := if d <? 0 then 1 else 0).
  assert (HWn: W <> []) by (intros ->; cbn in HL; lia).
  assert (Hd: - 2 ^ w <= d < 2 ^ w).
  { assert (In (nth (r - s) W 0) W) by (apply nth_In; lia). assert (In (nth 0 W 0) W) by (apply nth_In; lia).
    apply HV in H. apply HV in H0. unfold d. lia. }
  assert (Ev: v = d + 2 ^ w * c').
  { unfold v, c'. destruct (Z.ltb_spec d 0).
    - symmetry. apply Zmod_unique with (-1); lia.
    - symmetry. apply Zmod_unique with 0; lia. }
  assert (ES: exists S, skipn (r - s) W = S /\ length S = s /\ nth 0 S 0 = nth (r - s) W 0).
  { exists (skipn (r - s) W). split; [reflexivity|]. split; [rewrite skipn_length; lia|].
    rewrite <- (firstn_skipn (r - s) W) at 2. rewrite app_nth2 by (rewrite firstn_length; lia).
    rewrite firstn_length. f_equal. lia. }
  destruct ES as [S [ES [HSl HS0]]].
  assert (HSn: S <> []) by (intros ->; cbn in HSl; lia).
  assert (EW': tl W ++ [v] = tl (W ++ [v])) by (destruct W; [congruence|reflexivity]).
  assert (EX: 2 ^ w * xval w s r (tl W ++ [v], c') = xval w s r (W, c) + swc_modulus w s r * v).
  { unfold xval. cbn [fst snd]. rewrite EW'. rewrite <- tl_skipn.
    rewrite skipn_app. replace (r - s - length W)%nat with O by lia. cbn [skipn]. rewrite ES.
    rewrite Z.mul_add_distr_l, Z.mul_sub_distr_l, digits_slide, digits_slide by assumption.
    rewrite HL, HSl, HS0. rewrite !pow_b by exact Hw. unfold swc_modulus.
    replace (2 ^ w * c') with (v - d) by lia. unfold d. ring. }
  split; [exact EX|].
  assert (HB1: exists z, swc_modulus w s r = 1 + 2 ^ w * z).
  { exists (2 ^ (w * (Z.of_nat r - 1)) - 2 ^ (w * (Z.of_nat s - 1))). unfold swc_modulus.
    rewrite Z.mul_sub_distr_l, <- !Z.pow_add_r by nia.
    replace (w + w * (Z.of_nat r - 1)) with (w * Z.of_nat r) by ring.
    replace (w + w * (Z.of_nat s - 1)) with (w * Z.of_nat s) by ring. ring. }
  destruct HB1 as [z Hz]. rewrite Hz in EX.
  apply Zmod_unique with (z * v - xval w s r (tl W ++ [v], c')).
  - apply Z.mod_pos_bound. lia.
  - lia.
Qed.

Lemma xval_split w s r a : 0 <= w -> swc_params s r -> awf w r a ->
  exists A B, xval w s r a = A + B * (2 ^ (w * Z.of_nat (r - s)) - 1) + snd a /\
    A = digits (2 ^ w) (firstn (r - s) (fst a)) /\ B = digits (2 ^ w) (skipn (r - s) (fst a)) /\
    0 <= A <= 2 ^ (w * Z.of_nat (r - s)) - 1 /\ 0 <= B <= 2 ^ (w * Z.of_nat s) - 1 /\
    swc_modulus w s r = 2 ^ (w * Z.of_nat (r - s)) * 2 ^ (w * Z.of_nat s) - 2 ^ (w * Z.of_nat s) + 1.
Proof.
  intros Hw Hs [HL [HV HC]]. unfold swc_params in Hs. destruct a as [W c]. cbn [fst snd] in *.
  assert (Hb: 1 <= 2 ^ w) by (pose proof (Z.pow_pos_nonneg 2 w); lia).
  exists (digits (2 ^ w) (firstn (r - s) W)), (digits (2 ^ w) (skipn (r - s) W)).
  assert (L1: length (firstn (r - s) W) = (r - s)%nat) by (rewrite firstn_length; lia).
  assert (L2: length (skipn (r - s) W) = s) by (rewrite skipn_length; lia).
  split; [|split; [reflexivity|split; [reflexivity|split; [|split]]]].
  - unfold xval. cbn [fst snd]. rewrite <- (firstn_skipn (r - s) W) at 1. rewrite digits_app, L1, pow_b by lia. ring.
  - rewrite <- pow_b by lia. rewrite <- L1 at 3. apply digits_bound; [exact Hb|].
    intros v Hv. apply HV. rewrite <- (firstn_skipn (r - s) W). apply in_or_app. left. exact Hv.
  - rewrite <- pow_b by lia. rewrite <- L2 at 3. apply digits_bound; [exact Hb|].
    intros v Hv. apply HV. rewrite <- (firstn_skipn (r - s) W). apply in_or_app. right. exact Hv.
  - unfold swc_modulus. rewrite <- Z.pow_add_r by lia.
    replace (w * Z.of_nat (r - s) + w * Z.of_nat s) with (w * Z.of_nat r) by (rewrite Nat2Z.inj_sub by lia; ring). reflexivity.
Qed.

Lemma xval_range w s r a : 0 <= w -> swc_params s r -> awf w r a -> 0 <= xval w s r a <= swc_modulus w s r.
Proof.
  intros Hw Hs Ha. destruct (xval_split w s r a Hw Hs Ha) as [A [B [E [_ [_ [HA [HB HM]]]]]]].
  destruct Ha as [_ [_ HC]]. rewrite E, HM.
  assert (0 < 2 ^ (w * Z.of_nat (r - s))) by (apply Z.pow_pos_nonneg; nia).
  assert (0 < 2 ^ (w * Z.of_nat s)) by (apply Z.pow_pos_nonneg; nia). nia.
Qed.

Lemma xval_zero w s r a : 0 < w -> swc_params s r -> (s < r)%nat -> awf w r a ->
  (xval w s r a = 0 <-> (forall v, In v (fst a) -> v = 0) /\ snd a = 0).
Proof.
  intros Hw Hs Hsr Ha. destruct (xval_split w s r a ltac:(lia) Hs Ha) as [A [B [E [EA [EB [HA [HB HM]]]]]]].
  destruct Ha as [HL [HV HC]].
  assert (Hb: 1 <= 2 ^ w) by (pose proof (Z.pow_pos_nonneg 2 w); lia).
  assert (HP: 2 <= 2 ^ (w * Z.of_nat (r - s))).
  { change 2 with (2 ^ 1) at 1. apply Z.pow_le_mono_r; nia. }
  split.
  - intros H. assert (A = 0) by nia. assert (B = 0) by nia. split; [|nia].
    assert (HD: digits (2 ^ w) (fst a) = 0).
    { rewrite <- (firstn_skipn (r - s) (fst a)). rewrite digits_app, <- EA, <- EB, H0, H1. ring. }
    apply (digits_zero (2 ^ w)); assumption.
  - intros [HZ HC0]. unfold xval. rewrite HC0.
    rewrite (digits_all_zero _ (fst a)) by exact HZ.
    rewrite digits_all_zero; [reflexivity|]. intros v Hv. apply HZ. rewrite <- (firstn_skipn (r - s) (fst a)). apply in_or_app. right. exact Hv.
Qed.

Lemma xval_max w s r a : 0 < w -> swc_params s r -> (s < r)%nat -> awf w r a ->
  (xval w s r a = swc_modulus w s r <-> (forall v, In v (fst a) -> v = 2 ^ w - 1) /\ snd a = 1).
Proof.
  intros Hw Hs Hsr Ha. destruct (xval_split w s r a ltac:(lia) Hs Ha) as [A [B [E [EA [EB [HA [HB HM]]]]]]].
  destruct Ha as [HL [HV HC]]. unfold swc_params in Hs.
  assert (Hb: 1 <= 2 ^ w) by (pose proof (Z.pow_pos_nonneg 2 w); lia).
  assert (HP: 2 <= 2 ^ (w * Z.of_nat (r - s))).
  { change 2 with (2 ^ 1) at 1. apply Z.pow_le_mono_r; nia. }
  assert (L1: length (firstn (r - s) (fst a)) = (r - s)%nat) by (rewrite firstn_length; lia).
  assert (L2: length (skipn (r - s) (fst a)) = s) by (rewrite skipn_length; lia).
  assert (HVs: forall v, In v (skipn (r - s) (fst a)) -> In v (fst a)).
  { intros v Hv. rewrite <- (firstn_skipn (r - s) (fst a)). apply in_or_app. right. exact Hv. }
  assert (HVf: forall v, In v (firstn (r - s) (fst a)) -> In v (fst a)).
  { intros v Hv. rewrite <- (firstn_skipn (r - s) (fst a)). apply in_or_app. left. exact Hv. }
  split.
  - intros H. rewrite E, HM in H.
    assert (B = 2 ^ (w * Z.of_nat s) - 1) by nia. assert (A = 2 ^ (w * Z.of_nat (r - s)) - 1) by nia. split; [|nia].
    intros v Hv. rewrite <- (firstn_skipn (r - s) (fst a)) in Hv. apply in_app_or in Hv. destruct Hv as [Hv|Hv].
    + apply (digits_max (2 ^ w)) with (l := firstn (r - s) (fst a)); auto. rewrite L1, pow_b by lia. congruence.
    + apply (digits_max (2 ^ w)) with (l := skipn (r - s) (fst a)); auto. rewrite L2, pow_b by lia. congruence.
  - intros [HZ HC1]. rewrite E, HM, HC1.
    rewrite EA, EB. rewrite (digits_all_max (2 ^ w) (firstn (r - s) (fst a))) by auto.
    rewrite (digits_all_max (2 ^ w) (skipn (r - s) (fst a))) by auto.
    rewrite L1, L2, !pow_b by lia. ring.
Qed.

(* ---- the engine ---- *)
Lemma eng_after_S {S} (f : S -> Z * S) n s : eng_after f (Datatypes.S n) s = snd (f (eng_after f n s)).
Proof.
  unfold eng_after. revert s. induction n as [|n IH]; intros s; [reflexivity|].
  change (iter (Datatypes.S (Datatypes.S n)) (fun x => snd (f x)) s) with (iter (Datatypes.S n) (fun x => snd (f x)) (snd (f s))).
  rewrite IH. reflexivity.
Qed.

Lemma eng_after_add {S} (f : S -> Z * S) a b s : eng_after f (a + b) s = eng_after f b (eng_after f a s).
Proof.
  revert s. induction a as [|a IH]; intros s; [reflexivity|].
  change (eng_after f (Datatypes.S a + b) s) with (eng_after f (a + b) (snd (f s))). rewrite IH. reflexivity.
Qed.

Lemma eng_out_after {S} (f : S -> Z * S) n s : eng_out f s n = fst (f (eng_after f n s)).
Proof. reflexivity. Qed.

Section Engine.
  Context (w : Z) (s r : nat) (up : list Z -> nat -> nat -> Z -> option (list Z * Z)).
  Context (Hup : up_ok w r up) (Hs : swc_params s r) (Hw : 0 <= w).
  Let f := swc_total up s r.
  Let m := swc_modulus w s r.

  Lemma total_step st : swc_wf w r st -> swc_next up s r st = Some (f st) /\ swc_wf w r (snd (f st)) /\
    0 <= fst (f st) < 2 ^ w /\
    2 ^ w * swc_lcg w s r (snd (f st)) = swc_lcg w s r st + m * fst (f st) /\
    fst (f st) = (- swc_lcg w s r st) mod 2 ^ w /\
    swc_history (snd (f st)) = tl (swc_history st) ++ [fst (f st)].
  Proof.
    intros Hwf. destruct (next_refine w s r up st Hup Hs Hw Hwf) as [v [st' [E [EA [Hwf' Hv]]]]].
    unfold f, swc_total. rewrite E. cbn [fst snd]. split; [reflexivity|]. split; [exact Hwf'|]. split; [exact Hv|].
    pose proof (xval_step w s r (abs st) Hw Hs (wf_awf w r st Hwf)) as [H1 H2]. rewrite EA in H1, H2. cbn [fst snd] in H1, H2.
    rewrite !lcg_xval by assumption. split; [exact H1|]. split; [exact H2|].
    destruct Hwf as [L1 [K1 _]]. destruct Hwf' as [L2 [K2 _]].
    rewrite !history_rot by lia. unfold astep, abs in EA. cbn [fst snd] in EA. injection EA as EV EW EC.
    rewrite <- EW. rewrite EV. reflexivity.
  Qed.

  Lemma after_wf st n : swc_wf w r st -> swc_wf w r (eng_after f n st).
  Proof. intros H. induction n as [|n IH]; [exact H|]. rewrite eng_after_S. apply (total_step _ IH). Qed.

  Lemma lcg_range st : swc_wf w r st -> 0 <= swc_lcg w s r st <= m.
  Proof. intros H. rewrite lcg_xval by exact H. apply xval_range; auto. apply wf_awf. exact H. Qed.

  Lemma m_pos : 0 < m.
  Proof.
    unfold m, swc_modulus. assert (2 ^ (w * Z.of_nat s) <= 2 ^ (w * Z.of_nat r)); [|lia].
    apply Z.pow_le_mono_r; [lia|]. unfold swc_params in Hs. nia.
  Qed.

  Lemma after_lcg st n : swc_wf w r st ->
    (2 ^ (w * Z.of_nat n) * swc_lcg w s r (eng_after f n st)) mod m = swc_lcg w s r st mod m.
  Proof.
    intros H. pose proof m_pos as Hm. induction n as [|n IH].
    - cbn [Z.of_nat]. rewrite Z.mul_0_r, Z.pow_0_r, Z.mul_1_l. reflexivity.
    - rewrite eng_after_S. rewrite <- IH.
      destruct (total_step _ (after_wf st n H)) as [_ [_ [_ [E _]]]].
      replace (w * Z.of_nat (S n)) with (w * Z.of_nat n + w) by lia.
      rewrite Z.pow_add_r by nia. rewrite <- Z.mul_assoc, E.
      replace (2 ^ (w * Z.of_nat n) * (swc_lcg w s r (eng_after f n st) + m * fst (f (eng_after f n st))))
        with (2 ^ (w * Z.of_nat n) * swc_lcg w s r (eng_after f n st) + 2 ^ (w * Z.of_nat n) * fst (f (eng_after f n st)) * m) by ring.
      apply Z.mod_add. lia.
  Qed.

  Lemma inner_step st : swc_wf w r st -> 0 < swc_lcg w s r st < m -> 0 < swc_lcg w s r (snd (f st)) < m.
  Proof.
    intros H HI. destruct (total_step st H) as [_ [Hwf [Hv [E _]]]]. pose proof (lcg_range _ Hwf) as HR.
    pose proof m_pos. split; nia.
  Qed.

  Lemma inner_after st n : swc_wf w r st -> 0 < swc_lcg w s r st < m -> 0 < swc_lcg w s r (eng_after f n st) < m.
  Proof.
    intros H HI. induction n as [|n IH]; [exact HI|]. rewrite eng_after_S. apply inner_step; [|exact IH]. apply after_wf. exact H.
  Qed.

  Lemma engine_output st n : swc_wf w r st -> 0 < swc_lcg w s r st < m ->
    lcg_output (2 ^ w) m (swc_lcg w s r st) (Z.of_nat n) (eng_out f st n).
  Proof.
    intros H HI. exists (swc_lcg w s r (eng_after f n st)). split; [apply inner_after; assumption|]. split.
    - rewrite pow_b by exact Hw. rewrite after_lcg by exact H. apply Z.mod_small. lia.
    - rewrite eng_out_after. apply (total_step _ (after_wf st n H)).
  Qed.

  Lemma pow_coprime k : rel_prime m (2 ^ (w * Z.of_nat k)).
  Proof.
    rewrite <- pow_b by exact Hw. apply rel_prime_Zpower_r; [lia|].
    unfold swc_params in Hs.
    assert (HZ: exists z, m = 1 + 2 ^ w * z).
    { exists (2 ^ (w * (Z.of_nat r - 1)) - 2 ^ (w * (Z.of_nat s - 1))). unfold m, swc_modulus.
      rewrite Z.mul_sub_distr_l, <- !Z.pow_add_r by nia.
      replace (w + w * (Z.of_nat r - 1)) with (w * Z.of_nat r) by ring.
      replace (w + w * (Z.of_nat s - 1)) with (w * Z.of_nat s) by ring. ring. }
    destruct HZ as [z Hz]. apply bezout_rel_prime. apply Bezout_intro with 1 (- z). rewrite Hz. ring.
  Qed.

  Lemma cancel_pow k x y : (2 ^ (w * Z.of_nat k) * x) mod m = (2 ^ (w * Z.of_nat k) * y) mod m -> (m | x - y).
  Proof.
    intros H. pose proof m_pos. apply Gauss with (2 ^ (w * Z.of_nat k)); [|apply pow_coprime].
    apply Z.mod_divide; [lia|]. rewrite Z.mul_sub_distr_l, Zminus_mod, H, Z.sub_diag. apply Z.mod_0_l. lia.
  Qed.

  (* the congruential output is unique *)
  Lemma output_unique x k u v : lcg_output (2 ^ w) m x (Z.of_nat k) u -> lcg_output (2 ^ w) m x (Z.of_nat k) v -> u = v.
  Proof.
    intros [y [Hy [Ey ->]]] [z [Hz [Ez ->]]]. rewrite pow_b in Ey, Ez by exact Hw.
    destruct (cancel_pow k y z ltac:(congruence)) as [q Hq]. assert (q = 0) by nia. subst q. do 2 f_equal. lia.
  Qed.

  (* states that are equal modulo m have equal successors *)
  Lemma same_lcg_step a b : swc_wf w r a -> swc_wf w r b -> swc_lcg w s r a = swc_lcg w s r b ->
    fst (f a) = fst (f b) /\ swc_lcg w s r (snd (f a)) = swc_lcg w s r (snd (f b)).
  Proof.
    intros Ha Hb E. destruct (total_step a Ha) as [_ [_ [_ [EA [VA _]]]]]. destruct (total_step b Hb) as [_ [_ [_ [EB [VB _]]]]].
    rewrite E in VA. split; [congruence|]. rewrite E, VA, <- VB, <- EB in EA.
    apply Z.mul_reg_l in EA; [exact EA|]. pose proof (Z.pow_pos_nonneg 2 w); lia.
  Qed.

  Lemma same_lcg_after a b n : swc_wf w r a -> swc_wf w r b -> swc_lcg w s r a = swc_lcg w s r b ->
    eng_out f a n = eng_out f b n /\ swc_lcg w s r (eng_after f n a) = swc_lcg w s r (eng_after f n b).
  Proof.
    intros Ha Hb E.
    assert (EN: swc_lcg w s r (eng_after f n a) = swc_lcg w s r (eng_after f n b)).
    { induction n as [|n IH]; [exact E|]. rewrite !eng_after_S. apply same_lcg_step; auto using after_wf. }
    split; [|exact EN]. rewrite !eng_out_after. apply same_lcg_step; auto using after_wf.
  Qed.

  (* the history after n >= r calls consists of outputs *)
  Lemma history_after st n : swc_wf w r st ->
    swc_history (eng_after f n st) = skipn n (swc_history st ++ eng_outs f st n).
  Proof.
    intros H. induction n as [|n IH].
    - unfold eng_outs. cbn [seq map]. rewrite app_nil_r. reflexivity.
    - rewrite eng_after_S. destruct (total_step _ (after_wf st n H)) as [_ [_ [_ [_ [_ E]]]]]. rewrite E, IH.
      unfold eng_outs. rewrite seq_S. rewrite map_app. cbn [map].
      rewrite app_assoc. change (0 + n)%nat with n. fold (eng_outs f st n).
      change (fst (f (eng_after f n st))) with (eng_out f st n).
      assert (HL: (n < length (swc_history st ++ eng_outs f st n))%nat).
      { rewrite app_length. unfold eng_outs. rewrite map_length, seq_length.
        unfold swc_history. rewrite map_length, seq_length. destruct H as [HL _]. unfold swc_params in Hs. lia. }
      set (h := swc_history st ++ eng_outs f st n) in *.
      rewrite skipn_app. replace (S n - length h)%nat with O by lia. cbn [skipn]. f_equal.
      clear -HL. revert HL. generalize h. clear h. induction n as [|n IHn]; intros [|x h] HL; cbn [length] in HL; try lia; [reflexivity|].
      change (skipn (S (S n)) (x :: h)) with (skipn (S n) h). cbn [skipn]. apply IHn. lia.
  Qed.
End Engine.
