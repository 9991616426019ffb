(* discard of the subtract-with-carry engines *)
From Verif Require Import Base StreamModel RingModel RingProofs SwcModel SwcSpec SwcProofs.

Lemma bind_assoc : forall {A B C} (e : option A) (f : A -> option B) (g : B -> option C),
  bind (bind e f) g = bind e (fun x => bind (f x) g).
Proof. intros A B C [a|] f g; reflexivity. Qed.

Lemma bind_ext : forall {A B} (e : option A) (f g : A -> option B), (forall a, e = Some a -> f a = g a) -> bind e f = bind e g.
Proof. intros A B [a|] f g H; [apply H; reflexivity|reflexivity]. Qed.

Lemma iterM_add : forall {A} (f : A -> option A) a b x, iterM (a + b) f x = bind (iterM a f x) (fun y => iterM b f y).
Proof.
  intros A f. induction a as [|a IH]; intros b x; [reflexivity|].
  cbn [Nat.add iterM]. rewrite bind_assoc. apply bind_ext. intros y _. apply IH.
Qed.

Lemma iterM_ext : forall {A} (f g : A -> option A) (P : A -> Prop),
  (forall x, P x -> f x = g x) -> (forall x y, P x -> f x = Some y -> P y) ->
  forall n x, P x -> iterM n f x = iterM n g x.
Proof.
  intros A f g P H HP. induction n as [|n IH]; intros x Hx; [reflexivity|].
  cbn [iterM]. rewrite <- (H x Hx). apply bind_ext. intros y Hy. apply IH. eapply HP; eauto.
Qed.

Section Discard.
Variable up : list Z -> nat -> nat -> Z -> option (list Z * Z).
Variable s r : nat.
Hypothesis Hlen : up_len up.
Hypothesis Hs : (1 <= s <= r)%nat.

Definition sstep (st : swc) : option swc := q <- swc_next up s r st;; Some (snd q).

Fixpoint seg (n j : nat) (q : list Z * Z) : option (list Z * Z) :=
  match n with
  | O => Some q
  | S n' => q' <- up (fst q) j (if (j <? s)%nat then j + r - s else j - s)%nat (snd q);; seg n' (S j) q'
  end.

Lemma loop_a_seg : forall n j q, (j + n <= s)%nat -> swc_loop_a up s r n j q = seg n j q.
Proof.
  induction n as [|n IH]; intros j q H; [reflexivity|]. cbn [swc_loop_a seg].
  destruct (Nat.ltb_spec j s); [|lia]. apply bind_ext. intros q' _. apply IH. lia.
Qed.

Lemma loop_b_seg : forall n j q, (s <= j)%nat -> swc_loop_b up s r n j q = seg n j q.
Proof.
  induction n as [|n IH]; intros j q H; [reflexivity|]. cbn [swc_loop_b seg].
  destruct (Nat.ltb_spec j s); [lia|]. apply bind_ext. intros q' _. apply IH. lia.
Qed.

Lemma seg_app : forall a b j q, seg (a + b) j q = bind (seg a j q) (fun q' => seg b (j + a) q').
Proof.
  induction a as [|a IH]; intros b j q.
  - cbn [Nat.add seg bind]. rewrite Nat.add_0_r. reflexivity.
  - cbn [Nat.add seg]. rewrite bind_assoc. apply bind_ext. intros q' _. rewrite IH.
    replace (S j + a)%nat with (j + S a)%nat by lia. reflexivity.
Qed.

Lemma seg_len : forall n j q q', seg n j q = Some q' -> length (fst q') = length (fst q).
Proof.
  induction n as [|n IH]; intros j q q' H; cbn [seg] in H.
  - apply Some_eq_inj in H. subst. reflexivity.
  - destruct (up _ _ _ _) as [q1|] eqn:E; [|discriminate]. cbn [bind] in H.
    apply Hlen in E. apply IH in H. lia.
Qed.

Lemma sstep_eq : forall x k c, length x = r -> (k < r)%nat ->
  sstep (Swc x k c) = (q <- up x k (if (k <? s)%nat then k + r - s else k - s)%nat c;;
                       Some (Swc (fst q) (if (r <=? S k)%nat then 0%nat else S k) (snd q))).
Proof.
  intros x k c HL Hk. unfold sstep, swc_next. cbn [xs kk cy]. rewrite bind_assoc. apply bind_ext.
  intros q E. apply Hlen in E. rewrite get_nth by lia. reflexivity.
Qed.

Lemma steps_seg : forall n x k c, length x = r -> (k < r)%nat -> (k + n <= r)%nat ->
  iterM n sstep (Swc x k c) =
  (q <- seg n k (x, c);; Some (Swc (fst q) (if (k + n =? r)%nat then 0%nat else k + n)%nat (snd q))).
Proof.
  induction n as [|n IH]; intros x k c HL Hk Hn.
  - cbn [iterM seg bind fst snd]. destruct (Nat.eqb_spec (k + 0) r); [lia|]. rewrite Nat.add_0_r. reflexivity.
  - cbn [iterM]. rewrite sstep_eq by assumption. cbn [seg fst snd]. rewrite !bind_assoc. apply bind_ext.
    intros q E. cbn [bind]. apply Hlen in E. destruct q as [x' c']. cbn [fst snd] in *.
    destruct (Nat.leb_spec r (S k)) as [L|L].
    + assert (n = 0%nat) by lia. subst n. cbn [iterM seg bind fst snd].
      destruct (Nat.eqb_spec (k + 1) r); [reflexivity|lia].
    + rewrite IH by lia. replace (k + S n)%nat with (S k + n)%nat by lia. reflexivity.
Qed.

Lemma block_seg : forall q, (q1 <- swc_loop_a up s r s 0 q;; swc_loop_b up s r (r - s) s q1) = seg r 0 q.
Proof.
  intro q. rewrite loop_a_seg by lia. transitivity (seg (s + (r - s)) 0 q); [|f_equal; lia].
  rewrite seg_app. apply bind_ext. intros q' _. rewrite loop_b_seg by lia. f_equal.
Qed.

Lemma steps_blocks : forall m q, length (fst q) = r ->
  iterM (m * r) sstep (Swc (fst q) 0 (snd q)) =
  (q' <- iterM m (fun q => q1 <- swc_loop_a up s r s 0 q;; swc_loop_b up s r (r - s) s q1) q;;
   Some (Swc (fst q') 0 (snd q'))).
Proof.
  induction m as [|m IH]; intros q HL; [reflexivity|].
  cbn [Nat.mul]. rewrite iterM_add. rewrite steps_seg by lia. rewrite Nat.add_0_l, Nat.eqb_refl.
  cbn [iterM]. rewrite block_seg. rewrite !bind_assoc. destruct q as [x c]. cbn [fst snd] in *.
  apply bind_ext. intros q' E. cbn [bind]. apply IH. apply seg_len in E. cbn [fst] in E. lia.
Qed.

Lemma partial_seg : forall k q, (k < r)%nat ->
  (q1 <- swc_loop_a up s r (if (s <? k)%nat then s else k) 0 q;; swc_loop_b up s r (k - s) s q1) = seg k 0 q.
Proof.
  intros k q Hk. destruct (Nat.ltb_spec s k) as [L|L].
  - rewrite loop_a_seg by lia. transitivity (seg (s + (k - s)) 0 q); [|f_equal; lia].
    rewrite seg_app. apply bind_ext. intros q' _. rewrite loop_b_seg by lia. f_equal.
  - rewrite loop_a_seg by lia. replace (k - s)%nat with O by lia. cbn [swc_loop_b].
    destruct (seg k 0 q); reflexivity.
Qed.

Lemma blocks_len : forall m q q', iterM m (fun q => q1 <- swc_loop_a up s r s 0 q;; swc_loop_b up s r (r - s) s q1) q = Some q' ->
  length (fst q') = length (fst q).
Proof.
  induction m as [|m IH]; intros q q' H; cbn [iterM] in H.
  - apply Some_eq_inj in H. subst. reflexivity.
  - rewrite block_seg in H. destruct (seg r 0 q) as [q1|] eqn:E; [|discriminate]. cbn [bind] in H.
    apply seg_len in E. apply IH in H. lia.
Qed.

Lemma from_zero : forall m q, length (fst q) = r ->
  (q1 <- iterM (m / r) (fun q => q1 <- swc_loop_a up s r s 0 q;; swc_loop_b up s r (r - s) s q1) q;;
   q2 <- (q2 <- swc_loop_a up s r (if (s <? m mod r)%nat then s else (m mod r)%nat) 0 q1;;
          swc_loop_b up s r (m mod r - s) s q2);;
   Some (Swc (fst q2) (m mod r) (snd q2))) = iterM m sstep (Swc (fst q) 0 (snd q)).
Proof.
  intros m q HL.
  assert (Hm: m = (m / r * r + m mod r)%nat) by (rewrite Nat.mul_comm; apply Nat.div_mod; lia).
  assert (Hr: (m mod r < r)%nat) by (apply Nat.mod_upper_bound; lia).
  transitivity (iterM (m / r * r + m mod r) sstep (Swc (fst q) 0 (snd q))); [|f_equal; lia]. rewrite iterM_add. rewrite steps_blocks by assumption. rewrite bind_assoc.
  apply bind_ext. intros q1 E. cbn [bind]. rewrite partial_seg by assumption.
  apply blocks_len in E. rewrite steps_seg by lia. rewrite Nat.add_0_l.
  destruct (Nat.eqb_spec (m mod r) r); [lia|]. destruct q1; reflexivity.
Qed.

Lemma phase1 : forall k z q, (0 < k < r)%nat ->
  (q1 <- (if (k <? s)%nat then
            swc_loop_a up s r ((if Z.of_nat (s - k) <? Z.of_nat z then s else (k + Z.to_nat (Z.of_nat z))%nat) - k) k q
          else Some q);;
   swc_loop_b up s r ((if Z.of_nat (r - k) <? Z.of_nat z then r else (k + Z.to_nat (Z.of_nat z))%nat)
                      - (if (k <? s)%nat then s else k)) (if (k <? s)%nat then s else k) q1)
  = seg (Nat.min z (r - k)) k q.
Proof.
  intros k z q Hk. rewrite Nat2Z.id.
  assert (E1: forall a, (Z.of_nat a <? Z.of_nat z) = (a <? z)%nat).
  { intro a. destruct (Nat.ltb_spec a z); [apply Z.ltb_lt|apply Z.ltb_ge]; lia. }
  rewrite !E1. destruct (Nat.ltb_spec k s) as [L|L].
  - destruct (Nat.ltb_spec (s - k) z) as [M|M].
    + rewrite loop_a_seg by lia.
      assert (E2: ((if (r - k <? z)%nat then r else k + z) - s)%nat = (Nat.min z (r - k) - (s - k))%nat)
        by (destruct (Nat.ltb_spec (r - k) z); lia).
      rewrite E2. transitivity (seg ((s - k) + (Nat.min z (r - k) - (s - k))) k q); [|f_equal; lia].
      rewrite seg_app. apply bind_ext. intros q' _. rewrite loop_b_seg by lia. f_equal. lia.
    + rewrite loop_a_seg by lia.
      assert (E2: ((if (r - k <? z)%nat then r else k + z) - s)%nat = 0%nat)
        by (destruct (Nat.ltb_spec (r - k) z); lia).
      rewrite E2. cbn [swc_loop_b]. replace (k + z - k)%nat with (Nat.min z (r - k)) by lia.
      destruct (seg (Nat.min z (r - k)) k q); reflexivity.
  - cbn [bind]. rewrite loop_b_seg by lia. f_equal. destruct (Nat.ltb_spec (r - k) z); lia.
Qed.

Theorem discard_nat : forall st z, length (xs st) = r -> (kk st < r)%nat ->
  (kk st <> 0%nat \/ z = 0%nat \/ (r <= z)%nat) ->
  swc_discard up s r (Z.of_nat z) st = iterM z sstep st.
Proof.
  intros [x k c] z HL Hk Hz. cbn [xs kk] in *. unfold swc_discard. cbn [xs kk cy]. cbv zeta.
  assert (EK: Z.to_nat ((Z.of_nat z mod Z.of_nat r + Z.of_nat k) mod Z.of_nat r) = ((z + k) mod r)%nat).
  { rewrite <- Nat2Z.inj_mod, <- Nat2Z.inj_add, <- Nat2Z.inj_mod, Nat2Z.id.
    rewrite Nat.add_mod_idemp_l by lia. reflexivity. }
  rewrite EK. clear EK.
  assert (E1: forall a, (Z.of_nat a <? Z.of_nat z) = (a <? z)%nat).
  { intro a. destruct (Nat.ltb_spec a z); [apply Z.ltb_lt|apply Z.ltb_ge]; lia. }
  assert (Hr: ((z + k) mod r < r)%nat) by (apply Nat.mod_upper_bound; lia).
  assert (EB: forall k', (k' <= z)%nat -> Z.to_nat ((Z.of_nat z - Z.of_nat k') / Z.of_nat r) = ((z - k') / r)%nat).
  { intros k' Hk'. rewrite <- Nat2Z.inj_sub by lia. rewrite <- Nat2Z.inj_div, Nat2Z.id. reflexivity. }
  destruct (Nat.eqb_spec k 0) as [K0|K0].
  - subst k. cbn [bind]. rewrite Nat.add_0_r in *. rewrite E1.
    destruct Hz as [Hz|[Hz|Hz]]; [congruence| |].
    + subst z. rewrite Nat.mod_0_l by lia. reflexivity.
    + destruct (Nat.ltb_spec (z mod r) z) as [L|L]; [|lia].
      rewrite EB by lia.
      assert (ED: ((z - z mod r) / r = z / r)%nat).
      { rewrite (Nat.div_mod z r) at 1 by lia. replace (r * (z / r) + z mod r - z mod r)%nat with (z / r * r)%nat by lia.
        apply Nat.div_mul. lia. }
      rewrite ED. rewrite bind_assoc.
      transitivity (iterM z sstep (Swc (fst (x, c)) 0 (snd (x, c)))); [|reflexivity].
      rewrite <- (from_zero z (x, c)) by exact HL. apply bind_ext. intros q1 _. rewrite !bind_assoc. reflexivity.
  - rewrite phase1 by lia.
    destruct (Nat.lt_ge_cases (k + z) r) as [L|L].
    + replace (Nat.min z (r - k)) with z by lia. rewrite Nat.mod_small by lia. rewrite E1.
      rewrite steps_seg by lia. apply bind_ext. intros q _.
      destruct (Nat.ltb_spec (z + k) z); [lia|]. cbn [bind].
      destruct (Nat.eqb_spec (k + z) r); [lia|]. rewrite Nat.add_comm. reflexivity.
    + replace (Nat.min z (r - k)) with (r - k)%nat by lia.
      set (m := (z - (r - k))%nat).
      assert (EM: ((z + k) mod r = m mod r)%nat).
      { replace (z + k)%nat with (m + 1 * r)%nat by (unfold m; lia). apply Nat.mod_add. lia. }
      rewrite EM, E1.
      assert (HM: (m mod r <= m)%nat) by (apply Nat.mod_le; lia).
      destruct (Nat.ltb_spec (m mod r) z) as [L2|L2]; [|unfold m in *; lia].
      rewrite EB by lia.
      assert (ED: ((z - m mod r) / r = m / r)%nat).
      { pose proof (Nat.div_mod m r ltac:(lia)) as DM.
        replace (z - m mod r)%nat with ((r - k) + m / r * r)%nat by (unfold m in *; lia).
        rewrite Nat.div_add by lia. rewrite (Nat.div_small (r - k)) by lia. reflexivity. }
      rewrite ED. transitivity (iterM ((r - k) + m) sstep (Swc x k c)); [|f_equal; unfold m; lia].
      rewrite iterM_add. rewrite steps_seg by lia. rewrite bind_assoc. apply bind_ext. intros q E. cbn [bind].
      destruct (Nat.eqb_spec (k + (r - k)) r); [|lia]. apply seg_len in E. cbn [fst] in E.
      rewrite <- from_zero by lia. rewrite bind_assoc. apply bind_ext. intros q1 _. rewrite !bind_assoc. reflexivity.
Qed.

(* from position 0 a short discard updates nothing but the position *)
Theorem discard_nat_bad : forall st z, length (xs st) = r -> kk st = 0%nat -> (0 < z < r)%nat ->
  swc_discard up s r (Z.of_nat z) st = Some (Swc (xs st) z (cy st)).
Proof.
  intros [x k c] z HL Hk Hz. cbn [xs kk cy] in *. subst k. unfold swc_discard. cbn [xs kk cy Nat.eqb bind]. cbv zeta.
  rewrite Z.add_0_r. rewrite <- !Nat2Z.inj_mod, Nat2Z.id. rewrite Nat.mod_mod by lia. rewrite Nat.mod_small by lia.
  rewrite Z.ltb_irrefl. reflexivity.
Qed.
End Discard.

Lemma iterM_run : forall up s r n st, iterM n (sstep up s r) st = (q <- run (swc_next up s r) n st;; Some (snd q)).
Proof.
  intros up s r. induction n as [|n IH]; intro st; [reflexivity|].
  cbn [iterM run]. unfold sstep at 1. rewrite !bind_assoc. apply bind_ext. intros q _. cbn [bind].
  rewrite IH. rewrite !bind_assoc. apply bind_ext. intros; reflexivity.
Qed.

Lemma discard_run : forall up s r st z, up_len up -> swc_params s r -> length (xs st) = r -> (kk st < r)%nat -> 0 <= z ->
  (kk st <> 0%nat \/ z = 0 \/ Z.of_nat r <= z) ->
  swc_discard up s r z st = (q <- run (swc_next up s r) (Z.to_nat z) st;; Some (snd q)).
Proof.
  intros up s r st z Hl Hs HL Hk Hz H. rewrite <- iterM_run.
  rewrite <- (Z2Nat.id z Hz) at 1. apply discard_nat; auto. 
  destruct H as [H|[H|H]]; [left; exact H|right; left; lia|right; right; lia].
Qed.

Lemma discard_run_bad : forall up s r st z, up_len up -> swc_params s r -> length (xs st) = r -> kk st = 0%nat ->
  0 < z < Z.of_nat r -> swc_discard up s r z st = Some (Swc (xs st) (Z.to_nat z) (cy st)).
Proof.
  intros up s r st z Hl Hs HL Hk Hz.
  rewrite <- (Z2Nat.id z) at 1 by lia. apply discard_nat_bad; auto. lia.
Qed.
