(* mixmax: save and restore of reachable states *)
From Verif Require Import Base StreamModel MixSpec MixModel MixProofs Mix2Proofs Mix4Proofs.
Ltac Zify.zify_post_hook ::= idtac.

Definition canon (v : list Z) : Prop := Forall (fun a => 0 <= a <= U - 1) v.
Definition sum_ok (e : mxst) : Prop := canon (mxV e) -> mx_sumtot (mxV e) = mxsum e.

Lemma next_sum : forall n s e x e', (2 <= n)%nat -> 0 <= s <= 60 -> Z.of_nat n < 2 ^ 31 -> mx_ok n e -> sum_ok e ->
  mx_next n s e = Some (x, e') -> sum_ok e'.
Proof.
  intros n s [V sum cnt] x e' Hn Hs HN [HG HC] HS H. cbn [mxV mxsum mxcnt] in *. unfold mx_next in H. cbn [mxV mxsum mxcnt] in H.
  destruct (cnt <=? Z.of_nat n - 1).
  - destruct (cnt <? 0); [discriminate|]. destruct (RingModel.get V (Z.to_nat cnt)) as [y|]; [|discriminate]. cbn [bind] in H.
    assert (E: e' = Mx V sum (cnt + 1)) by congruence. subst e'. exact HS.
  - assert (HN': Z.of_nat n < 2 ^ 32) by (change (2 ^ 31) with 2147483648 in HN; change (2 ^ 32) with 4294967296; lia).
    pose proof (refresh_sum n s V sum Hs ltac:(lia) HN' HG) as R. destruct (mx_iterate s V sum) as [Y st]. cbn [fst snd] in R.
    destruct (RingModel.get Y 1) as [y|]; [|discriminate]. cbn [bind] in H. assert (E: e' = Mx Y st 2) by congruence. subst e'.
    intros HY. cbn [mxV mxsum] in *. apply R. exact HY.
Qed.
Lemma run_sum : forall n s k e xs e', (2 <= n)%nat -> 0 <= s <= 60 -> Z.of_nat n < 2 ^ 31 -> mx_ok n e -> sum_ok e ->
  run (mx_next n s) k e = Some (xs, e') -> mx_ok n e' /\ sum_ok e'.
Proof.
  intros n s k. induction k as [|k IH]; intros e xs e' Hn Hs HN HO HS H; cbn [run] in H.
  - assert (e' = e) by congruence. subst. split; assumption.
  - destruct (next_ok n s e Hn Hs HN HO) as (x & e1 & E1 & H1 & _). rewrite E1 in H. cbn [bind fst snd] in H.
    pose proof (next_sum n s e x e1 Hn Hs HN HO HS E1) as S1.
    destruct (run (mx_next n s) k e1) as [[ys e2]|] eqn:E2; [|discriminate]. cbn [bind fst snd] in H.
    assert (e' = e2) by congruence. subst. exact (IH e1 ys e2 Hn Hs HN H1 S1 E2).
Qed.
Lemma seed_ok : forall cl ma ru sm, 0 <= cl < 2 ^ 32 -> 0 <= ma < 2 ^ 32 -> 0 <= ru < 2 ^ 32 -> 0 <= sm < 2 ^ 32 ->
  mx_ok 17 (mx_seed4 cl ma ru sm) /\ sum_ok (mx_seed4 cl ma ru sm).
Proof.
  intros cl ma ru sm _ _ _ _. pose proof (seed4_good cl ma ru sm) as S. cbv zeta in S.
  destruct S as (A & B & C). split.
  - split; [exact A|]. rewrite B. cbn. lia.
  - intros _. symmetry. exact C.
Qed.
Lemma ok_u64 : forall n e, Z.of_nat n < 2 ^ 31 -> mx_ok n e ->
  length (mxV e) = n /\ Forall (fun a => 0 <= a < 2 ^ 64) (mxV e) /\ 0 <= mxcnt e < 2 ^ 64 /\ 0 <= mxsum e < 2 ^ 64.
Proof.
  intros n e HN [(G1 & G2 & G3 & _) HC]. change (2 ^ 31) with 2147483648 in HN. change (2 ^ 64) with 18446744073709551616.
  split; [exact G1|]. split; [eapply Forall_impl; [|exact G2]; cbn beta; unfold U; intros; lia|]. unfold U in G3. split; lia.
Qed.
Theorem restore_thm : forall cl ma ru sm k xs e e0 ts,
  0 <= cl < 2 ^ 32 -> 0 <= ma < 2 ^ 32 -> 0 <= ru < 2 ^ 32 -> 0 <= sm < 2 ^ 32 ->
  run (mx_next 17 36) k (mx_seed4 cl ma ru sm) = Some (xs, e) ->
  mxcnt e < 17 -> Forall (fun a => a <= 2 ^ 61 - 1) (mxV e) ->
  mx_read 17 e0 (good_in (mx_write 17 e ++ ts)) = Some (e, good_in ts).
Proof.
  intros cl ma ru sm k xs e e0 ts H1 H2 H3 H4 HR HC HV. destruct (seed_ok cl ma ru sm H1 H2 H3 H4) as [O S].
  destruct (run_sum 17 36 k _ xs e ltac:(lia) ltac:(lia) ltac:(reflexivity) O S HR) as [O' S'].
  destruct (ok_u64 17 e ltac:(reflexivity) O') as (A1 & A2 & A3 & A4).
  rewrite read_write; try assumption; [|reflexivity].
  assert (CN: canon (mxV e)).
  { unfold canon. rewrite Forall_forall in *. intros a Ha. split; [apply A2; exact Ha|]. exact (HV a Ha). }
  rewrite (S' CN), Z.eqb_refl. destruct O' as [_ OC].
  destruct (Z.ltb_spec 0 (mxcnt e)); [|lia]. destruct (Z.ltb_spec (mxcnt e) (Z.of_nat 17)); [reflexivity|lia].
Qed.
Theorem restore_fail : forall n e e0 ts, Z.of_nat n < 2 ^ 31 -> mm_state n (mxV e) (mxsum e) -> mxcnt e = Z.of_nat n ->
  mx_read n e0 (good_in (mx_write n e ++ ts)) = Some (e0, IStr ts true).
Proof.
  intros n e e0 ts HN HG HC. apply state_good in HG.
  destruct (Nat.eq_dec n 0) as [->|N0].
  { destruct e as [V sum cnt]. cbn [mxV mxsum mxcnt] in *. subst cnt. destruct HG as (G1 & _ & G3 & _). destruct V; [|discriminate].
    rewrite (read_write 0 (Mx [] sum (Z.of_nat 0)) e0 ts); cbn [mxV mxsum mxcnt]; try reflexivity.
    - rewrite andb_false_r. reflexivity.
    - constructor.
    - cbn. lia.
    - unfold U in G3. change (2 ^ 64) with 18446744073709551616. lia. }
  assert (O: mx_ok n e) by (split; [exact HG|lia]).
  destruct (ok_u64 n e HN O) as (A1 & A2 & A3 & A4). rewrite read_write; try assumption.
  rewrite HC, Z.ltb_irrefl, andb_false_r. reflexivity.
Qed.

Theorem seeded_outputs : forall cl ma ru sm k,
  0 <= cl < 2 ^ 32 -> 0 <= ma < 2 ^ 32 -> 0 <= ru < 2 ^ 32 -> 0 <= sm < 2 ^ 32 ->
  exists xs e, run (mx_next 17 36) k (mx_seed4 cl ma ru sm) = Some (xs, e) /\ length xs = k /\
    Forall (fun x => 0 <= x <= 2 ^ 61 + 1) xs /\
    forall i, (i < k)%nat -> nth i xs 0 mod p61 =
      mm_out 17 36 (iter (Z.to_nat (2 ^ 512 * (sm + 2 ^ 32 * ru + 2 ^ 64 * ma + 2 ^ 96 * cl))) (mm_apply 36) (unit0 17)) i.
Proof.
  intros cl ma ru sm k H1 H2 H3 H4. destruct (seed_ok cl ma ru sm H1 H2 H3 H4) as [O S].
  destruct (output_thm 17 36 k _ ltac:(lia) ltac:(lia) ltac:(reflexivity) O) as (xs & e & E & _ & L & R & F).
  exists xs, e. split; [exact E|]. split; [exact L|]. split; [exact R|]. intros i Hi. rewrite (F i Hi).
  pose proof (seed4_thm cl ma ru sm H1 H2 H3 H4) as T. cbv zeta in T. destruct T as (_ & C & _ & T). rewrite C.
  change (Z.to_nat (1 - 1) + i)%nat with i. unfold mm_out. rewrite <- !nth_red. rewrite (iter_red 36 _ _ _ T). reflexivity.
Qed.
Theorem seed_value_thm : forall x, 0 <= x < 2 ^ 64 ->
  mxcnt (mx_seed x) = 1 /\ red (mxV (mx_seed x)) = red (iter (Z.to_nat (2 ^ 512 * x)) (mm_apply 36) (unit0 17)).
Proof.
  intros x Hx. unfold mx_seed, wrap. rewrite Z.shiftr_div_pow2 by lia.
  assert (Q: 0 <= x / 2 ^ 32 < 2 ^ 32).
  { split; [apply Z.div_pos; [lia|reflexivity]|apply Z.div_lt_upper_bound; [reflexivity|]]. exact (proj2 Hx). }
  rewrite (Z.mod_small (x / 2 ^ 32)) by exact Q. pose proof (Z.mod_pos_bound x (2 ^ 32) ltac:(reflexivity)) as R.
  pose proof (Z.div_mod x (2 ^ 32) ltac:(discriminate)) as D.
  set (q := x / 2 ^ 32) in *. set (r := x mod 2 ^ 32) in *.
  pose proof (seed4_thm 0 0 q r ltac:(split; [lia|reflexivity]) ltac:(split; [lia|reflexivity]) Q R) as T. cbv zeta in T.
  destruct T as (_ & A & _ & B). split; [exact A|]. rewrite !Z.mul_0_r, !Z.add_0_r, Z.add_comm, <- D in B. exact B.
Qed.
Lemma forall_le : forall lo hi l, forallb (fun a => (lo <=? a) && (a <=? hi)) l = true -> Forall (fun a => lo <= a <= hi) l.
Proof.
  intros lo hi l H. rewrite forallb_forall in H. apply Forall_forall. intros a Ha. specialize (H a Ha).
  apply andb_true_iff in H. destruct H as [A B]. apply Z.leb_le in A, B. lia.
Qed.
Lemma forall_lt64 : forall l, forallb (fun a => (0 <=? a) && (a <=? 2 ^ 64 - 1)) l = true -> Forall (fun a => 0 <= a < 2 ^ 64) l.
Proof. intros l H. apply forall_le in H. eapply Forall_impl; [|exact H]. cbn beta. intros. lia. Qed.
Lemma forall_hi : forall hi l, forallb (fun a => a <=? hi) l = true -> Forall (fun a => a <= hi) l.
Proof. intros hi l H. rewrite forallb_forall in H. apply Forall_forall. intros a Ha. apply Z.leb_le, H, Ha. Qed.
