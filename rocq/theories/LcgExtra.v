From Verif Require Import Base ArithSpec ArithModel ArithProofs ConstModProofs InvertProofs StreamModel LcgModel LcgProofs Lcg2Proofs Lcg3Proofs NumProofs.
From Coq Require Import ZifyBool Znumtheory Arith.
Ltac Zify.zify_post_hook ::= idtac.

Lemma lcg_reach_in t a c m x :
  lcg_wf t a c m -> exact_mult t m a -> c <> 0 \/ Z.gcd a (cmod t m) = 1 ->
  lcg_reach t a c m x -> lcg_in c (cmod t m) x.
Proof.
  intros Hwf Hex Hg Hr. pose proof Hwf as (Hcm & HM & _ & _). induction Hr as [x0 x Hx0 Hs|x y Hr IH Hn|x s Hr IH].
  - rewrite lcg_seed_ok in Hs by assumption. apply Some_inj in Hs. subst x. apply lcg_seed_in. assumption.
  - assert (0 <= x < cmod t m) by (unfold lcg_in in IH; destruct (c =? 0); lia).
    rewrite lcg_next_spec in Hn by assumption. apply Some_inj in Hn. subst y.
    apply lcg_spec_in; try assumption. intros ->. destruct Hg; [congruence|assumption].
  - pose proof (lcg_read_cases t c m x s Hcm) as H. destruct (lcg_read t c m x s) as [y s']. cbn [fst].
    destruct H as [(_ & r & _ & _ & H)|(_ & ->)]; assumption.
Qed.

Lemma lcg_reach_range t a c m x :
  lcg_wf t a c m -> exact_mult t m a -> c <> 0 \/ Z.gcd a (cmod t m) = 1 ->
  lcg_reach t a c m x ->
  exists y, lcg_next t a c m x = Some y /\ lcg_min c <= y <= lcg_max t m.
Proof.
  intros Hwf Hex Hg Hr. pose proof (lcg_reach_in t a c m x Hwf Hex Hg Hr) as Hin.
  pose proof Hwf as (Hcm & HM & _ & _).
  assert (Hx : 0 <= x < cmod t m) by (unfold lcg_in in Hin; destruct (c =? 0); lia).
  exists (lcg_spec a c (cmod t m) x). split; [apply lcg_next_spec; assumption|].
  assert (Hn : lcg_in c (cmod t m) (lcg_spec a c (cmod t m) x)).
  { apply lcg_spec_in; try assumption. intros ->. destruct Hg; [congruence|assumption]. }
  rewrite lcg_max_ok by assumption. unfold lcg_in in Hn. unfold lcg_min. lia.
Qed.

Lemma lcg_zero_wrong : exists t a c m x0 x y, lcg_wf t a c m /\ exact_mod m /\ lcg_seed t a c m x0 = Some x /\
  iterM 2 (lcg_next t a c m) x = Some y /\ y < lcg_min c.
Proof.
  exists u32, 2, 0, 4, 1, 1, 0. split; [|split; [|split; [|split]]].
  - repeat split; try (vm_compute; congruence). right. split; vm_compute; congruence.
  - right. left. lia.
  - reflexivity.
  - reflexivity.
  - vm_compute. reflexivity.
Qed.

Lemma lcg_next_wrong : exists t a c m x, lcg_wf t a c m /\ 0 <= x < cmod t m /\
  lcg_next t a c m x <> Some (lcg_spec a c (cmod t m) x).
Proof.
  exists u64, (2 ^ 61 - 2), 0, (2 ^ 61 - 1), (2 ^ 32). split; [|split].
  - repeat split; try (vm_compute; congruence). right. split; vm_compute; congruence.
  - vm_compute. split; congruence.
  - vm_compute. discriminate.
Qed.

Lemma lcg_discard_wrong_full_period : exists t a c m x z, lcg_wf t a c m /\ exact_mod m /\ 2 <= a /\
  0 <= x < cmod t m /\ 0 <= z /\
  lcg_discard t a c m z x <> iterM (Z.to_nat z) (lcg_next t a c m) x.
Proof.
  exists u32, 49, 1, 72, 0, 1. split; [|repeat split; try lia].
  - repeat split; try (vm_compute; congruence). right. split; vm_compute; congruence.
  - right. left. lia.
  - vm_compute. discriminate.
Qed.

Lemma lcg_discard_wrong_nilpotent : exists t a c m x z, lcg_wf t a c m /\ exact_mod m /\ 2 <= a /\
  disc_g a (cmod t m) = 1 /\
  0 <= x < cmod t m /\ 0 <= z /\
  lcg_discard t a c m z x <> iterM (Z.to_nat z) (lcg_next t a c m) x.
Proof.
  exists u32, 6, 1, 12, 0, 2. split; [|repeat split; try lia].
  - repeat split; try (vm_compute; congruence). right. split; vm_compute; congruence.
  - right. left. lia.
  - vm_compute. discriminate.
Qed.

Lemma exact_ok_small t m : cm_wf t m -> m <= 2 ^ 32 -> exact_mod m.
Proof. intros [_ H] Hm. apply exact_small. lia. Qed.

Lemma minstd_wf a c : 2 <= a < 2147483647 -> 0 <= c < 2147483647 -> lcg_wf u32 a c 2147483647.
Proof.
  intros Ha Hc. unfold lcg_wf, cm_wf, wf_ity, cmod, imax. cbn [bits sgn u32 Z.eqb]. repeat split; try lia.
Qed.

Lemma ec_wf : lcg_wf u32 ec_a1 0 ec_m1 /\ lcg_wf u32 ec_a2 0 ec_m2.
Proof.
  unfold lcg_wf, cm_wf, wf_ity, cmod, imax, ec_a1, ec_m1, ec_a2, ec_m2. cbn [bits sgn u32 Z.eqb]. repeat split; try lia.
Qed.

Lemma lcg_seed_any t a c m x0 : lcg_wf t a c m -> inT t x0 ->
  exists s, lcg_seed t a c m x0 = Some s /\ lcg_in c (cmod t m) s.
Proof.
  intros H Hx. exists (lcg_seed_spec c (cmod t m) x0). split; [apply lcg_seed_ok; assumption|].
  apply lcg_seed_in. apply H.
Qed.

Lemma ecuyer_all x0 n : 0 <= x0 < 2 ^ 32 ->
  exists s1 s2 outs s', ac_seed u32 ec_a1 ec_m1 ec_a2 ec_m2 x0 = Some (s1, s2) /\
    run (ac_next u32 ec_a1 ec_m1 ec_a2 ec_m2) n (s1, s2) = Some (outs, s') /\
    length outs = n /\
    forall i r, nth_error outs i = Some r -> acomb_min <= r <= acomb_max u32 ec_m1 /\
      eqm (ec_m1 - 1) r (nth_state (lcg_spec ec_a1 0 ec_m1) (lcg_seed_spec 0 ec_m1 x0) (S i)
                       - nth_state (lcg_spec ec_a2 0 ec_m2) (lcg_seed_spec 0 ec_m2 x0) (S i)).
Proof.
  intros Hx. destruct ec_wf as [H1 H2].
  assert (Hi : inT u32 x0) by (unfold inT, imin, imax; cbn [bits sgn u32]; lia).
  pose proof (lcg_seed_in 0 ec_m1 x0 ltac:(unfold ec_m1; lia)) as I1.
  pose proof (lcg_seed_in 0 ec_m2 x0 ltac:(unfold ec_m2; lia)) as I2.
  unfold ac_seed. rewrite (lcg_seed_ok u32 ec_a1) by assumption. cbn [bind].
  rewrite (lcg_seed_ok u32 ec_a2) by assumption. cbn [bind].
  change (cmod u32 ec_m1) with ec_m1. change (cmod u32 ec_m2) with ec_m2.
  assert (E1 : exact_mult u32 ec_m1 ec_a1) by (left; apply exact_small; unfold ec_m1; lia).
  assert (E2 : exact_mult u32 ec_m2 ec_a2) by (left; apply exact_small; unfold ec_m2; lia).
  assert (E3 : 0 < ec_m2 <= ec_m1) by (unfold ec_m1, ec_m2; lia).
  destruct (ac_run_ok u32 ec_a1 ec_m1 ec_a2 ec_m2 H1 H2 E1 E2 E3 eq_refl eq_refl n _ _ I1 I2)
    as (outs & Hrun & Hlen & Hall).
  do 4 eexists. split; [reflexivity|]. split; [exact Hrun|]. split; [exact Hlen|].
  intros i r Hr. apply Hall in Hr. split; [|apply Hr].
  change (acomb_max u32 ec_m1) with (ec_m1 - 1). unfold acomb_min. apply Hr.
Qed.

Lemma acomb_wrong : exists t m1 m2 v1 v2 r, 1 < m1 <= imax t /\ 1 <= v1 < m1 /\ 1 <= v2 < m2 /\
  m2 <= imax t /\ acomb t m1 v1 v2 = Some r /\ ~ (acomb_min <= r <= acomb_max t m1).
Proof.
  exists u32, 5, 7, 1, 6, (2 ^ 32 - 1). vm_compute. repeat split; try congruence. intros [_ H]. apply H. reflexivity.
Qed.

Lemma ac_discard_ok t a1 m1 a2 m2 z s1 s2 :
  lcg_wf t a1 0 m1 -> lcg_wf t a2 0 m2 -> exact_mod m1 -> exact_mod m2 ->
  2 <= a1 -> 2 <= a2 -> prime (cmod t m1) -> prime (cmod t m2) ->
  0 <= z -> 0 <= s1 < cmod t m1 -> 0 <= s2 < cmod t m2 ->
  ac_discard t a1 m1 a2 m2 z (s1, s2) =
    Some (nth_state (lcg_spec a1 0 (cmod t m1)) s1 (Z.to_nat z), nth_state (lcg_spec a2 0 (cmod t m2)) s2 (Z.to_nat z)).
Proof.
  intros. unfold ac_discard. cbn [fst snd].
  rewrite lcg_discard_prime by assumption.
  rewrite lcg_discard_prime by assumption.
  destruct (lcg_iter t a1 0 m1 (Z.to_nat z) s1) as [-> _]; try assumption; [left; assumption|].
  destruct (lcg_iter t a2 0 m2 (Z.to_nat z) s2) as [-> _]; try assumption; [left; assumption|].
  reflexivity.
Qed.

Lemma ac_read_write t m1 m2 s1 s2 y rest :
  cm_wf t m1 -> cm_wf t m2 -> lcg_in 0 (cmod t m1) s1 -> lcg_in 0 (cmod t m2) s2 ->
  ac_read t m1 m2 y (good_in (ac_write (s1, s2) ++ rest)) = ((s1, s2), good_in rest).
Proof.
  intros. unfold ac_read, ac_write. cbn [fst snd]. rewrite <- app_assoc.
  rewrite lcg_read_write by assumption. rewrite lcg_read_write by assumption. reflexivity.
Qed.

Lemma icg_range t a b p x n :
  lcg_wf t a b p -> exact_mult t p a -> prime (cmod t p) -> a <> 0 -> lcg_in b (cmod t p) x ->
  exists y, iterM n (icg_next t a b p) x = Some y /\ lcg_in b (cmod t p) y.
Proof.
  intros Hwf Hex Hp Ha. pose proof Hwf as (Hcm & HM & Har & _). revert x. induction n as [|n IH]; intros x Hx.
  - exists x. split; [reflexivity|assumption].
  - assert (Hxr : 0 <= x < cmod t p) by (unfold lcg_in in Hx; destruct (b =? 0); lia).
    destruct (icg_next_ok t a b p x Hwf Hex Hxr) as (i & Hi & Hir & Hi0 & Hi1).
    cbn [iterM]. rewrite Hi. cbn [bind]. apply IH.
    pose proof (Z.mod_pos_bound (a * i + b) (cmod t p) ltac:(lia)) as Hb.
    unfold lcg_in in *. destruct (Z.eqb_spec b 0) as [->|]; [|lia].
    rewrite Z.add_0_r in *.
    assert ((a * i) mod cmod t p <> 0); [|lia].
    intros H0. apply Z.mod_divide in H0; [|lia]. apply prime_mult in H0; [|assumption].
    destruct H0 as [H0|H0].
    + apply Z.divide_pos_le in H0; lia.
    + assert (Hgx : Z.gcd x (cmod t p) = 1) by (apply prime_gcd_small; [assumption|lia]).
      specialize (Hi1 Hgx). destruct (Z.eq_dec i 0) as [->|].
      * rewrite Z.mul_0_l, Zmod_0_l in Hi1. discriminate.
      * apply Z.divide_pos_le in H0; lia.
Qed.

Lemma icg_read_wrong : exists t p x s x', prime p /\ fst (icg_read t x s) = x' /\ failb (snd (icg_read t x s)) = false /\
  ~ (0 <= x' < p).
Proof.
  exists i32, 2147483647, 1, (good_in [TInt (-5)]), (-5). split; [exact prime_2147483647|].
  split; [reflexivity|]. split; [reflexivity|]. lia.
Qed.

(* a text that ends after the first component: only the first one is replaced *)
Lemma ac_short_read t m1 m2 s v : cm_wf t m1 -> lcg_in 0 (cmod t m1) v ->
  ac_read t m1 m2 s (good_in [TInt v]) = ((v, snd s), IStr [] true).
Proof.
  intros Hwf Hv. unfold ac_read.
  pose proof (lcg_read_write t 0 m1 v (fst s) [] Hwf Hv) as E. unfold lcg_write in E. cbn [app] in E. rewrite E. reflexivity.
Qed.
