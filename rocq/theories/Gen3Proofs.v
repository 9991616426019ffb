(* seed_impl.hpp: the words written by generate are equally likely *)
From Verif Require Import Base ProgModel ProgSpec ProgProofs UIntSpec UIntModel UIntProofs IbModel IbProofs SeedSpec SeedProofs GenSpec GenModel GenProofs Gen2Proofs.
Ltac Zify.zify_post_hook ::= idtac.

Lemma ssum_mulc : forall k c h, ssum k (fun i => c * h i) = c * ssum k h.
Proof. induction k as [|k IH]; intros c h; cbn [ssum]; [lia|]. rewrite IH. ring. Qed.

Lemma ssum_period : forall p q h, (0 < p)%nat ->
  ssum (p * q) (fun x => h (x mod Z.of_nat p)) = Z.of_nat q * ssum p h.
Proof.
  intros p q h Hp. rewrite ssum_radix. rewrite (ssum_ext q _ (fun _ => ssum p h)).
  - apply ssum_const.
  - intros j Hj. apply ssum_ext. intros i Hi. f_equal.
    rewrite Z.mul_comm, Z.mod_add by lia. apply Z.mod_small. exact Hi.
Qed.

(* a sum over the pairs (y, x), as a sum over one index *)
Lemma ssum_pair : forall K L (G : Z -> Z -> Z), (0 < K)%nat ->
  ssum L (fun x => ssum K (fun y => G y x)) = ssum (K * L) (fun z => G (z mod Z.of_nat K) (z / Z.of_nat K)).
Proof.
  intros K L G HK. rewrite ssum_radix. apply ssum_ext. intros j Hj. apply ssum_ext. intros i Hi.
  assert (E1 : (i + Z.of_nat K * j) mod Z.of_nat K = i) by (rewrite Z.mul_comm, Z.mod_add by lia; apply Z.mod_small; lia).
  assert (E2 : (i + Z.of_nat K * j) / Z.of_nat K = j) by (rewrite Z.mul_comm, Z.div_add by lia; rewrite Z.div_small by lia; lia).
  rewrite E1, E2. reflexivity.
Qed.

Lemma words_value : forall n S, 0 <= S -> le_value (words n S) = S mod 2 ^ (32 * Z.of_nat n).
Proof.
  induction n as [|n IH]; intros S HS.
  - cbn. rewrite Z.mod_1_r. reflexivity.
  - replace (Datatypes.S n) with (n + 1)%nat by lia. rewrite words_S, le_value_app, IH by exact HS.
    rewrite words_length. cbn [le_value]. rewrite Z.mul_0_r, Z.add_0_r.
    replace (32 * Z.of_nat (n + 1)) with (32 * Z.of_nat n + 32) by lia.
    rewrite Z.pow_add_r by lia. pose proof (pos_pow (32 * Z.of_nat n) ltac:(lia)). rewrite Z.rem_mul_r by lia. reflexivity.
Qed.

(* splitting the remaining positions *)
Lemma block_split : forall (f : Z -> Z) S t a b, 0 <= t -> 0 <= a -> 0 <= b ->
  ssum (Z.to_nat (2 ^ (a + b))) (fun w => f (S + 2 ^ t * w)) =
  ssum (Z.to_nat (2 ^ a)) (fun i => ssum (Z.to_nat (2 ^ b)) (fun w => f (S + 2 ^ t * i + 2 ^ (t + a) * w))).
Proof.
  intros f S t a b Ht Ha Hb. pose proof (pos_pow a Ha). pose proof (pos_pow b Hb).
  rewrite Z.pow_add_r, Z2Nat.inj_mul by lia. rewrite ssum_radix. rewrite ssum_swap.
  apply ssum_ext. intros i Hi. apply ssum_ext. intros w Hw. f_equal.
  rewrite Z2Nat.id by lia. rewrite (Z.pow_add_r 2 t a) by lia. ring.
Qed.

Section Uniform.
Variables (bmin R B : Z) (n : nat) (dr : nat -> prog Z) (body : gst -> Z -> option (list Z + gst)).
Hypothesis HB : 1 <= B.
Hypothesis HR : 2 ^ B <= R.
Hypothesis HD : dr_ok bmin R B dr.
Hypothesis HBo : body_ok B (2 ^ B * (R / 2 ^ B)) n body.

Definition nxt (st : gst) (x : Z) : gst := match body st x with Some (inr s) => s | _ => st end.

Lemma loop_family : forall F t K (Sf : Z -> Z) (stf : Z -> gst) m (f g : Z -> nat -> Z),
  (forall y, 0 <= y < Z.of_nat K -> ginv B n (Sf y) t (stf y)) ->
  (forall m', ssum K (fun y => ssum (Z.to_nat (2 ^ (32 * Z.of_nat n - t))) (fun w => f (Sf y + 2 ^ t * w) m')) =
              ssum K (fun y => ssum (Z.to_nat (2 ^ (32 * Z.of_nat n - t))) (fun w => g (Sf y + 2 ^ t * w) m'))) ->
  ssum K (fun y => E bmin (bmin + R - 1) (gen_loop F dr body (stf y)) m (fun ws m' => f (le_value ws) m')) =
  ssum K (fun y => E bmin (bmin + R - 1) (gen_loop F dr body (stf y)) m (fun ws m' => g (le_value ws) m')).
Proof.
  pose proof (pos_pow B ltac:(lia)) as PB.
  assert (Hq : 1 <= R / 2 ^ B) by (apply Z.div_le_lower_bound; lia).
  assert (EL : Z.to_nat (2 ^ B * (R / 2 ^ B)) = (Z.to_nat (2 ^ B) * Z.to_nat (R / 2 ^ B))%nat) by (rewrite Z2Nat.inj_mul by lia; reflexivity).
  destruct HD as (_ & _ & HU).
  induction F as [|F IH]; intros t K Sf stf m f g HI Hs; [reflexivity|].
  destruct K as [|K']; [reflexivity|]. set (K := S K') in *. assert (HK : (0 < K)%nat) by (unfold K; lia).
  destruct (HI 0 ltac:(unfold K; lia)) as (J1 & J2 & _ & _ & _ & J6 & _).
  assert (Ht : 0 <= t < 32 * Z.of_nat n) by lia. clear J1 J2 J6.
  cbn [gen_loop].
  rewrite (ssum_ext K _ (fun y => E bmin (bmin + R - 1) (dr (S F)) m (fun x m' =>
      E bmin (bmin + R - 1) (r <~ plift (body (stf y) x);; match r with inl out => PRet out | inr st' => gen_loop F dr body st' end) m'
        (fun ws m' => f (le_value ws) m')))) by (intros y _; apply E_bind).
  rewrite (ssum_ext K (fun y => E _ _ (pbind _ _) m (fun ws m' => g (le_value ws) m')) (fun y => E bmin (bmin + R - 1) (dr (S F)) m (fun x m' =>
      E bmin (bmin + R - 1) (r <~ plift (body (stf y) x);; match r with inl out => PRet out | inr st' => gen_loop F dr body st' end) m'
        (fun ws m' => g (le_value ws) m')))) by (intros y _; apply E_bind).
  rewrite <- !E_ssum. apply HU. clear HU. intros m'. set (L := 2 ^ B * (R / 2 ^ B)) in *.
  assert (HLp : 0 < L) by (unfold L; nia).
  rewrite (ssum_ext (Z.to_nat L) _ (fun x => ssum K (fun y => E bmin (bmin + R - 1) (r <~ plift (body (stf y) x);; match r with inl out => PRet out | inr st' => gen_loop F dr body st' end) m'
        (fun ws m' => f (le_value ws) m')))) by (intros; rewrite Z.add_0_l; reflexivity).
  rewrite (ssum_ext (Z.to_nat L) (fun w => ssum K (fun y => E _ _ _ m' (fun ws m' => g (le_value ws) m'))) (fun x => ssum K (fun y => E bmin (bmin + R - 1) (r <~ plift (body (stf y) x);; match r with inl out => PRet out | inr st' => gen_loop F dr body st' end) m'
        (fun ws m' => g (le_value ws) m')))) by (intros; rewrite Z.add_0_l; reflexivity).
  assert (EZ : Z.of_nat (Z.to_nat L) = L) by (apply Z2Nat.id; lia).
  destruct (Z.leb_spec (32 * Z.of_nat n) (t + B)) as [Hd|Hd].
  - (* the words are complete *)
    assert (G : forall h : Z -> nat -> Z,
      ssum (Z.to_nat L) (fun x => ssum K (fun y =>
        E bmin (bmin + R - 1) (r <~ plift (body (stf y) x);; match r with inl out => PRet out | inr st' => gen_loop F dr body st' end) m'
          (fun ws m0 => h (le_value ws) m0))) =
      Z.of_nat (Z.to_nat (R / 2 ^ B)) * (Z.of_nat (Z.to_nat (2 ^ (t + B - 32 * Z.of_nat n))) *
        ssum K (fun y => ssum (Z.to_nat (2 ^ (32 * Z.of_nat n - t))) (fun w => h (Sf y + 2 ^ t * w) m')))).
    { intros h.
      rewrite (ssum_ext _ _ (fun x => ssum K (fun y => h ((Sf y + 2 ^ t * (x mod Z.of_nat (Z.to_nat (2 ^ B)))) mod 2 ^ (32 * Z.of_nat n)) m'))).
      2:{ intros x Hx. apply ssum_ext. intros y Hy. pose proof (HBo (Sf y) t (stf y) x (HI y Hy) ltac:(lia)) as BO.
          destruct (Z.leb_spec (32 * Z.of_nat n) (t + B)); [|lia]. rewrite BO. cbn [plift pbind E].
          rewrite words_value, Z2Nat.id by (try lia; pose proof (Z.mod_pos_bound x _ PB); destruct (HI y Hy) as (_ & _ & ? & _); pose proof (pos_pow t ltac:(lia)); nia).
          reflexivity. }
      rewrite EL. rewrite (ssum_period (Z.to_nat (2 ^ B)) (Z.to_nat (R / 2 ^ B))
         (fun b => ssum K (fun y => h ((Sf y + 2 ^ t * b) mod 2 ^ (32 * Z.of_nat n)) m'))) by lia.
      f_equal. rewrite ssum_swap. rewrite <- ssum_mulc. apply ssum_ext. intros y Hy.
      replace (Z.to_nat (2 ^ B)) with (Z.to_nat (2 ^ (32 * Z.of_nat n - t)) * Z.to_nat (2 ^ (t + B - 32 * Z.of_nat n)))%nat.
      2:{ rewrite <- Z2Nat.inj_mul by (apply Z.pow_nonneg; lia). rewrite <- Z.pow_add_r by lia. f_equal. f_equal. lia. }
      pose proof (pos_pow (32 * Z.of_nat n - t) ltac:(lia)) as P1.
      rewrite <- ssum_period by lia. apply ssum_ext. intros b Hb. f_equal. rewrite Z2Nat.id by lia.
      destruct (HI y Hy) as (_ & _ & HS & _). set (c := 2 ^ (32 * Z.of_nat n - t)) in *.
      assert (E32 : 2 ^ (32 * Z.of_nat n) = 2 ^ t * c) by (unfold c; rewrite <- Z.pow_add_r by lia; f_equal; lia).
      pose proof (pos_pow t ltac:(lia)) as P2. pose proof (Z.mod_pos_bound b c P1) as Bc.
      rewrite E32. symmetry. apply Z.mod_unique_pos with (b / c); [nia|].
      rewrite (Z.div_mod b c) at 1 by lia. ring. }
    rewrite !G. rewrite (Hs m'). reflexivity.
  - (* continue: the family of all successors *)
    assert (G : forall h : Z -> nat -> Z,
      ssum (Z.to_nat L) (fun x => ssum K (fun y =>
        E bmin (bmin + R - 1) (r <~ plift (body (stf y) x);; match r with inl out => PRet out | inr st' => gen_loop F dr body st' end) m'
          (fun ws m0 => h (le_value ws) m0))) =
      ssum (K * Z.to_nat L) (fun z =>
        E bmin (bmin + R - 1) (gen_loop F dr body (nxt (stf (z mod Z.of_nat K)) (z / Z.of_nat K))) m' (fun ws m0 => h (le_value ws) m0))).
    { intros h. rewrite <- (ssum_pair K (Z.to_nat L) (fun y x => E bmin (bmin + R - 1) (gen_loop F dr body (nxt (stf y) x)) m' (fun ws m0 => h (le_value ws) m0))) by exact HK.
      apply ssum_ext. intros x Hx. apply ssum_ext. intros y Hy.
      pose proof (HBo (Sf y) t (stf y) x (HI y Hy) ltac:(lia)) as BO.
      destruct (Z.leb_spec (32 * Z.of_nat n) (t + B)); [lia|]. destruct BO as (st' & EB & _). unfold nxt. rewrite EB. reflexivity. }
    rewrite !G. clear G.
    apply (IH (t + B) (K * Z.to_nat L)%nat
      (fun z => Sf (z mod Z.of_nat K) + 2 ^ t * ((z / Z.of_nat K) mod 2 ^ B))
      (fun z => nxt (stf (z mod Z.of_nat K)) (z / Z.of_nat K))); clear IH.
    + intros z Hz. pose proof (Z.mod_pos_bound z (Z.of_nat K) ltac:(lia)) as Hy.
      assert (Hx : 0 <= z / Z.of_nat K < L).
      { split; [apply Z.div_pos; lia|]. apply Z.div_lt_upper_bound; [lia|]. rewrite Nat2Z.inj_mul, EZ in Hz. lia. }
      pose proof (HBo _ t _ _ (HI _ Hy) Hx) as BO. destruct (Z.leb_spec (32 * Z.of_nat n) (t + B)); [lia|].
      destruct BO as (st' & EB & IB). unfold nxt. rewrite EB. exact IB.
    + intros m0.
      assert (G : forall h : Z -> nat -> Z,
        ssum (K * Z.to_nat L) (fun z => ssum (Z.to_nat (2 ^ (32 * Z.of_nat n - (t + B)))) (fun w =>
          h (Sf (z mod Z.of_nat K) + 2 ^ t * ((z / Z.of_nat K) mod 2 ^ B) + 2 ^ (t + B) * w) m0)) =
        Z.of_nat (Z.to_nat (R / 2 ^ B)) *
          ssum K (fun y => ssum (Z.to_nat (2 ^ (32 * Z.of_nat n - t))) (fun w => h (Sf y + 2 ^ t * w) m0))).
      { intros h. rewrite <- (ssum_pair K (Z.to_nat L) (fun y x => ssum (Z.to_nat (2 ^ (32 * Z.of_nat n - (t + B)))) (fun w =>
          h (Sf y + 2 ^ t * (x mod 2 ^ B) + 2 ^ (t + B) * w) m0))) by exact HK.
        rewrite EL. rewrite (ssum_ext _ _ (fun x => (fun b => ssum K (fun y => ssum (Z.to_nat (2 ^ (32 * Z.of_nat n - (t + B)))) (fun w =>
          h (Sf y + 2 ^ t * b + 2 ^ (t + B) * w) m0))) (x mod Z.of_nat (Z.to_nat (2 ^ B))))).
        2:{ intros x Hx. rewrite Z2Nat.id by lia. reflexivity. }
        rewrite (ssum_period (Z.to_nat (2 ^ B)) (Z.to_nat (R / 2 ^ B)) (fun b => ssum K (fun y => ssum (Z.to_nat (2 ^ (32 * Z.of_nat n - (t + B)))) (fun w =>
          h (Sf y + 2 ^ t * b + 2 ^ (t + B) * w) m0)))) by lia. f_equal. rewrite ssum_swap. apply ssum_ext. intros y Hy.
        replace (32 * Z.of_nat n - t) with (B + (32 * Z.of_nat n - (t + B))) by lia.
        symmetry. apply (block_split (fun v => h v m0)); lia. }
      rewrite !G, Hs. reflexivity.
Qed.

Lemma loop_uniform : forall F, (1 <= n)%nat ->
  Uniform bmin (bmin + R - 1) (ws <~ gen_loop F dr body (Gst 0 0 []);; PRet (le_value ws)) 0 (Z.to_nat (2 ^ (32 * Z.of_nat n))).
Proof.
  intros F Hn m f g Hs. rewrite !E_bind. cbn [E].
  pose proof (loop_family F 0 1 (fun _ => 0) (fun _ => Gst 0 0 []) m f g) as G. cbn [ssum] in G. change (Z.of_nat 1) with 1 in G.
  apply G; clear G.
  - intros y _. unfold ginv. cbn [g_rem g_saved g_out length]. change (Z.of_nat 0) with 0. repeat split; try lia; reflexivity.
  - intros m'. rewrite Z.sub_0_r. change (2 ^ 0) with 1.
    rewrite (ssum_ext _ (fun w => f (0 + 1 * w) m') (fun w => f (0 + w) m')) by (intros; rewrite Z.mul_1_l; reflexivity).
    rewrite (ssum_ext _ (fun w => g (0 + 1 * w) m') (fun w => g (0 + w) m')) by (intros; rewrite Z.mul_1_l; reflexivity).
    apply Hs.
Qed.
End Uniform.
