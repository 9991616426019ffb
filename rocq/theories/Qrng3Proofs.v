(* the dyadic intervals *)
From Verif Require Import Base BitsProofs QrngSpec Gen4Proofs GenProofs Qrng2Proofs.
Ltac Zify.zify_post_hook ::= idtac.

Lemma xsum_testbit0 : forall d p w n, (forall k, 0 <= k < Z.of_nat w -> Z.testbit (d k) p = false) -> Z.testbit (xsum d w n) p = false.
Proof.
  intros d p. induction w as [|w IH]; intros n H; cbn [xsum]; [apply Z.bits_0|].
  rewrite Z.lxor_spec, IH by (intros; apply H; lia). destruct (Z.testbit n (Z.of_nat w)); [|rewrite Z.bits_0; reflexivity].
  rewrite H by lia. reflexivity.
Qed.

Lemma xsum_rng : forall d w W n, 0 <= W -> (forall k, 0 <= k < Z.of_nat w -> 0 <= d k < 2 ^ W) -> 0 <= xsum d w n < 2 ^ W.
Proof.
  intros d w W n HW. revert n. induction w as [|w IH]; intros n H; cbn [xsum]; [pose proof (pos_pow W HW); lia|].
  apply BitsProofs.lxor_range; [exact HW|apply IH; intros; apply H; lia|]. destruct (Z.testbit n (Z.of_nat w)); [apply H; lia|]. pose proof (pos_pow W HW); lia.
Qed.

Lemma xsum_trunc : forall d h w n, (h <= w)%nat -> 0 <= n < 2 ^ Z.of_nat h -> xsum d w n = xsum d h n.
Proof.
  intros d h w n Hw Hn. induction w as [|w IH]; [replace h with 0%nat by lia; reflexivity|].
  destruct (Nat.eq_dec h (S w)) as [->|N]; [reflexivity|]. cbn [xsum]. rewrite IH by lia.
  destruct (Z.testbit n (Z.of_nat w)) eqn:E; [|apply Z.lxor_0_r].
  apply testbit_ge in E; [|lia..]. assert (2 ^ Z.of_nat h <= 2 ^ Z.of_nat w) by (apply Z.pow_le_mono_r; lia). lia.
Qed.

(* direction numbers 0..k-1 have their lowest set bit at w-1, w-2, ... *)
Definition triangular (d : Z -> Z) (w k : nat) : Prop :=
  forall i, (i < k)%nat -> Z.testbit (d (Z.of_nat i)) (Z.of_nat (w - 1 - i)) = true /\
    forall p, (p < w - 1 - i)%nat -> Z.testbit (d (Z.of_nat i)) (Z.of_nat p) = false.

Lemma xsum_top : forall d w k g, (k <= w)%nat -> triangular d w k -> 0 < g < 2 ^ Z.of_nat k ->
  xsum d w g / 2 ^ Z.of_nat (w - k) <> 0.
Proof.
  intros d w k g Hk HT Hg E. set (h := Z.to_nat (Z.log2 g)).
  pose proof (Z.log2_nonneg g). pose proof (Z.log2_spec g ltac:(lia)) as HL.
  assert (Hh : (h < k)%nat). { assert (Z.log2 g < Z.of_nat k) by (apply Z.log2_lt_pow2; lia). lia. }
  rewrite (xsum_trunc d (S h)) in E; [|lia|].
  2:{ split; [lia|]. replace (Z.of_nat (S h)) with (Z.succ (Z.log2 g)) by lia. lia. }
  cbn [xsum] in E. replace (Z.testbit g (Z.of_nat h)) with true in E.
  2:{ symmetry. unfold h. rewrite Z2Nat.id by lia. apply Z.bit_log2. lia. }
  assert (B : Z.testbit (Z.lxor (xsum d h g) (d (Z.of_nat h))) (Z.of_nat (w - 1 - h)) = true).
  { rewrite Z.lxor_spec. rewrite xsum_testbit0; [rewrite (proj1 (HT h Hh)); reflexivity|].
    intros i Hi. replace i with (Z.of_nat (Z.to_nat i)) by lia. apply HT; lia. }
  assert (B2 : Z.testbit (Z.lxor (xsum d h g) (d (Z.of_nat h)) / 2 ^ Z.of_nat (w - k)) (Z.of_nat (k - 1 - h)) = true).
  { rewrite Z.div_pow2_bits by lia. replace (Z.of_nat (k - 1 - h) + Z.of_nat (w - k)) with (Z.of_nat (w - 1 - h)) by lia. exact B. }
  rewrite E, Z.bits_0 in B2. discriminate.
Qed.

Lemma gray_zero : forall n, 0 <= n -> gray n = 0 -> n = 0.
Proof.
  intros n Hn H. unfold gray in H. apply Z.lxor_eq in H. assert (n / 2 * 2 <= n) by (rewrite Z.mul_comm; apply Z.mul_div_le; lia). lia.
Qed.

Lemma block_lxor : forall a b k, 0 <= k -> 0 <= b < 2 ^ k -> a * 2 ^ k + b = Z.lxor (a * 2 ^ k) b.
Proof.
  intros a b k Hk Hb. apply Z.add_nocarry_lxor. apply Z.bits_inj'. intros i Hi. rewrite Z.land_spec, Z.bits_0. destruct (Z.ltb_spec i k).
  - rewrite Z.mul_pow2_bits_low by lia. reflexivity.
  - destruct (Z.testbit b i) eqn:E; [|apply Bool.andb_false_r]. apply testbit_ge in E; [|lia..].
    assert (2 ^ k <= 2 ^ i) by (apply Z.pow_le_mono_r; lia). lia.
Qed.

(* pigeonhole *)
Lemma inj_surj : forall (f : Z -> Z) n, 0 <= n -> (forall b, 0 <= b < n -> 0 <= f b < n) ->
  (forall b c, 0 <= b < n -> 0 <= c < n -> f b = f c -> b = c) -> forall t, 0 <= t < n -> exists b, 0 <= b < n /\ f b = t.
Proof.
  intros f n Hn HR HI t Ht. set (g := fun i => f (Z.of_nat i)). set (l := map g (seq 0 (Z.to_nat n))).
  assert (ND : NoDup l).
  { unfold l. apply NoDup_nth_error. intros i j Hi E. rewrite map_length, seq_length in Hi. rewrite nth_error_map in E.
    rewrite (nth_error_nth' _ 0%nat) in E by (rewrite seq_length; lia). rewrite seq_nth in E by lia. cbn [option_map Nat.add] in E.
    destruct (Nat.lt_ge_cases j (Z.to_nat n)) as [Hj|Hj].
    - rewrite nth_error_map, (nth_error_nth' _ 0%nat) in E by (rewrite seq_length; lia). rewrite seq_nth in E by lia. cbn [option_map Nat.add] in E.
      unfold g in E. assert (E' : f (Z.of_nat i) = f (Z.of_nat j)) by congruence. apply HI in E'; lia.
    - rewrite (proj2 (nth_error_None _ _)) in E by (rewrite map_length, seq_length; lia). discriminate. }
  assert (IN : incl (map Z.of_nat (seq 0 (Z.to_nat n))) l).
  { apply NoDup_length_incl; [exact ND|unfold l; rewrite !map_length; lia|].
    intros x Hx. unfold l in Hx. apply in_map_iff in Hx. destruct Hx as (i & <- & Hi). apply in_seq in Hi.
    pose proof (HR (Z.of_nat i) ltac:(lia)) as R. unfold g. apply in_map_iff. exists (Z.to_nat (f (Z.of_nat i))). split; [lia|]. apply in_seq. lia. }
  assert (Ht' : In t (map Z.of_nat (seq 0 (Z.to_nat n)))). { apply in_map_iff. exists (Z.to_nat t). split; [lia|]. apply in_seq. lia. }
  apply IN in Ht'. unfold l in Ht'. apply in_map_iff in Ht'. destruct Ht' as (i & E & Hi). apply in_seq in Hi. exists (Z.of_nat i). split; [lia|exact E].
Qed.

Lemma div_lxor : forall x y k, 0 <= k -> Z.lxor x y / 2 ^ k = Z.lxor (x / 2 ^ k) (y / 2 ^ k).
Proof. intros x y k Hk. rewrite <- !Z.shiftr_div_pow2 by lia. apply Z.shiftr_lxor. Qed.

Lemma dyadic : forall d w k a, (k <= w)%nat -> (forall i, 0 <= i < Z.of_nat w -> 0 <= d i < 2 ^ Z.of_nat w) -> triangular d w k ->
  0 <= a -> forall t, 0 <= t < 2 ^ Z.of_nat k ->
  exists! b, 0 <= b < 2 ^ Z.of_nat k /\ xsum d w (gray (a * 2 ^ Z.of_nat k + b)) / 2 ^ Z.of_nat (w - k) = t.
Proof.
  intros d w k a Hk HR HT Ha. set (f := fun b => xsum d w (gray (a * 2 ^ Z.of_nat k + b)) / 2 ^ Z.of_nat (w - k)).
  pose proof (pos_pow (Z.of_nat k) ltac:(lia)) as PK.
  assert (I : forall b c, 0 <= b < 2 ^ Z.of_nat k -> 0 <= c < 2 ^ Z.of_nat k -> f b = f c -> b = c).
  { intros b c Hb Hc E. unfold f in E. rewrite (block_lxor a b), (block_lxor a c) in E by lia. rewrite !gray_lxor, !xsum_lxor, !div_lxor in E by lia.
    assert (E1 : Z.lxor (xsum d w (gray b) / 2 ^ Z.of_nat (w - k)) (xsum d w (gray c) / 2 ^ Z.of_nat (w - k)) = 0).
    { apply Z.lxor_eq_0_iff. apply (f_equal (Z.lxor (xsum d w (gray (a * 2 ^ Z.of_nat k)) / 2 ^ Z.of_nat (w - k)))) in E.
      rewrite <- !Z.lxor_assoc, Z.lxor_nilpotent, !Z.lxor_0_l in E. exact E. }
    rewrite <- div_lxor, <- xsum_lxor, <- gray_lxor in E1 by lia.
    pose proof (BitsProofs.lxor_range b c (Z.of_nat k) ltac:(lia) Hb Hc) as Hx.
    destruct (Z.eq_dec (Z.lxor b c) 0) as [Z0|Z0]; [apply Z.lxor_eq; exact Z0|]. exfalso.
    apply (xsum_top d w k (gray (Z.lxor b c)) Hk HT); [|exact E1].
    pose proof (gray_bound (Z.lxor b c) (Z.of_nat k) ltac:(lia) Hx) as G. split; [|lia].
    destruct (Z.eq_dec (gray (Z.lxor b c)) 0) as [G0|G0]; [|lia]. apply gray_zero in G0; lia. }
  intros t Ht. destruct (inj_surj f (2 ^ Z.of_nat k) ltac:(lia)) with (t := t) as (b & Hb & E); [|exact I|exact Ht|].
  - intros b Hb. unfold f. pose proof (xsum_rng d w (Z.of_nat w) (gray (a * 2 ^ Z.of_nat k + b)) ltac:(lia) HR) as R.
    split; [apply Z.div_pos; [lia|apply pos_pow; lia]|]. apply Z.div_lt_upper_bound; [apply pos_pow; lia|].
    rewrite <- Z.pow_add_r by lia. replace (Z.of_nat (w - k) + Z.of_nat k) with (Z.of_nat w) by lia. lia.
  - exists b. split; [split; [exact Hb|exact E]|]. intros c [Hc Ec]. apply I; [exact Hb|exact Hc|]. rewrite E. symmetry. exact Ec.
Qed.

(* odd multiples of descending powers of two are triangular *)
Lemma odd_triangular : forall d m w, (forall k, (k < w)%nat -> d (Z.of_nat k) = m k * 2 ^ Z.of_nat (w - 1 - k)) ->
  (forall k, (k < w)%nat -> Z.odd (m k) = true) -> triangular d w w.
Proof.
  intros d m w Hd Ho i Hi. rewrite Hd by exact Hi. split.
  - rewrite Z.mul_pow2_bits by lia. rewrite Z.sub_diag, Z.bit0_odd. apply Ho. exact Hi.
  - intros p Hp. apply Z.mul_pow2_bits_low. lia.
Qed.
