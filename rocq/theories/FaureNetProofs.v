(* Taylor shifts of polynomials and the net property of the Faure points *)
From Coq Require Import ZArith Znumtheory Lia List.
From Verif Require Import Base FaureSpec.
Ltac Zify.zify_post_hook ::= idtac.

Lemma zsum_ext : forall h f g, (forall j, (j < h)%nat -> f j = g j) -> zsum h f = zsum h g.
Proof. induction h as [|h IH]; intros f g H; [reflexivity|]. cbn [zsum]. rewrite (IH f g), (H h) by (try (intros; apply H); lia). reflexivity. Qed.
Lemma zsum_add : forall h f g, zsum h (fun j => f j + g j) = zsum h f + zsum h g.
Proof. induction h as [|h IH]; intros f g; [reflexivity|]. cbn [zsum]. rewrite IH. ring. Qed.
Lemma zsum_scal : forall h a f, zsum h (fun j => a * f j) = a * zsum h f.
Proof. induction h as [|h IH]; intros a f; cbn [zsum]; [ring|]. rewrite IH. ring. Qed.
Lemma zsum_0 : forall h f, (forall j, (j < h)%nat -> f j = 0) -> zsum h f = 0.
Proof. induction h as [|h IH]; intros f H; [reflexivity|]. cbn [zsum]. rewrite IH, H by (try (intros; apply H); lia). reflexivity. Qed.
Lemma zsum_first : forall h f, zsum (S h) f = f O + zsum h (fun j => f (S j)).
Proof. induction h as [|h IH]; intros f; [cbn [zsum]; ring|]. change (zsum (S (S h)) f) with (zsum (S h) f + f (S h)). rewrite IH. cbn [zsum]. ring. Qed.
Lemma zsum_more : forall h k f, (h <= k)%nat -> (forall j, (h <= j < k)%nat -> f j = 0) -> zsum k f = zsum h f.
Proof.
  intros h k f Hk. induction k as [|k IH]; intros H; [replace h with 0%nat by lia; reflexivity|].
  destruct (Nat.eq_dec h (S k)) as [->|N]; [reflexivity|]. cbn [zsum]. rewrite H, IH by (try (intros; apply H); lia). ring.
Qed.
Lemma zsum_mod : forall h b f g, (forall j, (j < h)%nat -> f j mod b = g j mod b) -> zsum h f mod b = zsum h g mod b.
Proof.
  induction h as [|h IH]; intros b f g H; [reflexivity|]. cbn [zsum]. rewrite Zplus_mod, (IH b f g), (H h) by (try (intros; apply H); lia).
  rewrite <- Zplus_mod. reflexivity.
Qed.

Lemma binom_gt : forall j i, (j < i)%nat -> binom j i = 0.
Proof. induction j as [|j IH]; intros [|i] H; try lia; [reflexivity|]. cbn [binom]. rewrite !IH by lia. reflexivity. Qed.
Lemma binom_diag : forall j, binom j j = 1.
Proof. induction j as [|j IH]; [reflexivity|]. cbn [binom]. rewrite IH, binom_gt by lia. reflexivity. Qed.
Lemma binom_nonneg : forall j i, 0 <= binom j i.
Proof. induction j as [|j IH]; intros [|i]; cbn [binom]; try lia. pose proof (IH i). pose proof (IH (S i)). lia. Qed.

Definition B (c : Z) (j i : nat) : Z := binom j i * c ^ Z.of_nat (j - i).
Lemma B_00 : forall c, B c 0 0 = 1. Proof. reflexivity. Qed.
Lemma B_0S : forall c i, B c 0 (S i) = 0. Proof. reflexivity. Qed.
Lemma B_S0 : forall c j, B c (S j) 0 = c * B c j 0.
Proof.
  intros. unfold B. replace (binom (S j) 0) with 1 by reflexivity. replace (binom j 0) with 1 by (destruct j; reflexivity).
  rewrite !Nat.sub_0_r, Nat2Z.inj_succ, Z.pow_succ_r by lia. ring.
Qed.
Lemma B_SS : forall c j i, B c (S j) (S i) = B c j i + c * B c j (S i).
Proof.
  intros. unfold B. cbn [binom]. replace (S j - S i)%nat with (j - i)%nat by lia.
  destruct (Nat.lt_ge_cases j (S i)) as [H|H]; [rewrite (binom_gt j (S i)) by lia; ring|].
  replace (j - i)%nat with (S (j - S i)) by lia. rewrite Nat2Z.inj_succ, Z.pow_succ_r by lia. ring.
Qed.

(* the coefficients of the polynomial with coefficients g 0 .. g (h-1), shifted by c *)
Definition TD (c : Z) (g : nat -> Z) (h i : nat) : Z := zsum h (fun j => B c j i * g j).
(* r + (x + c) q *)
Definition pm (c r : Z) (q : nat -> Z) (i : nat) : Z := match i with O => r + c * q O | S k => q k + c * q (S k) end.

Lemma TD_ext : forall c g g' h i, (forall j, (j < h)%nat -> g j = g' j) -> TD c g h i = TD c g' h i.
Proof. intros. unfold TD. apply zsum_ext. intros j Hj. rewrite H by exact Hj. reflexivity. Qed.
Lemma TD_high : forall c g h i, (h <= i)%nat -> TD c g h i = 0.
Proof. intros. unfold TD. apply zsum_0. intros j Hj. unfold B. rewrite binom_gt by lia. ring. Qed.
Lemma pm_ext : forall c r q q' i, (forall j, q j = q' j) -> pm c r q i = pm c r q' i.
Proof. intros c r q q' [|i] H; cbn [pm]; rewrite !H; reflexivity. Qed.

Lemma TD_pm : forall c e r q h i, (forall j, (h <= j)%nat -> q j = 0) -> TD e (pm c r q) (S h) i = pm (c + e) r (TD e q h) i.
Proof.
  intros c e r q h i Hq. unfold TD at 1. rewrite zsum_first. cbn [pm].
  rewrite (zsum_ext h _ (fun j => B e (S j) i * q j + c * (B e (S j) i * q (S j)))) by (intros; ring).
  rewrite zsum_add, zsum_scal.
  assert (E : zsum h (fun j => B e (S j) i * q (S j)) = TD e q h i - B e 0 i * q O).
  { assert (F : zsum (S h) (fun j => B e j i * q j) = TD e q h i) by (cbn [zsum]; rewrite (Hq h) by lia; unfold TD; ring).
    rewrite zsum_first in F. lia. }
  rewrite E. clear E. destruct i as [|i]; cbn [pm].
  - rewrite B_00. rewrite (zsum_ext h _ (fun j => e * (B e j 0 * q j))) by (intros; rewrite B_S0; ring). rewrite zsum_scal. fold (TD e q h 0). ring.
  - rewrite B_0S. rewrite (zsum_ext h _ (fun j => B e j i * q j + e * (B e j (S i) * q j))) by (intros; rewrite B_SS; ring).
    rewrite zsum_add, zsum_scal. fold (TD e q h i) (TD e q h (S i)). ring.
Qed.

Lemma TD_peel : forall c d h i, TD c d (S h) i = pm c (d O) (TD c (fun j => d (S j)) h) i.
Proof.
  intros c d h i. set (q := fun j => if (j <? h)%nat then d (S j) else 0).
  rewrite (TD_ext c d (pm 0 (d O) q)).
  2:{ intros [|j] Hj; cbn [pm]; [ring|]. unfold q at 1. destruct (Nat.ltb_spec j h); [ring|lia]. }
  rewrite TD_pm. 2:{ intros j Hj. unfold q. destruct (Nat.ltb_spec j h); [lia|reflexivity]. }
  rewrite Z.add_0_l. apply pm_ext. intros j. apply TD_ext. intros k Hk. unfold q. destruct (Nat.ltb_spec k h); [reflexivity|lia].
Qed.

(* shifting by c and then by e *)
Lemma TD_comp : forall c e h d i, TD e (TD c d h) h i = TD (c + e) d h i.
Proof.
  intros c e. induction h as [|h IH]; intros d i; [reflexivity|].
  rewrite (TD_ext e _ (pm c (d O) (TD c (fun j => d (S j)) h))) by (intros; apply TD_peel).
  rewrite TD_pm by (intros; apply TD_high; lia). rewrite TD_peel. apply pm_ext. intros j. apply IH.
Qed.
Lemma TD_0 : forall d h i, (i < h)%nat -> TD 0 d h i = d i.
Proof.
  intros d h i. revert d i. induction h as [|h IH]; intros d i Hi; [lia|]. rewrite TD_peel.
  destruct i as [|i]; cbn [pm]; [ring|]. rewrite IH by lia. ring.
Qed.

(* division by x - c *)
Lemma divide_linear : forall c m d, exists r q, (forall j, (m <= j)%nat -> q j = 0) /\ forall j, (j < S m)%nat -> d j = pm (- c) r q j.
Proof.
  intros c. induction m as [|m IH]; intros d.
  - exists (d O), (fun _ => 0). split; [reflexivity|]. intros j Hj. replace j with 0%nat by lia. cbn [pm]. ring.
  - destruct (IH (fun j => d (S j))) as (r & q & Hq & E). exists (d O + c * r), (fun j => match j with O => r | S k => q k end). split.
    + intros [|j] Hj; [lia|]. apply Hq. lia.
    + intros [|j] Hj; cbn [pm]; [ring|]. pose proof (E j ltac:(lia)) as Ej. rewrite Ej. destruct j; cbn [pm]; ring.
Qed.

Definition dsum (s : nat) (d : nat -> nat) : nat := list_sum (map d (seq 0 s)).
Lemma dsum_S : forall s d, dsum (S s) d = (dsum s d + d s)%nat.
Proof. intros. unfold dsum. rewrite seq_S, map_app, list_sum_app. cbn. lia. Qed.
Lemma dsum_pos : forall s d m, dsum s d = S m -> exists c k, (c < s)%nat /\ d c = S k.
Proof.
  induction s as [|s IH]; intros d m H; [discriminate|]. rewrite dsum_S in H. destruct (d s) as [|k] eqn:E.
  - destruct (IH d m ltac:(lia)) as (c & k & Hc & Ek). exists c, k. split; [lia|exact Ek].
  - exists s, k. split; [lia|exact E].
Qed.
Lemma dsum_ext : forall s d d', (forall c, (c < s)%nat -> d c = d' c) -> dsum s d = dsum s d'.
Proof. induction s as [|s IH]; intros d d' H; [reflexivity|]. rewrite !dsum_S, (IH d d'), (H s) by (try (intros; apply H); lia). reflexivity. Qed.
Lemma dsum_dec : forall s d c k, (c < s)%nat -> d c = S k -> dsum s d = S (dsum s (fun x => if (x =? c)%nat then k else d x)).
Proof.
  induction s as [|s IH]; intros d c k Hc E; [lia|]. rewrite !dsum_S. destruct (Nat.eq_dec c s) as [->|N].
  - rewrite Nat.eqb_refl, E. rewrite (dsum_ext s d (fun x => if (x =? s)%nat then k else d x)); [lia|].
    intros x Hx. destruct (Nat.eqb_spec x s); [lia|reflexivity].
  - rewrite (IH d c k) by (assumption || lia). destruct (Nat.eqb_spec s c); [lia|]. lia.
Qed.

Lemma prime_coprime_diff : forall b c c', prime b -> (c < Z.to_nat b)%nat -> (c' < Z.to_nat b)%nat -> c <> c' -> ~ (b | Z.of_nat c' - Z.of_nat c).
Proof.
  intros b c c' Hp H H' N [k E]. pose proof (prime_ge_2 b Hp). assert (k = 0) by nia. subst k. lia.
Qed.

(* a polynomial of degree less than m whose shifts by c have d c vanishing
   coefficients, with sum of d c = m, is 0 *)
Lemma net_zero : forall b s, prime b -> (s <= Z.to_nat b)%nat -> forall m d g, dsum s d = m ->
  (forall c i, (c < s)%nat -> (i < d c)%nat -> (b | TD (Z.of_nat c) g m i)) -> forall j, (j < m)%nat -> (b | g j).
Proof.
  intros b s Hp Hs. induction m as [|m IH]; intros d g Hd Hz j Hj; [lia|].
  destruct (dsum_pos s d m Hd) as (c0 & k0 & Hc0 & Ek0).
  destruct (divide_linear (Z.of_nat c0) m g) as (r & q & Hq & Eg).
  set (d' := fun x => if (x =? c0)%nat then k0 else d x).
  assert (Hd' : dsum s d' = m) by (pose proof (dsum_dec s d c0 k0 Hc0 Ek0); unfold d'; lia).
  assert (ET : forall c i, TD (Z.of_nat c) g (S m) i = pm (Z.of_nat c - Z.of_nat c0) r (TD (Z.of_nat c) q m) i).
  { intros c i. rewrite (TD_ext _ g (pm (- Z.of_nat c0) r q)) by (intros; apply Eg; lia). rewrite TD_pm by exact Hq. f_equal. ring. }
  assert (Hr : (b | r)).
  { pose proof (Hz c0 0%nat Hc0 ltac:(lia)) as H0. rewrite ET in H0. cbn [pm] in H0. replace (r + _) with r in H0 by ring. exact H0. }
  assert (HQ : forall c i, (c < s)%nat -> (i < d' c)%nat -> (b | TD (Z.of_nat c) q m i)).
  { intros c. unfold d'. destruct (Nat.eqb_spec c c0) as [->|N]; intros i Hc Hi.
    - pose proof (Hz c0 (S i) Hc0 ltac:(lia)) as H0. rewrite ET in H0. cbn [pm] in H0. replace (_ + _) with (TD (Z.of_nat c0) q m i) in H0 by ring. exact H0.
    - pose proof (prime_coprime_diff b c0 c Hp ltac:(lia) ltac:(lia) ltac:(lia)) as NC.
      induction i as [|i IHi].
      + pose proof (Hz c 0%nat Hc ltac:(lia)) as H0. rewrite ET in H0. cbn [pm] in H0. 
        assert (H1 : (b | (Z.of_nat c - Z.of_nat c0) * TD (Z.of_nat c) q m 0)) by (replace (_ * _) with (r + (Z.of_nat c - Z.of_nat c0) * TD (Z.of_nat c) q m 0 - r) by ring; apply Z.divide_sub_r; assumption).
        apply prime_mult in H1; [|exact Hp]. destruct H1; [contradiction|assumption].
      + pose proof (Hz c (S i) Hc ltac:(lia)) as H0. rewrite ET in H0. cbn [pm] in H0. specialize (IHi ltac:(lia)).
        assert (H1 : (b | (Z.of_nat c - Z.of_nat c0) * TD (Z.of_nat c) q m (S i))) by (replace (_ * _) with (TD (Z.of_nat c) q m i + (Z.of_nat c - Z.of_nat c0) * TD (Z.of_nat c) q m (S i) - TD (Z.of_nat c) q m i) by ring; apply Z.divide_sub_r; assumption).
        apply prime_mult in H1; [|exact Hp]. destruct H1; [contradiction|assumption]. }
  pose proof (IH d' q Hd' HQ) as H0.
  assert (HQ0 : forall i, (b | q i)). { intros i. destruct (Nat.lt_ge_cases i m) as [L|L]; [apply H0; exact L|rewrite Hq by exact L; apply Z.divide_0_r]. }
  rewrite Eg by exact Hj. destruct j as [|j]; cbn [pm].
  - apply Z.divide_add_r; [exact Hr|apply Z.divide_mul_r; apply HQ0].
  - apply Z.divide_add_r; [apply HQ0|apply Z.divide_mul_r; apply HQ0].
Qed.
