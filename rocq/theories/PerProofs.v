(* Periods: iteration, multiplicative and power-of-two congruential engines. *)
From Coq Require Import ZArith List Lia Znumtheory Zpow_facts.
From Verif Require Import Base StreamModel ArithModel ArithSpec ArithProofs NumProofs LcgModel LcgProofs LcgExtra Lcg3Proofs LfProofs OrdProofs Ord2Proofs PerSpec.
Import ListNotations. Open Scope Z_scope.

(* ---- iteration ---- *)
Lemma iter_mul_fix {A} (f : A -> A) x n k : iter n f x = x -> iter (n * k) f x = x.
Proof.
  intros H. induction k as [|k IH]; [rewrite Nat.mul_0_r; reflexivity|].
  rewrite Nat.mul_succ_r, Nat.add_comm, iter_add, H. exact IH.
Qed.

Lemma iter_mod_fix {A} (f : A -> A) x n k : (0 < k)%nat -> iter n f x = x -> iter k f x = x -> iter (n mod k) f x = x.
Proof.
  intros Hk H1 H2. rewrite (Nat.div_mod n k) in H1 by lia. rewrite iter_add, iter_mul_fix in H1 by exact H2. exact H1.
Qed.

Lemma iter_gcd_fix {A} (f : A -> A) x : forall k n, iter n f x = x -> iter k f x = x -> iter (Nat.gcd k n) f x = x.
Proof.
  intros k. induction k as [k IH] using lt_wf_ind. intros n H1 H2.
  destruct k as [|k]; [exact H1|].
  replace (Nat.gcd (S k) n) with (Nat.gcd (n mod S k) (S k)) by reflexivity.
  apply IH; [apply Nat.mod_upper_bound; lia|exact H2|]. apply iter_mod_fix; auto; lia.
Qed.

Lemma iterM_some {A} (f : A -> option A) (g : A -> A) (D : A -> Prop) : (forall x, D x -> f x = Some (g x) /\ D (g x)) ->
  forall n x, D x -> iterM n f x = Some (iter n g x) /\ D (iter n g x).
Proof.
  intros H. induction n as [|n IH]; intros x Hx; [split; [reflexivity|exact Hx]|].
  destruct (H x Hx) as [E HD]. cbn [iterM iter]. rewrite E. cbn [bind]. apply IH. exact HD.
Qed.

(* returning only after multiples of the number of elements means visiting all *)
Lemma full_cycle_of (f : Z -> option Z) (g : Z -> Z) lo hi : lo <= hi ->
  (forall x, lo <= x <= hi -> f x = Some (g x) /\ lo <= g x <= hi) ->
  (forall x n, lo <= x <= hi -> (iter n g x = x <-> (hi - lo + 1 | Z.of_nat n))) ->
  full_cycle f lo hi.
Proof.
  intros Hle Hg Hret x Hx.
  assert (HI: forall n y, lo <= y <= hi -> iterM n f y = Some (iter n g y) /\ lo <= iter n g y <= hi).
  { intros n y Hy. apply (iterM_some f g (fun y => lo <= y <= hi)); auto. }
  set (N := hi - lo + 1) in *. assert (HN: 0 < N) by (unfold N; lia).
  assert (Hinj: forall i j, Z.of_nat i < N -> Z.of_nat j < N -> iter i g x = iter j g x -> i = j).
  { assert (Hw: forall i j, (i <= j)%nat -> Z.of_nat j < N -> iter i g x = iter j g x -> i = j).
    { intros i j Hij Hj E. set (k := Z.to_nat (N - Z.of_nat j)).
      assert (E2: iter (i + k) g x = iter (j + k) g x) by (rewrite !iter_add, E; reflexivity).
      assert (E3: iter (j + k) g x = x).
      { apply (Hret x (j + k)%nat Hx). exists 1. unfold k. lia. }
      rewrite E3 in E2. apply (Hret x _ Hx) in E2. destruct E2 as [q Hq]. unfold k in Hq.
      rewrite Nat2Z.inj_add, Z2Nat.id in Hq by lia.
      assert (q = 1) by nia. subst q. lia. }
    intros i j Hi Hj E. destruct (Nat.le_ge_cases i j); [apply Hw; assumption|symmetry; apply Hw; auto]. }
  split.
  - intros n. rewrite <- (Hret x n Hx). destruct (HI n x Hx) as [-> _]. split; congruence.
  - intros y Hy.
    set (l := map (fun i => iter i g x) (seq 0 (Z.to_nat N))).
    set (d := map (fun i => lo + Z.of_nat i) (seq 0 (Z.to_nat N))).
    assert (ND: NoDup l).
    { unfold l. assert (HG: forall s, (forall i, In i s -> Z.of_nat i < N) -> NoDup s -> NoDup (map (fun i => iter i g x) s)).
      { induction s as [|i s IH]; intros Hs HD; [constructor|]. inversion HD; subst. cbn [map]. constructor.
        - rewrite in_map_iff. intros [j [E Hj]]. assert (j = i).
          { apply Hinj; [apply Hs; right; exact Hj|apply Hs; left; reflexivity|exact E]. }
          subst j. contradiction.
        - apply IH; [intros j Hj; apply Hs; right; exact Hj|assumption]. }
      apply HG; [|apply seq_NoDup]. intros i Hi. apply in_seq in Hi. lia. }
    assert (HL: (length d <= length l)%nat) by (unfold l, d; rewrite !map_length; lia).
    assert (HINC: incl l d).
    { intros z Hz. unfold l in Hz. apply in_map_iff in Hz. destruct Hz as [i [<- _]].
      pose proof (proj2 (HI i x Hx)) as HB. unfold d. apply in_map_iff. exists (Z.to_nat (iter i g x - lo)).
      split; [lia|]. apply in_seq. unfold N. lia. }
    pose proof (NoDup_length_incl ND HL HINC) as HC.
    assert (Hyd: In y d).
    { unfold d. apply in_map_iff. exists (Z.to_nat (y - lo)). split; [lia|]. apply in_seq. unfold N. lia. }
    apply HC in Hyd. unfold l in Hyd. apply in_map_iff in Hyd. destruct Hyd as [n [En Hn]]. apply in_seq in Hn.
    exists n. split; [lia|]. split; [rewrite (proj1 (HI n x Hx)), En; reflexivity|].
    intros k Hk Ek. rewrite (proj1 (HI k x Hx)) in Ek. apply Hinj; [exact Hk|lia|]. congruence.
Qed.

(* ---- outputs ---- *)
Lemma run_out {S} (f : S -> option (Z * S)) (o : S -> Z) (g : S -> S) (D : S -> Prop) :
  (forall s, D s -> f s = Some (o s, g s) /\ D (g s)) ->
  forall n s, D s -> run f n s = Some (map (fun i => o (iter i g s)) (seq 0 n), iter n g s).
Proof.
  intros H. induction n as [|n IH]; intros s Hs; [reflexivity|].
  destruct (H s Hs) as [E HD]. cbn [run]. rewrite E. cbn [bind fst snd]. rewrite (IH _ HD). cbn [bind fst snd].
  f_equal. f_equal. cbn [seq map]. f_equal. rewrite <- seq_shift, map_map. reflexivity.
Qed.

Lemma nth_out_iff {S} (f : S -> option (Z * S)) (o : S -> Z) (g : S -> S) (D : S -> Prop) :
  (forall s, D s -> f s = Some (o s, g s) /\ D (g s)) ->
  forall n s v, D s -> (nth_out f s n v <-> v = o (iter n g s)).
Proof.
  intros H n s v Hs. unfold nth_out. rewrite (run_out f o g D H _ s Hs).
  assert (E: nth n (map (fun i => o (iter i g s)) (seq 0 (Datatypes.S n))) 0 = o (iter n g s)).
  { rewrite (nth_indep _ 0 (o (iter 0 g s))) by (rewrite map_length, seq_length; lia).
    rewrite (map_nth (fun i => o (iter i g s))). rewrite seq_nth by lia. reflexivity. }
  split.
  - intros [outs [s' [E1 E2]]]. apply (f_equal (option_map fst)) in E1. cbn [option_map fst] in E1.
    assert (E3: map (fun i => o (iter i g s)) (seq 0 (Datatypes.S n)) = outs) by congruence. subst outs. congruence.
  - intros ->. do 2 eexists. split; [reflexivity|exact E].
Qed.

Lemma out_repeats_iff {S} (f : S -> option (Z * S)) (o : S -> Z) (g : S -> S) (D : S -> Prop) :
  (forall s, D s -> f s = Some (o s, g s) /\ D (g s)) ->
  forall s p, D s -> (out_repeats f s p <-> forall n, o (iter (n + p) g s) = o (iter n g s)).
Proof.
  intros H s p Hs. unfold out_repeats. split.
  - intros HR n. specialize (HR n (o (iter n g s))). rewrite !(nth_out_iff f o g D H) in HR by exact Hs.
    symmetry. apply HR. reflexivity.
  - intros HR n v. rewrite !(nth_out_iff f o g D H) by exact Hs. rewrite HR. tauto.
Qed.

(* ---- multiplicative engines ---- *)
Lemma iter_mult a m x n : 0 < m -> 0 <= x < m -> iter n (lcg_spec a 0 m) x = (a ^ Z.of_nat n * x) mod m.
Proof.
  intros Hm Hx. induction n as [|n IH].
  - cbn [iter Z.of_nat]. rewrite Z.pow_0_r, Z.mul_1_l, Z.mod_small by lia. reflexivity.
  - rewrite iter_succ_r, IH. unfold lcg_spec. rewrite Z.add_0_r. rewrite Z.mul_mod_idemp_r by lia.
    rewrite Nat2Z.inj_succ, Z.pow_succ_r by lia. f_equal. ring.
Qed.

Lemma mult_return a m x n : prime m -> 0 < x < m -> (iter n (lcg_spec a 0 m) x = x <-> a ^ Z.of_nat n mod m = 1).
Proof.
  intros Hp Hx. pose proof (prime_ge_2 m Hp). rewrite iter_mult by lia. split.
  - intros E. assert (HD: (m | x * (a ^ Z.of_nat n - 1))).
    { apply Z.mod_divide; [lia|]. replace (x * (a ^ Z.of_nat n - 1)) with (a ^ Z.of_nat n * x - x) by ring.
      rewrite Zminus_mod, E, (Z.mod_small x), Z.sub_diag by lia. apply Z.mod_0_l. lia. }
    apply Gauss in HD.
    + destruct HD as [k Hk]. replace (a ^ Z.of_nat n) with (1 + k * m) by lia. rewrite Z.mod_add by lia. apply one_mod. lia.
    + apply prime_rel_prime; [exact Hp|]. intros HD0. apply Z.divide_pos_le in HD0; lia.
  - intros E. rewrite Z.mul_mod, E, Z.mul_1_l, Z.mod_mod by lia. apply Z.mod_small. lia.
Qed.

(* a is a primitive root modulo m *)
Definition prim (a m : Z) : Prop := forall n, 0 <= n -> (a ^ n mod m = 1 <-> (m - 1 | n)).

Lemma prim_cert a m C qs : prime m -> 0 < C -> forallb (fun p => (1 <? p) && trial (Z.to_nat (Z.sqrt p + 1)) 2 p)%bool qs = true ->
  (forall q, prime q -> (q | C) -> In q qs) -> C * zprod qs = m - 1 ->
  zpow (fun x => x mod m) (zpow (fun x => x mod m) a C) (zprod qs) mod m = 1 ->
  chk m (fun x => x mod m) 10 (zpow (fun x => x mod m) a C) qs = true -> prim a m.
Proof.
  intros Hp HC HQ HCq HN H1 H2. pose proof (prime_ge_2 m Hp) as Hm.
  assert (Hred: forall x, (x mod m) mod m = x mod m) by (intros; apply Z.mod_mod; lia).
  destruct (cert m (fun x => x mod m) ltac:(lia) Hred 10 a C qs HC (forall_prime qs HQ) HCq H1 H2) as [E1 E2].
  rewrite HN in E1, E2. intros n Hn. split.
  - exact (pock_order m a (m - 1) m ltac:(lia) ltac:(lia) E1 E2 Hp (Z.divide_refl m) n Hn).
  - intros [k ->]. rewrite Z.mul_comm. apply pow_mod_1; try lia; nia.
Qed.

Lemma div_one q : prime q -> (q | 1) -> False.
Proof. intros Hq Hd. apply Z.divide_1_r_nonneg in Hd; pose proof (prime_ge_2 q Hq); lia. Qed.

Lemma prim_16807 : prim 16807 2147483647.
Proof.
  apply (prim_cert _ _ 3 [2; 3; 7; 11; 31; 151; 331] prime_2147483647); try (vm_compute; reflexivity).
  intros q Hq Hd. right. left. symmetry. apply prime_div_prime; auto using prime_3.
Qed.
Lemma prim_48271 : prim 48271 2147483647.
Proof.
  apply (prim_cert _ _ 3 [2; 3; 7; 11; 31; 151; 331] prime_2147483647); try (vm_compute; reflexivity).
  intros q Hq Hd. right. left. symmetry. apply prime_div_prime; auto using prime_3.
Qed.
Lemma prim_40014 : prim 40014 2147483563.
Proof.
  apply (prim_cert _ _ 1 [2; 3; 7; 631; 81031] prime_2147483563); try (vm_compute; reflexivity).
  intros q Hq Hd. destruct (div_one q Hq Hd).
Qed.
Lemma prim_40692 : prim 40692 2147483399.
Proof.
  apply (prim_cert _ _ 1 [2; 19; 31; 1019; 1789] prime_2147483399); try (vm_compute; reflexivity).
  intros q Hq Hd. destruct (div_one q Hq Hd).
Qed.

Lemma mult_in a m x : prime m -> ~ (m | a) -> 0 < x < m -> 0 < lcg_spec a 0 m x < m.
Proof.
  intros Hp Ha Hx. unfold lcg_spec. rewrite Z.add_0_r. pose proof (prime_ge_2 m Hp).
  pose proof (Z.mod_pos_bound (a * x) m ltac:(lia)). enough ((a * x) mod m <> 0) by lia.
  intros E. apply Z.mod_divide in E; [|lia]. apply prime_mult in E; [|exact Hp]. destruct E as [E|E]; [contradiction|].
  apply Z.divide_pos_le in E; lia.
Qed.

(* ---- modulus a power of two ---- *)
(* 2^j steps of x -> a x + c without reduction, a = 1 mod 4, c odd *)
Lemma affine_iter a c : (exists a', a = 4 * a' + 1) -> (exists c', c = 2 * c' + 1) -> forall j,
  exists A B, (forall x, iter (2 ^ j) (fun x => a * x + c) x = x + A * x + B) /\ (exists A', A = 4 * A') /\
    forall x, exists o, A * x + B = 2 ^ Z.of_nat j * (2 * o + 1).
Proof.
  intros [a' Ha] [c' Hc]. induction j as [|j [A [B [E [[A' HA] HO]]]]].
  - exists (a - 1), c. split; [intros x; cbn [Nat.pow iter]; ring|]. split; [exists a'; lia|].
    intros x. exists (2 * a' * x + c'). cbn [Z.of_nat]. rewrite Z.pow_0_r. subst a c. ring.
  - exists ((2 + A) * A), ((2 + A) * B). split; [|split].
    + intros x. replace (2 ^ S j)%nat with (2 ^ j + 2 ^ j)%nat by (cbn [Nat.pow]; lia).
      rewrite iter_add, !E. ring.
    + exists ((2 + A) * A'). rewrite HA at 2. ring.
    + intros x. destruct (HO x) as [o Ho].
      exists (o + A' * (2 * o + 1)). replace ((2 + A) * A * x + (2 + A) * B) with ((2 + A) * (A * x + B)) by ring.
      rewrite Ho, Nat2Z.inj_succ, Z.pow_succ_r, HA by lia. ring.
Qed.

Lemma iter_reduce a c M x n : 0 < M -> 0 <= x < M -> iter n (lcg_spec a c M) x = (iter n (fun x => a * x + c) x) mod M.
Proof.
  intros HM Hx. induction n as [|n IH]; [cbn [iter]; symmetry; apply Z.mod_small; exact Hx|].
  rewrite !iter_succ_r, IH. unfold lcg_spec. rewrite Zplus_mod, Z.mul_mod_idemp_r, <- Zplus_mod by lia. reflexivity.
Qed.

(* divisors of a power of two *)
Lemma divides_pow2 n : forall d, Nat.divide d (2 ^ n) -> exists j, (j <= n)%nat /\ d = (2 ^ j)%nat.
Proof.
  induction n as [|n IH]; intros d Hd.
  - exists O. split; [lia|]. apply Nat.divide_1_r in Hd. exact Hd.
  - destruct (Nat.Even_or_Odd d) as [[e He]|[e He]].
    + destruct Hd as [q Hq]. assert (Hd': Nat.divide e (2 ^ n)) by (exists q; cbn [Nat.pow] in Hq; nia).
      destruct (IH e Hd') as [j [Hj Ej]]. exists (S j). split; [lia|]. cbn [Nat.pow]. lia.
    + assert (Hd': Nat.divide d (2 ^ n)).
      { replace (2 ^ S n)%nat with (2 * 2 ^ n)%nat in Hd by reflexivity. apply Nat.gauss with 2%nat; [exact Hd|].
        subst d. rewrite Nat.gcd_comm. rewrite Nat.add_comm, Nat.mul_comm. 
        assert (E: Nat.gcd 2 (1 + e * 2) = 1%nat) by (rewrite Nat.gcd_add_mult_diag_r; reflexivity). exact E. }
      destruct (IH d Hd') as [j [Hj Ej]]. exists j. split; [lia|exact Ej].
Qed.

Section Pow2.
  Context (a c : Z) (k : nat) (Ha : exists a', a = 4 * a' + 1) (Hc : exists c', c = 2 * c' + 1).
  Let M := 2 ^ Z.of_nat k.
  Let g := lcg_spec a c M.

  Lemma M_pos : 0 < M. Proof. apply Z.pow_pos_nonneg; lia. Qed.

  Lemma pow2_steps j x : 0 <= x < M -> exists o, iter (2 ^ j) g x = (x + 2 ^ Z.of_nat j * (2 * o + 1)) mod M.
  Proof.
    intros Hx. pose proof M_pos. destruct (affine_iter a c Ha Hc j) as [A [B [E [_ HO]]]]. destruct (HO x) as [o Ho].
    exists o. unfold g. rewrite iter_reduce by assumption. rewrite E, <- Z.add_assoc, Ho. reflexivity.
  Qed.

  Lemma pow2_back x : 0 <= x < M -> iter (2 ^ k) g x = x.
  Proof.
    intros Hx. pose proof M_pos. destruct (pow2_steps k x Hx) as [o ->]. fold M. rewrite Z.mul_comm, Z.mod_add by lia. apply Z.mod_small. exact Hx.
  Qed.

  Lemma pow2_not_back j x : (j < k)%nat -> 0 <= x < M -> iter (2 ^ j) g x <> x.
  Proof.
    intros Hj Hx E. pose proof M_pos. destruct (pow2_steps j x Hx) as [o Ho]. rewrite E in Ho.
    assert (HD: (M | 2 ^ Z.of_nat j * (2 * o + 1))).
    { apply Z.mod_divide; [lia|]. replace (2 ^ Z.of_nat j * (2 * o + 1)) with (x + 2 ^ Z.of_nat j * (2 * o + 1) - x) by ring.
      rewrite Zminus_mod, <- Ho, (Z.mod_small x), Z.sub_diag by lia. apply Z.mod_0_l. lia. }
    destruct HD as [q Hq]. unfold M in Hq.
    replace (Z.of_nat k) with (Z.of_nat j + (1 + (Z.of_nat k - Z.of_nat j - 1))) in Hq by lia.
    rewrite !Z.pow_add_r in Hq by lia. pose proof (Z.pow_pos_nonneg 2 (Z.of_nat j) ltac:(lia) ltac:(lia)).
    assert (2 * o + 1 = q * (2 ^ 1 * 2 ^ (Z.of_nat k - Z.of_nat j - 1))) by nia.
    rewrite Z.pow_1_r in H1. lia.
  Qed.

  Lemma pow2_return x n : 0 <= x < M -> (iter n g x = x <-> (M | Z.of_nat n)).
  Proof.
    intros Hx. split.
    - intros E. pose proof (iter_gcd_fix g x (2 ^ k) n E (pow2_back x Hx)) as HG.
      destruct (divides_pow2 k (Nat.gcd (2 ^ k) n) (Nat.gcd_divide_l _ _)) as [j [Hj Ej]].
      destruct (Nat.eq_dec j k) as [-> | Hne]; [|exfalso; rewrite Ej in HG; apply (pow2_not_back j x); auto; lia].
      destruct (Nat.gcd_divide_r (2 ^ k) n) as [q Hq]. rewrite Ej in Hq. exists (Z.of_nat q).
      rewrite Hq at 1. rewrite Nat2Z.inj_mul, Nat2Z.inj_pow. reflexivity.
    - intros [q Hq]. pose proof M_pos. assert (0 <= q) by nia.
      assert (En: n = (2 ^ k * Z.to_nat q)%nat).
      { apply Nat2Z.inj. rewrite Nat2Z.inj_mul, Nat2Z.inj_pow, Z2Nat.id by lia. change (Z.of_nat 2) with 2. fold M. lia. }
      rewrite En. apply iter_mul_fix. apply pow2_back. exact Hx.
  Qed.
End Pow2.
