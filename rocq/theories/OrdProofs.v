(* Orders of residues and a primality criterion. *)
From Coq Require Import ZArith List Lia Znumtheory Permutation.
From Verif Require Import Base.
Open Scope Z_scope.

Lemma one_mod p : 1 < p -> 1 mod p = 1.
Proof. intros H. apply Z.mod_small. lia. Qed.

Lemma pow_mod_1 p a e k : 1 < p -> 0 <= e -> 0 <= k -> a ^ e mod p = 1 -> a ^ (e * k) mod p = 1.
Proof.
  intros Hp He Hk H. rewrite Z.pow_mul_r by lia. rewrite <- (Z2Nat.id k) by lia.
  generalize (Z.to_nat k). intros n. induction n as [|n IH].
  - rewrite Z.pow_0_r. apply one_mod. exact Hp.
  - rewrite Nat2Z.inj_succ, Z.pow_succ_r by lia. rewrite Z.mul_mod by lia. rewrite IH, H.
    apply one_mod. exact Hp.
Qed.

Lemma pow_rem_1 p a e f : 1 < p -> 0 <= e -> 0 < f -> a ^ e mod p = 1 -> a ^ f mod p = 1 -> a ^ (e mod f) mod p = 1.
Proof.
  intros Hp He Hf H1 H2.
  pose proof (Z.mod_pos_bound e f Hf). pose proof (Z.div_pos e f He Hf).
  rewrite (Z.div_mod e f) in H1 by lia. rewrite Z.pow_add_r in H1 by nia.
  rewrite Z.mul_mod in H1 by lia. rewrite (pow_mod_1 p a f (e / f)) in H1 by lia.
  rewrite Z.mul_1_l, Z.mod_mod in H1 by lia. exact H1.
Qed.

Lemma pow_gcd_1 p a : 1 < p -> forall f, 0 <= f -> forall e, 0 <= e ->
  a ^ e mod p = 1 -> a ^ f mod p = 1 -> a ^ (Z.gcd e f) mod p = 1.
Proof.
  intros Hp f Hf. pattern f. apply Zlt_0_ind; [|exact Hf].
  intros g IH Hg e He H1 H2. destruct (Z.eq_dec g 0) as [-> | Hn].
  - rewrite Z.gcd_0_r. rewrite Z.abs_eq by lia. exact H1.
  - pose proof (Z.mod_pos_bound e g ltac:(lia)).
    rewrite Z.gcd_comm. rewrite <- Z.gcd_mod by lia. rewrite Z.gcd_comm.
    apply IH; [lia|lia|exact H2|]. apply pow_rem_1; try lia; assumption.
Qed.

Lemma prime_divisor n : 1 < n -> exists q, prime q /\ (q | n).
Proof.
  intros H. assert (H0: 0 <= n) by lia. revert H. pattern n. apply Zlt_0_ind; [|exact H0].
  intros m IH _ Hm. destruct (prime_dec m) as [Hp|Hp].
  - exists m. split; [exact Hp|apply Z.divide_refl].
  - destruct (not_prime_divide m Hm Hp) as [k [Hk Hd]].
    destruct (IH k) as [q [Hq Hqk]]; [lia|lia|]. exists q. split; [exact Hq|].
    apply Z.divide_trans with k; assumption.
Qed.

(* if a^N = 1 but no a^(N/q) is 1, then N divides every P with a^P = 1 *)
Lemma order_divides p a N : 1 < p -> 0 < N -> a ^ N mod p = 1 ->
  (forall q, prime q -> (q | N) -> a ^ (N / q) mod p <> 1) ->
  forall P, 0 <= P -> a ^ P mod p = 1 -> (N | P).
Proof.
  intros Hp HN H1 Hq P HP H2.
  pose proof (pow_gcd_1 p a Hp P HP N ltac:(lia) H1 H2) as HG.
  destruct (Z.gcd_divide_l N P) as [k Hk]. pose proof (Z.gcd_nonneg N P) as Hnn.
  destruct (Z.eq_dec k 1) as [-> | Hk1].
  - rewrite Z.mul_1_l in Hk. rewrite Hk at 1. apply Z.gcd_divide_r.
  - assert (1 < k) by nia. destruct (prime_divisor k H) as [q [Hqp [j Hj]]].
    pose proof (prime_ge_2 q Hqp).
    exfalso. apply (Hq q Hqp).
    + exists (j * Z.gcd N P). rewrite Hk at 1. rewrite Hj. ring.
    + assert (E: N / q = Z.gcd N P * j).
      { rewrite Hk at 1. rewrite Hj. replace (j * q * Z.gcd N P) with (Z.gcd N P * j * q) by ring.
        apply Z.div_mul. lia. }
      rewrite E. apply pow_mod_1; try assumption; nia.
Qed.

(* ---- Fermat ---- *)
Definition units (p : Z) : list Z := map Z.of_nat (seq 1 (Z.to_nat (p - 1))).
Definition zprod (l : list Z) : Z := fold_right Z.mul 1 l.

Lemma units_in p x : 1 < p -> In x (units p) <-> 0 < x < p.
Proof.
  intros Hp. unfold units. rewrite in_map_iff. split.
  - intros [k [<- Hk]]. apply in_seq in Hk. lia.
  - intros H. exists (Z.to_nat x). split; [lia|]. apply in_seq. lia.
Qed.

Lemma units_nodup p : NoDup (units p).
Proof. apply FinFun.Injective_map_NoDup; [intros x y H; lia|apply seq_NoDup]. Qed.

Lemma zprod_perm l l' : Permutation l l' -> zprod l = zprod l'.
Proof. intros H. induction H; cbn [zprod fold_right] in *; try fold (zprod l) in *; try fold (zprod l') in *; unfold zprod in *; simpl; nia. Qed.

Lemma zprod_scale p a l : p <> 0 -> zprod (map (fun x => (a * x) mod p) l) mod p = (a ^ Z.of_nat (length l) * zprod l) mod p.
Proof.
  intros Hp. induction l as [|x l IH]; [cbn; reflexivity|].
  cbn [map length]. change (zprod ((a * x) mod p :: map (fun x => (a * x) mod p) l))
    with ((a * x) mod p * zprod (map (fun x => (a * x) mod p) l)).
  change (zprod (x :: l)) with (x * zprod l).
  rewrite Z.mul_mod by exact Hp. rewrite IH. rewrite Z.mod_mod by exact Hp. rewrite <- Z.mul_mod by exact Hp.
  rewrite Nat2Z.inj_succ, Z.pow_succ_r by lia. f_equal. ring.
Qed.

Lemma zprod_coprime p l : (forall x, In x l -> rel_prime p x) -> rel_prime p (zprod l).
Proof.
  induction l as [|x l IH]; intros H; [apply rel_prime_sym, rel_prime_1|].
  change (zprod (x :: l)) with (x * zprod l). apply rel_prime_mult; [apply H; left; reflexivity|].
  apply IH. intros y Hy. apply H. right. exact Hy.
Qed.

Lemma fermat p a : prime p -> ~ (p | a) -> a ^ (p - 1) mod p = 1.
Proof.
  intros Hp Ha. pose proof (prime_ge_2 p Hp) as H2.
  assert (HC: rel_prime p a) by (apply prime_rel_prime; assumption).
  set (l := units p).
  assert (HP: Permutation l (map (fun x => (a * x) mod p) l)).
  { symmetry. apply NoDup_Permutation_bis.
    - (* injective on l *)
      assert (HI: forall x y, In x l -> In y l -> (a * x) mod p = (a * y) mod p -> x = y).
      { intros x y Hx Hy E. apply units_in in Hx; [|lia]. apply units_in in Hy; [|lia].
        assert (HD: (p | a * (x - y))).
        { apply Z.mod_divide; [lia|]. rewrite Z.mul_sub_distr_l, Zminus_mod, E, Z.sub_diag. apply Z.mod_0_l. lia. }
        apply Gauss in HD; [|exact HC]. destruct HD as [k Hk]. assert (k = 0) by nia. subst k. lia. }
      pose proof (units_nodup p) as HN. fold l in HN. clear HC Ha. revert HN HI. generalize l.
      intros l0. induction l0 as [|x l0 IH]; intros HN HI; [constructor|]. cbn [map].
      inversion HN; subst. constructor.
      + rewrite in_map_iff. intros [y [E Hy]]. assert (y = x) by (apply HI; [right; exact Hy|left; reflexivity|exact E]). subst y. contradiction.
      + apply IH; [assumption|]. intros u v Hu Hv. apply HI; right; assumption.
    - rewrite map_length. lia.
    - intros y Hy. apply in_map_iff in Hy. destruct Hy as [x [<- Hx]]. apply units_in in Hx; [|lia].
      apply units_in; [lia|]. pose proof (Z.mod_pos_bound (a * x) p ltac:(lia)).
      enough ((a * x) mod p <> 0) by lia. intros E. apply Z.mod_divide in E; [|lia].
      apply Gauss in E; [|exact HC]. apply Z.divide_pos_le in E; lia. }
  apply zprod_perm in HP.
  assert (HL: Z.of_nat (length l) = p - 1) by (unfold l, units; rewrite map_length, seq_length; lia).
  assert (HQ: rel_prime p (zprod l)).
  { apply zprod_coprime. intros x Hx. apply units_in in Hx; [|lia]. apply prime_rel_prime; [exact Hp|].
    intros HD0. apply Z.divide_pos_le in HD0; lia. }
  pose proof (zprod_scale p a l ltac:(lia)) as HS. rewrite <- HP, HL in HS.
  assert (HD: (p | zprod l * (a ^ (p - 1) - 1))).
  { apply Z.mod_divide; [lia|]. replace (zprod l * (a ^ (p - 1) - 1)) with (a ^ (p - 1) * zprod l - zprod l) by ring.
    rewrite Zminus_mod, <- HS, Z.sub_diag. apply Z.mod_0_l. lia. }
  apply Gauss in HD; [|exact HQ]. destruct HD as [k Hk].
  replace (a ^ (p - 1)) with (1 + k * p) by lia. rewrite Z.mod_add by lia. apply one_mod. lia.
Qed.

Lemma mod_1_down p m x : 1 < p -> 1 < m -> (p | m) -> x mod m = 1 -> x mod p = 1.
Proof.
  intros Hp Hm [k ->] H. pose proof (Z.div_mod x (k * p) ltac:(lia)) as E. rewrite H in E.
  rewrite E. replace (k * p * (x / (k * p)) + 1) with (1 + (k * (x / (k * p))) * p) by ring.
  rewrite Z.mod_add by lia. apply one_mod. exact Hp.
Qed.

(* Pocklington's criterion *)
Lemma pock_order m a N p : 1 < m -> 0 < N -> a ^ N mod m = 1 ->
  (forall q, prime q -> (q | N) -> Z.gcd (a ^ (N / q) - 1) m = 1) ->
  prime p -> (p | m) -> forall P, 0 <= P -> a ^ P mod p = 1 -> (N | P).
Proof.
  intros Hm HN H1 Hq Hp Hd. pose proof (prime_ge_2 p Hp) as H2. apply order_divides; try lia.
  - apply mod_1_down with m; try lia; assumption.
  - intros q Hqp Hqd E. specialize (Hq q Hqp Hqd).
    assert (HD: (p | a ^ (N / q) - 1)).
    { apply Z.mod_divide; [lia|]. rewrite Zminus_mod, E, one_mod by lia. reflexivity. }
    pose proof (Z.gcd_greatest _ _ _ HD Hd) as HG. rewrite Hq in HG. apply Z.divide_1_r_nonneg in HG; lia.
Qed.

Lemma pock_prime m a N : 1 < m -> 0 < N -> m <= N * N -> a ^ N mod m = 1 ->
  (forall q, prime q -> (q | N) -> Z.gcd (a ^ (N / q) - 1) m = 1) -> prime m.
Proof.
  intros Hm HN HNN H1 Hq. destruct (prime_dec m) as [Hp|Hp]; [exact Hp|].
  destruct (not_prime_divide m Hm Hp) as [k [Hk [j Hj]]].
  assert (HS: exists u, 1 < u /\ (u | m) /\ u * u <= m).
  { destruct (Z.le_gt_cases k j).
    - exists k. split; [lia|]. split; [exists j; lia|nia].
    - exists j. split; [nia|]. split; [exists k; lia|nia]. }
  destruct HS as [u [Hu [Hum Hu2]]]. destruct (prime_divisor u Hu) as [p [Hpp Hpu]].
  pose proof (prime_ge_2 p Hpp) as H2.
  assert (Hpm: (p | m)) by (apply Z.divide_trans with u; assumption).
  assert (Hple: p <= u) by (apply Z.divide_pos_le; [lia|exact Hpu]).
  assert (HF: a ^ (p - 1) mod p = 1).
  { apply fermat; [exact Hpp|]. intros Hpa.
    assert (E: a ^ N mod p = 1) by (apply mod_1_down with m; try lia; assumption).
    assert (HD: (p | a ^ N)).
    { replace N with (Z.succ (N - 1)) by lia. rewrite Z.pow_succ_r by lia. apply Z.divide_mul_l. exact Hpa. }
    apply Z.mod_divide in HD; lia. }
  pose proof (pock_order m a N p Hm HN H1 Hq Hpp Hpm (p - 1) ltac:(lia) HF) as [c Hc].
  assert (0 < c) by nia. nia.
Qed.
