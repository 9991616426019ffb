(* Periods: minstd, rand48 and ecuyer1988. *)
From Coq Require Import ZArith List Lia Znumtheory Zpow_facts.
From Verif Require Import Base StreamModel ArithModel ArithSpec ArithProofs NumProofs LcgModel LcgProofs Lcg2Proofs LcgExtra Lcg3Proofs LfProofs OrdProofs Ord2Proofs PerModel PerSpec PerProofs.
Import ListNotations. Open Scope Z_scope.

(* ---- minstd ---- *)
Lemma prim_nodiv a m : prime m -> prim a m -> ~ (m | a).
Proof.
  intros Hp HP Hd. pose proof (prime_ge_2 m Hp).
  assert (E: a ^ (m - 1) mod m = 1) by (apply HP; [lia|exists 1; lia]).
  assert (E0: a ^ (m - 1) mod m = 0).
  { apply Z.mod_divide; [lia|]. replace (m - 1) with (Z.succ (m - 2)) by lia. rewrite Z.pow_succ_r by lia. apply Z.divide_mul_l. exact Hd. }
  lia.
Qed.

Lemma mult_full t a m : lcg_wf t a 0 m -> exact_mult t m a -> cmod t m = m -> prime m -> prim a m -> full_cycle (lcg_next t a 0 m) 1 (m - 1).
Proof.
  intros Hw He Hc Hp HP. pose proof (prime_ge_2 m Hp). apply (full_cycle_of _ (lcg_spec a 0 m)); [lia| |].
  - intros x Hx. split.
    + rewrite lcg_next_spec by (try assumption; rewrite Hc; lia). rewrite Hc. reflexivity.
    + pose proof (mult_in a m x Hp (prim_nodiv a m Hp HP) ltac:(lia)). lia.
  - intros x n Hx. rewrite mult_return by (try assumption; lia). rewrite (HP (Z.of_nat n)) by lia.
    replace (m - 1 - 1 + 1) with (m - 1) by lia. reflexivity.
Qed.

Lemma minstd0_full : full_cycle minstd_rand0_next 1 2147483646.
Proof. apply (mult_full u32 16807 2147483647); [apply minstd_wf; lia|left; apply exact_small; lia|reflexivity|exact prime_2147483647|exact prim_16807]. Qed.
Lemma minstd_full : full_cycle minstd_rand_next 1 2147483646.
Proof. apply (mult_full u32 48271 2147483647); [apply minstd_wf; lia|left; apply exact_small; lia|reflexivity|exact prime_2147483647|exact prim_48271]. Qed.

(* ---- periods of sequences ---- *)
Definition per {A} (u : nat -> A) (p : nat) : Prop := forall n, u (n + p)%nat = u n.
Lemma per_mul {A} (u : nat -> A) p k : per u p -> per u (p * k).
Proof.
  intros H. induction k as [|k IH]; intros n; [rewrite Nat.mul_0_r, Nat.add_0_r; reflexivity|].
  rewrite Nat.mul_succ_r, Nat.add_assoc, H. apply IH.
Qed.
Lemma per_gcd {A} (u : nat -> A) : forall p q, per u p -> per u q -> per u (Nat.gcd p q).
Proof.
  intros p. induction p as [p IH] using lt_wf_ind. intros q Hp Hq. destruct p as [|p]; [exact Hq|].
  replace (Nat.gcd (S p) q) with (Nat.gcd (q mod S p) (S p)) by reflexivity.
  apply IH; [apply Nat.mod_upper_bound; lia| |exact Hp]. intros n.
  rewrite <- (per_mul u (S p) (q / S p) Hp). rewrite <- Nat.add_assoc.
  rewrite (Nat.add_comm (q mod S p)), <- Nat.div_mod by lia. apply Hq.
Qed.

(* ---- the top bits of a generator modulo a power of two ---- *)
Section Top.
  Context (a c : Z) (k : nat) (Ha : exists a', a = 4 * a' + 1) (Hc : exists c', c = 2 * c' + 1) (t : Z).
  Let M := 2 ^ Z.of_nat (S k).
  Let g := lcg_spec a c M.

  Lemma top_flips x : 0 <= t <= Z.of_nat k -> 0 <= x < M -> iter (2 ^ k) g x / 2 ^ t <> x / 2 ^ t.
  Proof.
    intros Ht Hx E. pose proof (M_pos (S k)) as HM. fold M in HM.
    destruct (pow2_steps a c (S k) Ha Hc k x Hx) as [o Ho]. fold M in Ho. fold g in Ho.
    set (T := 2 ^ Z.of_nat k) in *. assert (HT: 0 < T) by (apply Z.pow_pos_nonneg; lia).
    assert (HMT: M = 2 * T) by (unfold M, T; rewrite Nat2Z.inj_succ, Z.pow_succ_r by lia; reflexivity).
    replace (x + T * (2 * o + 1)) with ((x + T) + o * M) in Ho by (rewrite HMT; ring).
    rewrite Z.mod_add in Ho by lia.
    assert (HTt: T = 2 ^ (Z.of_nat k - t) * 2 ^ t) by (unfold T; rewrite <- Z.pow_add_r by lia; f_equal; lia).
    pose proof (Z.pow_pos_nonneg 2 t ltac:(lia) ltac:(lia)) as Ht0.
    pose proof (Z.pow_pos_nonneg 2 (Z.of_nat k - t) ltac:(lia) ltac:(lia)) as Hk0.
    destruct (Z_lt_ge_dec x T) as [H|H].
    - rewrite Z.mod_small in Ho by lia. rewrite Ho, HTt, Z.div_add in E by lia. lia.
    - assert (E2: (x + T) mod M = x - T).
      { replace (x + T) with (x - T + 1 * M) by (rewrite HMT; ring). rewrite Z.mod_add by lia. apply Z.mod_small. lia. }
      rewrite E2 in Ho. rewrite Ho, HTt in E.
      replace (x - 2 ^ (Z.of_nat k - t) * 2 ^ t) with (x + - 2 ^ (Z.of_nat k - t) * 2 ^ t) in E by ring.
      rewrite Z.div_add in E by lia. lia.
  Qed.

  Lemma top_period x p : 0 <= t <= Z.of_nat k -> 0 <= x < M ->
    (per (fun n => iter n g x / 2 ^ t) p <-> (M | Z.of_nat p)).
  Proof.
    intros Ht Hx. pose proof (M_pos (S k)) as HM. fold M in HM. split.
    - intros HP.
      assert (HK: per (fun n => iter n g x / 2 ^ t) (2 ^ S k)).
      { intros n. f_equal. rewrite Nat.add_comm, iter_add. f_equal. apply pow2_back; assumption. }
      pose proof (per_gcd _ _ _ HK HP) as HG.
      destruct (divides_pow2 (S k) (Nat.gcd (2 ^ S k) p) (Nat.gcd_divide_l _ _)) as [j [Hj Ej]].
      destruct (Nat.eq_dec j (S k)) as [-> | Hne].
      + destruct (Nat.gcd_divide_r (2 ^ S k) p) as [q Hq]. rewrite Ej in Hq. exists (Z.of_nat q).
        rewrite Hq at 1. rewrite Nat2Z.inj_mul, Nat2Z.inj_pow. reflexivity.
      + exfalso. rewrite Ej in HG. apply (per_mul _ _ (2 ^ (k - j))) in HG. rewrite <- Nat.pow_add_r in HG.
        replace (j + (k - j))%nat with k in HG by lia. specialize (HG O). cbn beta in HG. rewrite Nat.add_0_l in HG.
        cbn [iter] in HG. exact (top_flips x Ht Hx HG).
    - intros HD n. cbn beta. f_equal. rewrite Nat.add_comm, iter_add. f_equal. apply (pow2_return a c (S k) Ha Hc); assumption.
  Qed.
End Top.

Lemma r48_a1 : exists a', 0x5DEECE66D = 4 * a' + 1. Proof. exists (0x5DEECE66D / 4). reflexivity. Qed.
Lemma r48_c1 : exists c', 0xB = 2 * c' + 1. Proof. exists 5. reflexivity. Qed.

Lemma rand48_full : full_cycle rand48_state 0 (2 ^ 48 - 1).
Proof.
  apply (full_cycle_of _ posix_step); [lia| |].
  - intros x Hx. unfold rand48_state. rewrite lcg_next_spec;
      [|exact r48_wf|left; apply (exact_pow2 u64); [apply r48_wf|exact r48_pow2]|change (cmod u64 r48_m) with (2 ^ 48); lia].
    change (lcg_spec r48_a r48_c (cmod u64 r48_m) x) with (posix_step x). split; [reflexivity|].
    pose proof (Z.mod_pos_bound (0x5DEECE66D * x + 0xB) (2 ^ 48) ltac:(lia)). unfold posix_step. lia.
  - intros x n Hx. replace (2 ^ 48 - 1 - 0 + 1) with (2 ^ Z.of_nat 48) by reflexivity.
    apply (pow2_return 0x5DEECE66D 0xB 48 r48_a1 r48_c1). change (2 ^ Z.of_nat 48) with (2 ^ 48). lia.
Qed.

Lemma rand48_out x p : 0 <= x < 2 ^ 48 -> (out_repeats r48_next x p <-> (2 ^ 48 | Z.of_nat p)).
Proof.
  intros Hx. rewrite (out_repeats_iff r48_next (fun s => posix_lrand48 (posix_step s)) posix_step (fun s => 0 <= s < 2 ^ 48)) by
    (first [exact Hx | intros s Hs; exact (r48_step_ok s Hs)]).
  rewrite <- (top_period 0x5DEECE66D 0xB 47 r48_a1 r48_c1 17 (posix_step x) p); [|lia|
    change (2 ^ Z.of_nat 48) with (2 ^ 48); exact (proj2 (r48_step_ok x Hx))].
  assert (E: forall n, posix_lrand48 (posix_step (iter n posix_step x)) = iter n (lcg_spec 0x5DEECE66D 0xB (2 ^ Z.of_nat 48)) (posix_step x) / 2 ^ 17).
  { intros n. rewrite <- iter_succ_r. reflexivity. }
  unfold per. split; intros H n; specialize (H n); rewrite !E in *; exact H.
Qed.

(* ---- ecuyer1988 ---- *)
Definition ecA := 2147483562. Definition ecB := 2147483398.
Definition f1 := lcg_spec ec_a1 0 ec_m1. Definition f2 := lcg_spec ec_a2 0 ec_m2.
Definition ec_g (s : Z * Z) : Z * Z := (f1 (fst s), f2 (snd s)).
Definition ec_o (s : Z * Z) : Z := let d := (f1 (fst s) - f2 (snd s)) mod ecA in if d =? 0 then ecA else d.
Definition ec_D (s : Z * Z) : Prop := 1 <= fst s <= ecA /\ 1 <= snd s <= ecB.

Lemma ec_step s : ec_D s -> ecuyer1988_next s = Some (ec_o s, ec_g s) /\ ec_D (ec_g s).
Proof.
  destruct s as [s1 s2]. unfold ec_D, ecA, ecB. cbn [fst snd]. intros [H1 H2]. destruct ec_wf as [W1 W2].
  assert (E1 : exact_mult u32 ec_m1 ec_a1) by (left; apply exact_small; unfold ec_m1; lia).
  assert (E2 : exact_mult u32 ec_m2 ec_a2) by (left; apply exact_small; unfold ec_m2; lia).
  destruct (ac_next_ok u32 ec_a1 ec_m1 ec_a2 ec_m2 s1 s2 W1 W2 E1 E2 ltac:(unfold ec_m1, ec_m2; lia) eq_refl eq_refl ltac:(unfold ec_m1; lia) ltac:(unfold ec_m2; lia)) as [r [E [Hr [Hm [HX1 HX2]]]]].
  fold f1 in E, Hm, HX1. fold f2 in E, Hm, HX2. unfold ecuyer1988_next. rewrite E. unfold ec_g, ec_o. cbn [fst snd]. split.
  - f_equal. f_equal. unfold eqm in Hm. change (ec_m1 - 1) with ecA in Hm, Hr. cbn zeta. rewrite <- Hm. unfold ecA in *.
    destruct (Z.eq_dec r 2147483562) as [->|Hne]; [reflexivity|]. rewrite Z.mod_small by lia. destruct (Z.eqb_spec r 0); lia.
  - unfold ec_m1, ec_m2 in HX1, HX2. lia.
Qed.

Lemma ec_iter n s : iter n ec_g s = (iter n f1 (fst s), iter n f2 (snd s)).
Proof. revert s. induction n as [|n IH]; intros [x y]; [reflexivity|]. cbn [iter]. rewrite IH. reflexivity. Qed.

Lemma f1_return x n : 1 <= x <= ecA -> (iter n f1 x = x <-> (ecA | Z.of_nat n)).
Proof. intros Hx. unfold f1. rewrite (mult_return _ _ _ _ prime_2147483563) by (unfold ecA in Hx; lia). apply (prim_40014 (Z.of_nat n)). lia. Qed.
Lemma f2_return x n : 1 <= x <= ecB -> (iter n f2 x = x <-> (ecB | Z.of_nat n)).
Proof. intros Hx. unfold f2. rewrite (mult_return _ _ _ _ prime_2147483399) by (unfold ecB in Hx; lia). apply (prim_40692 (Z.of_nat n)). lia. Qed.
Lemma f1_in x : 1 <= x <= ecA -> 1 <= f1 x <= ecA.
Proof. intros Hx. unfold f1, ecA in *. pose proof (mult_in _ _ x prime_2147483563 (prim_nodiv _ _ prime_2147483563 prim_40014) ltac:(lia)). unfold ec_a1, ec_m1. lia. Qed.
Lemma f2_in x : 1 <= x <= ecB -> 1 <= f2 x <= ecB.
Proof. intros Hx. unfold f2, ecB in *. pose proof (mult_in _ _ x prime_2147483399 (prim_nodiv _ _ prime_2147483399 prim_40692) ltac:(lia)). unfold ec_a2, ec_m2. lia. Qed.
Lemma f1_iter_in n x : 1 <= x <= ecA -> 1 <= iter n f1 x <= ecA.
Proof. intros Hx. induction n as [|n IH]; [exact Hx|]. rewrite iter_succ_r. apply f1_in. exact IH. Qed.
Lemma f2_iter_in n x : 1 <= x <= ecB -> 1 <= iter n f2 x <= ecB.
Proof. intros Hx. induction n as [|n IH]; [exact Hx|]. rewrite iter_succ_r. apply f2_in. exact IH. Qed.

(* the halves (m1-1)/2 and (m2-1)/2 are odd and coprime *)
Definition ecH1 := 1073741781. Definition ecH2 := 1073741699.
Definition ecL := 2305842648436451838.
Lemma ecL_lcm n : (ecL | n) <-> (ecA | n) /\ (ecB | n).
Proof.
  split.
  - intros [q ->]. split; [exists (q * ecH2)|exists (q * ecH1)]; unfold ecL, ecA, ecB, ecH1, ecH2; ring.
  - intros [[q ->] [r Hr]]. assert (HD: (ecH2 | ecH1 * q)) by (exists r; unfold ecA, ecB, ecH1, ecH2 in *; lia).
    apply Gauss in HD; [|apply Zgcd_1_rel_prime; vm_compute; reflexivity]. destruct HD as [w ->]. exists w. unfold ecL, ecA, ecH2. ring.
Qed.

Lemma ec_state_return s n : ec_D s -> (iter n ec_g s = s <-> (ecL | Z.of_nat n)).
Proof.
  intros [H1 H2]. rewrite ec_iter, ecL_lcm, <- (f1_return (fst s) n H1), <- (f2_return (snd s) n H2).
  destruct s as [x y]. cbn [fst snd]. split; [intros E; injection E; auto|intros [-> ->]; reflexivity].
Qed.

(* half way round a multiplicative generator negates the state *)
Lemma half_neg a m h x n : prime m -> prim a m -> m - 1 = 2 * h -> (h | Z.of_nat n) -> ~ (m - 1 | Z.of_nat n) -> 0 < x < m ->
  iter n (lcg_spec a 0 m) x = m - x.
Proof.
  intros Hp HP Hh [q Hq] Hnd Hx. pose proof (prime_ge_2 m Hp). rewrite iter_mult by lia. set (y := a ^ Z.of_nat n).
  assert (E: y * y mod m = 1).
  { unfold y. rewrite <- Z.pow_add_r by lia. apply HP; [lia|]. exists q. lia. }
  assert (N: y mod m <> 1) by (intros E'; apply HP in E'; [contradiction|lia]).
  assert (HD: (m | (y - 1) * (y + 1))).
  { apply Z.mod_divide; [lia|]. replace ((y - 1) * (y + 1)) with (y * y - 1) by ring. rewrite Zminus_mod, E, one_mod, Z.sub_diag by lia. apply Z.mod_0_l. lia. }
  apply prime_mult in HD; [|exact Hp]. destruct HD as [[w Hw]|[w Hw]].
  - exfalso. apply N. replace y with (1 + w * m) by lia. rewrite Z.mod_add by lia. apply one_mod. lia.
  - replace (y * x) with (m - x + (w * x - 1) * m) by nia. rewrite Z.mod_add by lia. apply Z.mod_small. lia.
Qed.

Lemma eqm_range M x y : 1 <= x <= M -> 1 <= y <= M -> (M | x - y) -> x = y.
Proof. intros Hx Hy [q Hq]. assert (q = 0) by nia. subst q. lia. Qed.

Lemma ec_o_eq s s' : ec_o s = ec_o s' -> (ecA | (f1 (fst s) - f2 (snd s)) - (f1 (fst s') - f2 (snd s'))).
Proof.
  unfold ec_o. cbn zeta. set (u := f1 (fst s) - f2 (snd s)). set (v := f1 (fst s') - f2 (snd s')).
  pose proof (Z.mod_pos_bound u ecA ltac:(unfold ecA; lia)). pose proof (Z.mod_pos_bound v ecA ltac:(unfold ecA; lia)).
  intros E. assert (Em: u mod ecA = v mod ecA).
  { destruct (Z.eqb_spec (u mod ecA) 0), (Z.eqb_spec (v mod ecA) 0); lia. }
  apply Z.mod_divide; [unfold ecA; lia|]. rewrite Zminus_mod, Em, Z.sub_diag. reflexivity.
Qed.

Lemma f1_surj x y : 1 <= x <= ecA -> 1 <= y <= ecA -> exists n, iter n f1 x = y.
Proof.
  intros Hx Hy. assert (HF: full_cycle (fun x => Some (f1 x)) 1 ecA).
  { apply (full_cycle_of _ f1); [unfold ecA; lia| |].
    - intros z Hz. split; [reflexivity|]. apply f1_in. exact Hz.
    - intros z n Hz. rewrite f1_return by exact Hz. replace (ecA - 1 + 1) with ecA by ring. reflexivity. }
  destruct (proj2 (HF x Hx) y Hy) as [n [_ [E _]]]. exists n.
  pose proof (proj1 (iterM_some (fun x => Some (f1 x)) f1 (fun _ => True) ltac:(auto) n x I)) as E'. congruence.
Qed.

Lemma ec_out s p : ec_D s -> (out_repeats ecuyer1988_next s p <-> (ecL | Z.of_nat p)).
Proof.
  intros HD. rewrite (out_repeats_iff ecuyer1988_next ec_o ec_g ec_D ec_step s p HD). split.
  2:{ intros HL n. f_equal. rewrite Nat.add_comm, iter_add. f_equal. apply ec_state_return; assumption. }
  intros HP. destruct HD as [H1 H2].
  set (x1 := fun n => iter (S n) f1 (fst s)). set (x2 := fun n => iter (S n) f2 (snd s)).
  assert (Hx1: forall n, 1 <= x1 n <= ecA) by (intros n; apply f1_iter_in; exact H1).
  assert (Hx2: forall n, 1 <= x2 n <= ecB) by (intros n; apply f2_iter_in; exact H2).
  assert (S1: forall n k, x1 (n + k)%nat = iter k f1 (x1 n)) by (intros n k; unfold x1; rewrite <- iter_add; reflexivity).
  assert (S2: forall n k, x2 (n + k)%nat = iter k f2 (x2 n)) by (intros n k; unfold x2; rewrite <- iter_add; reflexivity).
  assert (HPP: per (fun n => ec_o (iter n ec_g s)) p) by (intros n; apply HP).
  assert (HW: forall k n, (ecA | (x1 (n + p * k)%nat - x2 (n + p * k)%nat) - (x1 n - x2 n))).
  { intros k n. pose proof (per_mul _ _ k HPP n) as E. cbn beta in E. apply ec_o_eq in E.
    rewrite !ec_iter in E. cbn [fst snd] in E. rewrite <- !iter_succ_r in E. exact E. }
  assert (HA: (ecA | Z.of_nat p * ecB)).
  { specialize (HW (Z.to_nat ecB) O). rewrite Nat.add_0_l in HW.
    assert (E2: x2 (p * Z.to_nat ecB)%nat = x2 O).
    { rewrite <- (Nat.add_0_l (p * _)), S2. apply f2_return; [apply Hx2|]. rewrite Nat2Z.inj_mul, Z2Nat.id by (unfold ecB; lia). apply Z.divide_factor_r. }
    rewrite E2 in HW. assert (E1: x1 (p * Z.to_nat ecB)%nat = x1 O).
    { apply (eqm_range ecA); [apply Hx1|apply Hx1|]. replace (x1 (p * Z.to_nat ecB)%nat - x1 O) with (x1 (p * Z.to_nat ecB)%nat - x2 O - (x1 O - x2 O)) by ring. exact HW. }
    rewrite <- (Nat.add_0_l (p * _)), S1 in E1. apply f1_return in E1; [|apply Hx1].
    rewrite Nat2Z.inj_mul, Z2Nat.id in E1 by (unfold ecB; lia). exact E1. }
  assert (HB: (ecB | Z.of_nat p * ecA)).
  { specialize (HW (Z.to_nat ecA) O). rewrite Nat.add_0_l in HW.
    assert (E1: x1 (p * Z.to_nat ecA)%nat = x1 O).
    { rewrite <- (Nat.add_0_l (p * _)), S1. apply f1_return; [apply Hx1|]. rewrite Nat2Z.inj_mul, Z2Nat.id by (unfold ecA; lia). apply Z.divide_factor_r. }
    rewrite E1 in HW. assert (E2: x2 O = x2 (p * Z.to_nat ecA)%nat).
    { pose proof (Hx2 O). pose proof (Hx2 (p * Z.to_nat ecA)%nat). apply (eqm_range ecA); [unfold ecA, ecB in *; lia|unfold ecA, ecB in *; lia|].
      replace (x2 O - x2 (p * Z.to_nat ecA)%nat) with (x1 O - x2 (p * Z.to_nat ecA)%nat - (x1 O - x2 O)) by ring. exact HW. }
    symmetry in E2. rewrite <- (Nat.add_0_l (p * _)), S2 in E2. apply f2_return in E2; [|apply Hx2].
    rewrite Nat2Z.inj_mul, Z2Nat.id in E2 by (unfold ecA; lia). exact E2. }
  assert (HA': (ecH1 | Z.of_nat p)).
  { apply (Gauss ecH1 ecH2); [|apply Zgcd_1_rel_prime; vm_compute; reflexivity]. destruct HA as [q Hq]. exists q. unfold ecA, ecB, ecH1, ecH2 in *. lia. }
  assert (HB': (ecH2 | Z.of_nat p)).
  { apply (Gauss ecH2 ecH1); [|apply Zgcd_1_rel_prime; vm_compute; reflexivity]. destruct HB as [q Hq]. exists q. unfold ecA, ecB, ecH1, ecH2 in *. lia. }
  destruct (Z.Even_or_Odd (Z.of_nat p)) as [[e He]|[e He]].
  - apply ecL_lcm. split.
    + destruct HA' as [q Hq]. exists (q / 2). unfold ecA, ecH1 in *. pose proof (Z.div_mod q 2 ltac:(lia)). pose proof (Z.mod_pos_bound q 2 ltac:(lia)). lia.
    + destruct HB' as [q Hq]. exists (q / 2). unfold ecB, ecH2 in *. pose proof (Z.div_mod q 2 ltac:(lia)). pose proof (Z.mod_pos_bound q 2 ltac:(lia)). lia.
  - exfalso.
    assert (N1: forall n, x1 (n + p)%nat = ec_m1 - x1 n).
    { intros n. rewrite S1. apply (half_neg _ _ ecH1); [exact prime_2147483563|exact prim_40014|reflexivity|exact HA'| |unfold ec_m1; pose proof (Hx1 n); unfold ecA in *; lia].
      intros [q Hq]. unfold ec_m1 in Hq. lia. }
    assert (N2: forall n, x2 (n + p)%nat = ec_m2 - x2 n).
    { intros n. rewrite S2. apply (half_neg _ _ ecH2); [exact prime_2147483399|exact prim_40692|reflexivity|exact HB'| |unfold ec_m2; pose proof (Hx2 n); unfold ecB in *; lia].
      intros [q Hq]. unfold ec_m2 in Hq. lia. }
    assert (HC: forall n, exists q, x1 n - x2 n = 82 + ecH1 * q).
    { intros n. specialize (HW 1%nat n). rewrite Nat.mul_1_r, N1, N2 in HW. destruct HW as [q Hq]. exists (- q).
      unfold ec_m1, ec_m2, ecA, ecH1 in *. lia. }
    destruct (f1_surj (x1 O) 1 (Hx1 O) ltac:(unfold ecA; lia)) as [n Hn].
    assert (En: x1 n = 1) by (rewrite <- (Nat.add_0_l n), S1; exact Hn).
    destruct (HC n) as [q Hq]. destruct (HC (n + Z.to_nat ecB)%nat) as [q' Hq'].
    rewrite S2, S1, En in Hq'. rewrite (proj2 (f2_return (x2 n) (Z.to_nat ecB) (Hx2 n))) in Hq'
      by (rewrite Z2Nat.id by (unfold ecB; lia); apply Z.divide_refl).
    rewrite En in Hq. unfold f1 in Hq'. rewrite iter_mult in Hq' by (unfold ec_m1; lia).
    rewrite Z2Nat.id, Z.mul_1_r in Hq' by (unfold ecB; lia).
    rewrite <- (zpow_ok ec_m1 (fun x => x mod ec_m1) ltac:(unfold ec_m1; lia) ltac:(intros; apply Z.mod_mod; unfold ec_m1; lia) ec_a1 ecB ltac:(unfold ecB; lia)) in Hq'.
    set (w := zpow (fun x => x mod ec_m1) ec_a1 ecB mod ec_m1) in Hq'. vm_compute in w. subst w. unfold ecH1 in *. lia.
Qed.
