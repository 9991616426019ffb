(* Periods: hellekalek1995.  On the projective line over F_p, the integers modulo p and
   the extra point p, the step is the matrix ((b,a),(1,0)). *)
From Coq Require Import ZArith List Lia Znumtheory Zpow_facts.
From Verif Require Import Base StreamModel ArithModel ArithSpec ArithProofs NumProofs LcgModel LcgProofs Lcg2Proofs LcgExtra Lcg3Proofs LfProofs OrdProofs Ord2Proofs PerModel PerSpec PerProofs.
Import ListNotations. Open Scope Z_scope.

Notation hp := 2147483647. Notation ha := 9102. Notation hb := 2110599482.
Definition hstep (x : Z) : Z := match hellekalek1995_next x with Some y => y | None => 0 end.
Definition Hstep (x : Z) : Z := if x =? hp then hb else if x =? 0 then hp else hstep x.

Lemma gcd_below x : 0 < x < hp -> Z.gcd x hp = 1.
Proof.
  intros Hx. apply Zgcd_1_rel_prime. apply rel_prime_sym. apply prime_rel_prime; [exact prime_2147483647|].
  intros HD. apply Z.divide_pos_le in HD; lia.
Qed.

Lemma hstep_ok x : 0 <= x < hp -> hellekalek1995_next x = Some (hstep x) /\ 0 <= hstep x < hp /\
  (x <> 0 -> exists i, i * x mod hp = 1 /\ hstep x = (ha * i + hb) mod hp).
Proof.
  intros Hx. unfold hstep, hellekalek1995_next. change (2147483647 - 36884165) with hb.
  destruct (icg_next_ok u32 ha hb hp x ltac:(apply minstd_wf; lia) ltac:(left; apply exact_small; lia) Hx) as [i [E [_ [_ H2]]]].
  change (cmod u32 hp) with hp in *. rewrite E. split; [reflexivity|]. split; [apply Z.mod_pos_bound; lia|].
  intros H0. exists i. split; [|reflexivity]. apply H2. apply gcd_below. lia.
Qed.
Lemma hstep_0 : hstep 0 = hb. Proof. vm_compute. reflexivity. Qed.

(* x is the point with the coordinates u, v *)
Definition rep (x u v : Z) : Prop :=
  if x =? hp then (hp | v) /\ ~ (hp | u) else (hp | u - x * v) /\ ~ (hp | v).

Lemma ndiv_mul x y : ~ (hp | x) -> ~ (hp | y) -> ~ (hp | x * y).
Proof. intros Hx Hy HD. apply prime_mult in HD; [|exact prime_2147483647]. tauto. Qed.

Lemma rep_eqm x u v u' v' : (hp | u - u') -> (hp | v - v') -> rep x u v -> rep x u' v'.
Proof.
  intros [i Hi] [j Hj]. unfold rep. destruct (Z.eqb_spec x hp).
  - intros [[q Hq] HN]. split; [exists (q - j); lia|]. intros [r Hr]. apply HN. exists (r + i). lia.
  - intros [[q Hq] HN]. split; [exists (q - i + x * j); lia|]. intros [r Hr]. apply HN. exists (r + j). lia.
Qed.

Lemma rep_unique x y u v : 0 <= x <= hp -> 0 <= y <= hp -> rep x u v -> rep y u v -> x = y.
Proof.
  intros Hx Hy. unfold rep. destruct (Z.eqb_spec x hp), (Z.eqb_spec y hp); try tauto; [lia|].
  intros [[q Hq] HN] [[r Hr] _]. assert (HD: (hp | (y - x) * v)) by (exists (q - r); lia).
  apply prime_mult in HD; [|exact prime_2147483647]. destruct HD as [[w Hw]|HD]; [|contradiction]. lia.
Qed.

Lemma rep_pick x : 0 <= x < hp -> rep x x 1.
Proof.
  intros Hx. unfold rep. destruct (Z.eqb_spec x hp); [lia|]. split; [exists 0; lia|].
  intros HD. apply Z.divide_pos_le in HD; lia.
Qed.
Lemma rep_inf : rep hp 1 0.
Proof. unfold rep. rewrite Z.eqb_refl. split; [exists 0; lia|]. intros HD. apply Z.divide_pos_le in HD; lia. Qed.

Lemma Hstep_in x : 0 <= x <= hp -> 0 <= Hstep x <= hp.
Proof.
  intros Hx. unfold Hstep. destruct (Z.eqb_spec x hp); [lia|]. destruct (Z.eqb_spec x 0); [lia|].
  pose proof (hstep_ok x ltac:(lia)). lia.
Qed.

Lemma rep_step x u v : 0 <= x <= hp -> rep x u v -> rep (Hstep x) (hb * u + ha * v) u.
Proof.
  intros Hx HR. unfold Hstep. destruct (Z.eqb_spec x hp) as [->|Hn].
  - unfold rep in *. rewrite Z.eqb_refl in HR. destruct HR as [[q Hq] HN]. replace (hb =? hp) with false by reflexivity.
    split; [exists (ha * q); rewrite Hq; ring|exact HN].
  - destruct (Z.eqb_spec x 0) as [->|H0].
    + unfold rep in *. replace (0 =? hp) with false in HR by reflexivity. rewrite Z.eqb_refl. destruct HR as [[q Hq] HN].
      split; [exists q; lia|]. intros [r Hr]. apply (ndiv_mul ha v); [intros HD; apply Z.divide_pos_le in HD; lia|exact HN|]. exists (r - hb * q). lia.
    + destruct (hstep_ok x ltac:(lia)) as [_ [HB HI]]. destruct (HI H0) as [i [Hi E]].
      unfold rep in *. destruct (Z.eqb_spec x hp); [lia|]. destruct (Z.eqb_spec (hstep x) hp); [lia|].
      destruct HR as [[q Hq] HN]. split.
      * rewrite E. pose proof (Z.div_mod (ha * i + hb) hp ltac:(lia)) as E1. pose proof (Z.div_mod (i * x) hp ltac:(lia)) as E2. rewrite Hi in E2.
        set (k1 := (ha * i + hb) / hp) in *. set (k2 := i * x / hp) in *.
        replace ((ha * i + hb) mod hp) with (ha * i + hb - hp * k1) by lia.
        exists (k1 * u - ha * i * q - ha * k2 * v). replace u with (x * v + q * hp) by lia.
        replace (hb * (x * v + q * hp) + ha * v - (ha * i + hb - hp * k1) * (x * v + q * hp))
          with (ha * v - ha * (i * x) * v - ha * i * q * hp + hp * k1 * (x * v + q * hp)) by ring.
        rewrite E2. ring.
      * intros [r Hr]. apply (ndiv_mul x v); [intros HD; apply Z.divide_pos_le in HD; lia|exact HN|]. exists (r - q). lia.
Qed.

(* c M + d *)
Definition acts (cd : Z * Z) (k : nat) : Prop := forall x u v, 0 <= x <= hp -> rep x u v ->
  rep (iter k Hstep x) (fst cd * (hb * u + ha * v) + snd cd * u) (fst cd * u + snd cd * v).
Definition hsq (cd : Z * Z) : Z * Z :=
  ((fst cd * (fst cd * hb + 2 * snd cd)) mod hp, (fst cd * fst cd * ha + snd cd * snd cd) mod hp).

Lemma Hiter_in k x : 0 <= x <= hp -> 0 <= iter k Hstep x <= hp.
Proof. intros Hx. induction k as [|k IH]; [exact Hx|]. rewrite iter_succ_r. apply Hstep_in. exact IH. Qed.

Lemma acts_1 : acts (1, 0) 1.
Proof.
  intros x u v Hx HR. cbn [fst snd iter]. apply (rep_eqm _ (hb * u + ha * v) u); [exists 0; ring|exists 0; ring|]. apply rep_step; assumption.
Qed.

Lemma acts_sq cd k : acts cd k -> acts (hsq cd) (k + k).
Proof.
  intros HA x u v Hx HR. rewrite iter_add. pose proof (HA _ _ _ (Hiter_in k x Hx) (HA x u v Hx HR)) as HR2.
  destruct cd as [c d]. unfold hsq. cbn [fst snd] in *. revert HR2.
  pose proof (Z.div_mod (c * (c * hb + 2 * d)) hp ltac:(lia)) as E1. pose proof (Z.div_mod (c * c * ha + d * d) hp ltac:(lia)) as E2.
  set (k1 := c * (c * hb + 2 * d) / hp) in *. set (k2 := (c * c * ha + d * d) / hp) in *.
  replace ((c * (c * hb + 2 * d)) mod hp) with (c * (c * hb + 2 * d) - hp * k1) by lia.
  replace ((c * c * ha + d * d) mod hp) with (c * c * ha + d * d - hp * k2) by lia.
  apply rep_eqm; [exists (k1 * (hb * u + ha * v) + k2 * u); ring|exists (k1 * u + k2 * v); ring].
Qed.

Lemma acts_pow j : acts (iter j hsq (1, 0)) (2 ^ j).
Proof.
  induction j as [|j IH]; [exact acts_1|]. rewrite iter_succ_r.
  replace (2 ^ S j)%nat with (2 ^ j + 2 ^ j)%nat by (cbn [Nat.pow]; lia). apply acts_sq. exact IH.
Qed.

Lemma acts_pow_eq j cd : iter j hsq (1, 0) = cd -> acts cd (2 ^ j).
Proof. intros <-. apply acts_pow. Qed.
Lemma acts_31 : acts (0, 2147474545) (2 ^ 31).
Proof. apply acts_pow_eq. vm_compute. reflexivity. Qed.
Lemma acts_30 : acts (2, 36884165) (2 ^ 30).
Proof. apply acts_pow_eq. vm_compute. reflexivity. Qed.

Lemma rep_exists x : 0 <= x <= hp -> exists u v, rep x u v.
Proof. intros Hx. destruct (Z.eq_dec x hp) as [->|]; [exists 1, 0; exact rep_inf|exists x, 1; apply rep_pick; lia]. Qed.

Lemma rep_scale x u v d : ~ (hp | d) -> rep x u v -> rep x (d * u) (d * v).
Proof.
  intros Hd. unfold rep. destruct (Z.eqb_spec x hp).
  - intros [[q Hq] HN]. split; [exists (d * q); rewrite Hq; ring|]. apply ndiv_mul; assumption.
  - intros [[q Hq] HN]. split; [exists (d * q); replace u with (x * v + q * hp) by lia; ring|]. apply ndiv_mul; assumption.
Qed.

Lemma H_back x : 0 <= x <= hp -> iter (2 ^ 31) Hstep x = x.
Proof.
  intros Hx. destruct (rep_exists x Hx) as [u [v HR]]. pose proof (acts_31 x u v Hx HR) as HA. cbn [fst snd] in HA.
  apply (rep_unique _ _ (2147474545 * u) (2147474545 * v)); [apply Hiter_in; exact Hx|exact Hx| |].
  - eapply rep_eqm; [| |exact HA]; exists 0; ring.
  - apply rep_scale; [|exact HR]. intros HD. apply Z.divide_pos_le in HD; lia.
Qed.

Lemma sq_pow y k : 0 <= k -> (y * y) ^ k = y ^ (2 * k).
Proof. intros Hk. rewrite Z.pow_mul_r by lia. rewrite Z.pow_2_r. reflexivity. Qed.
Lemma div_pow y n : 0 < n -> (hp | y) -> y ^ n mod hp = 0.
Proof.
  intros Hn Hy. apply Z.mod_divide; [lia|]. replace n with (Z.succ (n - 1)) by lia. rewrite Z.pow_succ_r by lia. apply Z.divide_mul_l. exact Hy.
Qed.
(* b^2 + 4 a is not a square modulo p *)
Lemma nonresidue y : ~ (hp | y * y - (hb * hb + 4 * ha)).
Proof.
  intros HD. set (D := hb * hb + 4 * ha) in *.
  assert (E: (y * y) mod hp = D mod hp).
  { apply Z.mod_divide in HD; [|lia]. destruct (Z.mod_divide (y * y - D) hp ltac:(lia)) as [H1 _]. destruct (H1 HD) as [q Hq].
    replace (y * y) with (D + q * hp) by lia. apply Z.mod_add. lia. }
  assert (E1: (y * y) ^ 1073741823 mod hp = hp - 1).
  { rewrite Zpower_mod, E, <- Zpower_mod by lia.
    rewrite <- (zpow_ok hp (fun x => x mod hp) ltac:(lia) ltac:(intros; apply Z.mod_mod; lia) D 1073741823 ltac:(lia)). vm_compute. reflexivity. }
  rewrite (sq_pow y 1073741823 (proj1 (Z.leb_le 0 1073741823) eq_refl)) in E1. replace (2 * 1073741823) with 2147483646 in E1 by reflexivity.
  destruct (Zdivide_dec hp y) as [Hy|Hy].
  - pose proof (div_pow y 2147483646 (proj1 (Z.ltb_lt 0 2147483646) eq_refl) Hy) as E0. rewrite E0 in E1. discriminate E1.
  - pose proof (fermat hp y prime_2147483647 Hy) as E0. replace (hp - 1) with 2147483646 in E0 by reflexivity. rewrite E0 in E1. discriminate E1.
Qed.

Lemma H_not_back x : 0 <= x <= hp -> iter (2 ^ 30) Hstep x <> x.
Proof.
  intros Hx E.
  assert (HA: forall u v, rep x u v -> rep x (2 * (hb * u + ha * v) + 36884165 * u) (2 * u + 36884165 * v)).
  { intros u v HR. pose proof (acts_30 x u v Hx HR) as HA. rewrite E in HA. exact HA. }
  destruct (Z.eq_dec x hp) as [->|Hn].
  - specialize (HA _ _ rep_inf). unfold rep in HA. rewrite Z.eqb_refl in HA. destruct HA as [HD _]. apply Z.divide_pos_le in HD; lia.
  - specialize (HA _ _ (rep_pick x ltac:(lia))). unfold rep in HA. destruct (Z.eqb_spec x hp); [lia|]. destruct HA as [[q Hq] _].
    apply (nonresidue (2 * x - hb)). exists (- 2 * q). lia.
Qed.

Lemma H_return x n : 0 <= x <= hp -> (iter n Hstep x = x <-> (2147483648 | Z.of_nat n)).
Proof.
  intros Hx. split.
  - intros E. pose proof (iter_gcd_fix Hstep x (2 ^ 31) n E (H_back x Hx)) as HG.
    destruct (divides_pow2 31 (Nat.gcd (2 ^ 31) n) (Nat.gcd_divide_l _ _)) as [j [Hj Ej]]. rewrite Ej in HG.
    destruct (Nat.eq_dec j 31) as [-> | Hne].
    + destruct (Nat.gcd_divide_r (2 ^ 31) n) as [q Hq]. rewrite Ej in Hq. exists (Z.of_nat q).
      rewrite Hq at 1. rewrite Nat2Z.inj_mul, Nat2Z.inj_pow. reflexivity.
    + exfalso. apply (iter_mul_fix _ _ _ (2 ^ (30 - j))) in HG. rewrite <- Nat.pow_add_r in HG.
      replace (j + (30 - j))%nat with 30%nat in HG by lia. exact (H_not_back x Hx HG).
  - intros [q Hq]. assert (En: n = (2 ^ 31 * Z.to_nat q)%nat).
    { apply Nat2Z.inj. rewrite Nat2Z.inj_mul, Nat2Z.inj_pow, Z2Nat.id by lia. change (Z.of_nat 2 ^ Z.of_nat 31) with 2147483648. lia. }
    rewrite En. apply iter_mul_fix. apply H_back. exact Hx.
Qed.

Lemma H_full : full_cycle (fun x => Some (Hstep x)) 0 hp.
Proof.
  apply (full_cycle_of _ Hstep); [lia| |].
  - intros x Hx. split; [reflexivity|]. apply Hstep_in. exact Hx.
  - intros x n Hx. apply H_return. exact Hx.
Qed.
Lemma iterM_H n x : iterM n (fun x => Some (Hstep x)) x = Some (iter n Hstep x).
Proof. exact (proj1 (iterM_some (fun x => Some (Hstep x)) Hstep (fun _ => True) ltac:(auto) n x I)). Qed.
Lemma H_cover x : 0 <= x <= hp -> exists n, Z.of_nat n <= hp /\ iter n Hstep hb = x /\
  forall k, Z.of_nat k <= hp -> iter k Hstep hb = x -> k = n.
Proof.
  intros Hx. destruct (proj2 (H_full hb ltac:(lia)) x Hx) as [n [H1 [H2 H3]]]. exists n.
  rewrite iterM_H in H2. split; [lia|]. split; [congruence|]. intros k Hk E. apply H3; [lia|]. rewrite iterM_H. congruence.
Qed.

(* p as a natural number, sealed *)
Lemma hN_ex : { N : nat | Z.of_nat N = hp }.
Proof. exists (Z.to_nat hp). apply Z2Nat.id. lia. Qed.
Definition hN : nat := proj1_sig hN_ex.
Lemma hN_ok : Z.of_nat hN = hp. Proof. exact (proj2_sig hN_ex). Qed.

(* the extra point comes last, the zero before it *)
Lemma H_inf : exists n, Z.of_nat n = hp /\ iter n Hstep hb = hp.
Proof.
  exists (hN). split; [exact hN_ok|].
  assert (E: iter (1 + hN) Hstep hp = hp) by (apply H_return; [lia|]; exists 1; pose proof hN_ok; lia).
  rewrite iter_add in E. exact E.
Qed.
Lemma H_noinf k : Z.of_nat k < hp -> iter k Hstep hb <> hp.
Proof.
  intros Hk E. destruct H_inf as [n [Hn En]]. destruct (H_cover hp ltac:(lia)) as [m [_ [_ HU]]].
  pose proof (HU k ltac:(lia) E). pose proof (HU n ltac:(lia) En). lia.
Qed.
Lemma h_iter_H k : Z.of_nat k < hp -> iter k hstep hb = iter k Hstep hb.
Proof.
  induction k as [|k IH]; intros Hk; [reflexivity|]. rewrite !iter_succ_r, IH by lia.
  pose proof (H_noinf k ltac:(lia)) as H1. pose proof (H_noinf (S k) Hk) as H2. rewrite iter_succ_r in H2.
  unfold Hstep at 2. unfold Hstep at 1 in H2. set (z := iter k Hstep hb) in *. destruct (Z.eqb_spec z hp); [contradiction|].
  destruct (Z.eqb_spec z 0); [contradiction|reflexivity].
Qed.
Lemma h_back : iter (hN) hstep hb = hb.
Proof.
  destruct (H_cover 0 ltac:(lia)) as [n [Hn [En _]]].
  assert (Hn1: Z.of_nat (S n) = hp).
  { destruct H_inf as [m [Hm Em]]. assert (n <> m) by (intros ->; lia).
    assert (E: iter (S n) Hstep hb = hp) by (rewrite iter_succ_r, En; reflexivity).
    destruct (H_cover hp ltac:(lia)) as [w [_ [_ HU]]]. rewrite <- Hm. f_equal. rewrite (HU m ltac:(lia) Em). apply HU; [lia|exact E]. }
  assert (EN: hN = S n) by (pose proof hN_ok; lia). rewrite EN, iter_succ_r, h_iter_H, En by lia. exact hstep_0.
Qed.
Lemma h_orbit x : 0 <= x < hp -> exists k, Z.of_nat k < hp /\ iter k hstep hb = x.
Proof.
  intros Hx. destruct (H_cover x ltac:(lia)) as [n [Hn [En _]]]. exists n.
  assert (Z.of_nat n < hp).
  { enough (Z.of_nat n <> hp) by lia. intros E. destruct H_inf as [m [Hm Em]]. assert (n = m) by lia. subst m. lia. }
  split; [assumption|]. rewrite h_iter_H by assumption. exact En.
Qed.
Lemma h_return_b n : iter n hstep hb = hb <-> (hp | Z.of_nat n).
Proof.
  pose proof hN_ok as HO. assert (HN: (0 < hN)%nat) by lia.
  split.
  - intros E. pose proof (iter_mod_fix hstep hb n (hN) HN E h_back) as E2.
    pose proof (Nat.mod_upper_bound n (hN) ltac:(lia)) as HB. pose proof (Nat.div_mod n (hN) ltac:(lia)) as HM.
    set (r := (n mod hN)%nat) in *. set (w := (n / hN)%nat) in *.
    rewrite h_iter_H in E2 by lia. destruct (H_cover hb ltac:(lia)) as [m [_ [_ HU]]].
    pose proof (HU r ltac:(lia) E2) as E3. pose proof (HU O ltac:(lia) eq_refl). assert (r = 0%nat) by lia. subst m.
    exists (Z.of_nat w). rewrite HM, H0, Nat.add_0_r, Nat2Z.inj_mul, HO. apply Z.mul_comm.
  - intros [q Hq]. assert (En: n = (hN * Z.to_nat q)%nat).
    { apply Nat2Z.inj. rewrite Nat2Z.inj_mul, Z2Nat.id by lia. lia. }
    rewrite En. apply iter_mul_fix. exact h_back.
Qed.

Lemma hellekalek_full : full_cycle hellekalek1995_next 0 (hp - 1).
Proof.
  apply (full_cycle_of _ hstep); [lia| |].
  - intros x Hx. destruct (hstep_ok x ltac:(lia)) as [E [HB _]]. split; [exact E|lia].
  - intros x n Hx. change (hp - 1 - 0 + 1) with hp. rewrite <- h_return_b.
    destruct (h_orbit x ltac:(lia)) as [k [Hk <-]]. rewrite <- iter_add. split.
    + intros E. pose proof hN_ok as HO. set (m := (hN - k)%nat).
      assert (E2: iter (k + n + m) hstep hb = iter (k + m) hstep hb) by (rewrite !(iter_add _ _ _ m), E; reflexivity).
      replace (k + n + m)%nat with (hN + n)%nat in E2 by (unfold m; lia).
      replace (k + m)%nat with (hN) in E2 by (unfold m; lia).
      rewrite iter_add, h_back in E2. exact E2.
    + intros E. rewrite Nat.add_comm, iter_add, E. reflexivity.
Qed.
