From Verif Require Import Base ArithSpec ArithModel ArithProofs ConstModProofs InvertProofs StreamModel LcgModel.
From Coq Require Import ZifyBool Znumtheory Zpow_facts Arith ArithRing.

Ltac Zify.zify_post_hook ::= idtac.

Lemma lcg_next_spec t a c m x :
  lcg_wf t a c m -> exact_mult t m a -> 0 <= x < cmod t m ->
  lcg_next t a c m x = Some (lcg_spec a c (cmod t m) x).
Proof.
  intros (Hwf & HM & Ha & Hc) Hex Hx. unfold lcg_next, lcg_spec.
  apply cm_mult_add_spec_gen; assumption.
Qed.

Lemma lcg_spec_range a c M x : 0 < M -> 0 <= lcg_spec a c M x < M.
Proof. intros. apply Z.mod_pos_bound. assumption. Qed.

Lemma iter_succ_r {A} n (f : A -> A) x : iter (S n) f x = f (iter n f x).
Proof.
  revert x. induction n as [|n IH]; intros x; [reflexivity|].
  change (iter (S (S n)) f x) with (iter (S n) f (f x)). rewrite IH. reflexivity.
Qed.

Lemma lcg_iter t a c m n x :
  lcg_wf t a c m -> exact_mult t m a -> 0 <= x < cmod t m ->
  iterM n (lcg_next t a c m) x = Some (iter n (lcg_spec a c (cmod t m)) x) /\
  0 <= iter n (lcg_spec a c (cmod t m)) x < cmod t m.
Proof.
  intros Hwf Hex. revert x. induction n as [|n IH]; intros x Hx.
  - split; [reflexivity|exact Hx].
  - cbn [iterM iter]. rewrite lcg_next_spec by assumption. cbn [bind].
    apply IH. apply lcg_spec_range. apply cmod_pos. apply Hwf.
Qed.

(* ---------- geometric sums ---------- *)

Lemma geo_mul a n : geo a n * (a - 1) = a ^ Z.of_nat n - 1.
Proof.
  induction n as [|n IH]; [reflexivity|]. cbn [geo].
  rewrite Nat2Z.inj_succ, Z.pow_succ_r by lia.
  transitivity (a - 1 + a * (geo a n * (a - 1))); [ring|rewrite IH; ring].
Qed.

Lemma lcg_iter_closed a c M n x :
  0 < M -> 0 <= x < M ->
  iter n (lcg_spec a c M) x = (a ^ Z.of_nat n * x + c * geo a n) mod M.
Proof.
  intros HM Hx. induction n as [|n IH].
  - cbn [iter geo]. change (Z.of_nat 0) with 0. rewrite Z.pow_0_r, Z.mul_0_r, Z.add_0_r, Z.mul_1_l.
    symmetry. apply Z.mod_small. assumption.
  - rewrite iter_succ_r, IH. unfold lcg_spec.
    rewrite <- Zplus_mod_idemp_l, Zmult_mod_idemp_r, Zplus_mod_idemp_l.
    cbn [geo]. rewrite Nat2Z.inj_succ, Z.pow_succ_r by lia. f_equal. ring.
Qed.

(* ---------- discard ---------- *)

Lemma eqm_sub0 M x y : 0 < M -> (x - y) mod M = 0 -> eqm M x y.
Proof.
  intros HM H. unfold eqm. replace x with (y + (x - y)) by ring.
  rewrite Zplus_mod, H, Z.add_0_r, Z.mod_mod by lia. reflexivity.
Qed.
Lemma eqm_add M x y x' y' : eqm M x x' -> eqm M y y' -> eqm M (x + y) (x' + y').
Proof. unfold eqm. intros H1 H2. rewrite (Zplus_mod x), (Zplus_mod x'), H1, H2. reflexivity. Qed.
Lemma eqm_mul M x y x' y' : eqm M x x' -> eqm M y y' -> eqm M (x * y) (x' * y').
Proof. unfold eqm. intros H1 H2. rewrite (Zmult_mod x), (Zmult_mod x'), H1, H2. reflexivity. Qed.
Lemma eqm_mod M x : eqm M (x mod M) x.
Proof. unfold eqm. apply Zmod_mod. Qed.
Lemma eqm_refl M x : eqm M x x. Proof. reflexivity. Qed.
Lemma eqm_sym M x y : eqm M x y -> eqm M y x. Proof. unfold eqm. congruence. Qed.
Lemma eqm_trans M x y z : eqm M x y -> eqm M y z -> eqm M x z. Proof. unfold eqm. congruence. Qed.

Lemma pow_geo_add a z k u :
  geo a (z + k) * u = (a - 1) * (geo a z * geo a k) * u + geo a z * u + geo a k * u.
Proof.
  induction z as [|z IH]; cbn [geo Nat.add].
  - ring.
  - transitivity (u + a * (geo a (z + k) * u)); [ring|]. rewrite IH.
    ring.
Qed.

(* combining step of the loop: with y_n = geo n * u and a-1 = g*u,
   g*y_z*y_k + y_z + y_k = y_(z+k) *)
Lemma comb_geo a g u z k :
  a - 1 = g * u ->
  g * ((geo a z * u) * (geo a k * u)) + (geo a z * u + geo a k * u) = geo a (z + k) * u.
Proof. intros H. rewrite pow_geo_add, H. ring. Qed.

Lemma disc_loop_spec t m a g u e z k az ak :
  cm_wf t m -> exact_mod m -> 0 <= g < cmod t m -> a - 1 = g * u ->
  0 <= az < cmod t m -> 0 <= ak < cmod t m ->
  eqm (cmod t m) az (geo a z * u) -> eqm (cmod t m) ak (geo a k * u) ->
  exists r, lcg_disc_loop (cm_mult t m) (cm_mult_add t m) (cm_add t m) g az ak e = Some r /\
    0 <= r < cmod t m /\ eqm (cmod t m) r (geo a (z + Pos.to_nat e * k) * u).
Proof.
  intros Hwf Hex Hg Hagu. pose proof (cmod_pos t m Hwf) as HM.
  assert (Hcomb : forall x y zx zy, 0 <= x < cmod t m -> 0 <= y < cmod t m ->
     eqm (cmod t m) x (geo a zx * u) -> eqm (cmod t m) y (geo a zy * u) ->
     exists r, bind (cm_mult t m x y) (fun xy => bind (cm_add t m x y) (fun s => cm_mult_add t m g xy s)) = Some r /\
       0 <= r < cmod t m /\ eqm (cmod t m) r (geo a (zx + zy) * u)).
  { intros x y zx zy Hx Hy Ex Ey. rewrite cm_mult_spec by assumption. cbn [bind].
    rewrite cm_add_spec by assumption. cbn [bind].
    rewrite cm_mult_add_spec; try assumption; try (apply Z.mod_pos_bound; assumption).
    eexists. split; [reflexivity|]. split; [apply Z.mod_pos_bound; assumption|].
    rewrite <- (comb_geo a g u zx zy Hagu).
    eapply eqm_trans; [apply eqm_mod|]. apply eqm_add.
    - apply eqm_mul; [apply eqm_refl|]. eapply eqm_trans; [apply eqm_mod|]. apply eqm_mul; assumption.
    - eapply eqm_trans; [apply eqm_mod|]. apply eqm_add; assumption. }
  revert z k az ak. induction e as [e IH|e IH|]; intros z k az ak Haz Hak Ez Ek; cbn [lcg_disc_loop].
  - destruct (Hcomb az ak z k Haz Hak Ez Ek) as (r & -> & Hr & Er). cbn [bind].
    destruct (Hcomb ak ak k k Hak Hak Ek Ek) as (r2 & -> & Hr2 & Er2). cbn [bind].
    destruct (IH (z + k)%nat (k + k)%nat r r2) as (s & Hs & Hs1 & Hs2); try assumption.
    exists s. split; [exact Hs|]. split; [exact Hs1|].
    replace (z + Pos.to_nat e~1 * k)%nat with (z + k + Pos.to_nat e * (k + k))%nat by (rewrite Pos2Nat.inj_xI; ring).
    exact Hs2.
  - destruct (Hcomb ak ak k k Hak Hak Ek Ek) as (r2 & -> & Hr2 & Er2). cbn [bind].
    destruct (IH z (k + k)%nat az r2) as (s & Hs & Hs1 & Hs2); try assumption.
    exists s. split; [exact Hs|]. split; [exact Hs1|].
    replace (z + Pos.to_nat e~0 * k)%nat with (z + Pos.to_nat e * (k + k))%nat by (rewrite Pos2Nat.inj_xO; ring).
    exact Hs2.
  - destruct (Hcomb az ak z k Haz Hak Ez Ek) as (r & -> & Hr & Er). cbn [bind].
    destruct (Hcomb ak ak k k Hak Hak Ek Ek) as (r2 & -> & Hr2 & Er2). cbn [bind].
    exists r. split; [reflexivity|]. split; [assumption|].
    replace (z + Pos.to_nat 1 * k)%nat with (z + k)%nat by (rewrite Pos2Nat.inj_1; ring). assumption.
Qed.

Lemma cm_pow2_true_of t m : cm_wf t m -> is_pow2 (cmod t m) -> cm_pow2 t m = true.
Proof.
  intros Hwf (k & Hk & HM). unfold cm_pow2. rewrite unsigned_m_eq by assumption.
  unfold cmod in HM. destruct (Z.eqb_spec m 0) as [->|Hnz].
  - apply Z.eqb_eq. apply Z.land_0_r.
  - apply Z.eqb_eq. destruct Hwf as [Hw Hm]. rewrite to_uns_ok; [|assumption|lia].
    rewrite HM. replace (2 ^ k - 1) with (Z.ones k) by (rewrite Z.ones_equiv; lia).
    rewrite Z.land_comm, Z.land_ones by assumption. apply Z_mod_same_full.
Qed.

Lemma cm_mult_pow2_any t m a x :
  cm_wf t m -> is_pow2 (cmod t m) -> 0 <= a < cmod t m -> inT t x ->
  cm_mult t m a x = Some (a * x mod cmod t m).
Proof.
  intros Hwf Hp Ha Hx. unfold cm_mult. rewrite cm_pow2_true_of by assumption.
  rewrite cm_mask_spec; [|assumption|apply cm_pow2_true_of; assumption].
  f_equal. rewrite (to_uns_residue t m a) by assumption.
  assert (Hd : exists q, 2 ^ bits t = q * cmod t m).
  { destruct Hp as (k & Hk & HM). destruct Hwf as [Hw Hm].
    assert (k <= bits t).
    { destruct (Z.le_gt_cases k (bits t)); [assumption|]. pose proof (cmod_le t m (conj Hw Hm)).
      destruct (imax_bounds t Hw) as [Hi _].
      assert (2 ^ bits t < 2 ^ k) by (apply Z.pow_lt_mono_r; unfold wf_ity in Hw; lia). lia. }
    exists (2 ^ (bits t - k)). rewrite HM, <- Z.pow_add_r by lia. f_equal. lia. }
  destruct Hd as [q Hq]. unfold to_uns.
  rewrite <- (Zmult_mod_idemp_r (x mod 2 ^ bits t)), <- (Zmult_mod_idemp_r x).
  f_equal. f_equal. pose proof (cmod_pos t m Hwf).
  assert (0 < 2 ^ bits t) by (destruct (bits_pow t (proj1 Hwf)); lia).
  rewrite (Z.div_mod x (2 ^ bits t)) at 2 by lia. rewrite Hq.
  replace (q * cmod t m * (x / (q * cmod t m)) + x mod (q * cmod t m))
     with (x mod (q * cmod t m) + (q * (x / (q * cmod t m))) * cmod t m) by ring.
  rewrite Z_mod_plus_full. reflexivity.
Qed.

Lemma eqm_inv_gcd M c r : 0 < M -> is_inv M c r -> eqm M (r * c) (Z.gcd c M).
Proof. intros HM [_ H]. apply eqm_sub0; assumption. Qed.

Lemma eqm_eq M x y : 0 <= x < M -> eqm M x y -> x = y mod M.
Proof. intros Hx H. unfold eqm in H. rewrite Z.mod_small in H; assumption. Qed.

(* what discard computes, in all cases in which it does not use a wrapped
   intermediate value *)
Lemma lcg_discard_value t a c m z x :
  lcg_wf t a c m -> exact_mod m -> 2 <= a -> 0 <= z -> 0 <= x < cmod t m ->
  (disc_g a (cmod t m) = 1 -> c = 0 \/ is_pow2 (cmod t m) \/ a ^ z mod cmod t m <> 0) ->
  lcg_discard t a c m z x =
    Some ((a ^ z * x + c * (disc_h a (cmod t m) * geo a (Z.to_nat z))) mod cmod t m).
Proof.
  intros (Hwf & HM & Ha & Hc) Hex Ha2 Hz Hx Hspec.
  set (M := cmod t m) in *.
  pose proof (residue_ok t m a Hwf Ha) as Hamax.
  pose proof (proj1 Hwf) as Hw.
  unfold lcg_discard. unfold subT at 1. rewrite norm_ok0 by (try assumption; lia). cbn [bind].
  destruct (cm_invert_spec t m (a - 1)) as (bi & Hbi & Hinv); try assumption; try (fold M; lia).
  rewrite Hbi. cbn [bind]. fold M in Hinv. pose proof Hinv as [Hbir _].
  rewrite cm_mult_spec by (try assumption; fold M; lia). cbn [bind]. fold M.
  assert (Hg : (a - 1) * bi mod M = disc_g a M).
  { unfold disc_g. rewrite Z.mul_comm. pose proof (eqm_inv_gcd M (a - 1) bi ltac:(lia) Hinv) as E.
    unfold eqm in E. rewrite E. apply Z.mod_small.
    pose proof (Z.gcd_nonneg (a - 1) M).
    pose proof (Z.divide_pos_le (Z.gcd (a - 1) M) (a - 1) ltac:(lia) (Z.gcd_divide_l (a - 1) M)). lia. }
  rewrite Hg.
  assert (Hgpos : 0 < disc_g a M).
  { unfold disc_g. pose proof (Z.gcd_nonneg (a - 1) M).
    destruct (Z.eq_dec (Z.gcd (a - 1) M) 0) as [E|]; [|lia]. apply Z.gcd_eq_0_l in E. lia. }
  assert (Hdiv : (disc_g a M | a - 1)) by apply Z.gcd_divide_l.
  assert (Hgle : disc_g a M <= a - 1) by (apply Z.divide_pos_le; [lia|assumption]).
  assert (Hu : a - 1 = disc_g a M * ((a - 1) / disc_g a M)).
  { apply Z.div_exact; [lia|]. apply Z.mod_divide; [lia|assumption]. }
  assert (Hzn : Z.of_nat (Z.to_nat z) = z) by lia.
  destruct (Z.eqb_spec (disc_g a M) 1) as [Hg1|Hgn].
  - specialize (Hspec Hg1).
    assert (Hh1 : disc_h a M = 1).
    { unfold disc_h. rewrite Hg1, Z.div_1_r. exact Hg1. }
    rewrite Hh1, Z.mul_1_l.
    rewrite cm_pow_spec by (try assumption; fold M; lia). cbn [bind]. fold M.
    pose proof (Z.mod_pos_bound (a ^ z) M ltac:(lia)) as Haz.
    assert (HazT : 0 <= a ^ z mod M <= imax t) by (apply (residue_ok t m); assumption).
    assert (Hk : exists y, subT t (a ^ z mod M) 1 = Some y /\
                  cm_mult t m (c * bi mod M) y = Some (c * bi * (a ^ z - 1) mod M)).
    { assert (Hcb : 0 <= c * bi mod M < M) by (apply Z.mod_pos_bound; lia).
      destruct (Z.eq_dec (a ^ z mod M) 0) as [H0|Hn0].
      - rewrite H0. unfold subT. change (0 - 1) with (-1).
        destruct Hspec as [-> | [Hp2 | Hne]]; [| |lia].
        + rewrite !Z.mul_0_l, Zmod_0_l.
          assert (Hm0 : forall y, cm_mult t m 0 y = Some 0).
          { intros y. unfold cm_mult. destruct (cm_pow2 t m) eqn:Ep; [|reflexivity].
            rewrite cm_mask_spec by assumption. destruct (imax_bounds t Hw). rewrite (to_uns_ok t 0) by (try assumption; lia).
            rewrite Z.mul_0_l, Zmod_0_l. reflexivity. }
          unfold norm. destruct (sgn t) eqn:Es.
          * exists (-1). destruct (bits_pow t Hw). unfold imin, imax. rewrite Es.
            destruct (Z.leb_spec (- 2 ^ (bits t - 1)) (-1)); [|lia].
            destruct (Z.leb_spec (-1) (2 ^ (bits t - 1) - 1)); [|lia].
            split; [reflexivity|apply Hm0].
          * eexists. split; [reflexivity|apply Hm0].
        + assert (HE : forall y, eqm M y (-1) -> c * bi mod M * y mod M = c * bi * (a ^ z - 1) mod M).
          { intros y Hy. apply eqm_mul; [apply eqm_mod|].
            eapply eqm_trans; [exact Hy|]. change (-1) with (0 - 1). unfold Z.sub. apply eqm_add; [|reflexivity].
            unfold eqm. rewrite H0. apply Zmod_0_l. }
          destruct (bits_pow t Hw) as (Hb1 & Hb2 & Hb3).
          destruct (norm t (-1)) as [y|] eqn:Ey.
          * exists y. split; [reflexivity|]. rewrite cm_mult_pow2_any; try assumption.
            -- fold M. f_equal. apply HE. unfold norm in Ey. destruct (sgn t) eqn:Es.
               ++ destruct ((imin t <=? -1) && (-1 <=? imax t)); [|discriminate]. injection Ey as <-. reflexivity.
               ++ injection Ey as <-. destruct Hp2 as (k & Hk & HMk).
                  assert (k <= bits t).
                  { destruct (Z.le_gt_cases k (bits t)); [assumption|].
                    pose proof (cmod_le t m Hwf). fold M in H0. fold M in H1. destruct (imax_bounds t Hw) as [Hi _].
                    assert (2 ^ bits t < 2 ^ k) by (apply Z.pow_lt_mono_r; unfold wf_ity in Hw; lia). lia. }
                  assert (HB : 2 ^ bits t = 2 ^ (bits t - k) * M).
                  { rewrite HMk, <- Z.pow_add_r by lia. f_equal. lia. }
                  replace ((-1) mod 2 ^ bits t) with (-1 + 2 ^ bits t).
                  2:{ apply Z.mod_unique with (-1); [left; lia|lia]. }
                  unfold eqm. rewrite HB. apply Z_mod_plus_full.
            -- unfold inT, norm in *. unfold imin, imax in *. destruct (sgn t) eqn:Es.
               ++ destruct (Z.leb_spec (- 2 ^ (bits t - 1)) (-1)); [|lia].
                  destruct (Z.leb_spec (-1) (2 ^ (bits t - 1) - 1)); [|lia]. injection Ey as <-. lia.
               ++ injection Ey as <-. pose proof (Z.mod_pos_bound (-1) (2 ^ bits t)). lia.
          * exfalso. unfold norm, imin, imax in Ey. destruct (sgn t) eqn:Es; [|discriminate].
            destruct (Z.leb_spec (- 2 ^ (bits t - 1)) (-1)); [|lia].
            destruct (Z.leb_spec (-1) (2 ^ (bits t - 1) - 1)); [|lia]. discriminate.
      - exists (a ^ z mod M - 1). split.
        + unfold subT. apply norm_ok0; [assumption|lia].
        + rewrite cm_mult_spec by (try assumption; fold M; lia). fold M. f_equal.
          apply eqm_mul; [apply eqm_mod|]. unfold Z.sub. apply eqm_add; [apply eqm_mod|reflexivity]. }
    destruct Hk as (y & -> & Hk). cbn [bind].
    rewrite cm_mult_spec by (try assumption; fold M; lia). cbn [bind]. fold M.
    rewrite Hk. cbn [bind].
    rewrite cm_mult_add_spec by (try assumption; fold M; try lia; apply Z.mod_pos_bound; lia).
    fold M. f_equal.
    apply eqm_add.
    + apply eqm_mul; [apply eqm_mod|reflexivity].
    + eapply eqm_trans; [apply eqm_mod|].
      rewrite <- Z.mul_assoc. apply eqm_mul; [reflexivity|].
      rewrite <- Hzn at 1. rewrite <- geo_mul.
      replace (bi * (geo a (Z.to_nat z) * (a - 1))) with (geo a (Z.to_nat z) * (bi * (a - 1))) by ring.
      rewrite <- (Z.mul_1_r (geo a (Z.to_nat z))) at 2. apply eqm_mul; [reflexivity|].
      pose proof (eqm_inv_gcd M (a - 1) bi ltac:(lia) Hinv) as E.
      change (Z.gcd (a - 1) M) with (disc_g a M) in E. rewrite Hg1 in E. exact E.
  - rewrite divT_ok by (try assumption; lia). cbn [bind].
    set (g := disc_g a M) in *. set (u := (a - 1) / g) in *.
    assert (Hur : 0 < u < M).
    { split; [nia|]. nia. }
    assert (HL : exists az, match z with
       | 0 => Some 0
       | Zpos e => lcg_disc_loop (cm_mult t m) (cm_mult_add t m) (cm_add t m) g 0 u e
       | Zneg _ => None end = Some az /\ 0 <= az < M /\ eqm M az (geo a (Z.to_nat z) * u)).
    { destruct z as [|e|e]; [| |lia].
      - exists 0. split; [reflexivity|]. split; [lia|]. reflexivity.
      - destruct (disc_loop_spec t m a g u e 0 1 0 u) as (r & Hr1 & Hr2 & Hr3); try assumption; fold M; try lia.
        + reflexivity.
        + cbn [geo]. replace ((1 + a * 0) * u) with u by ring. reflexivity.
        + exists r. split; [exact Hr1|]. split; [exact Hr2|].
          fold M in Hr3. rewrite Nat.add_0_l, Nat.mul_1_r in Hr3. exact Hr3. }
    destruct HL as (az & -> & Hazr & Haz). cbn [bind].
    rewrite cm_mult_add_spec by (try assumption; fold M; lia). cbn [bind].
    rewrite cm_mult_spec by (try assumption; fold M; lia). cbn [bind].
    destruct (cm_invert_spec t m u) as (ui & Hui & Huinv); try assumption.
    rewrite Hui. cbn [bind]. fold M in Huinv. pose proof Huinv as [Huir _]. fold M.
    rewrite cm_mult_spec by (try assumption; fold M; try lia; apply Z.mod_pos_bound; lia). cbn [bind]. fold M.
    rewrite cm_mult_add_spec by (try assumption; fold M; try lia; apply Z.mod_pos_bound; lia). fold M.
    f_equal. apply eqm_add.
    + apply eqm_mul; [|reflexivity]. eapply eqm_trans; [apply eqm_mod|].
      replace (a ^ z) with (g * (geo a (Z.to_nat z) * u) + 1).
      2:{ pose proof (geo_mul a (Z.to_nat z)) as Hgeo. rewrite Hzn, Hu in Hgeo. lia. }
      apply eqm_add; [|reflexivity]. apply eqm_mul; [reflexivity|assumption].
    + eapply eqm_trans; [apply eqm_mod|].
      eapply eqm_trans; [apply eqm_mul; [apply eqm_refl|apply eqm_mod]|].
      eapply eqm_trans; [apply eqm_mul; [apply eqm_refl|apply eqm_mul; [apply eqm_refl|exact Haz]]|].
      replace (ui * (c * (geo a (Z.to_nat z) * u))) with (c * ((ui * u) * geo a (Z.to_nat z))) by ring.
      apply eqm_mul; [reflexivity|]. apply eqm_mul; [|reflexivity].
      unfold disc_h. fold g u. apply eqm_inv_gcd; [lia|assumption].
Qed.
