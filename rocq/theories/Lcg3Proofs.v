(* rand48, inversive_congruential_engine, additive_combine_engine *)
From Verif Require Import Base ArithSpec ArithModel ArithProofs ConstModProofs InvertProofs StreamModel LcgModel LcgProofs Lcg2Proofs NumProofs.
From Coq Require Import ZifyBool Znumtheory Zpow_facts Arith Zquot.

Ltac Zify.zify_post_hook ::= idtac.

Lemma iterM_iter {A} (f : A -> option A) (g : A -> A) (P : A -> Prop) :
  (forall x, P x -> f x = Some (g x) /\ P (g x)) ->
  forall n x, P x -> iterM n f x = Some (iter n g x) /\ P (iter n g x).
Proof.
  intros H. induction n as [|n IH]; intros x Hx; [split; [reflexivity|assumption]|].
  cbn [iterM iter]. destruct (H x Hx) as [-> Hg]. cbn [bind]. apply IH, Hg.
Qed.

(* outputs of a deterministic step that refines a function on states *)
Lemma run_refine {S O} (step : S -> option (O * S)) (g : S -> S) (o : S -> O) (P : S -> Prop) :
  (forall x, P x -> step x = Some (o (g x), g x) /\ P (g x)) ->
  forall n x, P x -> run step n x = Some (map (fun i => o (iter i g x)) (seq 1 n), iter n g x).
Proof.
  intros H. induction n as [|n IH]; intros x Hx; [reflexivity|].
  cbn [run]. destruct (H x Hx) as [-> Hg]. cbn [bind fst snd]. rewrite (IH (g x) Hg). cbn [bind fst snd].
  cbn [seq map iter]. f_equal. f_equal. f_equal. rewrite <- (seq_shift n 1), map_map.
  apply map_ext. intros i. reflexivity.
Qed.

(* ---------- rand48 ---------- *)

Lemma r48_wf : lcg_wf u64 r48_a r48_c r48_m.
Proof.
  unfold lcg_wf, cm_wf, wf_ity, cmod, r48_a, r48_c, r48_m, u64, imax. cbn [bits sgn]. vm_compute.
  repeat split; try discriminate. right. split; [reflexivity|discriminate].
Qed.

Lemma r48_pow2 : is_pow2 (cmod u64 r48_m).
Proof. exists 48. split; [lia|reflexivity]. Qed.

Lemma r48_seed_ok x : 0 <= x < 2 ^ 32 -> r48_seed x = Some (posix_seed x) /\ 0 <= posix_seed x < 2 ^ 48.
Proof.
  intros Hx. unfold r48_seed, posix_seed. rewrite (Z.mod_small x) by lia.
  assert (Hc : r48_cnv x = x * 2 ^ 16 + 0x330E).
  { unfold r48_cnv, to_uns. cbn [bits u64]. rewrite shiftl_mul by lia. rewrite Z.mod_small by lia.
    rewrite Z.lor_comm. rewrite <- Z.lxor_lor.
    - rewrite <- Z.add_nocarry_lxor; [lia|].
      apply Z.bits_inj'. intros n Hn. rewrite Z.land_spec, Z.bits_0.
      destruct (Z.lt_ge_cases n 16).
      + rewrite Z.mul_pow2_bits_low by lia. apply andb_false_r.
      + rewrite (Z.bits_above_log2 0x330e n); [reflexivity|lia|]. change (Z.log2 0x330e) with 13. lia.
    - apply Z.bits_inj'. intros n Hn. rewrite Z.land_spec, Z.bits_0.
      destruct (Z.lt_ge_cases n 16).
      + rewrite Z.mul_pow2_bits_low by lia. apply andb_false_r.
      + rewrite (Z.bits_above_log2 0x330e n); [reflexivity|lia|]. change (Z.log2 0x330e) with 13. lia. }
  rewrite Hc. assert (Hr : 0 <= x * 2 ^ 16 + 0x330E < 2 ^ 48) by lia.
  split; [|exact Hr]. rewrite lcg_seed_ok; [|exact r48_wf|].
  - f_equal. unfold lcg_seed_spec. change (cmod u64 r48_m) with (2 ^ 48). rewrite Z.mod_small by lia. reflexivity.
  - unfold inT, imin, imax. cbn [bits sgn u64]. lia.
Qed.

Lemma r48_step_ok X : 0 <= X < 2 ^ 48 ->
  r48_next X = Some (posix_lrand48 (posix_step X), posix_step X) /\ 0 <= posix_step X < 2 ^ 48.
Proof.
  intros HX. pose proof (Z.mod_pos_bound (0x5DEECE66D * X + 0xB) (2 ^ 48) ltac:(lia)) as Hb.
  split; [|exact Hb]. unfold r48_next. rewrite lcg_next_spec.
  - cbn [bind]. change (lcg_spec r48_a r48_c (cmod u64 r48_m) X) with (posix_step X). f_equal. f_equal.
    unfold posix_lrand48, posix_step. rewrite shiftr_div by lia. unfold to_uns. cbn [bits u32]. apply Z.mod_small.
    split; [apply Z.div_pos; lia|]. apply Z.div_lt_upper_bound; [lia|].
    change (2 ^ 17 * 2 ^ 32) with (2 ^ 49). lia.
  - exact r48_wf.
  - left. apply (exact_pow2 u64); [apply r48_wf|apply r48_pow2].
  - exact HX.
Qed.

Lemma r48_run_ok x n s :
  0 <= x < 2 ^ 32 -> r48_seed x = Some s ->
  run r48_next n s =
    Some (map (fun i => posix_lrand48 (nth_state posix_step (posix_seed x) i)) (seq 1 n),
          nth_state posix_step (posix_seed x) n).
Proof.
  intros Hx Hs. destruct (r48_seed_ok x Hx) as [Hs' Hr]. rewrite Hs' in Hs. apply Some_inj in Hs. subst s.
  apply (run_refine r48_next posix_step posix_lrand48 (fun X => 0 <= X < 2 ^ 48)); [|exact Hr].
  exact r48_step_ok.
Qed.

Lemma r48_out_range x n : 0 <= posix_lrand48 (nth_state posix_step (posix_seed x) (S n)) <= 0x7FFFFFFF.
Proof.
  unfold nth_state. rewrite iter_succ_r. unfold posix_lrand48.
  set (X := iter n posix_step (posix_seed x)). unfold posix_step.
  pose proof (Z.mod_pos_bound (0x5DEECE66D * X + 0xB) (2 ^ 48) ltac:(lia)).
  split; [apply Z.div_pos; lia|].
  assert ((0x5DEECE66D * X + 0xB) mod 2 ^ 48 / 2 ^ 17 < 2 ^ 31); [|lia].
  apply Z.div_lt_upper_bound; [lia|]. change (2 ^ 17 * 2 ^ 31) with (2 ^ 48). lia.
Qed.

Lemma r48_discard_ok z X : 0 <= z -> 0 <= X < 2 ^ 48 ->
  r48_discard z X = Some (nth_state posix_step X (Z.to_nat z)).
Proof.
  intros Hz HX. unfold r48_discard. rewrite lcg_discard_pow2; try assumption.
  - destruct (lcg_iter u64 r48_a r48_c r48_m (Z.to_nat z) X) as [-> _].
    + exact r48_wf.
    + left. apply (exact_pow2 u64); [apply r48_wf|apply r48_pow2].
    + exact HX.
    + reflexivity.
  - exact r48_wf.
  - vm_compute. discriminate.
  - exact r48_pow2.
Qed.

(* ---------- inversive congruential ---------- *)

Lemma icg_next_ok t a b p x :
  lcg_wf t a b p -> exact_mult t p a -> 0 <= x < cmod t p ->
  exists i, icg_next t a b p x = Some ((a * i + b) mod cmod t p) /\ 0 <= i < cmod t p /\
    (x = 0 -> i = 0) /\ (Z.gcd x (cmod t p) = 1 -> i * x mod cmod t p = 1).
Proof.
  intros (Hwf & HM & Ha & Hb) Hex Hx. unfold icg_next.
  destruct (Z.eq_dec x 0) as [->|Hx0].
  - exists 0. unfold cm_invert. cbn [Z.eqb bind].
    rewrite cm_mult_add_spec_gen by (try assumption; lia).
    split; [reflexivity|]. split; [lia|]. split; [reflexivity|].
    rewrite Z.gcd_0_l, Z.abs_eq by lia. intros. lia.
  - destruct (cm_invert_spec t p x) as (r & Hr & Hinv); try assumption; [lia|].
    rewrite Hr. cbn [bind]. pose proof Hinv as [Hrr _].
    exists r. rewrite cm_mult_add_spec_gen by (try assumption; lia).
    split; [reflexivity|]. split; [lia|]. split; [lia|].
    intros Hg. pose proof (eqm_inv_gcd (cmod t p) x r ltac:(lia) Hinv) as E. unfold eqm in E.
    rewrite E, Hg. apply Z.mod_small. lia.
Qed.

(* ---------- additive combine ---------- *)

Lemma acomb_ok t m1 m2 v1 v2 :
  wf_ity t -> 1 < m1 <= imax t -> m2 <= m1 -> 1 <= v1 < m1 -> 1 <= v2 < m2 ->
  exists r, acomb t m1 v1 v2 = Some r /\ 1 <= r <= m1 - 1 /\ eqm (m1 - 1) r (v1 - v2).
Proof.
  intros Hw Hm1 Hm2 H1 H2. unfold acomb.
  destruct (Z.ltb_spec v2 v1) as [Hlt|Hge].
  - exists (v1 - v2). split; [apply norm_ok0; [assumption|lia]|]. split; [lia|reflexivity].
  - exists (v1 - v2 + m1 - 1). split; [|split; [lia|]].
    + unfold subT, addT. destruct (bits_pow t Hw) as (Hb1 & Hb2 & _).
      unfold norm, imin, imax in *. destruct (sgn t).
      * destruct (Z.leb_spec (- 2 ^ (bits t - 1)) (v1 - v2)); [|lia].
        destruct (Z.leb_spec (v1 - v2) (2 ^ (bits t - 1) - 1)); [|lia]. cbn [andb bind].
        destruct (Z.leb_spec (- 2 ^ (bits t - 1)) (v1 - v2 + m1)); [|lia].
        destruct (Z.leb_spec (v1 - v2 + m1) (2 ^ (bits t - 1) - 1)); [|lia]. cbn [andb bind].
        destruct (Z.leb_spec (- 2 ^ (bits t - 1)) (v1 - v2 + m1 - 1)); [|lia].
        destruct (Z.leb_spec (v1 - v2 + m1 - 1) (2 ^ (bits t - 1) - 1)); [|lia]. reflexivity.
      * cbn [bind]. f_equal. rewrite Zminus_mod_idemp_l. unfold Z.sub at 1. rewrite <- Z.add_assoc.
        rewrite Zplus_mod_idemp_l. rewrite Z.mod_small; lia.
    + unfold eqm. replace (v1 - v2 + m1 - 1) with (v1 - v2 + 1 * (m1 - 1)) by ring. apply Z_mod_plus_full.
Qed.

Lemma ac_next_ok t a1 m1 a2 m2 s1 s2 :
  lcg_wf t a1 0 m1 -> lcg_wf t a2 0 m2 -> exact_mult t m1 a1 -> exact_mult t m2 a2 ->
  0 < m2 <= m1 -> Z.gcd a1 m1 = 1 -> Z.gcd a2 m2 = 1 ->
  1 <= s1 < m1 -> 1 <= s2 < m2 ->
  let x1 := lcg_spec a1 0 m1 s1 in let x2 := lcg_spec a2 0 m2 s2 in
  exists r, ac_next t a1 m1 a2 m2 (s1, s2) = Some (r, (x1, x2)) /\
    1 <= r <= m1 - 1 /\ eqm (m1 - 1) r (x1 - x2) /\ 1 <= x1 < m1 /\ 1 <= x2 < m2.
Proof.
  intros Hw1 Hw2 He1 He2 Hm Hg1 Hg2 Hs1 Hs2 x1 x2.
  assert (HM1 : cmod t m1 = m1) by (unfold cmod; destruct (Z.eqb_spec m1 0); lia).
  assert (HM2 : cmod t m2 = m2) by (unfold cmod; destruct (Z.eqb_spec m2 0); lia).
  assert (Hx1 : 1 <= x1 < m1).
  { apply (lcg_spec_in a1 0 m1 s1); [lia|intros _; assumption|]. exact Hs1. }
  assert (Hx2 : 1 <= x2 < m2).
  { apply (lcg_spec_in a2 0 m2 s2); [lia|intros _; assumption|]. exact Hs2. }
  unfold ac_next. cbn [fst snd].
  rewrite (lcg_next_spec t a1 0 m1) by (try assumption; lia). cbn [bind].
  rewrite (lcg_next_spec t a2 0 m2) by (try assumption; lia). cbn [bind].
  rewrite HM1, HM2. fold x1 x2.
  assert (m1 <= imax t) by (destruct Hw1 as [[_ [[H _]|H]] _]; lia).
  destruct (acomb_ok t m1 m2 x1 x2) as (r & -> & Hr1 & Hr2); try assumption; try lia; [apply Hw1|].
  cbn [bind]. exists r. split; [reflexivity|]. split; [assumption|]. split; [assumption|]. split; assumption.
Qed.

Lemma ac_run_ok t a1 m1 a2 m2 :
  lcg_wf t a1 0 m1 -> lcg_wf t a2 0 m2 -> exact_mult t m1 a1 -> exact_mult t m2 a2 ->
  0 < m2 <= m1 -> Z.gcd a1 m1 = 1 -> Z.gcd a2 m2 = 1 ->
  forall n s1 s2, 1 <= s1 < m1 -> 1 <= s2 < m2 ->
  exists outs, run (ac_next t a1 m1 a2 m2) n (s1, s2) =
      Some (outs, (nth_state (lcg_spec a1 0 m1) s1 n, nth_state (lcg_spec a2 0 m2) s2 n)) /\
    length outs = n /\
    forall i r, nth_error outs i = Some r -> 1 <= r <= m1 - 1 /\
      eqm (m1 - 1) r (nth_state (lcg_spec a1 0 m1) s1 (S i) - nth_state (lcg_spec a2 0 m2) s2 (S i)).
Proof.
  intros Hw1 Hw2 He1 He2 Hm Hg1 Hg2. induction n as [|n IH]; intros s1 s2 Hs1 Hs2.
  - exists []. split; [reflexivity|]. split; [reflexivity|]. intros [|i] r H; discriminate.
  - destruct (ac_next_ok t a1 m1 a2 m2 s1 s2) as (r & Hr & Hr1 & Hr2 & Hx1 & Hx2); try assumption.
    cbn [run]. rewrite Hr. cbn [bind fst snd].
    destruct (IH _ _ Hx1 Hx2) as (outs & Ho & Hlen & Hall). rewrite Ho. cbn [bind fst snd].
    exists (r :: outs). split; [reflexivity|]. split; [cbn; lia|].
    intros [|i] r' H.
    + cbn [nth_error] in H. apply Some_inj in H. subst r'. split; assumption.
    + cbn [nth_error] in H. apply Hall in H. exact H.
Qed.
