From Verif Require Import Base ArithSpec ArithModel ArithProofs ConstModProofs.
From Coq Require Import ZifyBool Znumtheory Zpow_facts.

Ltac Zify.zify_post_hook ::= idtac.

(* ---------- modular inverse ---------- *)

Lemma le_mul_diag q p : 1 <= q -> 0 <= p -> p <= q * p.
Proof. intros. nia. Qed.

Lemma div_mul_bounds p n : 0 <= p -> 0 < n -> 0 <= p / n * n <= p /\ 0 <= p - p / n * n < n.
Proof.
  intros Hp Hn. pose proof (Z.div_mod p n ltac:(lia)) as Hd. pose proof (Z.mod_pos_bound p n Hn) as Hr.
  assert (0 <= p / n) by (apply Z.div_pos; lia). nia.
Qed.

Lemma sum_le a b c d M : 0 <= a -> 1 <= b -> 0 <= c -> 0 <= d -> a * b + c * d = M -> a <= M.
Proof. intros. nia. Qed.
Lemma sum_lt a b c d M : 0 <= a -> 1 <= b -> 1 <= c -> 1 <= d -> a * b + c * d = M -> a < M.
Proof. intros. nia. Qed.

Record einv (M c l1 l2 n p : Z) : Prop := {
  ei_l1 : 0 <= l1;
  ei_l2 : 1 <= l2;
  ei_n : 0 <= n;
  ei_p : 0 <= p;
  ei_sum : l1 * n + l2 * p = M;
  ei_c2 : (l2 * c - n) mod M = 0;
  ei_c1 : (l1 * c + p) mod M = 0;
  ei_gcd : Z.gcd n p = Z.gcd c M }.

Lemma mod0_add M x y : 0 < M -> x mod M = 0 -> y mod M = 0 -> (x + y) mod M = 0.
Proof. intros HM Hx Hy. rewrite Zplus_mod, Hx, Hy. apply Zmod_0_l. Qed.
Lemma mod0_mul M x y : 0 < M -> x mod M = 0 -> (x * y) mod M = 0.
Proof. intros HM Hx. rewrite Zmult_mod, Hx. apply Zmod_0_l. Qed.

Lemma einv_stepA M c l1 l2 n p :
  0 < M -> 0 < n -> einv M c l1 l2 n p ->
  einv M c (l1 + p / n * l2) l2 n (p - p / n * n) /\ 0 <= p / n * l2 /\ 0 <= p / n * n <= p /\
  0 <= p - p / n * n < n.
Proof.
  intros HM Hn [Hl1 Hl2 Hn0 Hp Hsum Hc2 Hc1 Hg].
  pose proof (Z.div_mod p n ltac:(lia)) as Hd. pose proof (Z.mod_pos_bound p n Hn) as Hr.
  assert (Hq : 0 <= p / n) by (apply Z.div_pos; lia).
  assert (Hpm : p - p / n * n = p mod n) by lia.
  split; [constructor|]; try nia.
  - replace ((l1 + p / n * l2) * c + (p - p / n * n)) with ((l1 * c + p) + (l2 * c - n) * (p / n)) by ring.
    apply mod0_add; [assumption|assumption|]. apply mod0_mul; assumption.
  - rewrite Hpm, Z.gcd_comm, Z.gcd_mod by lia. assumption.
Qed.

Lemma einv_stepB M c l1 l2 n p :
  0 < M -> 0 < p -> einv M c l1 l2 n p ->
  einv M c l1 (l2 + n / p * l1) (n - n / p * p) p /\ 0 <= n / p * l1 /\ 0 <= n / p * p <= n /\
  0 <= n - n / p * p < p.
Proof.
  intros HM Hp [Hl1 Hl2 Hn0 Hp0 Hsum Hc2 Hc1 Hg].
  pose proof (Z.div_mod n p ltac:(lia)) as Hd. pose proof (Z.mod_pos_bound n p Hp) as Hr.
  assert (Hq : 0 <= n / p) by (apply Z.div_pos; lia).
  assert (Hpm : n - n / p * p = n mod p) by lia.
  split; [constructor|]; try nia.
  - replace ((l2 + n / p * l1) * c - (n - n / p * p)) with ((l2 * c - n) + (l1 * c + p) * (n / p)) by ring.
    apply mod0_add; [assumption|assumption|]. apply mod0_mul; assumption.
  - rewrite Hpm, Z.gcd_mod by lia. rewrite Z.gcd_comm. assumption.
Qed.

Lemma einv_done_p M c l1 l2 n p :
  0 < M -> einv M c l1 l2 n p -> p = 0 -> l2 < M -> is_inv M c l2.
Proof.
  intros HM [Hl1 Hl2 Hn0 Hp0 Hsum Hc2 Hc1 Hg] -> Hlt.
  rewrite Z.gcd_0_r, Z.abs_eq in Hg by lia. split; [lia|]. rewrite <- Hg. assumption.
Qed.

Lemma einv_done_n M c l1 l2 n p :
  0 < M -> einv M c l1 l2 n p -> n = 0 -> 0 < l1 <= M -> is_inv M c (M - l1).
Proof.
  intros HM [Hl1 Hl2 Hn0 Hp0 Hsum Hc2 Hc1 Hg] -> Hlt.
  rewrite Z.gcd_0_l, Z.abs_eq in Hg by lia. split; [lia|]. rewrite <- Hg.
  replace ((M - l1) * c - p) with (M * c + (l1 * c + p) * (-1)) by ring.
  apply mod0_add; [assumption| |apply mod0_mul; assumption].
  rewrite Z.mul_comm. apply Z_mod_mult.
Qed.

Lemma cm_inv_loop_spec fuel t m c l1 l2 n p :
  wf_ity t -> 1 < m <= imax t -> 0 < n < 2 ^ Z.of_nat fuel -> n <= p ->
  einv m c l1 l2 n p -> (0 < l1 \/ 2 <= p) ->
  exists r, cm_inv_loop fuel t m l1 l2 n p = Some r /\ is_inv m c r.
Proof.
  intros Hw Hm. revert l1 l2 n p. induction fuel as [|f IH]; intros l1 l2 n p Hn Hnp Hi Hl.
  { change (2 ^ Z.of_nat 0) with 1 in Hn. lia. }
  cbn [cm_inv_loop].
  pose proof Hi as [Hl1 Hl2 _ Hp _ _ _ _].
  pose proof (ei_sum _ _ _ _ _ _ Hi) as Hsum.
  assert (Hpm : p <= m) by nia.
  rewrite divT_ok by (try assumption; lia). cbn [bind].
  destruct (einv_stepA m c l1 l2 n p ltac:(lia) ltac:(lia) Hi) as (HiA & HA1 & HA2 & HA3).
  assert (Hq1 : 1 <= p / n) by (apply Z.div_le_lower_bound; lia).
  set (q := p / n) in *.
  assert (Hl2m : l2 < m).
  { destruct Hl; nia. }
  pose proof (ei_sum _ _ _ _ _ _ HiA) as HsumA.
  set (l1' := l1 + q * l2) in *. set (p' := p - q * n) in *.
  assert (Hl1'b : 0 < l1' <= m) by nia.
  unfold mulT, addT, subT.
  rewrite (norm_ok0 t (q * l2)) by (try assumption; subst l1'; lia). cbn [bind].
  rewrite (norm_ok0 t (l1 + q * l2)) by (try assumption; subst l1'; lia). cbn [bind].
  rewrite (norm_ok0 t (q * n)) by (try assumption; lia). cbn [bind].
  rewrite (norm_ok0 t (p - q * n)) by (try assumption; lia). cbn [bind].
  fold l1' p'.
  destruct (Z.eqb_spec p' 0) as [Hp0|Hp0].
  { exists l2. split; [reflexivity|]. apply einv_done_p with l1' n p'; try assumption; lia. }
  destruct (einv_stepB m c l1' l2 n p' ltac:(lia) ltac:(lia) HiA) as (HiB & HB1 & HB2 & HB3).
  rewrite divT_ok by (try assumption; lia). cbn [bind].
  set (q2 := n / p') in *.
  pose proof (ei_sum _ _ _ _ _ _ HiB) as HsumB.
  set (l2' := l2 + q2 * l1') in *. set (n' := n - q2 * p') in *.
  assert (Hl2'b : 0 < l2' <= m) by nia.
  rewrite (norm_ok0 t (q2 * l1')) by (try assumption; subst l2'; lia). cbn [bind].
  rewrite (norm_ok0 t (l2 + q2 * l1')) by (try assumption; subst l2'; lia). cbn [bind].
  rewrite (norm_ok0 t (q2 * p')) by (try assumption; lia). cbn [bind].
  rewrite (norm_ok0 t (n - q2 * p')) by (try assumption; lia). cbn [bind].
  fold l2' n'.
  destruct (Z.eqb_spec n' 0) as [Hn0|Hn0].
  { exists (m - l1'). split; [apply norm_ok0; [assumption|lia]|].
    apply einv_done_n with l2' n' p'; try assumption; lia. }
  apply IH; [|lia|assumption|left; lia].
  split; [lia|]. rewrite Nat2Z.inj_succ, Z.pow_succ_r in Hn by lia.
  assert (1 <= q2) by (apply Z.div_le_lower_bound; lia).
  pose proof (le_mul_diag q2 p' ltac:(lia) ltac:(lia)). subst n'. lia.
Qed.

Lemma cm_invert_euclidian_spec t m c :
  wf_ity t -> 1 < m <= imax t -> 0 < c < m ->
  exists r, cm_invert_euclidian t m c = Some r /\ is_inv m c r.
Proof.
  intros Hw Hm Hc. unfold cm_invert_euclidian.
  destruct (imax_bounds t Hw). destruct (bits_pow t Hw) as (_ & _ & H3).
  apply cm_inv_loop_spec; try assumption; try lia.
  - constructor; try lia.
    + replace (1 * c - c) with 0 by lia. apply Zmod_0_l.
    + replace (0 * c + m) with m by lia. apply Z_mod_same_full.
Qed.

Lemma cm_inv0_loop_spec fuel t c l1 l2 n p :
  wf_ity t -> sgn t = false -> 0 <= p < 2 ^ Z.of_nat fuel -> p <= n -> 0 < n <= imax t ->
  einv (2 ^ bits t) c l1 l2 n p -> 0 < l1 <= 2 ^ bits t -> l2 < 2 ^ bits t ->
  exists r, (forall l1', 0 < p -> l1' = l1 -> cm_inv0_loop (S fuel) t 0 l1' l2 n p = Some r) /\
            (forall l1', p = 0 -> cm_inv0_loop (S fuel) t 0 l1' l2 n p = Some r) /\ is_inv (2 ^ bits t) c r.
Proof.
  intros Hw Hs. destruct (bits_pow t Hw) as (Hb1 & Hb2 & Hb3).
  assert (Himax : imax t = 2 ^ bits t - 1) by (unfold imax; rewrite Hs; reflexivity).
  assert (Hnorm : forall z, norm t z = Some (z mod 2 ^ bits t)) by (intros; unfold norm; rewrite Hs; reflexivity).
  revert l1 l2 n p. induction fuel as [|f IH]; intros l1 l2 n p Hp Hpn Hn Hi Hl1 Hl2.
  { change (2 ^ Z.of_nat 0) with 1 in Hp. assert (p = 0) by lia. subst p.
    exists l2. split; [intros; lia|]. split.
    - intros l1' _. reflexivity.
    - apply einv_done_p with l1 n 0; try assumption; lia. }
  destruct (Z.eq_dec p 0) as [->|Hp0].
  { exists l2. split; [intros; lia|]. split.
    - intros l1' _. reflexivity.
    - apply einv_done_p with l1 n 0; try assumption; lia. }
  set (M := 2 ^ bits t) in *.
  pose proof Hi as [Hl1' Hl2' _ _ Hsum _ _ _].
  assert (Hl1M : l1 < M) by nia.
  destruct (einv_stepB M c l1 l2 n p ltac:(lia) ltac:(lia) Hi) as (HiB & HB1 & HB2 & HB3).
  assert (Hq2 : 1 <= n / p) by (apply Z.div_le_lower_bound; lia).
  pose proof (ei_sum _ _ _ _ _ _ HiB) as HsumB.
  assert (Hstep : forall g, cm_inv0_loop (S g) t 0 l1 l2 n p =
    let l2' := (l2 + n / p * l1) mod M in
    let n' := n - n / p * p in
    if n' =? 0 then Some ((0 - l1) mod M) else
    let l1' := (l1 + (p / n' * l2') mod M) mod M in
    cm_inv0_loop g t 0 l1' l2' n' (p - p / n' * n')).
  { intros g. cbn [cm_inv0_loop]. destruct (Z.eqb_spec p 0); [lia|].
    rewrite divT_ok by (try assumption; lia). cbn [bind].
    unfold mulT, addT, subT. rewrite (norm_ok0 t (n / p * p)) by (try assumption; lia). cbn [bind].
    rewrite (norm_ok0 t (n - n / p * p)) by (try assumption; lia).
    repeat (rewrite Hnorm; cbn [bind]). fold M. cbv zeta.
    rewrite Zplus_mod_idemp_r.
    destruct (Z.eqb_spec (n - n / p * p) 0); [reflexivity|].
    rewrite divT_ok by (try assumption; lia). cbn [bind].
    destruct (div_mul_bounds p (n - n / p * p) ltac:(lia) ltac:(lia)).
    rewrite (norm_ok0 t (p / (n - n / p * p) * (n - n / p * p))) by (try assumption; lia). cbn [bind].
    rewrite (norm_ok0 t (p - p / (n - n / p * p) * (n - n / p * p))) by (try assumption; lia). cbn [bind]. repeat (rewrite Hnorm; cbn [bind]). reflexivity. }
  cbv zeta in Hstep.
  set (q2 := n / p) in *. set (l2' := l2 + q2 * l1) in *. set (n' := n - q2 * p) in *.
  destruct (Z.eqb_spec n' 0) as [Hn0|Hn0].
  { exists (M - l1). split; [|split].
    - intros l1' _ ->. rewrite Hstep. f_equal. symmetry. apply Z.mod_unique with (-1); [left; lia|lia].
    - intros; lia.
    - apply einv_done_n with l2' n' p; try assumption; lia. }
  assert (Hl2'b : 0 < l2' < M).
  { split; [subst l2'; lia|]. apply (sum_lt l2' p l1 n'); lia. }
  rewrite (Z.mod_small l2') in Hstep by lia.
  destruct (einv_stepA M c l1 l2' n' p ltac:(lia) ltac:(lia) HiB) as (HiA & HA1 & HA2 & HA3).
  pose proof (ei_sum _ _ _ _ _ _ HiA) as HsumA.
  assert (Hq1 : 1 <= p / n') by (apply Z.div_le_lower_bound; lia).
  set (q := p / n') in *. set (l1'' := l1 + q * l2') in *. set (p' := p - q * n') in *.
  destruct (IH l1'' l2' n' p') as (r & Hr1 & Hr2 & Hr3); try assumption.
  { split; [lia|]. rewrite Nat2Z.inj_succ, Z.pow_succ_r in Hp by lia.
    pose proof (le_mul_diag q n' ltac:(lia) ltac:(lia)). subst p'. lia. }
  { lia. }
  { lia. }
  { split; [subst l1''; lia|]. apply (sum_le l1'' n' l2' p'); lia. }
  { lia. }
  exists r. split; [|split; [intros; lia|assumption]].
  intros l1x _ ->. rewrite Hstep.
  destruct (Z.eq_dec p' 0) as [Hp'|Hp'].
  - apply Hr2. assumption.
  - apply Hr1; [lia|]. rewrite Zplus_mod_idemp_r. fold l1''. apply Z.mod_small.
    split; [lia|]. apply (sum_lt l1'' n' l2' p'); lia.
Qed.

Lemma cm_invert_euclidian0_spec t c :
  wf_ity t -> sgn t = false -> 0 < c < 2 ^ bits t ->
  exists r, cm_invert_euclidian0 t c = Some r /\ is_inv (2 ^ bits t) c r.
Proof.
  intros Hw Hs Hc. destruct (bits_pow t Hw) as (Hb1 & Hb2 & Hb3).
  assert (Himax : imax t = 2 ^ bits t - 1) by (unfold imax; rewrite Hs; reflexivity).
  unfold cm_invert_euclidian0. set (M := 2 ^ bits t) in *.
  destruct (Z.eqb_spec c 1) as [->|Hc1].
  { exists 1. split; [reflexivity|]. split; [lia|]. rewrite Z.gcd_1_l. apply Zmod_0_l. }
  rewrite Himax. rewrite divT_ok by (try assumption; lia). cbn [bind].
  pose proof (Z.div_mod (M - 1) c ltac:(lia)) as Hd. pose proof (Z.mod_pos_bound (M - 1) c ltac:(lia)) as Hr.
  assert (Hq : 1 <= (M - 1) / c) by (apply Z.div_le_lower_bound; lia).
  set (q := (M - 1) / c) in *.
  unfold mulT, addT, subT. rewrite (norm_ok0 t (q * 1)) by (try assumption; nia). cbn [bind].
  rewrite (norm_ok0 t (0 + q * 1)) by (try assumption; nia). cbn [bind].
  rewrite (norm_ok0 t (q * c)) by (try assumption; nia). cbn [bind].
  rewrite (norm_ok0 t (M - 1 - q * c)) by (try assumption; lia). cbn [bind].
  rewrite (norm_ok0 t (M - 1 - q * c + 1)) by (try assumption; lia). cbn [bind].
  replace (M - 1 - q * c + 1) with (M - q * c) by lia.
  replace (0 + q * 1) with q by lia.
  assert (Hi : einv M c q 1 c (M - q * c)).
  { constructor; try lia.
    + replace (1 * c - c) with 0 by lia. apply Zmod_0_l.
    + replace (q * c + (M - q * c)) with M by lia. apply Z_mod_same_full.
    + replace (M - q * c) with ((- q) * c + M) by lia.
      rewrite Z.add_comm. apply Z.gcd_add_mult_diag_r. }
  destruct (cm_inv0_loop_spec 99 t c q 1 c (M - q * c)) as (r & H1 & _ & H3); try assumption; fold M; try lia.
  - split; [lia|]. apply (sum_le q c 1 (M - q * c)); lia.
  - exists r. split; [|exact H3]. apply H1; [lia|reflexivity].
Qed.

Lemma cm_invert_spec t m c :
  cm_wf t m -> 1 < cmod t m -> 0 < c < cmod t m ->
  exists r, cm_invert t m c = Some r /\ is_inv (cmod t m) c r.
Proof.
  intros [Hw Hm] HM Hc. unfold cm_invert, cmod in *.
  destruct (Z.eqb_spec c 0); [lia|].
  destruct (Z.eqb_spec m 0) as [->|Hnz].
  - destruct Hm as [[_ Hs]|]; [|lia]. apply cm_invert_euclidian0_spec; assumption.
  - apply cm_invert_euclidian_spec; [assumption|lia|assumption].
Qed.
