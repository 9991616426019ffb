(* seed_impl.hpp: generate *)
From Verif Require Import Base NumProofs ProgModel ProgSpec ProgProofs UIntSpec UIntModel UIntProofs IbModel IbProofs SeedSpec SeedProofs GenSpec GenModel GenProofs Gen2Proofs Gen3Proofs Gen4Proofs.
Ltac Zify.zify_post_hook ::= idtac.

Definition gi_att (tb : ity) (bmin R B : Z) : prog (option Z) := gi_attempt tb bmin (R - 1) (2 ^ B * (R / 2 ^ B) - 1).

Lemma exec_att : forall tb bmin bmax B d ds, eng_wf tb bmin bmax -> 2 ^ B <= bmax - bmin + 1 -> 1 <= B -> bmin <= d <= bmax ->
  exec (gi_att tb bmin (bmax - bmin + 1) B) (d :: ds) =
  ORet (if useful bmin (bmax - bmin + 1) B d then Some (d - bmin) else None) ds.
Proof.
  intros tb bmin bmax B d ds H1 H2 H3 H4. pose proof (gi_attempt_ok tb bmin bmax B d H1 H2 H3 H4) as G. cbn zeta in G.
  unfold gi_att, gi_attempt, draw. cbn [pbind exec]. rewrite G. reflexivity.
Qed.

Lemma exec_retry : forall tb bmin bmax B d ds F, eng_wf tb bmin bmax -> 2 ^ B <= bmax - bmin + 1 -> 1 <= B ->
  bmin <= d < bmin + (bmax - bmin + 1) ->
  exec (retry (S F) (gi_att tb bmin (bmax - bmin + 1) B)) (d :: ds) =
  if useful bmin (bmax - bmin + 1) B d then ORet (d - bmin) ds else exec (retry F (gi_att tb bmin (bmax - bmin + 1) B)) ds.
Proof.
  intros tb bmin bmax B d ds F H1 H2 H3 H4. cbn [retry].
  rewrite (exec_bind_ret _ _ _ _ _ _ _ (exec_att tb bmin bmax B d ds H1 H2 H3 ltac:(lia))).
  destruct (useful bmin (bmax - bmin + 1) B d); reflexivity.
Qed.

Lemma gi_dr_ok : forall tb bmin bmax B, eng_wf tb bmin bmax -> 2 ^ B <= bmax - bmin + 1 -> 1 <= B ->
  dr_ok bmin (bmax - bmin + 1) B (fun f => retry f (gi_att tb bmin (bmax - bmin + 1) B)).
Proof.
  intros tb bmin bmax B Hw HR HB. set (R := bmax - bmin + 1) in *. split; [|split].
  - induction F as [|F IH]; intros u d rest Hu Hd Hv HL; [lia|].
    destruct u as [|x u]; cbn [app] in *.
    + inversion Hv; subst. unfold R. rewrite exec_retry by assumption. fold R. rewrite Hd. reflexivity.
    + inversion Hv; subst. inversion Hu; subst. unfold R. rewrite exec_retry by assumption. fold R.
      match goal with H : useful _ _ _ x = false |- _ => rewrite H end. apply IH; try assumption. cbn [length] in HL. lia.
  - induction F as [|F IH]; intros ds Hu Hv HL; [lia|].
    destruct ds as [|x ds]; [reflexivity|].
    inversion Hv; subst. inversion Hu; subst. unfold R. rewrite exec_retry by assumption. fold R.
    match goal with H : useful _ _ _ x = false |- _ => rewrite H end. apply IH; try assumption. cbn [length] in HL. lia.
  - intros F. apply Uniform_retry. intros n f g H1 H2. unfold gi_att, gi_attempt, draw. cbn [pbind E].
    destruct n as [|m]; [reflexivity|]. set (L := 2 ^ B * (R / 2 ^ B)) in *.
    replace (bmin + R - 1 - bmin + 1) with R by lia.
    pose proof (pos_pow B ltac:(lia)) as PB. assert (0 <= R / 2 ^ B) by (apply Z.div_pos; lia).
    assert (HL : 0 <= L <= R) by (split; [apply Z.mul_nonneg_nonneg; lia|apply Z.mul_div_le; lia]).
    assert (G : forall h : option Z -> nat -> Z,
      ssum (Z.to_nat R) (fun i => E bmin (bmin + R - 1) (x <~ plift (usub tb (bmin + i) bmin);;
         PRet (if negb (L - 1 =? R - 1) && (L - 1 <? x) then None else Some x)) m h) =
      ssum (Z.to_nat L) (fun i => h (Some (0 + i)) m) + Z.of_nat (Z.to_nat R - Z.to_nat L) * h None m).
    { intros h. rewrite (ssum_ext _ _ (fun i => h (if i <? L then Some i else None) m)).
      2:{ intros i Hi. rewrite Z2Nat.id in Hi by lia.
          pose proof (gi_attempt_ok tb bmin bmax B (bmin + i) Hw HR HB ltac:(unfold R in *; lia)) as G. cbn zeta in G. fold R in G. fold L in G.
          rewrite G. cbn [E]. unfold useful. fold L. replace (bmin + i - bmin) with i by ring. reflexivity. }
      rewrite (ssum_split (Z.to_nat L)) by lia. f_equal.
      - apply ssum_ext. intros i Hi. destruct (Z.ltb_spec i L); [reflexivity|lia].
      - rewrite <- ssum_const. apply ssum_ext. intros i Hi. destruct (Z.ltb_spec (Z.of_nat (Z.to_nat L) + i) L); [lia|reflexivity]. }
    rewrite !G, H1, H2. reflexivity.
Qed.

Lemma gr_dr_ok : forall B, 1 <= B -> dr_ok 0 (2 ^ B) B (fun _ => draw).
Proof.
  intros B HB. pose proof (pos_pow B ltac:(lia)) as PB.
  assert (EL : 2 ^ B * (2 ^ B / 2 ^ B) = 2 ^ B) by (rewrite Z.div_same by lia; ring).
  assert (US : forall d, 0 <= d < 0 + 2 ^ B -> useful 0 (2 ^ B) B d = true) by (intros d Hd; unfold useful; rewrite EL; apply Z.ltb_lt; lia).
  split; [|split].
  - intros F u d rest Hu Hd Hv HL. destruct u as [|x u]; cbn [app exec draw].
    + rewrite Z.sub_0_r. reflexivity.
    + inversion Hv; subst. inversion Hu; subst. rewrite US in * by assumption. discriminate.
  - intros F ds Hu Hv HL. destruct ds as [|x u]; [reflexivity|]. inversion Hv; subst. inversion Hu; subst. rewrite US in * by assumption. discriminate.
  - intros F n f g H. rewrite EL in H. unfold draw. cbn [E]. destruct n as [|m]; [reflexivity|].
    replace (0 + 2 ^ B - 1 - 0 + 1) with (2 ^ B) by ring. apply H.
Qed.

(* ---- tb : the parameters ---- *)
Lemma eng_range : forall tb bmin bmax, eng_wf tb bmin bmax -> 2 <= bmax - bmin + 1 <= 2 ^ bits tb /\ usub tb bmax bmin = Some (bmax - bmin + 1 - 1).
Proof.
  intros tb bmin bmax (H1 & H2 & H3 & H4). split.
  - unfold inT, imin, imax in *. assert (E : 2 ^ bits tb = 2 * 2 ^ (bits tb - 1)) by (replace (bits tb) with (bits tb - 1 + 1) at 1 by ring; rewrite Z.pow_add_r by lia; change (2 ^ 1) with 2; ring).
    destruct (sgn tb); lia.
  - rewrite usub_ok by (try assumption; lia). f_equal. ring.
Qed.

Lemma generate_params : forall tb bmin bmax, eng_wf tb bmin bmax -> bits tb <= 64 ->
  exists B, used_bits (bmax - bmin + 1) B /\ 1 <= B <= bits tb /\ 2 ^ B <= bmax - bmin + 1 /\
  forall F n, generate_from_int F tb bmin bmax n =
    gen_loop F (fun f => retry f (gi_att tb bmin (bmax - bmin + 1) B)) (gi_body (bits tb) B (2 ^ B - 1) n) (Gst 0 0 []).
Proof.
  intros tb bmin bmax Hw Hb. destruct (eng_range tb bmin bmax Hw) as (HR & ER). destruct Hw as (H1 & _).
  destruct (gi_bits_ok (bits tb) (bmax - bmin + 1) ltac:(lia) HR) as (B & EB & U & HB & HBR).
  exists B. split; [exact U|]. split; [exact HB|]. split; [exact HBR|].
  intros F n. unfold generate_from_int. rewrite ER. cbn [plift pbind]. rewrite EB. cbn [plift pbind].
  rewrite gi_mask_ok by lia. cbn [plift pbind]. rewrite gi_limit_ok by lia. reflexivity.
Qed.

Lemma ginv_init : forall B n, (1 <= n)%nat -> ginv B n 0 0 (Gst 0 0 []).
Proof. intros B n Hn. unfold ginv. cbn [g_rem g_saved g_out length]. change (Z.of_nat 0) with 0. repeat split; try lia; reflexivity. Qed.

Lemma used_bits_unique : forall R B1 B2, used_bits R B1 -> used_bits R B2 -> B1 = B2.
Proof.
  intros R B1 B2 (A1 & A2 & A3) (C1 & C2 & C3). cbn zeta in *.
  destruct (Z.lt_trichotomy B1 B2) as [H|[H|H]]; [|exact H|].
  - specialize (A3 B2 ltac:(lia)). lia.
  - specialize (C3 B1 ltac:(lia)). lia.
Qed.

(* the k-th useful output completes the words *)
Lemma gen_run : forall bmin R B n dr body, 1 <= B -> 2 ^ B <= R -> dr_ok bmin R B dr -> body_ok B (2 ^ B * (R / 2 ^ B)) n body ->
  (1 <= n)%nat -> forall F ds, Forall (fun x => bmin <= x < bmin + R) ds -> (length ds < F)%nat ->
  gen_spec bmin R B n ds (exec (gen_loop F dr body (Gst 0 0 [])) ds).
Proof.
  intros bmin R B n dr body HB HR HD HBo Hn F ds Hv HL.
  destruct (loop_exec bmin R B n dr body HB HR HD HBo F 0 0 (Gst 0 0 []) ds (ginv_init B n Hn) Hv HL) as (G1 & G2). split.
  - intros u d rest E Hd Hk. unfold digits_for in Hk.
    replace (Z.of_nat (length (digits_of bmin R B u) + 1) - 1) with (Z.of_nat (length (digits_of bmin R B u))) in Hk by lia. rewrite (G1 u d rest E Hd) by lia. change (2 ^ 0) with 1. rewrite Z.mul_1_l, Z.add_0_l. reflexivity.
  - intros Hk. apply G2. lia.
Qed.

Lemma gi_run : forall tb bmin bmax n B F ds, eng_wf tb bmin bmax -> bits tb <= 64 -> (1 <= n)%nat -> used_bits (bmax - bmin + 1) B ->
  valid_draws bmin bmax ds -> (length ds < F)%nat ->
  gen_spec bmin (bmax - bmin + 1) B n ds (exec (generate_from_int F tb bmin bmax n) ds).
Proof.
  intros tb bmin bmax n B F ds Hw Hb Hn HU Hv HL.
  destruct (generate_params tb bmin bmax Hw Hb) as (B' & U & HB & HR & EG). rewrite (used_bits_unique _ _ _ HU U). rewrite EG.
  apply gen_run; try lia; try exact HR.
  - apply gi_dr_ok; [exact Hw|exact HR|lia].
  - apply gi_body_ok; lia.
  - eapply Forall_impl; [|exact Hv]. cbn beta. lia.
Qed.

Lemma gr_run : forall bits n F ds, 1 <= bits -> (1 <= n)%nat -> valid_draws 0 (2 ^ bits - 1) ds -> (length ds < F)%nat ->
  gen_spec 0 (2 ^ bits) bits n ds (exec (generate_from_real F bits n) ds).
Proof.
  intros bits n F ds Hb Hn Hv HL. unfold generate_from_real. apply gen_run; try lia.
  - apply gr_dr_ok; lia.
  - rewrite Z.div_same by (pose proof (pos_pow bits ltac:(lia)); lia). rewrite Z.mul_1_r. apply gr_body_ok; lia.
  - eapply Forall_impl; [|exact Hv]. cbn beta. lia.
Qed.

Lemma gi_uniform : forall tb bmin bmax n F m v1 v2, eng_wf tb bmin bmax -> bits tb <= 64 -> (1 <= n)%nat ->
  0 <= v1 < 2 ^ (32 * Z.of_nat n) -> 0 <= v2 < 2 ^ (32 * Z.of_nat n) ->
  count bmin bmax (ws <~ generate_from_int F tb bmin bmax n;; PRet (le_value ws)) m v1 =
  count bmin bmax (ws <~ generate_from_int F tb bmin bmax n;; PRet (le_value ws)) m v2.
Proof.
  intros tb bmin bmax n F m v1 v2 Hw Hb Hn H1 H2.
  destruct (generate_params tb bmin bmax Hw Hb) as (B' & U & HB & HR & EG). rewrite EG.
  apply Uniform_count with 0 (Z.to_nat (2 ^ (32 * Z.of_nat n))); try lia.
  replace bmax with (bmin + (bmax - bmin + 1) - 1) at 1 by ring.
  apply loop_uniform with B'; try lia; try exact HR; try exact Hn.
  - apply gi_dr_ok; [exact Hw|exact HR|lia].
  - apply gi_body_ok; lia.
Qed.

Lemma gr_uniform : forall bits n F m v1 v2, 1 <= bits -> (1 <= n)%nat ->
  0 <= v1 < 2 ^ (32 * Z.of_nat n) -> 0 <= v2 < 2 ^ (32 * Z.of_nat n) ->
  count 0 (2 ^ bits - 1) (ws <~ generate_from_real F bits n;; PRet (le_value ws)) m v1 =
  count 0 (2 ^ bits - 1) (ws <~ generate_from_real F bits n;; PRet (le_value ws)) m v2.
Proof.
  intros bits n F m v1 v2 Hb Hn H1 H2.
  apply Uniform_count with 0 (Z.to_nat (2 ^ (32 * Z.of_nat n))); try lia.
  replace (2 ^ bits - 1) with (0 + 2 ^ bits - 1) by ring. unfold generate_from_real.
  apply loop_uniform with bits; try lia; try exact Hn.
  - apply gr_dr_ok; lia.
  - rewrite Z.div_same by (pose proof (pos_pow bits ltac:(lia)); lia). rewrite Z.mul_1_r. apply gr_body_ok; lia.
Qed.

(* pow2 *)
Lemma cpi : forall f N arg n r, (Z.to_nat N < f)%nat -> 0 <= n <= N -> const_pow_impl f N arg n r = r * arg ^ n.
Proof.
  induction f as [|f IH]; intros N arg n r HF Hn; [lia|]. cbn [const_pow_impl].
  destruct (Z.eqb_spec N 0) as [E|E]; [replace n with 0 by lia; rewrite Z.pow_0_r; ring|].
  assert (HN2 : N / 2 < N) by (apply Z.div_lt; lia). assert (0 <= N / 2) by (apply Z.div_pos; lia).
  assert (HN3 : 0 <= n / 2 <= N / 2) by (split; [apply Z.div_pos; lia|apply Z.div_le_mono; lia]).
  rewrite IH by lia. pose proof (Z.div_mod n 2 ltac:(lia)) as D. pose proof (Z.mod_pos_bound n 2 ltac:(lia)) as D2.
  assert (P : (arg * arg) ^ (n / 2) = arg ^ (2 * (n / 2))) by (rewrite Z.pow_mul_r by lia; f_equal; rewrite Z.pow_2_r; reflexivity).
  rewrite P. destruct (Z.eqb_spec (n mod 2) 0) as [E2|E2].
  - f_equal. f_equal. lia.
  - replace n with (2 * (n / 2) + 1) at 2 by lia. rewrite Z.pow_add_r, Z.pow_1_r by lia. ring.
Qed.

Lemma pow2_ok : forall digits n, 0 <= n -> n / 32 <= digits / 32 -> pow2 digits n = 2 ^ n.
Proof.
  intros digits n Hn Hd. unfold pow2, const_pow. assert (0 <= n / 32) by (apply Z.div_pos; lia).
  rewrite cpi by lia. pose proof (Z.mod_pos_bound n 32 ltac:(lia)).
  rewrite !Z.shiftl_mul_pow2 by lia. change (1 * 2 ^ 31 * 2) with (2 ^ 32). rewrite Z.mul_1_l, Z.mul_1_l.
  rewrite <- Z.pow_mul_r by lia. rewrite <- Z.pow_add_r by lia. f_equal. rewrite (Z.div_mod n 32) at 3 by lia. ring.
Qed.

(* ---- no other outcome ---- *)
Lemma digits_of_app : forall bmin R B u v, digits_of bmin R B (u ++ v) = digits_of bmin R B u ++ digits_of bmin R B v.
Proof. intros. unfold digits_of. rewrite filter_app, map_app. reflexivity. Qed.

(* the k-th useful output *)
Lemma kth_useful : forall bmin R B k ds, (k < length (digits_of bmin R B ds))%nat ->
  exists u d rest, ds = u ++ d :: rest /\ useful bmin R B d = true /\ length (digits_of bmin R B u) = k.
Proof.
  intros bmin R B. induction k as [|k IH] using nat_ind; intros ds.
  - induction ds as [|x ds IHd]; cbn; [lia|]. unfold digits_of. cbn [filter]. destruct (useful bmin R B x) eqn:E.
    + intros _. exists [], x, ds. repeat split. exact E.
    + intros H. destruct (IHd H) as (u & d & rest & -> & Hu & Hk). exists (x :: u), d, rest. repeat split; [exact Hu|].
      unfold digits_of. cbn [filter]. rewrite E. exact Hk.
  - induction ds as [|x ds IHd]; cbn; [lia|]. unfold digits_of. cbn [filter]. destruct (useful bmin R B x) eqn:E.
    + cbn [map length]. intros H. destruct (IH ds ltac:(unfold digits_of; lia)) as (u & d & rest & -> & Hu & Hk).
      exists (x :: u), d, rest. repeat split; [exact Hu|]. unfold digits_of. cbn [filter]. rewrite E. cbn [map length]. f_equal. exact Hk.
    + intros H. destruct (IHd H) as (u & d & rest & -> & Hu & Hk). exists (x :: u), d, rest. repeat split; [exact Hu|].
      unfold digits_of. cbn [filter]. rewrite E. exact Hk.
Qed.

Lemma words_below : forall n S, Forall (fun w => 0 <= w < 2 ^ 32) (words n S).
Proof. intros n S. unfold words. apply Forall_map. apply Forall_forall. intros j _. apply Z.mod_pos_bound. lia. Qed.

Lemma gen_total : forall bmin R B n ds o, 1 <= B -> (1 <= n)%nat -> gen_spec bmin R B n ds o ->
  o = OMore \/ exists ws rest, o = ORet ws rest /\ length ws = n /\ Forall (fun w => 0 <= w < 2 ^ 32) ws.
Proof.
  intros bmin R B n ds o HB Hn (G1 & G2).
  destruct (Z.lt_ge_cases (B * Z.of_nat (length (digits_of bmin R B ds))) (32 * Z.of_nat n)) as [H|H]; [left; apply G2; exact H|right].
  set (k := Z.to_nat ((32 * Z.of_nat n - 1) / B)).
  assert (Hk : B * Z.of_nat k < 32 * Z.of_nat n <= B * (Z.of_nat k + 1)).
  { unfold k. rewrite Z2Nat.id by (apply Z.div_pos; lia). pose proof (Z.div_mod (32 * Z.of_nat n - 1) B ltac:(lia)).
    pose proof (Z.mod_pos_bound (32 * Z.of_nat n - 1) B ltac:(lia)). lia. }
  assert (Hl : (k < length (digits_of bmin R B ds))%nat) by (apply Nat2Z.inj_lt; nia).
  destruct (kth_useful bmin R B k ds Hl) as (u & d & rest & E & Hu & Hlen).
  exists (words n (digits_value B (digits_of bmin R B (u ++ [d])))), rest. split; [|split].
  - apply (G1 u d rest E Hu). rewrite Hlen. unfold digits_for. replace (Z.of_nat (k + 1) - 1) with (Z.of_nat k) by lia. replace (Z.of_nat (k + 1)) with (Z.of_nat k + 1) by lia. exact Hk.
  - apply words_length.
  - apply words_below.
Qed.

Lemma gen_plain_ok : forall n ds, (n <= length ds)%nat -> exec (gen_plain n) ds = ORet (firstn n ds) (skipn n ds).
Proof.
  induction n as [|n IH]; intros [|d ds] H; cbn [length] in H; try lia; try reflexivity.
  cbn [gen_plain]. unfold draw. cbn [pbind exec]. rewrite (exec_bind_ret _ _ _ _ _ _ _ (IH ds ltac:(lia))). reflexivity.
Qed.

Lemma gen_plain_more : forall n ds, (length ds < n)%nat -> exec (gen_plain n) ds = OMore.
Proof.
  induction n as [|n IH]; intros [|d ds] H; cbn [length] in H; try lia; try reflexivity.
  cbn [gen_plain]. unfold draw. cbn [pbind exec]. apply exec_bind_more. apply IH. lia.
Qed.

Lemma gen_plain_never : forall n lo hi w ds ws rest, valid_draws lo hi ds -> hi < w -> exec (gen_plain n) ds = ORet ws rest -> ~ In w ws.
Proof.
  intros n lo hi w ds ws rest Hv Hw E I. destruct (Nat.le_gt_cases n (length ds)) as [H|H].
  - rewrite gen_plain_ok in E by exact H. inversion E; subst. unfold valid_draws in Hv. rewrite Forall_forall in Hv.
    assert (In w ds) by (rewrite <- (firstn_skipn n ds); apply in_or_app; left; exact I). specialize (Hv w ltac:(assumption)). cbn beta in Hv. lia.
  - rewrite gen_plain_more in E by exact H. discriminate.
Qed.
