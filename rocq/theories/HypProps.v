(* C75: hyperexponential_distribution. *)
From Coq Require Import Lqa Reals Lra Qreals.
From Verif Require Import Base ProgModel ProgSpec ProgProofs UIntModel UIntSpec FloatModel FloatSpec FloatProofs RealModel RealSpec RealProofs UniProofs
  DiscModel DiscProofs Disc4Proofs RDiscModel RDiscSpec RDiscProofs RDisc2Proofs RDisc3Proofs RDisc4Proofs RDisc5Proofs RDisc6Proofs PoisRSpec Pois3Proofs Pois3Props BinSpec IfpModel IfpSpec ZigModel ZigSpec ZigProps HypModel HypSpec HypProofs Hyp2Proofs Hyp3Proofs.
Ltac Zify.zify_post_hook ::= idtac.
Open Scope Q_scope.

(* normalize: the weights divided by their sum, to within 5n+3 roundings; the
   result is between 0 and 1, except that the last number may be negative (see
   C75_negative_refuted) *)
Theorem C75_normalize_partial : forall f md t ws, fmt_ok f -> rweights_ok f t ws -> (qlen ws + 3) * p2 (1 - prec f) <= 1 # 8 ->
  exists ps, hx_normalize f md ws = Some ps /\ length ps = length ws /\
    (forall i, (0 <= i < Z.of_nat (length ws))%Z -> Qabs (qweight ps i - qweight ws i / qtotal ws) <= (5 * qlen ws + 3) * p2 (1 - prec f) /\ qweight ps i <= 1) /\
    (forall i, (0 <= i < Z.of_nat (length ws) - 1)%Z -> 0 <= qweight ps i).
Proof. intros f md t ws Hf Hok Hsm. exact (hx_ok f md t Hf ws Hok Hsm). Qed.
Print Assumptions C75_normalize_partial.

(* "thus ensuring the probabilities really sum to 1": with rounding to nearest
   std::accumulate over the result gives 1, and normalizing again (when param_type
   is written to a stream and read back, or in param()) changes nothing *)
Theorem C75_sum : forall f t ws, fmt_ok f -> (2 <= prec f)%Z -> rweights_ok f t ws -> (qlen ws + 3) * p2 (1 - prec f) <= 1 # 8 ->
  exists ps qs, hx_normalize f RNE ws = Some ps /\ fold_left (fun s x => fround f RNE (s + x)) ps 0 == 1 /\
    hx_normalize f RNE ps = Some qs /\ Forall2 Qeq qs ps.
Proof.
  intros f t ws Hf H2 Hok Hsm. destruct (hx_ok f RNE t Hf ws Hok Hsm) as (ps & E & _). destruct (hx_idem f t Hf ws Hok Hsm H2 ps E) as (qs & A & B).
  exists ps, qs. split; [exact E|]. split; [exact (hx_sum f t Hf ws Hok Hsm H2 ps E)|]. split; assumption.
Qed.
Print Assumptions C75_sum.

Lemma hx_rz : forall z, (Z.abs z <= 2 ^ 53)%Z -> representable ieee_double (inject_Z z).
Proof. intros z Hz. exists z, 0%Z. split; [cbn; lia|]. split; [exact Hz|]. unfold p2. cbn. ring. Qed.
Lemma hx_w0 : rweights_ok ieee_double i32 [1; 6; 3; 3; 0].
Proof.
  unfold rweights_ok. split; [cbn; lia|]. split; [discriminate|]. split; [cbn; lia|]. split; [|vm_compute; discriminate].
  repeat (apply Forall_cons; [split; [first [apply (hx_rz 0%Z); cbn; lia|apply (hx_rz 1%Z); cbn; lia|apply (hx_rz 6%Z); cbn; lia|apply (hx_rz 3%Z); cbn; lia]|discriminate]|]); apply Forall_nil.
Qed.

(* the hypotheses hold, with room to spare, and so does the conclusion *)
Example C75_ex_normalize : let ws := [1; 6; 3; 3; 0] in rweights_ok ieee_double i32 ws /\ (5 * qlen ws + 3) * p2 (1 - prec ieee_double) <= 1 # 8 /\
  qlen ws * (4 * qlen ws + 9) * p2 (1 - prec ieee_double) < 1 /\
  hx_normalize ieee_double RNE [2; 1; 1; 4] = Some [1 # 4; 1 # 8; 1 # 8; 1 # 2].
Proof. split; [exact hx_w0|]. split; [vm_compute; discriminate|]. split; [reflexivity|]. vm_compute. reflexivity. Qed.

(* {1, 6, 3, 3, 0} in double: the first four quotients add up to 1 + 2^-52, and
   the last probability is -2^-52: the assertion of the constructor fails *)
Theorem C75_negative_refuted : exists ws rs ps, rweights_ok ieee_double i32 ws /\ Forall (fun r => 0 < r) rs /\ length rs = length ws /\
  hp_make ieee_double RNE ws rs = Some (HParam ps rs) /\ qweight ps 4 < 0 /\ hx_check_params ps rs = false.
Proof.
  exists [1; 6; 3; 3; 0], [1; 1; 1; 1; 1]. eexists. split; [exact hx_w0|]. split; [repeat constructor|]. split; [reflexivity|].
  split; [vm_compute; reflexivity|]. split; vm_compute; reflexivity.
Qed.
Print Assumptions C75_negative_refuted.

(* "each element set to 1.0/k": the constructor of param_type from two iterators
   forgets to normalize *)
Theorem C75_iter_refuted : exists rs, Forall (fun r => 0 < r) rs /\ hp_probs (hp_iter rs) = [1; 1; 1; 1] /\
  hp_equal ieee_double RNE rs = Some (HParam [1 # 4; 1 # 4; 1 # 4; 1 # 4] rs).
Proof. exists [1; 2; 3; 4]. split; [repeat constructor|]. split; [reflexivity|]. vm_compute. reflexivity. Qed.
Print Assumptions C75_iter_refuted.

(* The constructors of the distribution: their assertions hold, probabilities()
   returns the normalized weights to within 18n+25 roundings *)
Theorem C75_make : forall f md ws rs, fmt_ok f -> rweights_ok f i32 ws -> (5 * qlen ws + 3) * p2 (1 - prec f) <= 1 # 8 ->
  length rs = length ws -> Forall (fun r => 0 < r) rs ->
  exists d ps, hd_make f md ws rs = Some d /\ hd_of_param f md (HParam ws rs) = Some d /\ hd_rates d = rs /\ hd_phases d = Z.of_nat (length ws) /\
    hd_probs f md d = Some ps /\ hd_param f md d = hp_make f md ps rs /\ hx_check_params ps (hd_rates d) = true /\
    forall i, (0 <= i < Z.of_nat (length ws))%Z -> Qabs (qweight ps i - qweight ws i / qtotal ws) <= (18 * qlen ws + 25) * p2 (1 - prec f).
Proof.
  intros f md ws rs Hf Hok Hsm HL HR. destruct (rd_prob f md i32 ws [] Hf Hok Hsm (Forall_nil _)) as (tab & ps & T & PS & LP & ER & _).
  exists (HDist tab rs), ps. assert (E: hd_make f md ws rs = Some (HDist tab rs)) by (unfold hd_make, rd_make; rewrite T; reflexivity).
  split; [exact E|]. split; [exact E|]. split; [reflexivity|]. split; [unfold hd_phases; cbn [hd_rates]; rewrite HL; reflexivity|]. split; [exact PS|]. split; [unfold hd_param, hd_probs; cbn [hd_tab hd_rates]; rewrite PS; reflexivity|]. split; [|exact ER].
  cbn [hd_rates]. unfold hx_check_params. rewrite LP, HL, Nat.eqb_refl. cbn [andb]. rewrite (proj2 (check_rates rs) HR), andb_true_r. apply check_probs.
  pose proof (n_ge1 f i32 ws Hok) as G. pose proof (p2_pos (1 - prec f)) as U. assert (0 <= qlen ws * p2 (1 - prec f)) by (apply Qmult_le_0_compat; Lqa.lra).
  apply (prob_unit f md Hf i32 ws [] tab ps Hok ltac:(Lqa.lra) T PS).
Qed.
Print Assumptions C75_make.
(* The default constructors: one phase, of rate 1 *)
Theorem C75_default : forall f md, fmt_ok f -> (8 <= prec f)%Z -> (emin f + prec f + 1 <= 0)%Z ->
  exists d p, hd_default f md = Some d /\ hd_of_param f md hp_default = Some d /\ hd_phases d = 1%Z /\ hd_rates d = [1] /\
    hd_probs f md d = Some [p] /\ Qabs (p - 1) <= 43 * p2 (1 - prec f).
Proof.
  intros f md Hf HP HM. assert (QL: qlen [1] == 1) by reflexivity. assert (QT: qtotal [1] == 1) by reflexivity. assert (R1: representable f 1) by (apply repr_1; exact Hf).
  assert (U: p2 (1 - prec f) <= p2 (-7)) by (apply p2_le; lia). assert (U7: p2 (-7) == 1 # 128) by reflexivity.
  assert (OK: rweights_ok f i32 [1]).
  { unfold rweights_ok. split; [cbn; lia|]. split; [discriminate|]. split; [cbn; lia|]. split; [repeat constructor; [exact R1|discriminate]|]. rewrite QL, QT, Qmult_1_l. apply (p2_le _ 0); lia. }
  destruct (C75_make f md [1] [1] Hf OK) as (d & ps & A & B & C & D & E & _ & F & G); [rewrite QL; Lqa.lra|reflexivity|repeat constructor|].
  assert (LP: length ps = 1%nat). { unfold hx_check_params in F. rewrite C in F. apply andb_true_iff in F. destruct F as [F _]. apply Nat.eqb_eq in F. exact F. }
  destruct ps as [|p [|? ?]]; try discriminate. exists d, p. split; [exact A|]. split; [exact B|]. split; [exact D|]. split; [exact C|]. split; [exact E|].
  specialize (G 0%Z ltac:(cbn; lia)). rewrite QL, QT in G. change (qweight [p] 0) with p in G. change (qweight [1] 0) with 1 in G. assert (E1: 1 / 1 == 1) by reflexivity. rewrite E1 in G.
  assert (E2: (18 * 1 + 25) == 43) by reflexivity. rewrite E2 in G. exact G.
Qed.
Print Assumptions C75_default.
Example C75_ex_default : (8 <= prec ieee_double)%Z /\ (emin ieee_double + prec ieee_double + 1 <= 0)%Z /\ match hd_default ieee_double RNE with Some d => hd_probs ieee_double RNE d = Some [1] | None => False end.
Proof. split; [cbn; lia|]. split; [cbn; lia|]. vm_compute. reflexivity. Qed.

(* The constructors from rates only: k phases of probability 1/k, to within 18k+25
   roundings *)
Lemma ones : forall n, qlen (repeat 1 n) == inject_Z (Z.of_nat n) /\ qtotal (repeat 1 n) == inject_Z (Z.of_nat n).
Proof.
  intro n. unfold qlen. rewrite repeat_length. split; [reflexivity|]. induction n as [|n IH]; [reflexivity|]. cbn [repeat qtotal fold_right]. unfold qtotal in *. cbn [fold_right]. rewrite IH.
  rewrite Nat2Z.inj_succ. unfold Z.succ. rewrite inject_Z_plus. ring.
Qed.
Theorem C75_equal : forall f md rs, fmt_ok f -> (emin f + prec f + 1 <= 0)%Z -> rs <> [] -> (Z.of_nat (length rs) <= imax i32)%Z -> Forall (fun r => 0 < r) rs ->
  let n := inject_Z (Z.of_nat (length rs)) in (5 * n + 3) * p2 (1 - prec f) <= 1 # 8 ->
  exists d ps, hd_equal f md rs = Some d /\ hd_of_param f md (hp_iter rs) = Some d /\ hd_rates d = rs /\ hd_phases d = Z.of_nat (length rs) /\ hd_probs f md d = Some ps /\ length ps = length rs /\
    forall i, (0 <= i < Z.of_nat (length rs))%Z -> Qabs (qweight ps i - 1 / n) <= (18 * n + 25) * p2 (1 - prec f).
Proof.
  intros f md rs Hf HM NE HL HR n Hn. destruct (ones (length rs)) as [QL QT]. fold n in QL, QT. set (ws := repeat 1 (length rs)) in *. assert (LW: length ws = length rs) by apply repeat_length.
  assert (OK: rweights_ok f i32 ws).
  { unfold rweights_ok. split; [cbn; lia|]. split; [unfold ws; destruct rs; [congruence|discriminate]|]. split; [rewrite LW; exact HL|]. split.
    - apply Forall_forall. intros x Hx. apply repeat_spec in Hx. subst x. split; [apply repr_1; exact Hf|discriminate].
    - rewrite QL, QT. rewrite <- (Qmult_1_r n) at 2. rewrite !(Qmult_comm n). apply Qmult_le_compat_r; [apply (p2_le _ 0); lia|]. unfold n. rewrite <- (Zle_Qle 0). lia. }
  destruct (C75_make f md ws rs Hf OK) as (d & ps & A & B & C & D & E & _ & F & G); [rewrite QL; exact Hn|symmetry; exact LW|exact HR|].
  exists d, ps. rewrite LW in *. split; [exact A|]. split; [exact B|]. split; [exact C|]. split; [exact D|]. split; [exact E|].
  split. { unfold hx_check_params in F. rewrite C in F. apply andb_true_iff in F. destruct F as [F _]. apply Nat.eqb_eq in F. exact F. }
  intros i Hi. specialize (G i Hi). rewrite QL, QT in G. replace (qweight ws i) with 1 in G; [exact G|]. unfold qweight, ws. symmetry. rewrite (nth_indep _ _ 1) by (rewrite repeat_length; lia). apply nth_repeat.
Qed.
Print Assumptions C75_equal.
Example C75_ex_equal : match hd_equal ieee_double RNE [2; 3; 5; 7] with Some d => hd_probs ieee_double RNE d = Some [1 # 4; 1 # 4; 1 # 4; 1 # 4] | None => False end.
Proof. vm_compute. reflexivity. Qed.

(* operator>> leaves vectors of the same, positive, length, whatever was read;
   two vectors of the same length are taken as they are *)
Theorem C75_read : forall f md p probs rates q, hp_read f md p probs rates = Some q ->
  length (hp_probs q) = length (hp_rates q) /\ (1 <= length (hp_probs q))%nat /\
  (probs <> [] -> length probs = length rates -> hp_make f md probs rates = Some q).
Proof.
  intros f md p probs rates q. unfold hp_read. set (ps := match probs with [] => hp_probs p | _ => probs end). set (rs := match rates with [] => hp_rates p | _ => rates end).
  assert (GL: forall n l, length (grow n l) = Nat.max n (length l)) by (intros n l; unfold grow; rewrite app_length, repeat_length; lia).
  assert (MK: forall a b, hp_make f md a b = Some q -> length (hp_probs q) = length a /\ hp_rates q = b).
  { intros a b. unfold hp_make. destruct (hx_normalize f md a) as [x|] eqn:E; [|discriminate]. cbn [bind]. intro H. inversion H. cbn. split; [apply (hx_length f md); exact E|reflexivity]. }
  assert (PR: probs <> [] -> length probs = length rates -> ps = probs /\ rs = rates). { intros H1 H2. unfold ps, rs. destruct probs; [congruence|]. destruct rates; [discriminate|]. split; reflexivity. }
  destruct (Nat.eqb_spec (length ps) (length rs)) as [E|E]; destruct (Nat.eqb_spec (length ps) 0) as [E0|E0]; cbn [negb orb].
  - replace (Nat.ltb (length rs) (length ps)) with false by (symmetry; apply Nat.ltb_ge; lia). replace (Nat.ltb (length ps) (length rs)) with false by (symmetry; apply Nat.ltb_ge; lia).
    intro H. destruct (MK _ _ H) as [A B]. rewrite B, A, !GL. split; [lia|]. split; [lia|]. intros H1 H2. destruct (PR H1 H2) as [P1 P2]. rewrite P1 in E0. destruct probs; [congruence|discriminate].
  - intro H. destruct (MK _ _ H) as [A B]. rewrite B, A. split; [exact E|]. split; [lia|]. intros H1 H2. destruct (PR H1 H2) as [P1 P2]. rewrite P1, P2 in H. exact H.
  - destruct (Nat.ltb_spec (length rs) (length ps)) as [L|L]; [lia|]. destruct (Nat.ltb_spec (length ps) (length rs)) as [L2|L2]; [|lia].
    intro H. destruct (MK _ _ H) as [A B]. rewrite B, A, !GL. split; [lia|]. split; [lia|]. intros H1 H2. destruct (PR H1 H2) as [P1 P2]. rewrite P1, P2 in E. contradiction.
  - destruct (Nat.ltb_spec (length rs) (length ps)) as [L|L].
    + intro H. destruct (MK _ _ H) as [A B]. rewrite B, A, !GL. split; [lia|]. split; [lia|]. intros H1 H2. destruct (PR H1 H2) as [P1 P2]. rewrite P1, P2 in E. contradiction.
    + destruct (Nat.ltb_spec (length ps) (length rs)) as [L2|L2]; [|lia].
      intro H. destruct (MK _ _ H) as [A B]. rewrite B, A, !GL. split; [lia|]. split; [lia|]. intros H1 H2. destruct (PR H1 H2) as [P1 P2]. rewrite P1, P2 in E. contradiction.
Qed.
Print Assumptions C75_read.

(* vectors of different lengths: the shorter one is continued with 1 *)
Theorem C75_read_short : forall f md p probs rates more, probs <> [] -> rates <> [] -> Forall (fun x => x = 1) more -> more <> [] ->
  (length rates = length probs + length more -> hp_read f md p probs rates = hp_make f md (probs ++ more) rates)%nat /\
  (length probs = length rates + length more -> hp_read f md p probs rates = hp_make f md probs (rates ++ more))%nat.
Proof.
  intros f md p probs rates more HP HR HM NM. assert (EM: forall n, length more = n -> more = repeat 1 n).
  { clear NM. induction more as [|x m IH]; intros [|n] H; try discriminate; [reflexivity|]. inversion HM; subst. cbn [repeat]. f_equal. apply IH; [assumption|]. cbn in H. lia. }
  assert (LM: (0 < length more)%nat) by (destruct more; [congruence|cbn; lia]).
  unfold hp_read. replace (match probs with [] => hp_probs p | _ => probs end) with probs by (destruct probs; [congruence|reflexivity]). replace (match rates with [] => hp_rates p | _ => rates end) with rates by (destruct rates; [congruence|reflexivity]).
  split; intro EL; destruct (Nat.eqb_spec (length probs) (length rates)) as [E|_]; try lia; cbn [negb orb].
  - destruct (Nat.ltb_spec (length rates) (length probs)) as [L|_]; [lia|]. destruct (Nat.ltb_spec (length probs) (length rates)) as [_|L]; [|lia]. unfold grow. rewrite <- EM by lia. reflexivity.
  - destruct (Nat.ltb_spec (length rates) (length probs)) as [_|L]; [|lia]. unfold grow. rewrite <- EM by lia. reflexivity.
Qed.
Print Assumptions C75_read_short.

(* three probabilities and one rate *)
Example C75_ex_read : hp_read ieee_double RNE hp_default [1; 2; 1] [5] = Some (HParam [1 # 4; 1 # 2; 1 # 4] [5; 1; 1]) /\
  hp_read ieee_double RNE hp_default [] [] = Some hp_default.
Proof. split; vm_compute; reflexivity. Qed.

(* param(p) with fewer phases than before: probabilities(), and so param() and
   operator<<, write outside of a vector *)
Theorem C75_set_param_refuted : exists d d' p, hd_make ieee_double RNE [0; 0; 1] [1; 2; 3] = Some d /\ hp_make ieee_double RNE [1; 1] [1; 2] = Some p /\
  hd_set_param ieee_double RNE d p = Some d' /\ hd_rates d' = [1; 2] /\ hd_param ieee_double RNE d' = None.
Proof. do 3 eexists. split; [vm_compute; reflexivity|]. split; [vm_compute; reflexivity|]. split; [vm_compute; reflexivity|]. split; reflexivity. Qed.
Print Assumptions C75_set_param_refuted.

Open Scope R_scope.
(* The law.  The table of the discrete distribution gives phase i a share of
   area_i/n of the unit square; with exactly exponential variates the result would
   have the documented distribution function to within n(8n+18) roundings. *)
Theorem C75_law : forall f md ws rs, fmt_ok f -> rweights_ok f i32 ws -> ((qlen ws + 3) * p2 (1 - prec f) <= 1 # 8)%Q ->
  length rs = length ws -> Forall (fun r => 0 < r)%Q rs ->
  exists d h s, hd_make f md ws rs = Some d /\ hd_rates d = rs /\
    (forall c v, (0 <= c < Z.of_nat (length ws))%Z -> (v < 1)%Q -> rd_select (hd_tab d) c v = Some (if qlt v (h c) then c else s c)) /\
    forall x, 0 <= x ->
      Rabs (mix_cdf (map (fun k => Q2R (area (length ws) h s (Z.of_nat k) / qlen ws)) (seq 0 (length ws))) (map Q2R rs) x -
            mix_cdf (map (fun w => Q2R (w / qtotal ws)) ws) (map Q2R rs) x) <= INR (length ws) * Q2R ((8 * qlen ws + 18) * p2 (1 - prec f)).
Proof.
  intros f md ws rs Hf Hok Hsm HL HR. destruct (rd_table f md i32 ws [] Hf Hok Hsm) as (tab & h & s & T & LT & SEL & _ & AR).
  exists (HDist tab rs), h, s. split; [unfold hd_make, rd_make; rewrite T; reflexivity|]. split; [reflexivity|]. split; [exact SEL|].
  intros x X0. pose proof (n_ge1 f i32 ws Hok) as G. pose proof (p2_pos (1 - prec f)) as U.
  assert (D0: (0 <= (8 * qlen ws + 18) * p2 (1 - prec f))%Q) by (apply Qmult_le_0_compat; Lqa.lra).
  assert (LL: INR (length ws) = INR (length (map Q2R rs))) by (rewrite map_length, HL; reflexivity). rewrite LL. apply mix_err; [rewrite !map_length, seq_length; lia|rewrite !map_length; lia| | | |exact X0].
  - rewrite <- RMicromega.Q2R_0. apply Qle_Rle. exact D0.
  - rewrite map_length, HL. intros i Hi. rewrite (nth_indep _ 0 (Q2R (area (length ws) h s (Z.of_nat 0) / qlen ws))) by (rewrite map_length, seq_length; exact Hi).
    rewrite (map_nth (fun k => Q2R (area (length ws) h s (Z.of_nat k) / qlen ws))). rewrite seq_nth by exact Hi. cbn [Nat.add].
    rewrite (nth_indep _ 0 (Q2R (0 / qtotal ws))) by (rewrite map_length; exact Hi). rewrite (map_nth (fun w => Q2R (w / qtotal ws))).
    specialize (AR (Z.of_nat i) ltac:(lia)). unfold qweight in AR. rewrite Nat2Z.id in AR. set (a := area _ _ _ _) in *. set (w := nth i ws 0%Q) in *.
    apply abs_le_inv in AR. destruct AR as [A1 A2].
    destruct (total_near f md i32 Hf ws Hok Hsm) as (T0 & _ & _).
    assert (X: (qlen ws * (a / qlen ws - w / qtotal ws) == a - qlen ws * w / qtotal ws)%Q) by (field; split; Lqa.lra).
    rewrite <- Q2R_minus. assert (B: (- ((8 * qlen ws + 18) * p2 (1 - prec f)) <= a / qlen ws - w / qtotal ws)%Q /\ (a / qlen ws - w / qtotal ws <= (8 * qlen ws + 18) * p2 (1 - prec f))%Q).
    { split; apply Qmult_le_l with (qlen ws); try Lqa.lra. }
    destruct B as [B1 B2]. apply Qle_Rle in B1. apply Qle_Rle in B2. rewrite Q2R_opp in B1. apply Rabs_le. split; assumption.
  - apply Forall_forall. intros r Hr. apply in_map_iff in Hr. destruct Hr as (q & Q & I). subst r. rewrite Forall_forall in HR. rewrite <- RMicromega.Q2R_0. apply Qlt_Rlt. apply HR, I.
Qed.
Print Assumptions C75_law.

(* operator(): no undefined behaviour.  The phase is that of dd_, its weight is
   positive if there are not too many of them, and the result is an exponential
   variate divided by its rate. *)
Theorem C75_run : forall f md ex K ws rs tb bmin bmax F ds, fmt_ok f -> fmt_wide f -> (20 <= prec f)%Z -> 0 <= K -> exp_ok f K ex ->
  eng_wf tb bmin bmax -> (32 <= bits tb <= 64)%Z -> (bmax - bmin <= imax tb)%Z -> no_full_last (prec f) (digit_bits bmin bmax) 8 ->
  rweights_ok f i32 ws -> ((qlen ws + 3) * p2 (1 - prec f) <= 1 # 8)%Q -> length rs = length ws -> Forall (fun r => 0 < r)%Q rs ->
  valid_draws bmin bmax ds -> (length ds < F)%nat ->
  let ez := ez_op f md ex (int_float_pair f md F 8 tb bmin bmax) (uniform_01 f md F tb bmin bmax) F in
  exists d, hd_make f md ws rs = Some d /\ exec (hd_op_parm f md F tb bmin bmax ez (HParam ws rs)) ds = exec (hd_op f md F tb bmin bmax ez d) ds /\
  (exec (hd_op f md F tb bmin bmax ez d) ds = OMore \/
   exists i r0 v rest u lam, exec (rd_op f md i32 F tb bmin bmax (hd_tab d)) ds = ORet i r0 /\ exec (hd_op f md F tb bmin bmax ez d) ds = ORet v rest /\
     nth_error rs (Z.to_nat i) = Some lam /\ (0 <= i < Z.of_nat (length ws))%Z /\ ((qlen ws * (4 * qlen ws + 9) * p2 (1 - prec f) < 1)%Q -> (0 < qweight ws i)%Q) /\
     (0 <= v)%Q /\ representable f v /\ v = fround f md (u / lam) /\ ez_point f md ((68 + K) * unit_err f) 0 u).
Proof.
  intros f md ex K ws rs tb bmin bmax F ds Hf Hw Pf HK HE He HB HRg HN Hok Hsm HL HR Hv HF ez.
  destruct (rd_op_range f md i32 ws [] tb bmin bmax Hf Hok Hsm He HRg) as (tab & T & _ & RUN). exists (HDist tab rs).
  assert (E: hd_make f md ws rs = Some (HDist tab rs)) by (unfold hd_make, rd_make; rewrite T; reflexivity). split; [exact E|].
  split; [unfold hd_op_parm, hd_of_param; cbn [hp_probs hp_rates]; rewrite E; reflexivity|].
  unfold hd_op. cbn [hd_tab hd_rates]. rewrite exec_bind_eq. destruct (RUN F ds HF Hv) as [R|(i & r0 & R & RI & RW)]; [left; rewrite R; reflexivity|]. rewrite R.
  destruct (exec_suffix _ _ _ _ _ _ _ R Hv) as [V1 L1]. rewrite exec_bind_eq. unfold at_. destruct (Z.ltb_spec i 0) as [C|C]; [lia|].
  destruct (nth_error rs (Z.to_nat i)) as [lam|] eqn:EN; [|apply nth_error_None in EN; lia]. cbn [plift exec].
  assert (LP: (0 < lam)%Q) by (rewrite Forall_forall in HR; apply HR; apply nth_error_In in EN; exact EN).
  assert (LC: ez_ctor lam = true) by (unfold ez_ctor; apply qlt_iff; exact LP).
  destruct (C64_run f md ex K lam tb bmin bmax F r0 Hf Hw Pf HK HE He HB HRg HN LC V1 ltac:(lia)) as [Q|(v & rest & u & Q1 & Q2 & Q3 & Q4 & Q5)]; [left; exact Q|].
  right. exists i, r0, v, rest, u, lam. split; [reflexivity|]. split; [exact Q1|]. split; [exact EN|]. split; [exact RI|]. split; [exact RW|]. split; [exact Q2|]. split; [exact Q3|]. split; assumption.
Qed.
Print Assumptions C75_run.

(* {0.5, 0, 3.25, 1} and rates {1, 2, 4, 8}: phase 2, then an exponential variate
   divided by 4 *)
Example C75_ex : let ws := [1 # 2; 0; 13 # 4; 1]%Q in let rs := [1; 2; 4; 8]%Q in let f := ieee_double in
  exists d, hd_make f RNE ws rs = Some d /\
    exec (hd_op f RNE 9 u32 0 4294967295 (ez_op f RNE (fun x => x) (int_float_pair f RNE 9 8 u32 0 4294967295) (uniform_01 f RNE 9 u32 0 4294967295) 9) d) [1073741824; 9; 256 * 77 + 3; 5]%Z =
    exec (ez_op f RNE (fun x => x) (int_float_pair f RNE 9 8 u32 0 4294967295) (uniform_01 f RNE 9 u32 0 4294967295) 9 4) [256 * 77 + 3; 5]%Z /\
    exists v, exec (ez_op f RNE (fun x => x) (int_float_pair f RNE 9 8 u32 0 4294967295) (uniform_01 f RNE 9 u32 0 4294967295) 9 4) [256 * 77 + 3; 5]%Z = ORet v [] /\ (0 < v)%Q.
Proof. cbn zeta. eexists. split; [vm_compute; reflexivity|]. split; [vm_compute; reflexivity|]. eexists. split; [vm_compute; reflexivity|]. reflexivity. Qed.
