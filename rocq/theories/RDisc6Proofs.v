(* discrete_distribution with real weights: probabilities(). *)
From Coq Require Import Permutation Lqa.
From Verif Require Import Base ProgModel ProgSpec ProgProofs UIntModel UIntSpec UIntProofs FloatModel FloatSpec FloatProofs RealModel RealSpec RealProofs UniProofs
  DiscModel DiscSpec DiscProofs Disc2Proofs Disc3Proofs Disc4Proofs RDiscModel RDiscSpec RDiscProofs RDisc2Proofs RDisc3Proofs RDisc4Proofs RDisc5Proofs.
Ltac Zify.zify_post_hook ::= idtac.
Open Scope Q_scope.

Section Prob.
Variables (f : fmt) (md : rmode).
Hypothesis Hf : fmt_ok f.
Local Notation rnd := (fround f md).
Local Notation P := (prec f).
Local Notation e := (p2 (1 - P)).

(* what entry (v, s) of column c adds to value j *)
Definition tadd (c : Z) (x : Q * Z) (j : Z) : Q :=
  (if (c =? j)%Z then fst x else 0) + (if (snd x =? j)%Z then 1 - fst x else 0).
Fixpoint tsum (c : Z) (l : rtab) (j : Z) : Q :=
  match l with [] => 0 | x :: r => tadd c x j + tsum (c + 1) r j end.
Definition resQ (l : list Q) (j : Z) : Q := nth (Z.to_nat j) l 0.
Definition good_entry (N : Z) (x : Q * Z) : Prop :=
  representable f (fst x) /\ 0 <= fst x /\ fst x <= 1 /\ (0 <= snd x < N)%Z.

Lemma near_add_rnd : forall k x y a b, 1 <= k -> near f k x y -> near f k a b -> representable f y -> representable f b ->
  (k + 1) * e <= 1 -> near f (k + 1) (x + a) (rnd (y + b)).
Proof using Hf.
  intros k x y a b K0 Nx Na Ry Rb KE. destruct (e_pos f Hf) as [E0 EL].
  apply near_trans with (y + b); try lra.
  - apply near_add2; assumption.
  - apply near_sum; [exact Hf|assumption|assumption|apply Nx|apply Na].
Qed.

Lemma prob_loop_ok : forall N l c res k X, (0 <= c)%Z -> (c + Z.of_nat (length l) <= N)%Z -> Z.of_nat (length res) = N ->
  Forall (good_entry N) l -> 1 <= k -> (k + 2 * qlen l) * e <= 1 ->
  (forall j, (0 <= j < N)%Z -> representable f (resQ res j) /\ near f k (X j) (resQ res j)) ->
  exists res', r_prob_loop f md c l res = Some res' /\ Z.of_nat (length res') = N /\
    forall j, (0 <= j < N)%Z -> representable f (resQ res' j) /\ near f (k + 2 * qlen l) (X j + tsum c l j) (resQ res' j).
Proof using Hf.
  intro N. destruct (e_pos f Hf) as [E0 EL].
  induction l as [|x l IH]; intros c res k X Hc HL HR HG Hk HE HI.
  - exists res. split; [reflexivity|]. split; [exact HR|]. intros j Hj. destruct (HI j Hj) as [I1 I2]. split; [exact I1|].
    cbn [tsum]. change (qlen (@nil (Q * Z))) with 0. apply near_mono with k; [lra|].
    apply near_compat with (X j) (resQ res j); [ring|reflexivity|exact I2].
  - assert (LL: (1 + Z.of_nat (length l) <= N - c)%Z) by (cbn [length] in HL; lia). clear HL.
    pose proof (Forall_inv HG) as (G1 & G2 & G3 & G4). apply Forall_inv_tail in HG.
    assert (NS: qlen (x :: l) == 1 + qlen l) by apply (zof_cons _ x l).
    assert (N0: 0 <= qlen l) by apply zof_nonneg.
    assert (NE: 0 <= qlen l * e) by (apply Qmult_le_0_compat; lra).
    assert (HE': (k + 2 + 2 * qlen l) * e <= 1). { assert (XX: (k + 2 * qlen (x :: l)) * e == (k + 2 + 2 * qlen l) * e) by (rewrite NS; ring). lra. }
    assert (XK: (k + 2 + 2 * qlen l) * e == k * e + 2 * e + 2 * (qlen l * e)) by ring.
    cbn [r_prob_loop]. rewrite (at_ok _ 0) by lia. cbn [bind]. fold (resQ res c).
    destruct (put_ok_Z _ 0 res c (rnd (resQ res c + fst x)) ltac:(lia)) as (r1 & P1 & P2 & P3). rewrite P1. cbn [bind].
    rewrite (at_ok _ 0) by lia. cbn [bind]. fold (resQ r1 (snd x)).
    destruct (put_ok_Z _ 0 r1 (snd x) (rnd (resQ r1 (snd x) + rnd (1 - fst x))) ltac:(lia)) as (r2 & Q1 & Q2 & Q3). rewrite Q1. cbn [bind].
    assert (J1: forall j, (0 <= j < N)%Z -> representable f (resQ r1 j) /\
       near f (k + 1) (X j + (if (c =? j)%Z then fst x else 0)) (resQ r1 j)).
    { intros j Hj. unfold resQ at 1 2. rewrite P3 by lia. rewrite (Z.eqb_sym c j). destruct (HI j Hj) as [I1 I2].
      destruct (Z.eqb_spec j c) as [->|NEQ].
      - split; [apply rnd_repr; exact Hf|]. apply near_add_rnd; try assumption; [apply near_refl; lra|lra].
      - fold (resQ res j). split; [exact I1|]. apply near_mono with k; [lra|].
        apply near_compat with (X j) (resQ res j); [ring|reflexivity|exact I2]. }
    assert (J2: forall j, (0 <= j < N)%Z -> representable f (resQ r2 j) /\ near f (k + 2) (X j + tadd c x j) (resQ r2 j)).
    { intros j Hj. unfold resQ at 1 2. rewrite Q3 by lia. unfold tadd. rewrite (Z.eqb_sym (snd x) j). destruct (J1 j Hj) as [I1 I2].
      destruct (Z.eqb_spec j (snd x)) as [E|NEQ].
      - rewrite <- E. split; [apply rnd_repr; exact Hf|].
        apply near_mono with (k + 1 + 1); [lra|].
        apply near_compat with (X j + (if (c =? j)%Z then fst x else 0) + (1 - fst x)) (rnd (resQ r1 j + rnd (1 - fst x))); [ring|reflexivity|].
        apply near_add_rnd; try assumption; [lra| | |lra].
        + apply near_mono with 1; [lra|].
          assert (RN: representable f (- fst x)). { destruct G1 as (m & q & M1 & M2 & M3). exists (- m)%Z, q. split; [exact M1|]. split; [rewrite Z.abs_opp; exact M2|]. rewrite inject_Z_opp, M3. ring. }
          destruct (Qlt_le_dec (1 - fst x) (p2 (emin f + P - 1))) as [L|L].
          * assert (R: representable f (1 + - fst x)).
            { apply repr_sum_small; [exact Hf|apply repr_1; exact Hf|exact RN|]. rewrite Qabs_pos by lra.
              assert (p2 (emin f + P - 1) <= p2 (emin f + P)) by (apply p2_le; lia). lra. }
            apply near_compat with (1 - fst x) (1 + - fst x); [reflexivity|symmetry; apply (rnd_fix f md Hf (1 + - fst x) R)|].
            apply near_refl; lra.
          * apply near_rnd; [exact Hf|exact L].
        + apply rnd_repr; exact Hf.
      - fold (resQ r1 j). split; [exact I1|]. apply near_mono with (k + 1); [lra|].
        apply near_compat with (X j + (if (c =? j)%Z then fst x else 0)) (resQ r1 j); [ring|reflexivity|exact I2]. }
    destruct (IH (c + 1)%Z r2 (k + 2) (fun j => X j + tadd c x j) ltac:(lia) ltac:(lia) ltac:(lia) HG ltac:(lra) HE' J2) as (res' & R1 & R2 & R3).
    exists res'. split; [exact R1|]. split; [exact R2|]. intros j Hj. destruct (R3 j Hj) as [S1 S2]. split; [exact S1|].
    apply near_mono with (k + 2 + 2 * qlen l); [lra|].
    apply near_compat with (X j + tadd c x j + tsum (c + 1) l j) (resQ res' j); [cbn [tsum]; ring|reflexivity|exact S2].
Qed.

(* ---- the table ---- *)
Lemma tsum_map : forall l c j, tsum c l j == qsum (fun k => tadd (c + Z.of_nat k) (nth k l (0, 0%Z)) j) (seq 0 (length l)).
Proof using.
  induction l as [|x l IH]; intros c j; [reflexivity|]. cbn [tsum length seq qsum nth]. rewrite Z.add_0_r, IH, <- seq_shift, qsum_map.
  apply Qplus_inj_l. apply qsum_ext. intros k _. replace (c + 1 + Z.of_nat k)%Z with (c + Z.of_nat (S k))%Z by lia. reflexivity.
Qed.

Lemma col_total : forall N h c, rentry_ok f (Z.of_nat N) h c -> (0 <= c < Z.of_nat N)%Z ->
  qsum (fun i => rcontrib h c i) (map Z.of_nat (seq 0 N)) == 1.
Proof using.
  intros N h c (_ & K0 & K1 & K2) Hc.
  assert (G: forall (v : Q) k, (0 <= k < Z.of_nat N)%Z -> qsum (fun i => if (k =? i)%Z then v else 0) (map Z.of_nat (seq 0 N)) == v).
  { intros v k Hk. rewrite qsum_map.
    assert (L: seq 0 N = seq 0 (Z.to_nat k) ++ Z.to_nat k :: seq (S (Z.to_nat k)) (N - S (Z.to_nat k))).
    { replace N with (Z.to_nat k + S (N - S (Z.to_nat k)))%nat at 1 by lia. rewrite seq_app. reflexivity. }
    rewrite L, qsum_app. cbn [qsum]. replace (k =? Z.of_nat (Z.to_nat k))%Z with true by (symmetry; apply Z.eqb_eq; lia).
    rewrite (qsum_ext _ _ (fun _ => 0) (seq 0 _)), (qsum_ext _ _ (fun _ => 0) (seq (S _) _)), !qsum_const; [ring| |];
      intros y Hy; apply in_seq in Hy; destruct (Z.eqb_spec k (Z.of_nat y)); try reflexivity; lia. }
  unfold rcontrib. rewrite qsum_plus, (G (fst (h c)) c Hc). destruct (snd (h c)) as [s|].
  - rewrite (G (1 - fst (h c)) s K2). ring.
  - rewrite qsum_const, K2. ring.
Qed.

Lemma qsum_swap : forall A B (g : A -> B -> Q) l m,
  qsum (fun x => qsum (g x) m) l == qsum (fun y => qsum (fun x => g x y) l) m.
Proof using.
  intros A B g l m. induction l as [|x l IH]; cbn [qsum].
  - rewrite qsum_const. ring.
  - rewrite IH. rewrite <- qsum_plus. reflexivity.
Qed.

Lemma list_near : forall k (l : list Q) (X : Z -> Q), 0 <= k ->
  (forall j, (0 <= j < Z.of_nat (length l))%Z -> near f k (X j) (resQ l j)) ->
  near f k (qsum X (map Z.of_nat (seq 0 (length l)))) (qsum (fun w => w) l).
Proof using.
  intros k. induction l as [|x l IH] using rev_ind; intros X Hk H.
  - cbn. apply near_refl; lra.
  - rewrite app_length. cbn [length]. replace (length l + 1)%nat with (S (length l)) by lia.
    rewrite seq_S, map_app. cbn [map].
    assert (E1: qsum X (map Z.of_nat (seq 0 (length l)) ++ [Z.of_nat (0 + length l)]) == qsum X (map Z.of_nat (seq 0 (length l))) + X (Z.of_nat (length l))).
    { rewrite qsum_app. cbn [qsum plus]. ring. }
    assert (E2: qsum (fun w => w) (l ++ [x]) == qsum (fun w => w) l + x) by (rewrite qsum_app; cbn [qsum]; ring).
    apply near_compat with (qsum X (map Z.of_nat (seq 0 (length l))) + X (Z.of_nat (length l))) (qsum (fun w => w) l + x); [symmetry; exact E1|symmetry; exact E2|].
    apply near_add2.
    + apply IH; [exact Hk|]. intros j Hj. specialize (H j). rewrite app_length in H. specialize (H ltac:(lia)).
      unfold resQ in *. rewrite app_nth1 in H by lia. exact H.
    + specialize (H (Z.of_nat (length l))). rewrite app_length in H. cbn [length] in H. specialize (H ltac:(lia)).
      unfold resQ in H. rewrite Nat2Z.id, app_nth2, Nat.sub_diag in H by lia. exact H.
Qed.
End Prob.

Lemma rd_prob : forall f md t ws old, fmt_ok f -> rweights_ok f t ws ->
  (5 * qlen ws + 3) * p2 (1 - prec f) <= 1 # 8 ->
  Forall (fun x => (0 <= snd x < Z.of_nat (length ws))%Z) old ->
  exists tab ps, rd_init f md t old ws = Some tab /\ rd_probabilities f md tab = Some ps /\ length ps = length ws /\
    (forall i, (0 <= i < Z.of_nat (length ws))%Z ->
      Qabs (qweight ps i - qweight ws i / qtotal ws) <= (18 * qlen ws + 25) * p2 (1 - prec f)) /\
    (forall i, (0 <= i < Z.of_nat (length ws))%Z -> qweight ws i == 0 ->
      qlen ws * (4 * qlen ws + 9) * p2 (1 - prec f) < 1 -> qweight ps i == 0).
Proof.
  intros f md t ws old Hf Hok Hsm Hold. pose proof (n_ge1 f t ws Hok) as N1. destruct (e_pos f Hf) as [E0 EL].
  set (n := qlen ws) in *. set (e := p2 (1 - prec f)) in *.
  assert (NE: 0 <= n * e) by (apply Qmult_le_0_compat; lra).
  assert (Hsm': (n + 3) * e <= 1 # 8) by lra.
  destruct (avg_near f md t Hf ws Hok Hsm') as (_ & _ & _ & S0).
  destruct (rd_init_ok f md t Hf ws Hok Hsm') as (h & H1 & H2 & H3 & H4).
  destruct (H4 old) as (tab & T1 & T2 & T3). set (N := length ws) in *.
  assert (NP: (0 < N)%nat) by (destruct Hok as (_ & Hne & _); unfold N; destruct ws; [congruence|cbn [length]; lia]).
  (* entries *)
  assert (OL: forall j, (0 <= j < Z.of_nat N)%Z -> (0 <= snd (tabQ (r_resize old N) j) < Z.of_nat N)%Z).
  { intros j Hj. unfold tabQ.
    assert (FA: Forall (fun x : Q * Z => (0 <= snd x < Z.of_nat N)%Z) (r_resize old N)).
    { unfold r_resize. apply Forall_app. split.
      - rewrite <- (firstn_skipn N old) in Hold. apply Forall_app in Hold. apply Hold.
      - apply Forall_forall. intros x Hx. apply repeat_spec in Hx. subst x. cbn [snd]. lia. }
    rewrite Forall_forall in FA. apply FA. apply nth_In. unfold r_resize. rewrite app_length, firstn_length, repeat_length. lia. }
  assert (GE: Forall (good_entry f (Z.of_nat N)) tab).
  { apply Forall_forall. intros x Hx. apply (In_nth _ _ (0, 0%Z)) in Hx. destruct Hx as (k & K1 & K2).
    assert (KR: (0 <= Z.of_nat k < Z.of_nat N)%Z) by lia. pose proof (T3 _ KR) as E. unfold tabQ at 1 in E. rewrite Nat2Z.id, K2 in E.
    destruct (H1 _ KR) as (A1 & A2 & A3 & A4). rewrite E. unfold good_entry, r_apply. cbn [fst snd].
    repeat split; try assumption; destruct (snd (h (Z.of_nat k))); try apply A4; apply OL; exact KR. }
  (* the exact areas *)
  set (A := fun i => qsum (fun j => rcontrib h j i) (map Z.of_nat (seq 0 N))) in *.
  assert (TS: forall i, (0 <= i < Z.of_nat N)%Z -> tsum 0 tab i == A i).
  { intros i Hi. rewrite tsum_map, T2. unfold A. rewrite qsum_map. apply qsum_ext. intros k Hk. apply in_seq in Hk.
    assert (KR: (0 <= Z.of_nat k < Z.of_nat N)%Z) by lia. pose proof (T3 _ KR) as E. unfold tabQ at 1 in E. rewrite Nat2Z.id in E. rewrite E.
    destruct (H1 _ KR) as (_ & _ & _ & A4). unfold tadd, rcontrib, r_apply. cbn [fst snd]. replace (0 + Z.of_nat k)%Z with (Z.of_nat k) by lia.
    destruct (snd (h (Z.of_nat k))) as [s|]; [reflexivity|]. rewrite A4. destruct (snd _ =? i)%Z; ring. }
  assert (A0: forall i, 0 <= A i).
  { intro i. apply qsum_nonneg. intros j Hj. apply In_range in Hj. apply (rcontrib_nonneg f (Z.of_nat N)). apply H1. exact Hj. }
  assert (AT: qsum A (map Z.of_nat (seq 0 N)) == n).
  { unfold A. rewrite qsum_swap. rewrite (qsum_ext _ _ (fun _ => 1)).
    - rewrite qsum_const, map_length, seq_length. unfold n, qlen. fold N. ring.
    - intros j Hj. apply In_range in Hj. apply (col_total f); [apply H1|]; exact Hj. }
  (* the loop *)
  assert (LT: qlen tab == n) by (unfold qlen, n; rewrite T2; reflexivity).
  destruct (prob_loop_ok f md Hf (Z.of_nat N) tab 0 (repeat 0 N) 1 (fun _ => 0) ltac:(lia) ltac:(lia)) as (res & R1 & R2 & R3).
  { rewrite repeat_length. reflexivity. }
  { exact GE. }
  { lra. }
  { fold e. assert (X: (1 + 2 * qlen tab) * e == e + 2 * (n * e)) by (rewrite LT; ring). lra. }
  { intros j Hj. unfold resQ. rewrite nth_repeat. split; [apply repr_0; exact Hf|]. apply near_refl; lra. }
  assert (RN: forall j, (0 <= j < Z.of_nat N)%Z -> representable f (resQ res j) /\ near f (2 * n + 1) (A j) (resQ res j)).
  { intros j Hj. destruct (R3 j Hj) as [B1 B2]. split; [exact B1|]. apply near_mono with (1 + 2 * qlen tab); [lra|].
    apply near_compat with (0 + tsum 0 tab j) (resQ res j); [rewrite (TS j Hj); ring|reflexivity|exact B2]. }
  assert (LR: length res = N) by lia.
  (* the sum *)
  assert (SN: near f (2 * n + 1) n (qsum (fun w => w) res)).
  { apply near_compat with (qsum A (map Z.of_nat (seq 0 (length res)))) (qsum (fun w => w) res); [rewrite LR; exact AT|reflexivity|].
    apply list_near; [lra|]. intros j Hj. apply RN. lia. }
  assert (FR: Forall (fun w => representable f w /\ 0 <= w) res).
  { apply Forall_forall. intros w Hw. apply (In_nth _ _ 0) in Hw. destruct Hw as (k & K1 & <-).
    destruct (RN (Z.of_nat k) ltac:(lia)) as [B1 B2]. unfold resQ in B1, B2. rewrite Nat2Z.id in B1, B2. split; [exact B1|apply B2]. }
  assert (QR: inject_Z (Z.of_nat (length res)) = n) by (unfold n, qlen; rewrite LR; reflexivity).
  destruct (racc_near f md Hf res 0 0 0 FR) as [C1 C2].
  { apply repr_0. exact Hf. }
  { lra. }
  { rewrite QR. fold e. assert ((0 + n) * e == n * e) by ring. lra. }
  { apply near_refl; lra. }
  fold (racc f md res) in C1, C2. rewrite QR in C1.
  assert (CN: near f (3 * n + 1) n (racc f md res)).
  { apply near_mono with (2 * n + 1 + n); [lra|]. apply near_trans with (qsum (fun w => w) res); fold e; try lra; [exact SN|].
    apply near_mono with (0 + n); [lra|]. apply near_compat with (0 + qsum (fun w => w) res) (racc f md res); [ring|reflexivity|exact C1]. }
  assert (RP: 0 < racc f md res).
  { destruct CN as (_ & _ & B3 & _). fold e in B3. assert (0 < (1 - (3 * n + 1) * e) * n) by (apply Qmult_lt_0_compat; lra). lra. }
  set (ps := map (fun w => fround f md (w / racc f md res)) res).
  exists tab, ps. split; [exact T1|]. split; [|split; [unfold ps; rewrite map_length; exact LR|]].
  - unfold rd_probabilities. rewrite T2. rewrite R1. cbn [bind]. unfold r_normalize. apply (r_norm_ok f md). lra.
  - assert (PN: forall i, (0 <= i < Z.of_nat N)%Z -> qweight ps i = fround f md (resQ res i / racc f md res)).
    { intros i Hi. unfold qweight, ps. rewrite (nth_indep _ 0 (fround f md (0 / racc f md res))) by (rewrite map_length; lia).
      rewrite (map_nth (fun w => fround f md (w / racc f md res))). reflexivity. }
    assert (QN: forall i, (0 <= i < Z.of_nat N)%Z -> near f (5 * n + 2) (A i / n) (resQ res i / racc f md res)).
    { intros i Hi. destruct (RN i Hi) as [_ B2]. unfold Qdiv. apply near_mono with (2 * n + 1 + (3 * n + 1)); [lra|].
      pose proof (Qinv_lt_0_compat n ltac:(lra)). pose proof (Qinv_lt_0_compat _ RP).
      apply near_trans with (resQ res i * / n); fold e; try lra.
      - apply near_mul; [lra|exact B2].
      - apply near_compat with (/ n * resQ res i) (/ racc f md res * resQ res i); [ring|ring|].
        apply near_mul; [apply B2|]. apply near_inv; [lra|exact RP|exact CN]. }
    assert (S0': ~ qtotal ws == 0) by lra.
    split.
    + intros i Hi. rewrite (PN i Hi).
      destruct (near_rnd_abs f md Hf (5 * n + 2) _ _ ltac:(lra) ltac:(fold e; lra) (QN i Hi)) as [_ V]. fold e in V. apply abs_le_inv in V.
      assert (AL: A i <= n). { rewrite <- AT. apply (qsum_in _ A); [intros y _; apply A0|]. apply In_range. exact Hi. }
      assert (QL: A i / n <= 1) by (apply Qle_shift_div_r; lra).
      assert (Q0: 0 <= A i / n) by (apply Qle_shift_div_l; [lra|specialize (A0 i); lra]).
      assert (VE: 2 * (5 * n + 2 + 1) * e * (A i / n) <= 2 * (5 * n + 2 + 1) * e * 1).
      { rewrite !(Qmult_comm (2 * (5 * n + 2 + 1) * e)). apply Qmult_le_compat_r; [exact QL|]. apply Qmult_le_0_compat; lra. }
      pose proof (H2 i Hi) as HA. fold (A i) in HA. apply abs_le_inv in HA. unfold exq in HA. fold n e in HA.
      set (w := qweight ws i) in *.
      assert (XA: A i == n * (A i / n)) by (field; lra).
      assert (XW: n * w / qtotal ws == n * (w / qtotal ws)) by (field; lra).
      assert (XE: n * (8 * n + 18) * e == n * ((8 * n + 18) * e)) by ring.
      rewrite XA, XW, XE in HA.
      assert (D1: A i / n - w / qtotal ws <= (8 * n + 18) * e).
      { apply Qnot_lt_le. intro C. apply (Qmult_lt_compat_r _ _ n) in C; lra. }
      assert (D2: - ((8 * n + 18) * e) <= A i / n - w / qtotal ws).
      { apply Qnot_lt_le. intro C. apply (Qmult_lt_compat_r _ _ n) in C; lra. }
      apply abs_le; lra.
    + intros i Hi W HB. rewrite (PN i Hi).
      assert (AZ: A i == 0) by (apply H3; assumption).
      destruct (QN i Hi) as (_ & Y0 & _ & Y2). fold e in Y2.
      assert (AD: A i / n == 0) by (rewrite AZ; unfold Qdiv; ring).
      assert (Z0: resQ res i / racc f md res == 0).
      { assert ((1 # 2) * (resQ res i / racc f md res) <= (1 - (5 * n + 2) * e) * (resQ res i / racc f md res)) by (apply Qmult_le_compat_r; lra). lra. }
      rewrite (rnd_compat f md Hf _ 0 Z0). apply rnd_fix; [exact Hf|apply repr_0; exact Hf].
Qed.
