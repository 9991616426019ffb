(* discrete_distribution with real weights: the table as a whole. *)
From Coq Require Import Permutation Lqa.
From Verif Require Import Base ProgModel ProgSpec ProgProofs UIntModel UIntSpec UIntProofs FloatModel FloatSpec FloatProofs RealModel DiscModel DiscSpec DiscProofs Disc2Proofs RDiscModel RDiscSpec RDiscProofs RDisc2Proofs.
Ltac Zify.zify_post_hook ::= idtac.
Open Scope Q_scope.

Lemma qtotal_qsum : forall ws, qtotal ws == qsum (fun w => w) ws.
Proof. induction ws as [|x ws IH]; cbn [qtotal qsum]; [lra|]. rewrite IH. reflexivity. Qed.

Definition rindexed (i : Z) (vs : list Q) : list (Q * Z) :=
  combine vs (map (fun k => (i + Z.of_nat k)%Z) (seq 0 (length vs))).
Lemma rindexed_cons : forall i x vs, rindexed i (x :: vs) = (x, i) :: rindexed (i + 1) vs.
Proof.
  intros i x vs. unfold rindexed. cbn [length seq map combine]. rewrite Z.add_0_r. f_equal.
  rewrite <- seq_shift, map_map. f_equal. apply map_ext. intro k. lia.
Qed.
Lemma rindexed_snd : forall vs i, map snd (rindexed i vs) = map (fun k => (i + Z.of_nat k)%Z) (seq 0 (length vs)).
Proof.
  induction vs as [|x vs IH]; intros i; [reflexivity|]. rewrite rindexed_cons. cbn [map snd length seq].
  rewrite IH, Z.add_0_r. f_equal. rewrite <- seq_shift, map_map. apply map_ext. intro k. lia.
Qed.
Lemma rindexed_fst : forall vs i, map fst (rindexed i vs) = vs.
Proof. induction vs as [|x vs IH]; intros i; [reflexivity|]. rewrite rindexed_cons. cbn [map fst]. rewrite IH. reflexivity. Qed.
Lemma rindexed_weight : forall vs i k, (0 <= k)%Z -> rsumfst (i + k) (rindexed i vs) == qweight vs k.
Proof.
  unfold qweight, rsumfst. induction vs as [|x vs IH]; intros i k Hk.
  - cbn. destruct (Z.to_nat k); reflexivity.
  - rewrite rindexed_cons. cbn [qsum fst snd]. destruct (Z.eqb_spec i (i + k)) as [E|E].
    + replace k with 0%Z by lia. cbn [Z.to_nat nth].
      rewrite (qsum_ext _ _ (fun _ => 0)).
      * rewrite qsum_const. ring.
      * intros y Hy. destruct (Z.eqb_spec (snd y) (i + 0)) as [E'|E']; [|reflexivity].
        assert (In (snd y) (map snd (rindexed (i + 1) vs))) as Hi by (apply in_map; exact Hy).
        rewrite rindexed_snd in Hi. apply in_map_iff in Hi. destruct Hi as (q & Hq & _). lia.
    + replace (Z.to_nat k) with (S (Z.to_nat (k - 1))) by lia. cbn [nth].
      rewrite <- (IH (i + 1)%Z (k - 1)%Z) by lia. replace (i + 1 + (k - 1))%Z with (i + k)%Z by lia. lra.
Qed.

Lemma cast_id : forall t z, (2 <= bits t)%Z -> (0 <= z <= imax t)%Z -> cast t z = z.
Proof.
  intros [b s] z Hb Hz. unfold cast, imax in *. cbn [bits sgn] in *. 
  assert (X: (2 ^ b = 2 * 2 ^ (b - 1))%Z). { rewrite <- (Z.pow_succ_r 2 (b - 1)) by lia. f_equal. lia. }
  assert (0 < 2 ^ (b - 1))%Z by (apply Z.pow_pos_nonneg; lia).
  destruct s.
  - rewrite Z.mod_small by lia. destruct (Z.ltb_spec z (2 ^ (b - 1))); lia.
  - apply Z.mod_small. lia.
Qed.

Lemma r_split_perm : forall t vs i b a, (2 <= bits t)%Z -> (0 <= i)%Z -> (i + Z.of_nat (length vs) <= imax t + 1)%Z ->
  r_split t i vs = (b, a) ->
  Permutation (b ++ a) (rindexed i vs) /\ Forall (fun x => fst x < 1) b /\ Forall (fun x => 1 <= fst x) a.
Proof.
  intro t. induction vs as [|x vs IH]; intros i b a Ht Hi HL H.
  - cbn in H. inversion H. split; [constructor|]. split; constructor.
  - cbn [r_split length] in *. destruct (r_split t (i + 1) vs) as [b' a'] eqn:E.
    destruct (IH (i + 1)%Z b' a' Ht ltac:(lia) ltac:(lia) E) as (P1 & P2 & P3). rewrite rindexed_cons.
    rewrite (cast_id t i Ht) in H by lia. pose proof (qlt_spec x 1) as QL.
    destruct (qlt x 1); inversion H; subst; clear H.
    + split; [|split]; [cbn [app]; constructor; exact P1 | constructor; [exact QL|exact P2] | exact P3].
    + split; [|split]; [|exact P2|constructor; [exact QL|exact P3]].
      apply Permutation_trans with ((x, i) :: b ++ a').
      * apply Permutation_sym, Permutation_middle.
      * constructor. exact P1.
Qed.

Lemma qeqb_false : forall x, ~ x == 0 -> Qeq_bool x 0 = false.
Proof. intros x H. destruct (Qeq_bool x 0) eqn:E; [|reflexivity]. apply Qeq_bool_eq in E. contradiction. Qed.

Section Init.
Variables (f : fmt) (md : rmode) (t : ity).
Hypothesis Hf : fmt_ok f.
Local Notation rnd := (fround f md).
Local Notation P := (prec f).
Local Notation e := (p2 (1 - P)).

Lemma r_norm_ok : forall avg ws, ~ avg == 0 -> r_norm f md avg ws = Some (map (fun w => rnd (w / avg)) ws).
Proof using.
  intros avg ws H. induction ws as [|w ws IH]; [reflexivity|]. cbn [r_norm map]. unfold fdiv.
  rewrite (qeqb_false avg H). cbn [bind]. rewrite IH. reflexivity.
Qed.

Variable ws : list Q.
Hypothesis Hok : rweights_ok f t ws.
Local Notation n := (qlen ws).
Local Notation S := (qtotal ws).
Hypothesis Hsm : (n + 3) * e <= 1 # 8.

Lemma n_ge1 : 1 <= n.
Proof using Hok.
  clear Hsm. destruct Hok as (_ & Hne & _). unfold qlen. change 1 with (inject_Z 1). apply injZ_le. destruct ws; [congruence|cbn [length]; lia].
Qed.

Definition avgQ : Q := rnd (racc f md ws / rnd n).

Lemma avg_near : r_average f md ws = Some avgQ /\ 0 < avgQ /\ near f (n + 2) (S / n) avgQ /\ 0 < S.
Proof using Hf Hok Hsm.
  pose proof n_ge1 as N1. destruct (e_pos f Hf) as [E0 EL]. destruct Hok as (Hb & Hne & HL & HF & HS).
  pose proof (p2_pos (emin f + P + 1)) as PP.
  assert (NE: 0 <= n * e) by (apply Qmult_le_0_compat; lra).
  assert (SM: n * e + 3 * e <= 1 # 8) by lra.
  assert (S0: 0 < S). { assert (0 < n * p2 (emin f + P + 1)) by (apply Qmult_lt_0_compat; lra). lra. }
  (* the sum *)
  destruct (racc_near f md Hf ws 0 0 0 HF) as [A1 A2].
  { apply repr_0. exact Hf. }
  { lra. }
  { fold (qlen ws). assert ((0 + n) * e == n * e) by ring. lra. }
  { apply near_refl; lra. }
  fold (racc f md ws) in A1, A2. fold (qlen ws) in A1.
  assert (A: near f n S (racc f md ws)).
  { destruct A1 as (B1 & B2 & B3 & B4). unfold near. rewrite qtotal_qsum.
    assert (X: (0 + n) * e == n * e) by ring. rewrite X in B3, B4.
    assert (Y: 0 + qsum (fun w => w) ws == qsum (fun w => w) ws) by ring. rewrite Y in *. repeat split; assumption. }
  clear A1.
  assert (AP: 0 < racc f md ws).
  { destruct A as (_ & _ & B3 & _). assert (0 < (1 - n * e) * S) by (apply Qmult_lt_0_compat; lra). lra. }
  (* the size *)
  assert (NN: near f 1 n (rnd n)).
  { apply near_rnd; [exact Hf|]. apply Qle_trans with 1; [|exact N1]. change 1 with (p2 0). apply p2_le. destruct Hf. lia. }
  assert (NP: 0 < rnd n).
  { destruct NN as (_ & _ & B3 & _). assert (0 < (1 - 1 * e) * n) by (apply Qmult_lt_0_compat; lra). lra. }
  (* the quotient *)
  assert (QN: near f (n + 1) (S / n) (racc f md ws / rnd n)).
  { unfold Qdiv. pose proof (Qinv_lt_0_compat n ltac:(lra)). pose proof (Qinv_lt_0_compat _ NP).
    apply near_trans with (racc f md ws * / n); try lra.
    - apply near_mul; [lra|exact A].
    - apply near_compat with (/ n * racc f md ws) (/ rnd n * racc f md ws); [ring|ring|].
      apply near_mul; [lra|]. apply near_inv; [lra|exact NP|exact NN]. }
  assert (QB: p2 (emin f + P - 1) <= racc f md ws / rnd n).
  { destruct QN as (B1 & _ & B3 & _).
    assert (X: (n + 1) * e == n * e + e) by ring.
    assert (Y: p2 (emin f + P + 1) <= S / n). { apply Qle_shift_div_l; lra. }
    assert (Z1: p2 (emin f + P + 1) == p2 (emin f + P - 1) * 4).
    { replace (emin f + P + 1)%Z with (emin f + P - 1 + 2)%Z by lia. rewrite p2_add. reflexivity. }
    pose proof (p2_pos (emin f + P - 1)).
    assert ((1 # 2) * (S / n) <= (1 - (n + 1) * e) * (S / n)) by (apply Qmult_le_compat_r; lra). lra. }
  pose proof (near_rnd f md Hf _ QB) as RN. fold avgQ in RN.
  assert (G: near f (n + 2) (S / n) avgQ).
  { pose proof (near_trans f (n + 1) 1 _ _ _ ltac:(lra) ltac:(lra) ltac:(lra) ltac:(lra) QN RN) as (B1 & B2 & B3 & B4).
    unfold near. assert (X: (n + 1 + 1) * e == (n + 2) * e) by ring. rewrite X in B3, B4. repeat split; assumption. }
  split; [|split; [|split; [exact G|exact S0]]].
  - unfold r_average, fdiv. fold (qlen ws). rewrite qeqb_false by lra. reflexivity.
  - destruct RN as (_ & _ & B3 & _). pose proof (p2_pos (emin f + P - 1)).
    assert (0 < (1 - 1 * e) * (racc f md ws / rnd n)) by (apply Qmult_lt_0_compat; lra). lra.
Qed.

(* the exact normalized weight and the computed one *)
Definition exq (w : Q) : Q := n * w / S.
Definition val (w : Q) : Q := rnd (w / avgQ).

Lemma val_err : forall w, 0 <= w -> 0 <= val w /\ Qabs (val w - exq w) <= 2 * (n + 3) * e * exq w + e.
Proof using Hf Hok Hsm.
  intros w Hw. pose proof n_ge1 as N1. destruct (e_pos f Hf) as [E0 EL]. destruct avg_near as (_ & AP & AN & S0).
  pose proof (Qinv_lt_0_compat _ AP) as IA.
  assert (Y0: 0 <= w / avgQ) by (unfold Qdiv; apply Qmult_le_0_compat; lra).
  split; [apply rnd_nonneg; exact Y0|].
  assert (SN: 0 < S / n) by (apply Qlt_shift_div_l; lra).
  assert (YN: near f (n + 2) (exq w) (w / avgQ)).
  { apply near_compat with (/ (S / n) * w) (/ avgQ * w).
    - unfold exq. field. split; lra.
    - unfold Qdiv. ring.
    - apply near_mul; [exact Hw|]. apply near_inv; assumption. }
  destruct YN as (X0 & _ & Y1 & Y2).
  destruct (rnd_abs f md Hf _ Y0) as [R1 R2]. fold (val w) in R1, R2.
  set (x := exq w) in *. set (y := w / avgQ) in *. set (v := val w) in *. set (eps := e) in *.
  assert (HH: eps / 2 + eps / 2 == eps) by field.
  assert (NE: 0 <= n * eps) by (apply Qmult_le_0_compat; lra).
  (* y <= x + 2 (n+2) eps x,  y <= 3/2 x *)
  assert (K: 0 <= (n + 2) * eps) by (apply Qmult_le_0_compat; lra).
  set (k := (n + 2) * eps) in *. assert (K8: k <= 1 # 8) by (unfold k; lra).
  assert (KX: 0 <= k * x) by (apply Qmult_le_0_compat; assumption).
  assert (Y3: (7 # 8) * y <= x). { assert ((7 # 8) * y <= (1 - k) * y) by (apply Qmult_le_compat_r; lra). lra. }
  assert (Y4: k * y <= k * ((8 # 7) * x)). { rewrite !(Qmult_comm k). apply Qmult_le_compat_r; lra. }
  assert (Y5: y * eps <= (8 # 7) * x * eps) by (apply Qmult_le_compat_r; lra).
  assert (XE: 0 <= x * eps) by (apply Qmult_le_0_compat; lra).
  assert (T: 2 * (n + 3) * eps * x == 2 * (k * x) + 2 * (x * eps)) by (unfold k; ring).
  rewrite T. apply abs_le; lra.
Qed.

Lemma exq_total : forall l, qsum exq l == n * qsum (fun w => w) l / S.
Proof using Hok.
  clear Hsm. intro l. assert (S0: 0 < S).
  { pose proof n_ge1. destruct Hok as (_ & _ & _ & _ & HS). pose proof (p2_pos (emin f + P + 1)).
    assert (0 < n * p2 (emin f + P + 1)) by (apply Qmult_lt_0_compat; lra). lra. }
  induction l as [|w l IH]; cbn [qsum]; [unfold Qdiv; ring|]. rewrite IH. unfold exq. field. lra.
Qed.

Definition Dbound : Q := n * (2 * n + 7) * e.
Lemma val_total : Qabs (qsum val ws - n) <= Dbound.
Proof using Hf Hok Hsm.
  destruct avg_near as (_ & _ & _ & S0). pose proof n_ge1 as N1.
  assert (TX: qsum exq ws == n). { rewrite exq_total, <- qtotal_qsum. field. lra. }
  assert (G: forall l, Forall (fun w => 0 <= w) l ->
     - (2 * (n + 3) * e * qsum exq l + e * qlen l) <= qsum val l - qsum exq l /\
     qsum val l - qsum exq l <= 2 * (n + 3) * e * qsum exq l + e * qlen l).
  { induction l as [|w l IH]; intro H; [cbn [qsum]; change (qlen (@nil Q)) with 0; lra|].
    pose proof (Forall_inv H) as Hw. apply Forall_inv_tail in H. destruct (IH H) as [I1 I2].
    destruct (val_err w Hw) as [_ V]. apply abs_le_inv in V.
    assert (NS: qlen (w :: l) == 1 + qlen l) by apply (zof_cons _ w l).
    cbn [qsum]. assert (X1: 2 * (n + 3) * e * (exq w + qsum exq l) == 2 * (n + 3) * e * exq w + 2 * (n + 3) * e * qsum exq l) by ring.
    assert (X2: e * qlen (w :: l) == e + e * qlen l) by (rewrite NS; ring). lra. }
  destruct (G ws) as [G1 G2].
  { destruct Hok as (_ & _ & _ & HF & _). eapply Forall_impl; [|exact HF]. intros a Ha. apply Ha. }
  assert (B: 2 * (n + 3) * e * qsum exq ws + e * n == Dbound) by (rewrite TX; unfold Dbound; ring).
  apply abs_le; lra.
Qed.

Lemma exq_le : forall w, In w ws -> 0 <= exq w /\ exq w <= n.
Proof using Hf Hok Hsm md.
  intros w Hw. destruct avg_near as (_ & _ & _ & S0). pose proof n_ge1 as N1. destruct Hok as (_ & _ & _ & HF & _).
  rewrite Forall_forall in HF. destruct (HF w Hw) as [_ W0].
  assert (L: w <= S). { rewrite qtotal_qsum. apply (qsum_in _ (fun w => w)); [|exact Hw]. intros y Hy. apply (HF y Hy). }
  unfold exq. pose proof (Qinv_lt_0_compat S S0) as IS. split.
  - unfold Qdiv. apply Qmult_le_0_compat; [apply Qmult_le_0_compat|]; lra.
  - apply Qle_shift_div_r; [exact S0|]. rewrite !(Qmult_comm n). apply Qmult_le_compat_r; lra.
Qed.

(* everything about the table *)
Theorem rd_init_ok : exists h : rentry,
  (forall j, (0 <= j < Z.of_nat (length ws))%Z -> rentry_ok f (Z.of_nat (length ws)) h j) /\
  (forall i, (0 <= i < Z.of_nat (length ws))%Z ->
     Qabs (qsum (fun j => rcontrib h j i) (map Z.of_nat (seq 0 (length ws))) - exq (qweight ws i)) <= n * (8 * n + 18) * e) /\
  (forall i, (0 <= i < Z.of_nat (length ws))%Z -> qweight ws i == 0 -> n * (4 * n + 9) * e < 1 ->
     qsum (fun j => rcontrib h j i) (map Z.of_nat (seq 0 (length ws))) == 0) /\
  forall tab, exists tab', rd_init f md t tab ws = Some tab' /\ length tab' = length ws /\
    forall j, (0 <= j < Z.of_nat (length ws))%Z ->
      tabQ tab' j = r_apply (h j) (tabQ (r_resize tab (length ws)) j).
Proof using Hf Hok Hsm.
  pose proof n_ge1 as N1. destruct (e_pos f Hf) as [E0 EL].
  destruct avg_near as (EA & AP & _ & S0). pose proof val_total as VT. pose proof exq_le as XL.
  pose proof val_err as VE. pose proof Hok as (Hb & Hne & HL & HF & HS).
  set (vs := map val ws). assert (LV: length vs = length ws) by apply map_length.
  destruct (r_split t 0 vs) as [b a] eqn:ES.
  destruct (r_split_perm t vs 0 b a Hb ltac:(lia) ltac:(lia) ES) as (P1 & P2 & P3).
  assert (PS: Permutation (map snd (b ++ a)) (map Z.of_nat (seq 0 (length ws)))).
  { apply (Permutation_map snd) in P1. rewrite rindexed_snd, seq_of_nat, LV in P1. exact P1. }
  assert (PF: Permutation (map fst (b ++ a)) vs).
  { apply (Permutation_map fst) in P1. rewrite rindexed_fst in P1. exact P1. }
  assert (PR: Forall (fun x : Q * Z => representable f (fst x) /\ 0 <= fst x /\ fst x <= 2 * n) (b ++ a)).
  { apply Forall_forall. intros x Hx. apply (in_map fst) in Hx. apply (Permutation_in _ PF) in Hx.
    unfold vs in Hx. apply in_map_iff in Hx. destruct Hx as (w & <- & Hw).
    rewrite Forall_forall in HF. destruct (HF w Hw) as [_ W0]. destruct (VE w W0) as [V0 V]. apply abs_le_inv in V.
    destruct (XL w Hw) as [X0 X1]. split; [apply rnd_repr; exact Hf|]. split; [exact V0|].
    assert (NE: 0 <= (n + 3) * e) by (apply Qmult_le_0_compat; lra).
    assert (2 * ((n + 3) * e) * exq w <= (1 # 4) * exq w) by (apply Qmult_le_compat_r; lra).
    assert (T: 2 * (n + 3) * e * exq w == 2 * ((n + 3) * e) * exq w) by ring.
    assert (0 <= n * e) by (apply Qmult_le_0_compat; lra). lra. }
  apply Forall_app in PR. destruct PR as [PRb PRa].
  assert (LN: (length b + length a = length ws)%nat).
  { apply Permutation_length in PS. rewrite !map_length, app_length, seq_length in PS. lia. }
  destruct (r_vose_ok f md (Z.of_nat (length ws)) Hf ltac:(destruct ws; [congruence|cbn [length]; lia]) (2 * n) ltac:(lra)
     (length ws) b a Dbound) as (h & H1 & H2 & HZ & H3).
  - lia.
  - apply Forall_forall. intros x Hx. apply (in_map snd) in Hx. apply (Permutation_in _ PS) in Hx.
    apply In_range in Hx. exact Hx.
  - eapply Permutation_NoDup; [apply Permutation_sym; exact PS|]. apply FinFun.Injective_map_NoDup; [|apply seq_NoDup].
    intros x y. apply Nat2Z.inj.
  - rewrite Forall_forall in *. intros x Hx. specialize (P2 x Hx). specialize (PRb x Hx). cbn beta in *. intuition.
  - rewrite Forall_forall in *. intros x Hx. specialize (P3 x Hx). specialize (PRa x Hx). cbn beta in *. intuition.
  - assert (E1': qsum fst (b ++ a) == qsum val ws).
    { rewrite <- (qsum_map _ _ (fun x => x) fst), (qsum_perm _ _ _ _ PF). unfold vs. rewrite qsum_map. reflexivity. }
    assert (E2: zof (b ++ a) == n). { unfold zof, qlen. rewrite app_length, LN. reflexivity. }
    rewrite E1', E2. exact VT.
  - assert (SW: forall i, (0 <= i < Z.of_nat (length ws))%Z -> rsumfst i (b ++ a) == val (qweight ws i)).
    { intros i Hi. unfold rsumfst. rewrite (qsum_perm _ _ _ _ P1).
      pose proof (rindexed_weight vs 0 i ltac:(lia)) as W. rewrite Z.add_0_l in W. unfold rsumfst in W. rewrite W.
      unfold qweight, vs. rewrite (nth_indep _ 0 (val 0)) by (rewrite map_length; lia). rewrite map_nth. reflexivity. }
    assert (IW: forall i, (0 <= i < Z.of_nat (length ws))%Z -> In (qweight ws i) ws).
    { intros i Hi. unfold qweight. apply nth_In. lia. }
    exists h. split; [|split; [|split]].
    + intros j Hj. apply H1. apply (Permutation_in _ (Permutation_sym PS)). apply In_range. exact Hj.
    + intros i Hi. specialize (H2 i). rewrite (qsum_perm _ _ _ _ PS), (SW i Hi) in H2. apply abs_le_inv in H2.
      destruct (XL _ (IW i Hi)) as [X0 X1]. rewrite Forall_forall in HF. destruct (HF _ (IW i Hi)) as [_ W0].
      destruct (VE _ W0) as [_ V]. apply abs_le_inv in V.
      set (x := exq (qweight ws i)) in *.
      assert (NE: 0 <= 2 * (n + 3) * e) by (apply Qmult_le_0_compat; lra).
      assert (B1: 2 * (n + 3) * e * x <= 2 * (n + 3) * e * n). { rewrite !(Qmult_comm (2 * (n + 3) * e)). apply Qmult_le_compat_r; lra. }
      assert (B2: Dbound + 2 * inject_Z (Z.of_nat (length ws)) * E1 f (2 * n) + 2 * (n + 3) * e * n + e == n * (8 * n + 17) * e + e).
      { unfold Dbound, E1. fold (qlen ws). ring. }
      assert (B3: n * (8 * n + 18) * e == n * (8 * n + 17) * e + n * e) by ring.
      assert (B4: 1 * e <= n * e) by (apply Qmult_le_compat_r; lra).
      apply abs_le; lra.
    + intros i Hi HW HB. rewrite <- (qsum_perm _ _ _ _ PS). apply HZ.
      * assert (X: Dbound + inject_Z (Z.of_nat (length ws)) * E1 f (2 * n) == n * (4 * n + 9) * e).
        { unfold Dbound, E1. fold (qlen ws). ring. }
        rewrite X. exact HB.
      * rewrite (SW i Hi). unfold val. rewrite (rnd_compat f md Hf _ 0); [apply rnd_fix; [exact Hf|apply repr_0; exact Hf]|].
        rewrite HW. unfold Qdiv. ring.
    + intro tab. assert (RL: length (r_resize tab (length ws)) = length ws).
      { unfold r_resize. rewrite app_length, firstn_length, repeat_length. lia. }
      destruct (H3 (r_resize tab (length ws)) ltac:(lia)) as (t' & G1 & G2 & G3).
      exists t'. split; [|split].
      * unfold rd_init. destruct ws as [|w0 ws'] eqn:EW; [congruence|]. rewrite EA. cbn [bind].
        rewrite (r_norm_ok avgQ) by lra. cbn [bind]. fold val. fold vs. rewrite ES. exact G1.
      * lia.
      * intros j Hj. rewrite G3 by lia. rewrite inb_in; [reflexivity|].
        apply (Permutation_in _ (Permutation_sym PS)). apply In_range. exact Hj.
Qed.
End Init.
