(* discrete_distribution with real weights: operator()(urng, parm) and probabilities(). *)
From Coq Require Import Lqa.
From Verif Require Import Base ProgModel ProgSpec ProgProofs UIntModel UIntSpec UIntProofs FloatModel FloatSpec FloatProofs RealModel RealSpec RealProofs UniProofs
  DiscModel DiscSpec DiscProofs Disc2Proofs Disc3Proofs Disc4Proofs RDiscModel RDiscSpec RDiscProofs RDisc2Proofs RDisc3Proofs RDisc4Proofs.
Ltac Zify.zify_post_hook ::= idtac.
Open Scope Q_scope.

Section Near.
Variables (f : fmt) (md : rmode).
Hypothesis Hf : fmt_ok f.
Local Notation rnd := (fround f md).
Local Notation P := (prec f).
Local Notation e := (p2 (1 - P)).

Lemma near_mono : forall j k x y, j <= k -> near f j x y -> near f k x y.
Proof using.
  intros j k x y H (A & B & C & D). pose proof (p2_pos (1 - P)) as E0.
  assert (J: j * e <= k * e) by (apply Qmult_le_compat_r; lra).
  assert ((1 - k * e) * x <= (1 - j * e) * x) by (apply Qmult_le_compat_r; lra).
  assert ((1 - k * e) * y <= (1 - j * e) * y) by (apply Qmult_le_compat_r; lra).
  unfold near. repeat split; lra.
Qed.

Lemma near_add2 : forall k x y x' y', near f k x y -> near f k x' y' -> near f k (x + x') (y + y').
Proof using. intros k x y x' y' (A & B & C & D) (A' & B' & C' & D'). unfold near. repeat split; lra. Qed.

Lemma near_rnd_abs : forall k x y, 0 <= k -> k * e <= 1 # 8 -> near f k x y ->
  0 <= rnd y /\ Qabs (rnd y - x) <= 2 * (k + 1) * e * x + e.
Proof using Hf.
  intros k x y K0 K8 (X0 & Y0 & Y1 & Y2). destruct (e_pos f Hf) as [E0 EL].
  split; [apply rnd_nonneg; exact Y0|]. destruct (rnd_abs f md Hf y Y0) as [R1 R2].
  set (v := rnd y) in *. set (eps := e) in *. set (q := k * eps) in *.
  assert (HH: eps / 2 + eps / 2 == eps) by field.
  assert (Q0: 0 <= q) by (apply Qmult_le_0_compat; lra).
  assert (KX: 0 <= q * x) by (apply Qmult_le_0_compat; assumption).
  assert (Y3: (7 # 8) * y <= x). { assert ((7 # 8) * y <= (1 - q) * y) by (apply Qmult_le_compat_r; lra). lra. }
  assert (Y4: q * y <= q * ((8 # 7) * x)). { rewrite !(Qmult_comm q). apply Qmult_le_compat_r; lra. }
  assert (Y5: y * eps <= (8 # 7) * x * eps) by (apply Qmult_le_compat_r; lra).
  assert (XE: 0 <= x * eps) by (apply Qmult_le_0_compat; lra).
  assert (T: 2 * (k + 1) * eps * x == 2 * (q * x) + 2 * (x * eps)) by (unfold q; ring).
  rewrite T. apply abs_le; lra.
Qed.
End Near.

(* ---- operator()(urng, parm) ---- *)
Section Parm.
Variables (f : fmt) (md : rmode) (t : ity).
Hypothesis Hf : fmt_ok f.
Local Notation rnd := (fround f md).
Local Notation P := (prec f).
Local Notation e := (p2 (1 - P)).

Definition cums (s : Q) (ps : list Q) (k : nat) : Q := fold_left (fun s x => rnd (s + x)) (firstn k ps) s.

Lemma r_cumul_spec : forall v ps s i, (2 <= bits t)%Z -> (0 <= i)%Z -> (1 <= i + Z.of_nat (length ps) <= imax t)%Z ->
  (i + Z.of_nat (length ps) < 2 ^ 64)%Z -> s <= v ->
  (exists j, (j < length ps)%nat /\ r_cumul f md t v s i ps = (i + Z.of_nat j)%Z /\ cums s ps j <= v /\ v < cums s ps (S j)) \/
  (r_cumul f md t v s i ps = (i + Z.of_nat (length ps) - 1)%Z /\ cums s ps (length ps) <= v).
Proof using.
  intro v. induction ps as [|x ps IH]; intros s i Hb Hi HL H64 Hs.
  - right. cbn [r_cumul length] in *. unfold cums. cbn [firstn fold_left]. split; [|exact Hs].
    assert (E: cast (Ity 64 false) (i - 1) = (i - 1)%Z) by (unfold cast; cbn [bits sgn]; apply Z.mod_small; lia).
    rewrite E, cast_id by lia. lia.
  - cbn [r_cumul length] in *. pose proof (qlt_spec v (rnd (s + x))) as QL. destruct (qlt v (rnd (s + x))).
    + left. exists 0%nat. split; [lia|]. split; [rewrite cast_id by lia; lia|]. unfold cums. cbn [firstn fold_left].
      split; [exact Hs|exact QL].
    + destruct (IH (rnd (s + x)) (i + 1)%Z Hb ltac:(lia) ltac:(lia) ltac:(lia) QL) as [(j & J1 & J2 & J3 & J4)|[J1 J2]].
      * left. exists (S j). split; [lia|]. split; [rewrite J2; lia|]. unfold cums in *. cbn [firstn fold_left] in *. split; assumption.
      * right. split; [rewrite J1; lia|]. unfold cums in *. cbn [firstn fold_left] in *. exact J2.
Qed.

Lemma cums_S : forall ps s k, (k < length ps)%nat -> cums s ps (S k) = rnd (cums s ps k + nth k ps 0).
Proof using.
  induction ps as [|x ps IH]; intros s k Hk; [simpl in Hk; lia|]. destruct k as [|k]; [reflexivity|].
  cbn [length] in Hk. unfold cums in *. cbn [firstn fold_left nth]. apply (IH (rnd (s + x)) k). lia.
Qed.

Variable ws : list Q.
Hypothesis Hok : rweights_ok f t ws.
Local Notation n := (qlen ws).
Local Notation S := (qtotal ws).
Hypothesis Hsm : (n + 3) * e <= 1 # 8.

Definition pval (w : Q) : Q := rnd (w / racc f md ws).

Lemma total_near : 0 < S /\ 0 < racc f md ws /\ near f n S (racc f md ws).
Proof using Hf Hok Hsm.
  pose proof (n_ge1 f t ws Hok) as N1. destruct (e_pos f Hf) as [E0 EL]. destruct Hok as (Hb & Hne & HL & HF & HS).
  pose proof (p2_pos (emin f + P + 1)) as PP.
  assert (NE: 0 <= n * e) by (apply Qmult_le_0_compat; lra).
  assert (SM: n * e + 3 * e <= 1 # 8) by lra.
  assert (S0: 0 < S). { assert (0 < n * p2 (emin f + P + 1)) by (apply Qmult_lt_0_compat; lra). lra. }
  destruct (racc_near f md Hf ws 0 0 0 HF) as [A1 A2].
  { apply repr_0. exact Hf. }
  { lra. }
  { fold (qlen ws). assert ((0 + n) * e == n * e) by ring. lra. }
  { apply near_refl; lra. }
  fold (racc f md ws) in A1, A2. fold (qlen ws) in A1.
  assert (A: near f n S (racc f md ws)).
  { destruct A1 as (B1 & B2 & B3 & B4). unfold near. rewrite qtotal_qsum.
    assert (X: (0 + n) * e == n * e) by ring. rewrite X in B3, B4.
    assert (Y: 0 + qsum (fun w => w) ws == qsum (fun w => w) ws) by ring. rewrite Y in *. repeat split; assumption. }
  split; [exact S0|]. split; [|exact A].
  destruct A as (_ & _ & B3 & _). assert (0 < (1 - n * e) * S) by (apply Qmult_lt_0_compat; lra). lra.
Qed.

Lemma rp_make_ok : rp_make f md ws = Some (map pval ws).
Proof using Hf Hok Hsm.
  unfold rp_make, r_normalize. destruct total_near as (_ & A & _). apply (r_norm_ok f md). lra.
Qed.

Lemma pval_err : forall w, 0 <= w -> 0 <= pval w /\ Qabs (pval w - w / S) <= 2 * (n + 1) * e * (w / S) + e.
Proof using Hf Hok Hsm.
  intros w Hw. pose proof (n_ge1 f t ws Hok) as N1. destruct (e_pos f Hf) as [E0 EL].
  destruct total_near as (S0 & A0 & A). unfold pval. apply near_rnd_abs; [exact Hf|lra| |].
  - assert (0 <= n * e) by (apply Qmult_le_0_compat; lra). lra.
  - apply near_compat with (/ S * w) (/ racc f md ws * w); [unfold Qdiv; ring|unfold Qdiv; ring|].
    apply near_mul; [exact Hw|]. apply near_inv; assumption.
Qed.

Lemma pval_zero : forall w, w == 0 -> pval w == 0.
Proof using Hf.
  intros w Hw. unfold pval. rewrite (rnd_compat f md Hf _ 0); [apply rnd_fix; [exact Hf|apply repr_0; exact Hf]|].
  rewrite Hw. unfold Qdiv. ring.
Qed.

Lemma firstn_qtotal_le : forall l k, Forall (fun w => 0 <= w) l -> 0 <= qtotal (firstn k l) /\ qtotal (firstn k l) <= qtotal l.
Proof using.
  induction l as [|x l IH]; intros k H; [destruct k; cbn; split; lra|].
  pose proof (Forall_inv H) as Hx. cbn beta in Hx. apply Forall_inv_tail in H. destruct k as [|k].
  - cbn [firstn qtotal]. destruct (IH 0%nat H). cbn [firstn qtotal] in *. lra.
  - cbn [firstn qtotal]. destruct (IH k H). lra.
Qed.

Lemma cums_err : forall k, (k <= length ws)%nat ->
  Qabs (cums 0 (map pval ws) k - qtotal (firstn k ws) / S) <= (5 * n + 2) * e /\
  representable f (cums 0 (map pval ws) k) /\ 0 <= cums 0 (map pval ws) k.
Proof using Hf Hok Hsm.
  intros k Hk. pose proof (n_ge1 f t ws Hok) as N1. destruct (e_pos f Hf) as [E0 EL].
  destruct total_near as (S0 & A0 & A). pose proof pval_err as VE.
  assert (NE: 0 <= n * e) by (apply Qmult_le_0_compat; lra).
  assert (HF: Forall (fun w => 0 <= w) ws).
  { destruct Hok as (_ & _ & _ & HF & _). eapply Forall_impl; [|exact HF]. intros a Ha. apply Ha. }
  (* the sum of the probabilities *)
  assert (G: forall l, Forall (fun w => 0 <= w) l ->
     - (2 * (n + 1) * e * (qtotal l / S) + e * qlen l) <= qsum (fun w => w) (map pval l) - qtotal l / S /\
     qsum (fun w => w) (map pval l) - qtotal l / S <= 2 * (n + 1) * e * (qtotal l / S) + e * qlen l).
  { induction l as [|w l IH]; intro H.
    - cbn [qsum map qtotal]. change (qlen (@nil Q)) with 0. assert (0 / S == 0) by (unfold Qdiv; ring). rewrite H0. lra.
    - pose proof (Forall_inv H) as Hw. apply Forall_inv_tail in H. destruct (IH H) as [I1 I2].
      destruct (VE w Hw) as [_ V]. apply abs_le_inv in V.
      assert (NS: qlen (w :: l) == 1 + qlen l) by apply (zof_cons _ w l).
      cbn [qsum qtotal map]. assert (X0: (w + qtotal l) / S == w / S + qtotal l / S) by (unfold Qdiv; ring).
      assert (X1: 2 * (n + 1) * e * ((w + qtotal l) / S) == 2 * (n + 1) * e * (w / S) + 2 * (n + 1) * e * (qtotal l / S)) by (rewrite X0; ring).
      assert (X2: e * qlen (w :: l) == e + e * qlen l) by (rewrite NS; ring). lra. }
  assert (HFk: Forall (fun w => 0 <= w) (firstn k ws)).
  { rewrite <- (firstn_skipn k ws) in HF. apply Forall_app in HF. apply HF. }
  destruct (G (firstn k ws) HFk) as [G1 G2]. destruct (firstn_qtotal_le ws k HF) as [T0 T1].
  set (T := qtotal (firstn k ws)) in *.
  assert (Q0: 0 <= T / S) by (apply Qle_shift_div_l; lra).
  assert (Q1: T / S <= 1) by (apply Qle_shift_div_r; lra).
  assert (LK: qlen (firstn k ws) <= n). { unfold qlen. apply injZ_le. rewrite firstn_length. lia. }
  assert (L0: 0 <= qlen (firstn k ws)) by apply zof_nonneg.
  set (m := qlen (firstn k ws)) in *.
  assert (EM: e * m <= n * e). { rewrite (Qmult_comm e). apply Qmult_le_compat_r; lra. }
  assert (EM0: 0 <= e * m) by (apply Qmult_le_0_compat; lra).
  assert (EQ: 2 * (n + 1) * e * (T / S) <= 2 * (n + 1) * e * 1).
  { rewrite !(Qmult_comm (2 * (n + 1) * e)). apply Qmult_le_compat_r; [exact Q1|]. apply Qmult_le_0_compat; lra. }
  set (pk := map pval (firstn k ws)) in *.
  assert (HP: Forall (fun w => representable f w /\ 0 <= w) pk).
  { apply Forall_forall. intros p Hp. unfold pk in Hp. apply in_map_iff in Hp. destruct Hp as (w & <- & Hw). split.
    - apply rnd_repr. exact Hf.
    - rewrite Forall_forall in HFk. apply (VE w (HFk w Hw)). }
  assert (LP: inject_Z (Z.of_nat (length pk)) = m) by (unfold pk, m, qlen; rewrite map_length; reflexivity).
  destruct (racc_near f md Hf pk 0 0 0 HP) as [R1 R2].
  { apply repr_0. exact Hf. }
  { lra. }
  { rewrite LP. assert ((0 + m) * e == e * m) by ring. lra. }
  { apply near_refl; lra. }
  assert (EC: cums 0 (map pval ws) k = fold_left (fun s x => rnd (s + x)) pk 0).
  { unfold cums, pk. rewrite <- firstn_map. reflexivity. }
  rewrite EC. split; [|split; [exact R2|apply R1]].
  rewrite LP in R1. destruct R1 as (_ & R10 & R11 & R12). set (C := fold_left (fun s x => rnd (s + x)) pk 0) in *.
  set (Sg := qsum (fun w => w) pk) in *.
  assert (SG0: 0 <= Sg). { apply qsum_nonneg. intros x Hx. rewrite Forall_forall in HP. apply (HP x Hx). }
  assert (SG: Sg <= 11 # 8) by lra.
  assert (X: (0 + m) * e == e * m) by ring. rewrite X in R11, R12.
  assert (C1: (1 - (1 # 8)) * C <= (1 - e * m) * C) by (apply Qmult_le_compat_r; lra).
  assert (C2: C <= (11 # 7)) by lra.
  assert (C3: e * m * C <= e * m * (11 # 7)). { rewrite !(Qmult_comm (e * m)). apply Qmult_le_compat_r; lra. }
  assert (C4: e * m * Sg <= e * m * (11 # 8)). { rewrite !(Qmult_comm (e * m)). apply Qmult_le_compat_r; lra. }
  apply abs_le; lra.
Qed.

Lemma parm_run : (Z.of_nat (length ws) < 2 ^ 64)%Z -> forall tb bmin bmax F ds, eng_wf tb bmin bmax -> (bmax - bmin <= imax tb)%Z ->
  (length ds < F)%nat -> valid_draws bmin bmax ds ->
  exec (rd_op_parm f md t F tb bmin bmax (map pval ws)) ds = OMore \/
  exists v i rest, exec (uniform_01 f md F tb bmin bmax) ds = ORet v rest /\
    exec (rd_op_parm f md t F tb bmin bmax (map pval ws)) ds = ORet (Z.of_nat i) rest /\ (i < length ws)%nat /\
    cums 0 (map pval ws) i <= v /\
    (v < cums 0 (map pval ws) (i + 1) /\ 0 < qweight ws (Z.of_nat i) \/
     (i = length ws - 1)%nat /\ cums 0 (map pval ws) (length ws) <= v).
Proof using Hf Hok Hsm.
  intros H64 tb bmin bmax F ds Hb HR HF Hd. unfold rd_op_parm. rewrite exec_bind_eq.
  destruct (wp_exec _ _ _ _ ds _ (u01_wp f md Hf tb bmin bmax Hb F (length ds) HF HR) Hd) as [E|(v & rest & E & (Q1 & Q2 & _) & _)];
    rewrite E; [left; reflexivity|].
  right. cbn [exec]. pose proof Hok as (Ht & Hne & HL & HFW & _).
  assert (N0: (1 <= length ws)%nat) by (destruct ws; [congruence|cbn [length]; lia]).
  assert (LM: length (map pval ws) = length ws) by apply map_length.
  destruct (r_cumul_spec v (map pval ws) 0 0 Ht ltac:(lia) ltac:(lia) ltac:(lia) Q1) as [(j & J1 & J2 & J3 & J4)|[J1 J2]].
  - exists v, j, rest. split; [reflexivity|]. rewrite J2. split; [reflexivity|]. rewrite LM in J1. split; [exact J1|]. split; [exact J3|].
    left. replace (j + 1)%nat with (Datatypes.S j) by lia. split; [exact J4|].
    destruct (weight_cases f t ws (Z.of_nat j) Hok ltac:(lia)) as [W|W]; [|exact W]. exfalso.
    rewrite cums_S in J4 by lia. destruct (cums_err j ltac:(lia)) as (_ & RC & _).
    assert (EP: nth j (map pval ws) 0 == 0).
    { rewrite (nth_indep _ 0 (pval 0)) by lia. rewrite map_nth. apply pval_zero. unfold qweight in W. rewrite Nat2Z.id in W. exact W. }
    rewrite (rnd_compat f md Hf _ (cums 0 (map pval ws) j)) in J4; [|rewrite EP; ring].
    rewrite (rnd_fix f md Hf _ RC) in J4. lra.
  - exists v, (length ws - 1)%nat, rest. split; [reflexivity|]. rewrite J1, LM. 
    replace (0 + Z.of_nat (length ws) - 1)%Z with (Z.of_nat (length ws - 1)) by lia. split; [reflexivity|]. split; [lia|].
    rewrite LM in J2. split; [|right; split; [reflexivity|exact J2]].
    apply Qle_trans with (cums 0 (map pval ws) (length ws)); [|exact J2].
    replace (length ws) with (Datatypes.S (length ws - 1)) at 2 by lia. rewrite cums_S by lia.
    destruct (cums_err (length ws - 1) ltac:(lia)) as (_ & RC & _).
    apply repr_rnd_ge; [exact Hf|exact RC|].
    assert (0 <= nth (length ws - 1) (map pval ws) 0); [|lra].
    rewrite (nth_indep _ 0 (pval 0)) by lia. rewrite map_nth.
    rewrite Forall_forall in HFW. apply pval_err. apply HFW. apply nth_In. lia.
Qed.
End Parm.
