(* piecewise_constant_distribution *)
From Coq Require Import Lqa.
From Verif Require Import Base ProgModel ProgSpec ProgProofs UIntModel UIntSpec UIntProofs FloatModel FloatSpec FloatProofs RealModel RealSpec RealProofs UniProofs Uni2Proofs
  DiscModel DiscSpec DiscProofs Disc2Proofs Disc3Proofs Disc4Proofs RDiscModel RDiscSpec RDiscProofs RDisc2Proofs RDisc3Proofs RDisc4Proofs RDisc5Proofs
  PieceModel PieceSpec.
Ltac Zify.zify_post_hook ::= idtac.
Open Scope Q_scope.

Lemma take_n_app : forall ws ex, take_n (length ws) (ws ++ ex) = Some ws.
Proof. induction ws as [|w ws IH]; intro ex; [reflexivity|]. cbn [length take_n app]. rewrite IH. reflexivity. Qed.

(* the normalized weights are weights, and nearly proportional *)
Section Norm.
Variables (f : fmt) (md : rmode) (t : ity).
Hypothesis Hf : fmt_ok f.
Hypothesis Hf2 : (emin f + 2 * prec f <= 0)%Z.
Local Notation e := (p2 (1 - prec f)).
Variable ws : list Q.
Hypothesis Hok : rweights_ok f t ws.
Local Notation n := (qlen ws).
Local Notation S := (qtotal ws).
Hypothesis Hsm : (n + 3) * e <= 1 # 8.
Local Notation ps := (map (pval f md ws) ws).

Lemma ps_total : Qabs (qtotal ps - 1) <= (3 * n + 2) * e.
Proof using Hf Hok Hsm.
  pose proof (n_ge1 f t ws Hok) as N1. destruct (e_pos f Hf) as [E0 EL].
  destruct (total_near f md t Hf ws Hok Hsm) as (S0 & _ & _). pose proof (pval_err f md t Hf ws Hok Hsm) as VE.
  assert (G: forall l, Forall (fun w => 0 <= w) l ->
     - (2 * (n + 1) * e * (qtotal l / S) + e * qlen l) <= qtotal (map (pval f md ws) l) - qtotal l / S /\
     qtotal (map (pval f md ws) l) - qtotal l / S <= 2 * (n + 1) * e * (qtotal l / S) + e * qlen l).
  { induction l as [|w l IH]; intro H.
    - cbn [map qtotal]. change (qlen (@nil Q)) with 0. assert (Z0: 0 / S == 0) by (unfold Qdiv; ring). rewrite Z0. lra.
    - pose proof (Forall_inv H) as Hw. apply Forall_inv_tail in H. destruct (IH H) as [I1 I2].
      destruct (VE w Hw) as [_ V]. apply abs_le_inv in V.
      assert (NS: qlen (w :: l) == 1 + qlen l) by apply (zof_cons _ w l).
      cbn [qtotal map]. assert (X0: (w + qtotal l) / S == w / S + qtotal l / S) by (unfold Qdiv; ring).
      assert (X1: 2 * (n + 1) * e * ((w + qtotal l) / S) == 2 * (n + 1) * e * (w / S) + 2 * (n + 1) * e * (qtotal l / S)) by (rewrite X0; ring).
      assert (X2: e * qlen (w :: l) == e + e * qlen l) by (rewrite NS; ring). lra. }
  destruct (G ws) as [G1 G2].
  { destruct Hok as (_ & _ & _ & HF & _). eapply Forall_impl; [|exact HF]. intros a Ha. apply Ha. }
  assert (X: S / S == 1) by (field; lra). rewrite X in G1, G2. apply abs_le; lra.
Qed.

Lemma ps_ok : rweights_ok f t ps.
Proof using Hf Hf2 Hok Hsm.
  pose proof (n_ge1 f t ws Hok) as N1. destruct (e_pos f Hf) as [E0 EL]. pose proof ps_total as PT. apply abs_le_inv in PT.
  pose proof (pval_err f md t Hf ws Hok Hsm) as VE.
  pose proof Hok as (Hb & Hne & HL & HF & HS). unfold rweights_ok. rewrite map_length. split; [exact Hb|]. split.
  { destruct ws; [congruence|discriminate]. }
  split; [exact HL|]. split.
  - apply Forall_forall. intros p Hp. apply in_map_iff in Hp. destruct Hp as (w & <- & Hw). split; [apply rnd_repr; exact Hf|].
    rewrite Forall_forall in HF. apply VE. apply HF. exact Hw.
  - assert (LQ: qlen ps = n) by (unfold qlen; rewrite map_length; reflexivity). rewrite LQ.
    assert (PE: p2 (emin f + prec f + 1) <= e) by (apply p2_le; lia).
    assert (NE: n * p2 (emin f + prec f + 1) <= n * e). { rewrite !(Qmult_comm n). apply Qmult_le_compat_r; lra. }
    lra.
Qed.

Lemma ps_len : qlen ps = n.
Proof using. unfold qlen. rewrite map_length. reflexivity. Qed.

Lemma ps_nth : forall i, (0 <= i < Z.of_nat (length ws))%Z -> qweight ps i = pval f md ws (qweight ws i).
Proof using.
  intros i Hi. unfold qweight. rewrite (nth_indep _ 0 (pval f md ws 0)) by (rewrite map_length; lia). apply map_nth.
Qed.

Lemma ps_err : forall i, (0 <= i < Z.of_nat (length ws))%Z ->
  Qabs (n * qweight ps i / qtotal ps - n * qweight ws i / S) <= n * (8 * n + 8) * e.
Proof using Hf Hok Hsm.
  intros i Hi. pose proof (n_ge1 f t ws Hok) as N1. destruct (e_pos f Hf) as [E0 EL]. pose proof ps_total as PT. apply abs_le_inv in PT.
  destruct (total_near f md t Hf ws Hok Hsm) as (S0 & _ & _). rewrite (ps_nth i Hi).
  assert (IW: In (qweight ws i) ws) by (unfold qweight; apply nth_In; lia).
  pose proof Hok as (_ & _ & _ & HF & _). rewrite Forall_forall in HF. destruct (HF _ IW) as [_ W0].
  destruct (pval_err f md t Hf ws Hok Hsm _ W0) as [P0 V]. apply abs_le_inv in V.
  assert (WL: qweight ws i <= S). { rewrite qtotal_qsum. apply (qsum_in _ (fun w => w)); [|exact IW]. intros y Hy. apply (HF y Hy). }
  set (w := qweight ws i) in *. set (p := pval f md ws w) in *. set (T := qtotal ps) in *.
  set (x := w / S) in *.
  assert (X0: 0 <= x) by (apply Qle_shift_div_l; lra). assert (X1: x <= 1) by (apply Qle_shift_div_r; lra).
  assert (NE: 0 <= n * e) by (apply Qmult_le_0_compat; lra).
  assert (TP: 5 # 8 <= T) by lra.
  assert (EX: 2 * (n + 1) * e * x <= 2 * (n + 1) * e * 1).
  { rewrite !(Qmult_comm (2 * (n + 1) * e)). apply Qmult_le_compat_r; [exact X1|]. apply Qmult_le_0_compat; lra. }
  (* |p - x T| *)
  assert (XT: x * T <= x + (3 * n + 2) * e).
  { assert (x * T <= x * (1 + (3 * n + 2) * e)). { rewrite !(Qmult_comm x). apply Qmult_le_compat_r; lra. }
    assert (x * ((3 * n + 2) * e) <= 1 * ((3 * n + 2) * e)). { apply Qmult_le_compat_r; [exact X1|]. apply Qmult_le_0_compat; lra. } lra. }
  assert (XT': x - (3 * n + 2) * e <= x * T).
  { assert (x * (1 - (3 * n + 2) * e) <= x * T). { rewrite !(Qmult_comm x). apply Qmult_le_compat_r; lra. }
    assert (x * ((3 * n + 2) * e) <= 1 * ((3 * n + 2) * e)). { apply Qmult_le_compat_r; [exact X1|]. apply Qmult_le_0_compat; lra. } lra. }
  assert (PT5: 5 # 8 <= T) by exact TP.
  set (d := (8 * n + 8) * e) in *.
  assert (D0: 0 <= d) by (apply Qmult_le_0_compat; lra).
  assert (DT: d * (5 # 8) <= d * T). { rewrite !(Qmult_comm d). apply Qmult_le_compat_r; lra. }
  assert (DD: d * (5 # 8) == 5 * (n * e) + 5 * e) by (unfold d; ring).
  assert (Q1: p / T <= x + d). { apply Qle_shift_div_r; [lra|]. assert (Y: (x + d) * T == x * T + d * T) by ring. rewrite Y. lra. }
  assert (Q2: x - d <= p / T). { apply Qle_shift_div_l; [lra|]. assert (Y: (x - d) * T == x * T - d * T) by ring. rewrite Y. lra. }
  assert (E1: n * p / T == n * (p / T)) by (field; lra).
  assert (E2: n * w / S == n * x) by (unfold x; field; lra).
  assert (E3: n * (8 * n + 8) * e == n * d) by (unfold d; ring).
  rewrite E1, E2, E3.
  assert (n * (p / T) <= n * (x + d)). { rewrite !(Qmult_comm n). apply Qmult_le_compat_r; lra. }
  assert (n * (x - d) <= n * (p / T)). { rewrite !(Qmult_comm n). apply Qmult_le_compat_r; lra. }
  apply abs_le; lra.
Qed.
End Norm.

(* what all the constructors have in common: a table for the weights ws *)
Definition bins_for (f : fmt) (ws : list Q) (err : Q) (tab : rtab) : Prop :=
  length tab = length ws /\ exists h,
    (forall c, (0 <= c < Z.of_nat (length ws))%Z -> rentry_ok f (Z.of_nat (length ws)) h c /\
       exists old, tabQ tab c = r_apply (h c) old) /\
    (forall i, (0 <= i < Z.of_nat (length ws))%Z ->
       Qabs (area (length ws) (hof h) (sof h) i - qlen ws * qweight ws i / qtotal ws) <= err) /\
    (forall i, (0 <= i < Z.of_nat (length ws))%Z -> qweight ws i == 0 -> qlen ws * (4 * qlen ws + 9) * p2 (1 - prec f) < 1 ->
       area (length ws) (hof h) (sof h) i == 0).

Lemma bins_make : forall f md t ws old, fmt_ok f -> rweights_ok f t ws -> (qlen ws + 3) * p2 (1 - prec f) <= 1 # 8 ->
  exists tab, rd_init f md t old ws = Some tab /\ bins_for f ws (qlen ws * (8 * qlen ws + 18) * p2 (1 - prec f)) tab.
Proof.
  intros f md t ws old Hf Hok Hsm. destruct (rd_init_ok f md t Hf ws Hok Hsm) as (h & H1 & H2 & H3 & H4).
  destruct (H4 old) as (tab & T1 & T2 & T3). exists tab. split; [exact T1|]. split; [exact T2|]. exists h. split; [|split].
  - intros c Hc. split; [apply H1; exact Hc|]. eexists. apply T3. exact Hc.
  - intros i Hi. rewrite (area_contrib f h (length ws) (Z.of_nat (length ws)) i H1 (Z.le_refl _)). apply H2. exact Hi.
  - intros i Hi HW HB. rewrite (area_contrib f h (length ws) (Z.of_nat (length ws)) i H1 (Z.le_refl _)). apply H3; assumption.
Qed.

Lemma bins_set : forall f md ws old, fmt_ok f -> (emin f + 2 * prec f <= 0)%Z -> rweights_ok f szt ws ->
  (qlen ws + 3) * p2 (1 - prec f) <= 1 # 8 ->
  exists tab, set_bins f md old ws = Some tab /\ bins_for f ws (qlen ws * (16 * qlen ws + 26) * p2 (1 - prec f)) tab.
Proof.
  intros f md ws old Hf Hf2 Hok Hsm. set (ps := map (pval f md ws) ws).
  pose proof (ps_ok f md szt Hf Hf2 ws Hok Hsm) as Pok. fold ps in Pok.
  pose proof (ps_len f md ws) as PL. fold ps in PL.
  destruct (bins_make f md szt ps old Hf Pok) as (tab & T1 & T2 & h & H1 & H2 & H3); [rewrite PL; exact Hsm|].
  assert (LE: length ps = length ws) by (unfold ps; apply map_length).
  exists tab. split.
  - unfold set_bins. rewrite (rp_make_ok f md szt Hf ws Hok Hsm). cbn [bind]. exact T1.
  - rewrite LE in T2. split; [exact T2|]. exists h. rewrite LE, PL in *. split; [exact H1|]. split.
    + intros i Hi. specialize (H2 i Hi). pose proof (ps_err f md szt Hf ws Hok Hsm i Hi) as PE. fold ps in PE.
      apply abs_le_inv in H2. apply abs_le_inv in PE.
      assert (X: qlen ws * (16 * qlen ws + 26) * p2 (1 - prec f) == qlen ws * (8 * qlen ws + 18) * p2 (1 - prec f) + qlen ws * (8 * qlen ws + 8) * p2 (1 - prec f)) by ring.
      apply abs_le; lra.
    + intros i Hi HW HB. apply H3; try assumption. unfold ps. rewrite (ps_nth f md ws i Hi). apply pval_zero; assumption.
Qed.

Lemma bins_run : forall f md ws err tab tb bmin bmax F ds, fmt_ok f -> rweights_ok f szt ws -> bins_for f ws err tab ->
  eng_wf tb bmin bmax -> (bmax - bmin <= imax tb)%Z -> (length ds < F)%nat -> valid_draws bmin bmax ds ->
  exec (rd_op f md szt F tb bmin bmax tab) ds = OMore \/
  exists i rest, exec (rd_op f md szt F tb bmin bmax tab) ds = ORet i rest /\ (length rest <= length ds)%nat /\ valid_draws bmin bmax rest /\
    (0 <= i < Z.of_nat (length ws))%Z /\ (qlen ws * (4 * qlen ws + 9) * p2 (1 - prec f) < 1 -> 0 < qweight ws i).
Proof.
  intros f md ws err tab tb bmin bmax F ds Hf Hok (T2 & h & H1 & _ & H3) Hb HR HF Hd.
  pose proof Hok as (Ht & Hne & HL & _).
  assert (N0: (0 < Z.of_nat (length ws))%Z) by (destruct ws; [congruence|cbn [length]; lia]).
  assert (EM: rd_max szt tab = (Z.of_nat (length ws) - 1)%Z).
  { unfold rd_max. rewrite T2. apply cast_id; lia. }
  assert (RE: forall c, (0 <= c < Z.of_nat (length ws))%Z -> rentry_ok f (Z.of_nat (length ws)) h c) by (intros c Hc; apply H1; exact Hc).
  unfold rd_op. rewrite exec_bind_eq, EM.
  destruct (ui0_run tb bmin bmax Hb szt (Z.of_nat (length ws) - 1)%Z Ht ltac:(lia) F ds HF Hd) as [X|(c & r1 & X & C1 & C2)]; rewrite X; [left; reflexivity|].
  destruct (exec_suffix _ _ _ _ _ bmin bmax X Hd) as [V1 L1]. rewrite exec_bind_eq.
  destruct (wp_exec _ _ _ _ r1 _ (u01_wp f md Hf tb bmin bmax Hb F (length r1) ltac:(lia) HR) V1) as [E|(v & rest & E & (Q1 & Q2 & _) & _)];
    rewrite E; [left; reflexivity|].
  destruct (exec_suffix _ _ _ _ _ bmin bmax E V1) as [V2 L2].
  right. assert (HC: (0 <= c < Z.of_nat (length ws))%Z) by lia. destruct (H1 c HC) as (_ & old & T3).
  pose proof (select_hs f tab h c v old (length ws) HC T2 (RE c HC) T3 Q2) as HS.
  rewrite HS. eexists. exists rest. split; [reflexivity|]. split; [lia|]. split; [exact V2|].
  destruct (select_pos f tab h ws c v old _ HC T2 RE T3 Q1 Q2 HS) as [I1 I2].
  split; [exact I1|]. intro HB.
  destruct (weight_cases f szt ws _ Hok I1) as [W|W]; [|exact W]. exfalso. apply I2.
  rewrite <- (area_contrib f h (length ws) (Z.of_nat (length ws)) _ RE (Z.le_refl _)). apply H3; assumption.
Qed.

Lemma ur_run : forall f md tb bmin bmax fmax a b F ds, fmt_ok f -> (2 <= prec f)%Z -> is_fmax f fmax ->
  eng_wf tb bmin bmax -> representable f a -> representable f b -> - fmax <= a -> b <= fmax -> a < b ->
  valid_draws bmin bmax ds -> (length ds < F)%nat ->
  exec (uniform_real f md F tb bmin bmax fmax a b) ds = OMore \/
  exists q rest, exec (uniform_real f md F tb bmin bmax fmax a b) ds = ORet q rest /\ a <= q /\ q < b /\
    (length rest <= length ds)%nat /\ valid_draws bmin bmax rest.
Proof.
  intros f md tb bmin bmax fmax a b F ds Hf HP Hm He Ha Hb Ha1 Hb1 Hab Hv HF.
  assert (W: wp bmin bmax (uniform_real f md F tb bmin bmax fmax a b) (length ds) (fun q _ => a <= q /\ q < b)).
  { apply (ur_wrap_wp f md Hf HP fmax Hm a b Hab Ha Hb Ha1 Hb1). intros a' b' H1 H2. apply ur_int_wp; assumption. }
  destruct (wp_exec _ _ _ _ ds _ W Hv) as [E|(q & rest & E & (H1 & H2) & _)]; [left; exact E|right].
  destruct (exec_suffix _ _ _ _ _ bmin bmax E Hv) as [V2 L2]. exists q, rest. auto.
Qed.

Lemma ivals_range : forall f fmax iv i, ivals_ok f fmax iv -> (S i < length iv)%nat ->
  nth 0 iv 0 <= nth i iv 0 /\ nth (S i) iv 0 <= nth (length iv - 1) iv 0.
Proof.
  intros f fmax iv i (HL & _ & HI) Hi.
  assert (G: forall k j, (j + k < length iv)%nat -> nth j iv 0 <= nth (j + k) iv 0).
  { induction k as [|k IH]; intros j H; [rewrite Nat.add_0_r; lra|]. specialize (IH j ltac:(lia)). 
    specialize (HI (j + k)%nat ltac:(lia)). replace (j + S k)%nat with (S (j + k)) by lia. lra. }
  split; [apply (G i 0%nat); lia|]. replace (length iv - 1)%nat with (S i + (length iv - 2 - i))%nat by lia. apply G. lia.
Qed.

Lemma pc_run : forall f fw md iv ws err tab tb bmin bmax fmax F ds, fmt_ok f -> (2 <= prec f)%Z -> is_fmax f fmax -> fmt_ok fw ->
  ivals_ok f fmax iv -> length iv = S (length ws) -> rweights_ok fw szt ws -> bins_for fw ws err tab ->
  eng_wf tb bmin bmax -> (bmax - bmin <= imax tb)%Z -> (length ds < F)%nat -> valid_draws bmin bmax ds ->
  exec (pc_op f fw md F tb bmin bmax fmax (Pcd tab iv)) ds = OMore \/
  exists q rest i, exec (pc_op f fw md F tb bmin bmax fmax (Pcd tab iv)) ds = ORet q rest /\ (i < length ws)%nat /\
    nth i iv 0 <= q /\ q < nth (S i) iv 0 /\ nth 0 iv 0 <= q /\ q < nth (length iv - 1) iv 0 /\
    (qlen ws * (4 * qlen ws + 9) * p2 (1 - prec fw) < 1 -> 0 < qweight ws (Z.of_nat i)).
Proof.
  intros f fw md iv ws err tab tb bmin bmax fmax F ds Hf HP Hm Hfw Hiv HL Hok HB Hb HR HF Hd.
  unfold pc_op. rewrite exec_bind_eq. cbn [pc_bins pc_ivals].
  destruct (bins_run fw md ws err tab tb bmin bmax F ds Hfw Hok HB Hb HR HF Hd) as [E|(i & r1 & E & L1 & V1 & I1 & I2)];
    rewrite E; [left; reflexivity|].
  rewrite (at_ok _ 0) by lia. rewrite plift_some. rewrite (at_ok _ 0) by lia. rewrite plift_some.
  set (k := Z.to_nat i). assert (EK: i = Z.of_nat k) by (unfold k; lia).
  replace (Z.to_nat (i + 1)) with (S k) by lia.
  pose proof Hiv as (_ & HFI & HI). rewrite Forall_forall in HFI.
  assert (K1: (S k < length iv)%nat) by lia.
  destruct (HFI (nth k iv 0)) as (A1 & A2 & A3); [apply nth_In; lia|].
  destruct (HFI (nth (S k) iv 0)) as (B1 & B2 & B3); [apply nth_In; lia|].
  destruct (ur_run f md tb bmin bmax fmax (nth k iv 0) (nth (S k) iv 0) F r1 Hf HP Hm Hb A1 B1 A2 B3 (HI k K1) V1 ltac:(lia))
    as [E2|(q & rest & E2 & Q1 & Q2 & _)]; [left; exact E2|right].
  destruct (ivals_range f fmax iv k Hiv K1) as [R1 R2].
  exists q, rest, k. split; [exact E2|]. split; [lia|]. split; [exact Q1|]. split; [exact Q2|]. split; [lra|]. split; [lra|].
  rewrite <- EK. exact I2.
Qed.

Lemma bins_table : forall f ws err tab, bins_for f ws err tab -> exists h s,
    (forall c v, (0 <= c < Z.of_nat (length ws))%Z -> v < 1 ->
       rd_select tab c v = Some (if qlt v (h c) then c else s c)) /\
    (forall c, (0 <= c < Z.of_nat (length ws))%Z -> 0 <= h c /\ h c <= 1 /\ (0 <= s c < Z.of_nat (length ws))%Z) /\
    (forall i, (0 <= i < Z.of_nat (length ws))%Z ->
       Qabs (area (length ws) h s i - qlen ws * qweight ws i / qtotal ws) <= err).
Proof.
  intros f ws err tab (T2 & h & H1 & H2 & _). exists (hof h), (sof h). split; [|split].
  - intros c v Hc Hv. destruct (H1 c Hc) as [K (old & T)]. apply (select_hs f tab h c v old (length ws) Hc T2 K T Hv).
  - intros c Hc. destruct (H1 c Hc) as [(_ & K0 & K1 & K2) _]. split; [exact K0|]. split; [exact K1|]. unfold sof.
    destruct (snd (h c)); [exact K2|exact Hc].
  - exact H2.
Qed.

Lemma bins_weaken : forall f ws e1 e2 tab, e1 <= e2 -> bins_for f ws e1 tab -> bins_for f ws e2 tab.
Proof.
  intros f ws e1 e2 tab H (T2 & h & H1 & H2 & H3). split; [exact T2|]. exists h. split; [exact H1|]. split; [|exact H3].
  intros i Hi. specialize (H2 i Hi). lra.
Qed.

Lemma bins_default : forall f, fmt_ok f -> bins_for f [1] 0 r_empty.
Proof.
  intros f Hf. split; [reflexivity|]. exists (fun _ => (1, None)).
  assert (Z0: forall c, (0 <= c < Z.of_nat (length [1]))%Z -> c = 0%Z) by (intros c Hc; cbn in Hc; lia).
  split; [|split].
  - intros c Hc. rewrite (Z0 c Hc). split.
    + split; [apply repr_1; exact Hf|]. cbn. repeat split; lra.
    + exists (0, 0%Z). reflexivity.
  - intros i Hi. rewrite (Z0 i Hi). vm_compute. discriminate.
  - intros i Hi HW _. rewrite (Z0 i Hi) in HW. exfalso. vm_compute in HW. discriminate.
Qed.

Lemma wok_1 : forall f, fmt_ok f -> (emin f + prec f + 1 <= 0)%Z -> rweights_ok f szt [1].
Proof.
  intros f Hf He. unfold rweights_ok. split; [cbn; lia|]. split; [discriminate|]. split; [cbn; lia|]. split.
  - constructor; [|constructor]. split; [apply repr_1; exact Hf|lra].
  - change (qlen [1]) with 1. cbn [qtotal]. pose proof (p2_le _ _ He) as P. change (p2 0) with 1 in P. lra.
Qed.

Lemma bins_splits : forall f ws err tab, bins_for f ws err tab -> splits ws (rd_select tab) err.
Proof.
  intros f ws err tab H. destruct (bins_table f ws err tab H) as (h & s & H1 & H2 & H3). exists h, s.
  split; [|split; [exact H2|exact H3]]. intros c v Hc Hv. rewrite (H1 c v Hc Hv). unfold qlt. destruct (Qle_bool (h c) v); reflexivity.
Qed.

Lemma pc_lands : forall f fw md iv ws err tab tb bmin bmax fmax, fmt_ok f -> (2 <= prec f)%Z -> is_fmax f fmax -> fmt_ok fw ->
  ivals_ok f fmax iv -> length iv = S (length ws) -> rweights_ok fw szt ws -> bins_for fw ws err tab ->
  eng_wf tb bmin bmax -> (bmax - bmin <= imax tb)%Z ->
  lands_in bmin bmax (fun F => pc_op f fw md F tb bmin bmax fmax (Pcd tab iv)) iv
    (fun i => qlen ws * (4 * qlen ws + 9) * p2 (1 - prec fw) < 1 -> 0 < qweight ws (Z.of_nat i)).
Proof.
  intros f fw md iv ws err tab tb bmin bmax fmax Hf HP Hm Hfw Hiv HL Hok HB Hb HR F ds HF Hd.
  destruct (pc_run f fw md iv ws err tab tb bmin bmax fmax F ds Hf HP Hm Hfw Hiv HL Hok HB Hb HR HF Hd)
    as [E|(q & rest & i & E & Hi & H1 & H2 & H3 & H4 & H5)]; [left; exact E|right].
  exists q, rest, i. split; [exact E|]. split; [lia|]. auto.
Qed.

Lemma pc_max_nth : forall tab iv, iv <> [] -> pc_max (Pcd tab iv) = Some (nth (length iv - 1) iv 0).
Proof.
  intros tab iv H. unfold pc_max. cbn [pc_ivals]. destruct iv as [|a iv] using rev_ind; [congruence|]. clear IHiv.
  rewrite rev_app_distr. cbn [rev app hd_error]. rewrite app_length. cbn [length]. rewrite app_nth2 by lia.
  replace (length iv + 1 - 1 - length iv)%nat with 0%nat by lia. reflexivity.
Qed.
