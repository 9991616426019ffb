(* piecewise_linear_distribution: operator(), equality, and the density *)
From Coq Require Import Lqa Qminmax.
From Verif Require Import Base ProgModel ProgSpec ProgProofs UIntModel UIntSpec UIntProofs FloatModel FloatSpec FloatProofs RealModel RealSpec RealProofs UniProofs Uni2Proofs
  DiscModel DiscSpec DiscProofs Disc2Proofs Disc3Proofs Disc4Proofs RDiscModel RDiscSpec RDiscProofs RDisc2Proofs RDisc3Proofs RDisc4Proofs RDisc5Proofs
  PieceModel PieceSpec PieceProofs Piece2Proofs Piece3Proofs.
Ltac Zify.zify_post_hook ::= idtac.
Open Scope Q_scope.

Lemma fmaxq_cases : forall x y, fmaxq x y = x \/ fmaxq x y = y.
Proof. intros x y. unfold fmaxq. destruct (qlt x y); auto. Qed.
Lemma fminq_cases : forall x y, fminq x y = x \/ fminq x y = y.
Proof. intros x y. unfold fminq. destruct (qlt y x); auto. Qed.

Lemma fmaxq_max : forall x y, fmaxq x y == Qmax x y.
Proof.
  intros x y. unfold fmaxq. pose proof (qlt_spec x y) as H. destruct (qlt x y).
  - symmetry. apply Q.max_r. lra.
  - symmetry. apply Q.max_l. exact H.
Qed.

Section Run.
Variables (f : fmt) (md : rmode).
Hypothesis Hf : fmt_ok f.
Hypothesis Hf2 : (emin f + 2 * prec f <= 0)%Z.
Local Notation P := (prec f).
Local Notation e := (p2 (1 - prec f)).
Variables (iv ws : list Q) (fmax : Q).
Hypothesis Hiv : ivals_ok f fmax iv.
Hypothesis Hws : lweights_ok f iv ws.
Local Notation xs := (lin_bins iv ws).
Local Notation n := (qlen xs).
Hypothesis Hsm : (n + 3) * e <= 1 # 8.

Lemma e_small : e <= 1 # 16.
Proof using Hf Hiv Hws Hsm.
  destruct (e_pos f Hf) as [E0 EL]. assert (N0: 0 <= n) by (unfold qlen; change 0 with (inject_Z 0); apply injZ_le; lia).
  assert (3 * e <= (n + 3) * e) by (apply Qmult_le_compat_r; lra). lra.
Qed.

Lemma pl_make : exists bw, rweights_ok f szt bw /\ length bw = length xs /\ length bw = (2 * length iv - 2)%nat /\ qlen bw = n /\
  (forall i, (i < length bw)%nat -> 0 < nth i bw 0 -> 0 < nth i xs 0) /\
  forall old, exists tab, pl_init f md old iv ws = Some (Pld tab iv ws) /\ bins_for f bw (n * (16 * n + 26) * e) tab /\
    splits xs (rd_select tab) (n * (16 * n + 48) * e).
Proof using Hf Hf2 Hiv Hws Hsm.
  destruct (lin_setup f md Hf e_small iv ws fmax Hiv Hws Hsm) as (bw & B1 & B2 & B3 & B4 & N2 & TP & ND & BT & Bok).
  assert (QL: qlen bw = n) by (unfold qlen; rewrite B4; reflexivity).
  exists bw. split; [exact Bok|]. split; [congruence|]. split; [exact B3|]. split; [exact QL|]. split.
  - intros i Hi Hb. destruct (Forall2_nth_bw f xs bw B2 i ltac:(lia)) as (_ & X0 & _ & _ & XZ).
    destruct (Qlt_le_dec 0 (nth i xs 0)) as [L|L]; [exact L|]. assert (Z: nth i xs 0 == 0) by lra. apply XZ in Z. lra.
  - intro old. destruct (bins_set f md bw old Hf Hf2 Bok) as (tab & T1 & T2); [rewrite QL; exact Hsm|]. rewrite QL in T2.
    exists tab. split; [|split; [exact T2|]].
    + unfold pl_init. rewrite B1. cbn [bind]. unfold set_bins in T1. destruct (rp_make f md bw) as [ps|]; [|discriminate T1].
      cbn [bind] in *. rewrite T1. reflexivity.
    + apply bins_splits in T2. destruct T2 as (h & s & S1 & S2 & S3). exists h, s. rewrite <- B4 in S1, S2, S3.
      split; [exact S1|]. split; [exact S2|]. intros i Hi. specialize (S3 i Hi). rewrite QL in S3.
      pose proof (lin_ratio f Hf iv ws bw B2 N2 TP ND BT i Hi) as R.
      apply abs_le_inv in S3. apply abs_le_inv in R.
      assert (X: n * (16 * n + 48) * e == n * (16 * n + 26) * e + n * 22 * e) by ring. rewrite X. apply abs_le; lra.
Qed.

Lemma pl_lands : forall bw err tab tb bmin bmax, (2 <= P)%Z -> is_fmax f fmax ->
  rweights_ok f szt bw -> length bw = (2 * length iv - 2)%nat -> qlen bw = n ->
  (forall i, (i < length bw)%nat -> 0 < nth i bw 0 -> 0 < nth i xs 0) -> bins_for f bw err tab ->
  eng_wf tb bmin bmax -> (bmax - bmin <= imax tb)%Z ->
  lands_in bmin bmax (fun F => pl_op f md F tb bmin bmax fmax (Pld tab iv ws)) iv
    (fun i => n * (4 * n + 9) * e < 1 -> 0 < nth i ws 0 + nth (S i) ws 0).
Proof using Hf Hiv Hws.
  intros bw err tab tb bmin bmax HP Hm Bok BL QL BX HB Hb HR F ds HF Hd.
  pose proof Hws as (WL & _ & HW & _). pose proof Hiv as (IL & HFI & HI). rewrite Forall_forall in HFI.
  unfold pl_op. rewrite exec_bind_eq. cbn [pl_bins pl_ivals pl_weights].
  destruct (bins_run f md bw err tab tb bmin bmax F ds Hf Bok HB Hb HR HF Hd) as [E|(j & r1 & E & L1 & V1 & I1 & I2)];
    rewrite E; [left; reflexivity|].
  set (k := Z.to_nat (j / 2)). pose proof (Z.div_mod j 2 ltac:(lia)) as DM. pose proof (Z.mod_pos_bound j 2 ltac:(lia)) as MB.
  assert (EK: (j / 2)%Z = Z.of_nat k) by (unfold k; rewrite Z2Nat.id; [reflexivity|apply Z.div_pos; lia]).
  rewrite EK in *. assert (K1: (S k < length iv)%nat) by lia.
  rewrite (at_ok _ 0) by lia. rewrite plift_some. rewrite (at_ok _ 0) by lia. rewrite plift_some.
  rewrite Nat2Z.id. replace (Z.to_nat (Z.of_nat k + 1)) with (S k) by lia.
  destruct (HFI (nth k iv 0)) as (A1 & A2 & A3); [apply nth_In; lia|].
  destruct (HFI (nth (S k) iv 0)) as (B1 & B2 & B3); [apply nth_In; lia|].
  destruct (ivals_range f fmax iv k Hiv K1) as [R1 R2].
  assert (POS: n * (4 * n + 9) * e < 1 -> 0 < nth k ws 0 + nth (S k) ws 0).
  { intro HS. rewrite QL in I2. specialize (I2 HS). unfold qweight in I2.
    apply BX in I2; [|lia]. destruct (lin_bins_nth iv ws k WL K1) as [X1 X2].
    rewrite Forall_forall in HW. destruct (HW (nth k ws 0)) as [_ P1]; [apply nth_In; lia|]. destruct (HW (nth (S k) ws 0)) as [_ P2]; [apply nth_In; lia|].
    apply Qnot_le_lt. intro C. assert (Z1: nth k ws 0 == 0) by lra. assert (Z2: nth (S k) ws 0 == 0) by lra.
    assert (CS: Z.to_nat j = (2 * k)%nat \/ Z.to_nat j = (2 * k + 1)%nat) by lia.
    destruct CS as [CS|CS]; rewrite CS in I2.
    - rewrite X1 in I2. pose proof (Q.le_min_l (nth k ws 0) (nth (S k) ws 0)) as ML. pose proof (HI k K1) as HK.
      assert (M0: Qmin (nth k ws 0) (nth (S k) ws 0) == 0). { apply Qle_antisym; [lra|apply Q.min_glb; assumption]. }
      rewrite M0 in I2. lra.
    - rewrite X2 in I2. assert (D0: nth k ws 0 - nth (S k) ws 0 == 0) by lra. rewrite D0 in I2. change (Qabs 0) with 0 in I2.
      assert (Z0: 0 * (nth (S k) iv 0 - nth k iv 0) / 2 == 0) by field. lra. }
  pose proof (ur_run f md tb bmin bmax fmax (nth k iv 0) (nth (S k) iv 0) F) as UR.
  destruct (j mod 2 =? 0)%Z.
  - destruct (UR r1 Hf HP Hm Hb A1 B1 A2 B3 (HI k K1) V1 ltac:(lia)) as [E2|(q & rest & E2 & Q1 & Q2 & _)]; [left; exact E2|right].
    exists q, rest, k. split; [exact E2|]. split; [exact K1|]. split; [exact Q1|]. split; [exact Q2|]. split; [lra|]. split; [lra|exact POS].
  - rewrite (at_ok _ 0) by lia. rewrite plift_some. rewrite (at_ok _ 0) by lia. rewrite plift_some.
    cbn [pbind]. rewrite !Nat2Z.id. replace (Z.to_nat (Z.of_nat k + 1)) with (S k) by lia.
    rewrite exec_bind_eq.
    destruct (UR r1 Hf HP Hm Hb A1 B1 A2 B3 (HI k K1) V1 ltac:(lia)) as [E2|(x & r2 & E2 & Q1 & Q2 & L2 & V2)]; rewrite E2; [left; reflexivity|].
    rewrite exec_bind_eq.
    destruct (UR r2 Hf HP Hm Hb A1 B1 A2 B3 (HI k K1) V2 ltac:(lia)) as [E3|(y & r3 & E3 & Q3 & Q4 & _)]; rewrite E3; [left; reflexivity|right].
    cbn [exec]. eexists. exists r3, k. split; [reflexivity|]. split; [exact K1|].
    match goal with |- context [if ?c then fmaxq x y else fminq x y] => set (q := if c then fmaxq x y else fminq x y) end.
    assert (QC: q = x \/ q = y). { unfold q. destruct (qlt _ _); [apply fmaxq_cases|apply fminq_cases]. }
    assert (q == x \/ q == y) as QE by (destruct QC as [->| ->]; [left|right]; reflexivity). clearbody q.
    assert (QR: nth k iv 0 <= q /\ q < nth (S k) iv 0) by (destruct QE as [QE|QE]; rewrite QE; split; assumption).
    split; [apply QR|]. split; [apply QR|]. split; [lra|]. split; [lra|exact POS].
Qed.

(* the objects made from the same vectors on top of different tables *)
Lemma pl_same : forall old1 old2 tb bmin bmax F ds, eng_wf tb bmin bmax -> (bmax - bmin <= imax tb)%Z -> (length ds < F)%nat -> valid_draws bmin bmax ds ->
  exists d1 d2, pl_init f md old1 iv ws = Some d1 /\ pl_init f md old2 iv ws = Some d2 /\ pl_eqb d1 d2 = true /\
    exec (pl_op f md F tb bmin bmax fmax d1) ds = exec (pl_op f md F tb bmin bmax fmax d2) ds.
Proof using Hf Hf2 Hiv Hws Hsm.
  intros old1 old2 tb bmin bmax F ds Hb HR HF Hd.
  destruct (lin_setup f md Hf e_small iv ws fmax Hiv Hws Hsm) as (bw & B1 & B2 & B3 & B4 & N2 & TP & ND & BT & Bok).
  assert (QL: qlen bw = n) by (unfold qlen; rewrite B4; reflexivity).
  assert (SM: (qlen bw + 3) * e <= 1 # 8) by (rewrite QL; exact Hsm).
  set (ps := map (pval f md bw) bw).
  pose proof (ps_ok f md szt Hf Hf2 bw Bok SM) as Pok. fold ps in Pok.
  pose proof (ps_len f md bw) as PL. fold ps in PL. assert (LE: length ps = length bw) by (unfold ps; apply map_length).
  destruct (rd_init_ok f md szt Hf ps Pok ltac:(rewrite PL; exact SM)) as (h & H1 & _ & _ & H4).
  destruct (H4 old1) as (t1 & T1 & L1 & S1). destruct (H4 old2) as (t2 & T2 & L2 & S2).
  assert (MK: forall old tab, rd_init f md szt old ps = Some tab -> pl_init f md old iv ws = Some (Pld tab iv ws)).
  { intros old tab HT. unfold pl_init. rewrite B1. cbn [bind]. rewrite (rp_make_ok f md szt Hf bw Bok SM). cbn [bind]. fold ps. rewrite HT. reflexivity. }
  exists (Pld t1 iv ws), (Pld t2 iv ws). split; [apply MK; exact T1|]. split; [apply MK; exact T2|]. split.
  - unfold pl_eqb. cbn [pl_ivals pl_weights].
    assert (R: forall l, qlist_eqb l l = true). { induction l as [|x l IH]; [reflexivity|]. cbn [qlist_eqb]. rewrite IH, andb_true_r. apply Qeq_bool_iff. reflexivity. }
    rewrite !R. reflexivity.
  - unfold pl_op. rewrite !exec_bind_eq. cbn [pl_bins pl_ivals pl_weights].
    assert (X: exec (rd_op f md szt F tb bmin bmax t1) ds = exec (rd_op f md szt F tb bmin bmax t2) ds); [|rewrite X; reflexivity].
    unfold rd_op, rd_max. rewrite L1, L2. rewrite !exec_bind_eq.
    assert (EM: cast szt (Z.of_nat (length ps) - 1) = (Z.of_nat (length ps) - 1)%Z).
    { destruct Pok as (_ & Hne & HL & _). apply cast_id; [cbn; lia|]. destruct ps; [congruence|]. cbn [length] in *. lia. }
    rewrite EM.
    assert (N0: (0 <= Z.of_nat (length ps) - 1 <= imax szt)%Z) by (destruct Pok as (_ & Hne & HL & _); destruct ps; [congruence|]; cbn [length] in *; lia).
    destruct (ui0_run tb bmin bmax Hb szt (Z.of_nat (length ps) - 1)%Z ltac:(cbn; lia) N0 F ds HF Hd) as [E|(c & r1 & E & C1 & C2)]; rewrite E; [reflexivity|].
    destruct (exec_suffix _ _ _ _ _ bmin bmax E Hd) as [V1 LL]. rewrite !exec_bind_eq.
    destruct (wp_exec _ _ _ _ r1 _ (u01_wp f md Hf tb bmin bmax Hb F (length r1) ltac:(lia) HR) V1) as [E2|(v & rest & E2 & (Q1 & Q2 & _) & _)];
      rewrite E2; [reflexivity|].
    assert (HC: (0 <= c < Z.of_nat (length ps))%Z) by lia.
    rewrite (select_hs f t1 h c v _ (length ps) HC L1 (H1 c HC) (S1 c HC) Q2).
    rewrite (select_hs f t2 h c v _ (length ps) HC L2 (H1 c HC) (S2 c HC) Q2). reflexivity.
Qed.
End Run.

(* ---- counting ---- *)
Definition below (x : Q) (l : list Q) : Z := Z.of_nat (length (filter (fun y => qlt y x) l)).
Definition pairs_below (op : Q -> Q -> Q) (x : Q) (l : list Q) : Z :=
  Z.of_nat (length (filter (fun p => qlt (op (fst p) (snd p)) x) (list_prod l l))).

Lemma qlt_max : forall x y z, qlt (fmaxq x y) z = qlt x z && qlt y z.
Proof.
  intros x y z. unfold fmaxq. pose proof (qlt_spec x y) as H1. destruct (qlt x y).
  - pose proof (qlt_spec y z). pose proof (qlt_spec x z). destruct (qlt y z), (qlt x z); try reflexivity; lra.
  - pose proof (qlt_spec y z). pose proof (qlt_spec x z). destruct (qlt y z), (qlt x z); try reflexivity; lra.
Qed.
Lemma qlt_min : forall x y z, qlt (fminq x y) z = qlt x z || qlt y z.
Proof.
  intros x y z. unfold fminq. pose proof (qlt_spec y x) as H1. destruct (qlt y x).
  - pose proof (qlt_spec y z). pose proof (qlt_spec x z). destruct (qlt y z), (qlt x z); try reflexivity; lra.
  - pose proof (qlt_spec y z). pose proof (qlt_spec x z). destruct (qlt y z), (qlt x z); try reflexivity; lra.
Qed.

Lemma filter_prod : forall (p : Q * Q -> bool) (l m : list Q),
  length (filter p (list_prod l m)) = fold_right (fun x a => (length (filter (fun y => p (x, y)) m) + a)%nat) 0%nat l.
Proof.
  intros p l m. induction l as [|x l IH]; [reflexivity|]. cbn [list_prod fold_right]. rewrite filter_app, app_length, IH. f_equal.
  clear. induction m as [|y m IH]; [reflexivity|]. cbn [map filter]. destruct (p (x, y)); cbn [length]; rewrite IH; reflexivity.
Qed.

Lemma pairs_max : forall x l, pairs_below fmaxq x l = (below x l * below x l)%Z.
Proof.
  intros x l. unfold pairs_below, below. rewrite filter_prod. rewrite <- Nat2Z.inj_mul. f_equal.
  set (c := length (filter (fun y => qlt y x) l)). 
  assert (G: forall m, fold_right (fun x0 a => (length (filter (fun y => qlt (fmaxq (fst (x0, y)) (snd (x0, y))) x) l) + a)%nat) 0%nat m
               = (length (filter (fun y => qlt y x) m) * c)%nat).
  { induction m as [|y m IH]; [reflexivity|]. cbn [fold_right filter]. rewrite IH.
    assert (E: length (filter (fun z => qlt (fmaxq (fst (y, z)) (snd (y, z))) x) l) = if qlt y x then c else 0%nat).
    { unfold c. clear. induction l as [|z l IH]; [destruct (qlt y x); reflexivity|]. cbn [filter fst snd]. rewrite qlt_max.
      destruct (qlt y x), (qlt z x); cbn [andb length]; cbn [fst snd] in IH; rewrite IH; reflexivity. }
    rewrite E. destruct (qlt y x); cbn [length]; lia. }
  apply G.
Qed.

Lemma pairs_min : forall x l, pairs_below fminq x l = (let N := Z.of_nat (length l) in N * N - (N - below x l) * (N - below x l))%Z.
Proof.
  intros x l. cbn zeta. unfold pairs_below, below. rewrite filter_prod.
  set (c := length (filter (fun y => qlt y x) l)).
  assert (G: forall m, Z.of_nat (fold_right (fun x0 a => (length (filter (fun y => qlt (fminq (fst (x0, y)) (snd (x0, y))) x) l) + a)%nat) 0%nat m)
               = (Z.of_nat (length (filter (fun y => qlt y x) m)) * Z.of_nat (length l) + (Z.of_nat (length m) - Z.of_nat (length (filter (fun y => qlt y x) m))) * Z.of_nat c)%Z).
  { induction m as [|y m IH]; [reflexivity|]. cbn [fold_right filter]. rewrite Nat2Z.inj_add, IH.
    assert (E: length (filter (fun z => qlt (fminq (fst (y, z)) (snd (y, z))) x) l) = if qlt y x then length l else c).
    { unfold c. clear. induction l as [|z l IH]; [destruct (qlt y x); reflexivity|]. cbn [filter fst snd]. rewrite qlt_min.
      destruct (qlt y x), (qlt z x); cbn [orb length]; cbn [fst snd] in IH; rewrite IH; reflexivity. }
    rewrite E. destruct (qlt y x); cbn [length]; nia. }
  rewrite G. fold c. nia.
Qed.

Lemma density_count : forall w1 w2 x l, l <> [] ->
  Qmin w1 w2 * inject_Z (Z.of_nat (length l) * below x l) +
  Qabs (w1 - w2) / 2 * inject_Z (pairs_below (if qlt w1 w2 then fmaxq else fminq) x l)
  == inject_Z (Z.of_nat (length l) * Z.of_nat (length l)) * lin_area w1 w2 (inject_Z (below x l) / inject_Z (Z.of_nat (length l))).
Proof.
  intros w1 w2 x l Hl. set (N := Z.of_nat (length l)). set (c := below x l).
  assert (N0: ~ inject_Z N == 0). { assert (0 < N)%Z by (unfold N; destruct l; [congruence|cbn [length]; lia]).
    assert (inject_Z 1 <= inject_Z N) by (apply injZ_le; lia). change (inject_Z 1) with 1 in H0. lra. }
  unfold lin_area. pose proof (qlt_spec w1 w2) as H. destruct (qlt w1 w2).
  - rewrite pairs_max. fold c. rewrite (Q.min_l w1 w2) by lra. rewrite Qabs_neg by lra. rewrite !inject_Z_mult. field. exact N0.
  - rewrite pairs_min. cbn zeta. fold N c. rewrite (Q.min_r w1 w2) by lra. rewrite Qabs_pos by lra.
    unfold Z.sub. rewrite !inject_Z_plus, !inject_Z_mult, inject_Z_opp, !inject_Z_mult, !inject_Z_plus, !inject_Z_opp. field. exact N0.
Qed.

Lemma density_pairs : forall w1 w2 x l, l <> [] ->
  let N := Z.of_nat (length l) in
  let c := Z.of_nat (length (filter (fun y => negb (Qle_bool x y)) l)) in
  let pairs := filter (fun p => negb (Qle_bool x (if negb (Qle_bool w2 w1) then Qmax (fst p) (snd p) else Qmin (fst p) (snd p)))) (list_prod l l) in
  Qmin w1 w2 * inject_Z (N * c) + Qabs (w1 - w2) / 2 * inject_Z (Z.of_nat (length pairs))
  == inject_Z (N * N) * lin_area w1 w2 (inject_Z c / inject_Z N).
Proof.
  intros w1 w2 x l Hl N c pairs. pose proof (density_count w1 w2 x l Hl) as D.
  assert (EP: Z.of_nat (length pairs) = pairs_below (if qlt w1 w2 then fmaxq else fminq) x l).
  { unfold pairs, pairs_below. do 2 f_equal. apply filter_ext. intros [u v]. cbn [fst snd]. fold (qlt w1 w2). fold (qlt (if qlt w1 w2 then Qmax u v else Qmin u v) x).
    assert (QC: forall a b, a == b -> qlt a x = qlt b x).
    { intros a b E. pose proof (qlt_spec a x). pose proof (qlt_spec b x). destruct (qlt a x), (qlt b x); try reflexivity; lra. }
    apply QC. destruct (qlt w1 w2); symmetry; [apply fmaxq_max|apply fminq_min]. }
  rewrite EP. exact D.
Qed.

Lemma lin_total : forall iv ws, length ws = length iv ->
  qtotal (lin_bins iv ws) == qtotal (map (fun i => (nth i ws 0 + nth (S i) ws 0) / 2 * (nth (S i) iv 0 - nth i iv 0)) (seq 0 (length iv - 1))).
Proof.
  induction iv as [|a iv IH]; intros ws HL; [destruct ws; [reflexivity|discriminate]|]. destruct iv as [|b iv].
  - destruct ws as [|w ws]; [discriminate|]. destruct ws; [reflexivity|discriminate].
  - destruct ws as [|w1 ws]; [discriminate|]. destruct ws as [|w2 ws]; [discriminate|].
    change (lin_bins (a :: b :: iv) (w1 :: w2 :: ws)) with (Qmin w1 w2 * (b - a) :: Qabs (w1 - w2) * (b - a) / 2 :: lin_bins (b :: iv) (w2 :: ws)).
    cbn [qtotal]. rewrite IH by (cbn [length] in *; lia).
    replace (length (a :: b :: iv) - 1)%nat with (S (length (b :: iv) - 1)) by (cbn [length]; lia).
    cbn [seq map qtotal]. rewrite <- seq_shift, map_map. cbn [nth].
    assert (X: Qmin w1 w2 * (b - a) + Qabs (w1 - w2) * (b - a) / 2 == (w1 + w2) / 2 * (b - a)).
    { destruct (Qlt_le_dec w1 w2) as [L|L].
      - rewrite (Q.min_l w1 w2) by lra. rewrite Qabs_neg by lra. field.
      - rewrite (Q.min_r w1 w2) by lra. rewrite Qabs_pos by lra. field. }
    rewrite <- X. ring.
Qed.

Lemma plift_ret : forall A B (o : option A) (k : A -> prog B) ds b rest, exec (pbind (plift o) k) ds = ORet b rest ->
  exists a, o = Some a /\ exec (k a) ds = ORet b rest.
Proof. intros A B o k ds b rest H. destruct o as [a|]; [|discriminate]. exists a. split; [reflexivity|exact H]. Qed.

Lemma bind_ret : forall A B (p : prog A) (k : A -> prog B) ds b rest, exec (pbind p k) ds = ORet b rest ->
  exists a r, exec p ds = ORet a r /\ exec (k a) r = ORet b rest.
Proof. intros A B p k ds b rest H. rewrite exec_bind_eq in H. destruct (exec p ds) as [a r| | |] eqn:E; try discriminate. exists a, r. split; [reflexivity|exact H]. Qed.

Lemma pl_shape : forall f md F tb bmin bmax fmax d ds q rest,
  exec (pl_op f md F tb bmin bmax fmax d) ds = ORet q rest ->
  exists j r1 a b, exec (rd_op f md szt F tb bmin bmax (pl_bins d)) ds = ORet j r1 /\
    at_ (pl_ivals d) (j / 2) = Some a /\ at_ (pl_ivals d) (j / 2 + 1) = Some b /\
    ((j mod 2 = 0)%Z /\ exec (uniform_real f md F tb bmin bmax fmax a b) r1 = ORet q rest \/
     (j mod 2 <> 0)%Z /\ exists x y r2 w1 w2, exec (uniform_real f md F tb bmin bmax fmax a b) r1 = ORet x r2 /\
       exec (uniform_real f md F tb bmin bmax fmax a b) r2 = ORet y rest /\
       at_ (pl_weights d) (j / 2) = Some w1 /\ at_ (pl_weights d) (j / 2 + 1) = Some w2 /\
       (w1 < w2 -> q == Qmax x y) /\ (w2 < w1 -> q == Qmin x y)).
Proof.
  intros f md F tb bmin bmax fmax d ds q rest H. unfold pl_op in H.
  apply bind_ret in H. destruct H as (j & r1 & E1 & H). apply plift_ret in H. destruct H as (a & Ea & H). apply plift_ret in H. destruct H as (b & Eb & H).
  exists j, r1, a, b. split; [exact E1|]. split; [exact Ea|]. split; [exact Eb|].
  destruct (j mod 2 =? 0)%Z eqn:EJ; [apply Z.eqb_eq in EJ; left; split; [exact EJ|exact H]|apply Z.eqb_neq in EJ; right; split; [exact EJ|]].
  apply plift_ret in H. destruct H as (w1 & E2 & H). apply plift_ret in H. destruct H as (w2 & E3 & H).
  apply bind_ret in H. destruct H as (x & r2 & E4 & H). apply bind_ret in H. destruct H as (y & r3 & E5 & H).
  cbn [exec] in H. assert (q = (if qlt w1 w2 then fmaxq x y else fminq x y) /\ r3 = rest) as [-> ->] by (split; congruence).
  exists x, y, r2, w1, w2. split; [exact E4|]. split; [exact E5|]. split; [exact E2|]. split; [exact E3|].
  pose proof (qlt_spec w1 w2) as W. destruct (qlt w1 w2); split; intro C; [apply fmaxq_max|lra|lra|apply fminq_min].
Qed.
