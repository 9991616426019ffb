(* binomial_distribution by rejection: the correction term of Stirling's formula. *)
From Coq Require Import Reals Lra Qreals.
From Verif Require Import Base ProgModel UIntModel UIntSpec FloatModel FloatSpec FloatProofs RealModel UniProofs RDiscProofs BinModel BinSpec BinProofs Bin2Proofs Bin4Proofs Bin6Proofs
  PoisRSpec RExpProofs StirProofs Pois3Proofs Pois4Proofs.
From Verif Require Faure2Proofs.
Ltac Zify.zify_post_hook ::= idtac.
Open Scope R_scope.

(* half the logarithm of 2 pi *)
Definition hl2pi : Q := (918938533204672741780 # 1000000000000000000000)%Q.
(* log k! = (k + 1/2) log (k + 1) - (k + 1) + c + fcR c k *)
Definition fcR (c : R) (k : nat) : R := lnfact k - ((INR k + 1 / 2) * ln (INR k + 1) - (INR k + 1) + c).

(* the table *)
Definition ln_bounds : list (Z * Z) := [(0, 0); (54916777467707473351140422552, 54916777467707473351142519704); (87041032946764879767664168277, 87041032946764879767666265429); (109833554935414946702281893680, 109833554935414946702283990832); (127512808482947240738987418902, 127512808482947240738989516054); (141957810414472353118805639405, 141957810414472353118807736557); (154170885527510703318126335695, 154170885527510703318128432847); (164750332403122420053423364808, 164750332403122420053425461960); (174082065893529759535329385130, 174082065893529759535331482282); (182429585950654714090128890030, 182429585950654714090130987182)]%Z.
Definition fc_chk (tab : list Q) (d : Q) (i : nat) : bool :=
  match nth_error tab i, nth_error lnf_bounds i, nth_error ln_bounds i with
  | Some t, Some (lo, hi), Some (a, b) =>
      let n := inject_Z (Z.of_nat i) in let o := inject_Z lnf_one in
      ln_chk lnf_one 30 4 (inject_Z (zfact i)) lo hi && ln_chk lnf_one 30 4 (inject_Z (Z.of_nat i + 1)) a b &&
      Qle_bool (t - d) (16 * (inject_Z lo / o) - ((n + (1 # 2)) * (16 * (inject_Z b / o)) - (n + 1) + hl2pi)) &&
      Qle_bool (16 * (inject_Z hi / o) - ((n + (1 # 2)) * (16 * (inject_Z a / o)) - (n + 1) + hl2pi)) (t + d) &&
      Qle_bool 0 t && Qle_bool t (1 # 10)
  | _, _, _ => false
  end.
Lemma fc_chk_ok : forall tab d i, fc_chk tab d i = true -> exists t, nth_error tab i = Some t /\ 0 <= Q2R t <= 1 / 10 /\
  Rabs (Q2R t - fcR (Q2R hl2pi) i) <= Q2R d.
Proof.
  intros tab d i H. unfold fc_chk in H. destruct (nth_error tab i) as [t|]; [|discriminate]. destruct (nth_error lnf_bounds i) as [[lo hi]|]; [|discriminate]. destruct (nth_error ln_bounds i) as [[a b]|]; [|discriminate].
  cbv zeta in H. rewrite !andb_true_iff, !Qle_bool_iff in H. destruct H as [[[[[H1 H1'] H2] H3] H4] H5]. exists t. split; [reflexivity|].
  apply ln_chk_ok in H1, H1'. rewrite Q2R_Z, <- zfact_eq in H1. fold (lnfact i) in H1. rewrite Q2R_Z, plus_IZR, <- INR_IZR_INZ in H1'. apply Q2R_le in H2, H3, H4, H5.
  assert (OZ: ~ (inject_Z lnf_one == 0)%Q) by (vm_compute; discriminate).
  assert (S: Q2R 16 = 2 ^ 4) by (unfold Q2R; cbn; field). assert (S2: Q2R (1 # 2) = 1 / 2) by (unfold Q2R; cbn; field).
  rewrite !Q2R_minus, Q2R_plus, Q2R_minus, !Q2R_mult, !Q2R_div, !Q2R_plus, !Q2R_Z, S, S2, Q2R_1, <- INR_IZR_INZ in H2 by exact OZ.
  rewrite !Q2R_minus, !Q2R_plus, Q2R_minus, !Q2R_mult, !Q2R_div, !Q2R_plus, !Q2R_Z, S, S2, Q2R_1, <- INR_IZR_INZ in H3 by exact OZ.
  rewrite Q2R_0 in H4. assert (T: Q2R (1 # 10) = 1 / 10) by (unfold Q2R; cbn; field). rewrite T in H5. split; [lra|].
  pose proof (pos_INR i) as IP. unfold fcR. set (l := ln (INR i + 1)) in *. set (x := INR i + 1 / 2) in *. assert (X: 0 <= x) by (unfold x; lra).
  pose proof (Rmult_le_compat_l x _ _ X (proj1 H1')) as M1. pose proof (Rmult_le_compat_l x _ _ X (proj2 H1')) as M2. apply Rabs_le. lra.
Qed.
Lemma bn_tab_ok : forall i, (i < 10)%nat -> exists t, nth_error bn_table i = Some t /\ 0 <= Q2R t <= 1 / 10 /\
  Rabs (Q2R t - fcR (Q2R hl2pi) i) <= / 2 ^ 56.
Proof.
  intros i Hi.
  assert (A: forallb (fc_chk bn_table (1 # 72057594037927936)) (seq 0 10) = true) by (vm_compute; reflexivity).
  rewrite forallb_forall in A. specialize (A i). rewrite in_seq in A. specialize (A ltac:(lia)). apply fc_chk_ok in A.
  assert (E: Q2R (1 # 72057594037927936) = / 2 ^ 56). { unfold Q2R. cbn [Qnum Qden]. replace (2 ^ 56) with 72057594037927936 by (cbn; ring). field. }
  rewrite E in A. exact A.
Qed.
Lemma fcR_c : forall k, Rabs (fcR (Q2R hl2pi) k - fcR (Q2R c2pi) k) <= 1 / 10 ^ 15.
Proof.
  intro k. unfold fcR. replace (lnfact k - ((INR k + 1 / 2) * ln (INR k + 1) - (INR k + 1) + Q2R hl2pi) - (lnfact k - ((INR k + 1 / 2) * ln (INR k + 1) - (INR k + 1) + Q2R c2pi))) with (Q2R c2pi - Q2R hl2pi) by ring.
  unfold Q2R, c2pi, hl2pi. cbn [Qnum Qden]. apply Rabs_le. cbn [pow]. lra.
Qed.
Lemma fcR_st : forall k, (10 <= k)%nat -> Rabs (st (INR k + 1) - fcR (Q2R c2pi) k) <= 1 / 10 ^ 10.
Proof.
  intros k H. pose proof (stirling (S k) ltac:(lia)) as S. rewrite lnfact_S, S_INR in S. unfold fcR.
  replace (st (INR k + 1) - (lnfact k - ((INR k + 1 / 2) * ln (INR k + 1) - (INR k + 1) + Q2R c2pi))) with
    (- (lnfact k + ln (INR k + 1) - ((INR k + 1 + 1 / 2) * ln (INR k + 1) - (INR k + 1) + Q2R c2pi + st (INR k + 1)))) by ring. rewrite Rabs_Ropp. exact S.
Qed.

Lemma prod_err : forall a b A B al be b1 a1, Rabs (a - A) <= al -> Rabs (b - B) <= be -> Rabs b <= b1 -> Rabs A <= a1 -> Rabs (a * b - A * B) <= al * b1 + a1 * be.
Proof.
  intros. replace (a * b - A * B) with ((a - A) * b + A * (b - B)) by ring. eapply Rle_trans; [apply Rabs_triang|]. rewrite !Rabs_mult.
  apply Rplus_le_compat; apply Rmult_le_compat; try apply Rabs_pos; assumption.
Qed.

Section F.
Variables (f : fmt) (md : rmode) (ti : ity).
Hypothesis Hf : fmt_ok f.
Hypothesis Hw : fmt_wide f.
Hypothesis Pf : (20 <= prec f)%Z.
Hypothesis Hti : (32 <= bits ti)%Z.
Local Notation rnd := (fround f md).
Local Notation e := (eps f).
Let F : forall x B, Rabs (Q2R x) <= B -> Rabs (Q2R (rnd x) - Q2R x) <= e * (B + 1).
Proof. intros x B H. apply Rabs_le_inv in H. destruct (rr f Hw f md x B) as [A C]; try lia; try lra. apply Rabs_le. lra. Qed.

Lemma fc_ok : forall k, (0 <= k)%Z -> (k + 1 <= imax ti)%Z -> (k + 1 <= 2 ^ prec f)%Z ->
  exists q, bn_fc f md ti k = Some q /\ Rabs (Q2R q) <= 1 / 5 /\ Rabs (Q2R q - fcR (Q2R c2pi) (Z.to_nat k)) <= 5 * e + 101 / 10 ^ 12.
Proof.
  intros k K0 K1 K2. unfold bn_fc. pose proof (e_pos f) as EP. pose proof (e_le f Pf) as E1. destruct (Z.ltb_spec k 10) as [L|L].
  - destruct (Z.leb_spec 0 k); [|lia]. destruct (bn_tab_ok (Z.to_nat k) ltac:(lia)) as (t & -> & T1 & T2). cbn [option_map]. eexists. split; [reflexivity|].
    pose proof (fcR_c (Z.to_nat k)) as C. pose proof (F t 1 ltac:(apply Rabs_le; lra)) as R. apply Rabs_le_inv in T2, C, R.
    assert (T56: / 2 ^ 56 <= 1 / 10 ^ 15) by (cbn [pow]; lra). set (z := / 2 ^ 56) in *. cbn [pow] in *. split; apply Rabs_le; lra.
  - pose proof (imin_le_0 ti Hti). rewrite addT_in by lia. cbn [bind]. rewrite (Faure2Proofs.rnd_Z f md Hf _ (k + 1)) by (try reflexivity; lia).
    set (x := IZR (k + 1)). assert (X: 11 <= x) by (unfold x; apply (IZR_le 11); lia). assert (NZ: ~ (inject_Z (k + 1) == 0)%Q) by (unfold Qeq; cbn; lia).
    rewrite fdiv_ok by exact NZ. cbn [bind]. eexists. split; [reflexivity|]. set (y := / x).
    assert (Y: 0 < y <= 1 / 11). { split; [apply Rinv_0_lt_compat; lra|]. unfold y. replace (1 / 11) with (/ 11) by field. apply Rinv_le_contravar; lra. }
    assert (A1: Q2R (1 / inject_Z (k + 1)) = y) by (rewrite Q2R_div, Q2R_Z, Q2R_1 by exact NZ; unfold y; fold x; field; lra).
    pose proof (F (1 / inject_Z (k + 1))%Q (1 / 11) ltac:(rewrite A1; apply Rabs_le; lra)) as I1. rewrite A1 in I1. set (i := rnd (1 / inject_Z (k + 1))) in *.
    assert (I2: Rabs (Q2R i) <= 1 / 10) by (apply Rabs_le_inv in I1; apply Rabs_le; lra).
    pose proof (prod_err _ _ _ _ _ _ _ (1 / 11) I1 I1 I2 ltac:(apply Rabs_le; lra)) as J1. rewrite <- Q2R_mult in J1.
    assert (YY: 0 <= y * y <= 1 / 121). { split; [apply Rmult_le_pos; lra|]. replace (1 / 121) with (1 / 11 * (1 / 11)) by field. apply Rmult_le_compat; lra. }
    pose proof (F (i * i)%Q (1 / 50) ltac:(apply Rabs_le_inv in J1; apply Rabs_le; lra)) as J2. set (i2 := rnd (i * i)) in *.
    assert (J3: Rabs (Q2R i2 - y * y) <= 2 * e) by (apply Rabs_le_inv in J1, J2; apply Rabs_le; lra).
    assert (J4: Rabs (Q2R i2) <= 1 / 50) by (apply Rabs_le_inv in J3; apply Rabs_le; lra).
    assert (C1: Q2R (1 / 1260) = 1 / 1260) by (unfold Q2R; cbn; field). assert (C2: Q2R (1 / 360) = 1 / 360) by (unfold Q2R; cbn; field). assert (C3: Q2R (1 / 12) = 1 / 12) by (unfold Q2R; cbn; field).
    pose proof (F (1 / 1260)%Q (1 / 1260) ltac:(rewrite C1; apply Rabs_le; lra)) as D1. pose proof (F (1 / 360)%Q (1 / 360) ltac:(rewrite C2; apply Rabs_le; lra)) as D2. pose proof (F (1 / 12)%Q (1 / 12) ltac:(rewrite C3; apply Rabs_le; lra)) as D3.
    rewrite C1 in D1. rewrite C2 in D2. rewrite C3 in D3. set (c1 := rnd (1 / 1260)) in *. set (c2 := rnd (1 / 360)) in *. set (c3 := rnd (1 / 12)) in *. clearbody c1 c2 c3.
    pose proof (prod_err _ _ _ _ _ _ _ (1 / 1260) D1 J3 J4 ltac:(apply Rabs_le; lra)) as G1. rewrite <- Q2R_mult in G1.
    pose proof (F (c1 * i2)%Q (1 / 100) ltac:(apply Rabs_le_inv in G1; apply Rabs_le; lra)) as G2. set (w1 := rnd (c1 * i2)) in *.
    assert (W1: Rabs (Q2R w1 - 1 / 1260 * (y * y)) <= 2 * e) by (apply Rabs_le_inv in G1, G2; apply Rabs_le; lra). clear G1 G2 D1 C1.
    pose proof (F (c2 - w1)%Q (1 / 100) ltac:(rewrite Q2R_minus; apply Rabs_le_inv in D2, W1; apply Rabs_le; lra)) as G2. rewrite Q2R_minus in G2. set (w2 := rnd (c2 - w1)) in *.
    set (Z2 := 1 / 360 - 1 / 1260 * (y * y)) in *. assert (W2: Rabs (Q2R w2 - Z2) <= 5 * e) by (unfold Z2; apply Rabs_le_inv in D2, W1, G2; apply Rabs_le; lra).
    assert (ZB: 0 <= Z2 <= 1 / 360) by (unfold Z2; lra). clear G2 D2 W1 C2.
    pose proof (prod_err _ _ _ _ _ _ _ (1 / 360) W2 J3 J4 ltac:(apply Rabs_le; lra)) as G1. rewrite <- Q2R_mult in G1.
    assert (ZY: 0 <= Z2 * (y * y) <= 1 / 360 * (1 / 121)) by (split; [apply Rmult_le_pos; lra|apply Rmult_le_compat; lra]).
    pose proof (F (w2 * i2)%Q (1 / 100) ltac:(apply Rabs_le_inv in G1; apply Rabs_le; lra)) as G2. set (w3 := rnd (w2 * i2)) in *.
    assert (W3: Rabs (Q2R w3 - Z2 * (y * y)) <= 2 * e) by (apply Rabs_le_inv in G1, G2; apply Rabs_le; lra). clear G1 G2 W2.
    pose proof (F (c3 - w3)%Q (1 / 10) ltac:(rewrite Q2R_minus; apply Rabs_le_inv in D3, W3; apply Rabs_le; lra)) as G2. rewrite Q2R_minus in G2. set (w4 := rnd (c3 - w3)) in *.
    set (Z4 := 1 / 12 - Z2 * (y * y)) in *. assert (W4: Rabs (Q2R w4 - Z4) <= 5 * e) by (unfold Z4; apply Rabs_le_inv in D3, W3, G2; apply Rabs_le; lra).
    assert (ZB4: 0 <= Z4 <= 1 / 12) by (unfold Z4; lra). clear G2 D3 W3 C3.
    pose proof (prod_err _ _ _ _ _ _ _ (1 / 12) W4 I1 I2 ltac:(apply Rabs_le; lra)) as G1. rewrite <- Q2R_mult in G1.
    assert (ZY4: 0 <= Z4 * y <= 1 / 12 * (1 / 11)) by (split; [apply Rmult_le_pos; lra|apply Rmult_le_compat; lra]).
    pose proof (F (w4 * i)%Q (1 / 50) ltac:(apply Rabs_le_inv in G1; apply Rabs_le; lra)) as G2. set (w5 := rnd (w4 * i)) in *.
    assert (ST: Z4 * y = st x) by (unfold Z4, Z2, y, st; field; lra).
    assert (XE: INR (Z.to_nat k) + 1 = x) by (rewrite INR_IZR_INZ, Z2Nat.id by lia; unfold x; rewrite plus_IZR; reflexivity).
    pose proof (fcR_st (Z.to_nat k) ltac:(lia)) as FS. rewrite XE, <- ST in FS. set (fr := fcR (Q2R c2pi) (Z.to_nat k)) in *. clearbody fr.
    apply Rabs_le_inv in G1, G2, FS. cbn [pow] in *. split; apply Rabs_le; lra.
Qed.
End F.
