(* C61: poisson_distribution *)
From Coq Require Import Lqa.
From Verif Require Import Base ProgModel ProgSpec ProgProofs UIntModel UIntSpec FloatModel FloatSpec FloatProofs RealModel RealSpec RealProofs UniProofs
  Disc4Proofs RDiscProofs BinModel BinSpec BinProofs Bin2Proofs Bin3Proofs Bin4Proofs PoisModel PoisSpec PoisProofs.
Open Scope Q_scope.

(* With a mean below 10 the result is the point where the distribution function
   passes the uniform number drawn, up to rounding, and at most prec + 30;
   unless the uniform number is within some hundred epsilon of 1: then a larger
   number, or no result, is possible.  The full claim, a result for every
   uniform number, is refuted below. *)
Theorem C61_inversion_partial : forall f g ti ex sq lg K mean d tb bmin bmax F ds,
  fmt_ok f -> fmt_wide f -> 0 <= K -> exp_ok f K ex ->
  (32 <= bits ti)%Z -> sgn ti = true -> (prec f + 30 <= imax ti)%Z -> eng_wf tb bmin bmax -> (bmax - bmin <= imax tb)%Z ->
  representable f mean -> 0 < mean -> mean < 10 ->
  (8 * K + 16 * (qZ (prec f) + 60)) * p2 (1 - prec f) <= 1 ->
  po_init f g RNE ex sq mean = Some d ->
  valid_draws bmin bmax ds -> (length ds < F)%nat -> (Z.to_nat (prec f) + 30 < F)%nat ->
  let u01 := uniform_01 f RNE F tb bmin bmax in
  exec u01 ds = OMore /\ exec (po_op f g RNE ti lg F u01 d) ds = OMore \/
  exists u rest, exec u01 ds = ORet u rest /\
    ((exists k, exec (po_op f g RNE ti lg F u01 d) ds = ORet k rest /\ (0 <= k <= prec f + 30)%Z /\
        pinverts mean ((2 * K + 5 * mean + 2 * (qZ k + 1)) * p2 (1 - prec f)) u (Z.to_nat k)) \/
     (1 - (K + 5 * mean + 2 * (qZ (prec f) + 31)) * p2 (1 - prec f) < u /\
      forall k rest', exec (po_op f g RNE ti lg F u01 d) ds = ORet k rest' -> (prec f + 30 < k)%Z)).
Proof.
  intros. cbv zeta. eapply po_invert_ok; eassumption.
Qed.
Print Assumptions C61_inversion_partial.

(* e^x for -10 < x < 0, from 90 terms of the series *)
Fixpoint prs (m : Q) (n : nat) : Q * Q :=
  match n with O => (1, 0) | S k => let (t, s) := prs m k in (Qred (t * m / qZ (Z.of_nat n)), Qred (s + t)) end.
Definition ex_ex (f : fmt) (x : Q) : Q := fround f RNE (1 / snd (prs (- x) 90)).

Lemma prs_eq : forall m n, fst (prs m n) == pterm m n /\ snd (prs m n) == psum m n.
Proof.
  intros m. induction n as [|n [IH1 IH2]]; [split; reflexivity|]. cbn [prs]. destruct (prs m n) as [t s]. cbn [fst snd] in *.
  rewrite !Qred_correct. cbn [pterm psum]. rewrite IH1, IH2. split; reflexivity.
Qed.
Lemma s_compat : forall m m' n, m == m' -> psum m n == psum m' n.
Proof.
  intros m m' n H. assert (T: forall i, pterm m i == pterm m' i) by (induction i as [|i IH]; cbn [pterm]; [reflexivity|rewrite IH, H; reflexivity]).
  induction n as [|n IH]; cbn [psum]; [reflexivity|]. rewrite IH, T. reflexivity.
Qed.
Lemma exp_gen : forall f m S n, fmt_ok f -> fmt_wide f -> (prec f <= 60)%Z -> 0 < m -> m < 10 -> (60 <= n)%nat -> S == psum m (30 + n) ->
  exp_neg m (2 * p2 (1 - prec f)) (fround f RNE (1 / S)).
Proof.
  intros f m S n Hf Hw HP M0 M1 Hn ES. destruct (e_small f Hw) as [E0 E8].
  pose proof (s_ge_1 m ltac:(lra) (30 + n) ltac:(lia)) as S1. pose proof (s_bound m (30 + n) ltac:(lra) ltac:(lra)) as S2.
  pose proof (t_small m n ltac:(lra) ltac:(lra)) as TS. assert (ST: forall N, psum m N <= psum m (30 + n) + 2 * pterm m (30 + n)).
  { intro N. apply s_tail_all; [lra|]. apply Qle_trans with (qn 20); [change (qn 20) with 20; lra|apply qn_le; lia]. }
  assert (TS2: p2 (- 1 - Z.of_nat n) <= p2 (-61)) by (apply p2_le; lia).
  remember (psum m (30 + n)) as s90 eqn:S90. remember (pterm m (30 + n)) as t90.
  assert (E4: 4 * p2 (-61) <= p2 (1 - prec f)). { change 4 with (p2 2). rewrite <- p2_add. apply p2_le. lia. }
  assert (Z: p2 (emin f + prec f - 1) <= 1 / S).
  { apply Qle_trans with (p2 (-15)); [apply p2_le; destruct Hw; lia|]. apply Qle_shift_div_l; [lra|]. rewrite ES.
    assert (p2 (-15) * s90 <= p2 (-15) * p2 15). { rewrite !(Qmult_comm (p2 (-15))). apply Qmult_le_compat_r; [exact S2|discriminate]. }
    change (p2 (-15) * p2 15) with (32768 # 32768) in H. lra. }
  pose proof (near_rnd f RNE Hf (1 / S) Z) as (N1 & N2 & N3 & N4). set (y := fround f RNE (1 / S)) in *. set (e := p2 (1 - prec f)) in *. clearbody y e.
  assert (Y1: (1 - e) * (y * s90) <= 1).
  { assert ((1 - 1 * e) * y * s90 <= 1 / S * s90) by (apply Qmult_le_compat_r; lra). assert (1 / S * s90 == 1) by (rewrite <- ES; field; lra). lra. }
  assert (Y2: 1 - e <= y * s90).
  { assert ((1 - 1 * e) * (1 / S) * s90 <= y * s90) by (apply Qmult_le_compat_r; lra). assert ((1 - 1 * e) * (1 / S) * s90 == 1 - e) by (rewrite <- ES; field; lra). lra. }
  assert (Y0: 0 <= y * s90) by (apply Qmult_le_0_compat; lra).
  split.
  - intro N. specialize (ST N). pose proof (s_nonneg m ltac:(lra) N).
    assert (A: y * psum m N <= y * ((1 + e / 4) * s90)).
    { rewrite !(Qmult_comm y). apply Qmult_le_compat_r; [|lra]. assert (e / 4 * 1 <= e / 4 * s90). { rewrite !(Qmult_comm (e / 4)). apply Qmult_le_compat_r; [lra|]. apply Qle_shift_div_l; lra. }
      assert (p2 (-61) <= e / 4) by (apply Qle_shift_div_l; lra). lra. }
    assert (B: (1 - 2 * e) * (y * psum m N) <= (1 - 2 * e) * (y * ((1 + e / 4) * s90))). { rewrite !(Qmult_comm (1 - 2 * e)). apply Qmult_le_compat_r; lra. }
    assert (C: (1 - 2 * e) * (y * ((1 + e / 4) * s90)) == (1 - (7 # 4) * e - (1 # 2) * (e * e)) * (y * s90)) by field.
    assert (D: (1 - (7 # 4) * e - (1 # 2) * (e * e)) * (y * s90) <= (1 - e) * (y * s90)).
    { apply Qmult_le_compat_r; [|exact Y0]. assert (0 <= e * e) by (apply Qmult_le_0_compat; lra). lra. }
    lra.
  - exists (30 + n)%nat. rewrite <- S90. assert ((1 + 2 * e) * (1 - e) <= (1 + 2 * e) * (y * s90)). { rewrite !(Qmult_comm (1 + 2 * e)). apply Qmult_le_compat_r; lra. }
    assert (e * e <= (1 # 8) * e) by (apply Qmult_le_compat_r; lra). lra.
Qed.

Lemma ex_ex_ok : forall f, fmt_ok f -> fmt_wide f -> (prec f <= 60)%Z -> exp_ok f 2 (ex_ex f).
Proof.
  intros f Hf Hw HP m M0 M1 _. unfold ex_ex. split; [apply rnd_repr; exact Hf|].
  apply exp_gen with 60%nat; try assumption; [lia|]. destruct (prs_eq (- - m) 90) as [_ ES]. rewrite ES. apply s_compat. ring.
Qed.

(* The largest uniform number below 1: the probabilities of line 329 add up to
   less, and the loop of line 326 never ends, or ends with an overflow. *)
Theorem C61_hang_refuted : exists mean d ds, 0 < mean /\ mean < 10 /\ representable ieee_double mean /\
  exp_ok ieee_double 2 (ex_ex ieee_double) /\
  po_init ieee_double ieee_double RNE (ex_ex ieee_double) (fun x => x) mean = Some d /\ valid_draws 0 (2 ^ 64 - 1) ds /\
  forall lg F k rest, exec (po_op ieee_double ieee_double RNE i32 lg F (uniform_01 ieee_double RNE 9 u64 0 (2 ^ 64 - 1)) d) ds <> ORet k rest.
Proof.
  assert (Hf: fmt_ok ieee_double) by (split; cbn; lia). assert (Hw: fmt_wide ieee_double) by (split; cbn; lia).
  exists (9 # 2). eexists. exists [2 ^ 64 - 2 ^ 11]%Z. split; [reflexivity|]. split; [reflexivity|].
  split; [exists 9%Z, (-1)%Z; split; [cbn; lia|split; [cbn; lia|reflexivity]]|]. split; [apply ex_ex_ok; [exact Hf|exact Hw|cbn; lia]|].
  split; [vm_compute; reflexivity|]. split; [apply Forall_cons; [lia|apply Forall_nil]|].
  intros lg F k rest H. unfold po_op, po_invert in H. cbn [po_u po_mean] in H. rewrite exec_bind_eq in H.
  assert (E: exec (uniform_01 ieee_double RNE 9 u64 0 (2 ^ 64 - 1)) [2 ^ 64 - 2 ^ 11]%Z = ORet (9007199254740991 # 9007199254740992) []) by (vm_compute; reflexivity).
  rewrite E in H.
  assert (T: turns ieee_double i32 55 (9 # 2) (6403900501771287 # 576460752303423488) (9007199254740991 # 9007199254740992) 0
    = Some (566306572204089 # 766247770432944429179173513575154591809369561091801088, 4026602707011669 # 162259276829213363391578010288128, 55%Z))
    by (vm_compute; reflexivity).
  assert (C1: 2 * p2 (-129) < p2 (fexp ieee_double (p2 (-56)))) by (vm_compute; reflexivity).
  assert (C2: p2 (-56) + p2 (-129) <= 4026602707011669 # 162259276829213363391578010288128) by (vm_compute; discriminate).
  assert (C3: p2 (-129) < 4026602707011669 # 162259276829213363391578010288128) by (vm_compute; reflexivity).
  assert (C4: 566306572204089 # 766247770432944429179173513575154591809369561091801088 <= p2 (-129)) by (vm_compute; discriminate).
  revert H. eapply (hang ieee_double Hf i32 (p2 (-56)) (-129) (9 # 2) 55).
  reflexivity. apply p2_pos. exact C1. vm_compute; discriminate. vm_compute; reflexivity. discriminate. discriminate.
  exact T. 2: exact C2. 2: exact C3. 2: discriminate. 2: exact C4. 2: lia.
  exists 4026602707011669%Z, (-107)%Z. split; [cbn; lia|]. split; [cbn; lia|vm_compute; reflexivity].
Qed.
Print Assumptions C61_hang_refuted.

(* mean 9/2 *)
Example C61_ex :
  let f := ieee_double in
  fmt_ok f /\ fmt_wide f /\ exp_ok f 2 (ex_ex f) /\ eng_wf u64 0 (2 ^ 64 - 1) /\ (prec f + 30 <= imax i32)%Z /\ representable f (9 # 2) /\
  (8 * 2 + 16 * (qZ (prec f) + 60)) * p2 (1 - prec f) <= 1 /\
  exists d, po_init f f RNE (ex_ex f) (fun x => x) (9 # 2) = Some d /\
    map (fun x => exec (po_op f f RNE i32 (fun x => x) 33 (uniform_01 f RNE 9 u64 0 (2 ^ 64 - 1)) d) [x])
        [0; 2 ^ 62; 2 ^ 63; 15 * 2 ^ 60; 2 ^ 64 - 2 ^ 12]%Z = [ORet 0 []; ORet 3 []; ORet 4 []; ORet 8 []; ORet 31 []]%Z.
Proof.
  cbn zeta. assert (Hf: fmt_ok ieee_double) by (split; cbn; lia). assert (Hw: fmt_wide ieee_double) by (split; cbn; lia).
  split; [exact Hf|]. split; [exact Hw|]. split; [apply ex_ex_ok; [exact Hf|exact Hw|cbn; lia]|]. split; [repeat split; vm_compute; discriminate|].
  split; [vm_compute; discriminate|]. split; [exists 9%Z, (-1)%Z; split; [cbn; lia|split; [cbn; lia|reflexivity]]|].
  split; [vm_compute; discriminate|]. eexists. split; [vm_compute; reflexivity|]. vm_compute. reflexivity.
Qed.
