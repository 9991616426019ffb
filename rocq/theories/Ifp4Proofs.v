(* generate_int_float_pair with a floating-point engine. *)
From Coq Require Import Lqa Qpower.
From Verif Require Import Base ProgModel ProgSpec ProgProofs UIntModel UIntSpec UIntProofs Disc4Proofs FloatModel FloatSpec FloatProofs RealModel RealSpec RealProofs UniProofs IfpModel IfpSpec IfpProofs Ifp3Proofs.
Open Scope Z_scope.
Ltac Zify.zify_post_hook ::= idtac.

Lemma wrapped_id : forall A bmin bmax g (p : prog A), (forall v, bmin <= v <= bmax -> g v = v) ->
  peq bmin bmax (on_wrapped g p) p.
Proof.
  intros A bmin bmax g p Hg. induction p as [a|k IH| |]; cbn [on_wrapped peq]; auto. intros v Hv. rewrite (Hg v Hv). apply IH.
Qed.

Section RealEng.
Variables (f : fmt) (md : rmode) (fuel : nat) (w : Z) (fe : fmt) (Wr eb : Z) (val : Z -> Q) (gmin gmax : Q).
Hypothesis Hf : fmt_ok f.
Hypothesis Hfe : fmt_ok fe.
Hypothesis Hw : 1 <= w <= 30.
Hypothesis Heb : 1 <= eb <= prec fe.
Hypothesis HWr : 2 <= Wr.
Hypothesis HebW : eb <= Wr.
Hypothesis Hval : forall i, 0 <= i < 2 ^ eb -> (val i == inject_Z i * p2 (- eb))%Q.
Hypothesis Hg : real_eng val 0 (2 ^ eb - 1) gmin gmax.
Hypothesis Hpos : (0 < fround f md (fround fe md (gmax - gmin)))%Q.

Lemma max_eq : uif_max Wr eb = 2 ^ eb - 1.
Proof using Heb HWr HebW.
  unfold uif_max. assert (E: (if eb <? Wr then eb else Wr) = eb) by (destruct (Z.ltb_spec eb Wr); lia). rewrite E.
  assert (E2: 2 * 2 ^ (eb - 1) = 2 ^ eb) by (rewrite <- Z.pow_succ_r by lia; f_equal; lia). rewrite E2.
  assert (0 < 2 ^ eb) by (apply Z.pow_pos_nonneg; lia). assert (2 ^ eb <= 2 ^ Wr) by (apply Z.pow_le_mono_r; lia).
  unfold wrap. rewrite Zminus_mod_idemp_l. apply Z.mod_small. lia.
Qed.
Lemma value_eq : forall i, 0 <= i <= 2 ^ eb - 1 -> uif_value md fe Wr eb val i = i.
Proof using Hfe Heb HWr HebW Hval.
  intros i Hi. unfold uif_value. rewrite max_eq. assert (HP: 0 < 2 ^ eb) by (apply Z.pow_pos_nonneg; lia).
  assert (HPP: 2 ^ eb <= 2 ^ prec fe) by (apply Z.pow_le_mono_r; lia).
  assert (E1: (fround fe md (inject_Z (2 ^ eb - 1)) == inject_Z (2 ^ eb - 1))%Q) by (apply rnd_fix; [exact Hfe|]; apply repr_Z; [exact Hfe|lia]).
  assert (E2: (fround fe md (inject_Z (2 ^ eb - 1)) + 1 == inject_Z (2 ^ eb))%Q).
  { rewrite E1. unfold Z.sub. rewrite inject_Z_plus. change (inject_Z (-(1))) with (-(1))%Q. ring. }
  assert (E3: (fround fe md (fround fe md (inject_Z (2 ^ eb - 1)) + 1) == inject_Z (2 ^ eb))%Q).
  { rewrite (rnd_compat fe md Hfe _ _ E2). apply rnd_fix; [exact Hfe|]. apply repr_Z; [exact Hfe|lia]. }
  assert (E4: (val i * fround fe md (fround fe md (inject_Z (2 ^ eb - 1)) + 1) == inject_Z i)%Q).
  { rewrite E3, Hval by lia. rewrite <- p2_Z, <- Qmult_assoc, <- p2_add by lia. replace (- eb + eb) with 0 by ring. change (p2 0) with 1%Q. ring. }
  assert (E5: (fround fe md (val i * fround fe md (fround fe md (inject_Z (2 ^ eb - 1)) + 1)) == inject_Z i)%Q).
  { rewrite (rnd_compat fe md Hfe _ _ E4). apply rnd_fix; [exact Hfe|]. apply repr_Z; [exact Hfe|lia]. }
  rewrite (Qfloor_comp _ _ E5). apply Qfloor_Z.
Qed.

Local Notation UI := (uniform_int fuel (Ity Wr false) 0 (2 ^ eb - 1) i32 0 (2 ^ w - 1)).
Local Notation U01 := (uniform_01_real f md fuel fe val gmin gmax).
Definition rpure : prog (Q * Z) := b <~ UI;; r <~ U01;; PRet (r, b).

Lemma w_pow : 2 <= 2 ^ w <= 2 ^ 30.
Proof using Hw. clear - Hw. change 2 with (2 ^ 1) at 1. split; apply Z.pow_le_mono_r; lia. Qed.
Lemma r_peq : peq 0 (2 ^ eb - 1) (int_float_pair_real f md fuel w fe Wr eb val gmin gmax) rpure.
Proof using Hfe Heb HWr HebW Hval Hw.
  pose proof w_pow as HP. assert (2 ^ 30 < 2 ^ 31) by reflexivity. unfold int_float_pair_real, rpure.
  rewrite shlI_ok by lia. cbn [plift pbind]. rewrite Z.mul_1_l.
  assert (E: subT i32 (2 ^ w) 1 = Some (2 ^ w - 1)).
  { unfold subT, norm, imin, imax. cbn [sgn bits i32]. change (32 - 1) with 31.
    destruct (Z.leb_spec (- 2 ^ 31) (2 ^ w - 1)); [|lia]. destruct (Z.leb_spec (2 ^ w - 1) (2 ^ 31 - 1)); [|lia]. reflexivity. }
  rewrite E. cbn [plift pbind]. rewrite max_eq. apply peq_bind; [|intro; apply peq_refl].
  apply wrapped_id. exact value_eq.
Qed.

Lemma e_wf : eng_wf (Ity Wr false) 0 (2 ^ eb - 1).
Proof using Heb HWr HebW.
  assert (2 ^ 1 <= 2 ^ eb) by (apply Z.pow_le_mono_r; lia). assert (2 ^ eb <= 2 ^ Wr) by (apply Z.pow_le_mono_r; lia).
  unfold eng_wf, inT, imin, imax. cbn [bits sgn]. change (2 ^ 1) with 2 in *. lia.
Qed.
Lemma i_in : inT i32 (2 ^ w - 1).
Proof using Hw. pose proof w_pow. clear - H. unfold inT, imin, imax. cbn [bits sgn i32]. assert (2 ^ 30 < 2 ^ 31) by reflexivity. change (32 - 1) with 31. revert H; generalize (2 ^ w); intros; lia. Qed.

Lemma r_run : forall ds, valid_draws 0 (2 ^ eb - 1) ds -> (length ds < fuel)%nat ->
  exec (int_float_pair_real f md fuel w fe Wr eb val gmin gmax) ds = OMore \/
  exists q b rest, exec (int_float_pair_real f md fuel w fe Wr eb val gmin gmax) ds = ORet (q, b) rest /\
    0 <= b < 2 ^ w /\ (0 <= q /\ q < 1)%Q.
Proof using Hf Hfe Heb HWr HebW Hval Hw Hg Hpos.
  intros ds Hv Hl. rewrite (peq_exec _ _ _ _ _ ds r_peq Hv). pose proof w_pow as HP. unfold rpure.
  destruct (ui0_run (Ity Wr false) 0 (2 ^ eb - 1) e_wf i32 (2 ^ w - 1) ltac:(cbn; lia) ltac:(split; [lia|exact (proj2 i_in)]) fuel ds Hl Hv) as [M|(b & rest & E1 & E2 & E3)].
  - left. apply exec_bind_more. exact M.
  - rewrite (exec_bind_ret _ _ _ _ _ _ _ E1). destruct (exec_rest _ _ _ _ _ E1) as (used & EU & _).
    assert (Hv2: valid_draws 0 (2 ^ eb - 1) rest) by (rewrite EU in Hv; apply Forall_app in Hv; tauto).
    assert (Hl2: (length rest < fuel)%nat) by (rewrite EU, app_length in Hl; lia).
    destruct (wp_exec _ _ _ _ rest _ (u01_real_wp f md Hf fe val 0 (2 ^ eb - 1) gmin gmax fuel (length rest) Hfe Hg Hpos Hl2) Hv2) as [M|(q & rest' & F1 & F2 & _)].
    + left. apply exec_bind_more. exact M.
    + right. exists q, b, rest'. rewrite (exec_bind_ret _ _ _ _ _ _ _ F1). cbn [exec]. split; [reflexivity|]. split; [lia|]. tauto.
Qed.

Lemma r_indep : forall n P b1 b2, 0 <= b1 < 2 ^ w -> 0 <= b2 < 2 ^ w ->
  pair_count 0 (2 ^ eb - 1) (int_float_pair_real f md fuel w fe Wr eb val gmin gmax) n P b1 =
  pair_count 0 (2 ^ eb - 1) (int_float_pair_real f md fuel w fe Wr eb val gmin gmax) n P b2.
Proof using Hfe Heb HWr HebW Hval Hw.
  intros n P b1 b2 H1 H2. apply Nat2Z.inj. rewrite !pair_count_E. rewrite !(peq_E _ _ _ _ _ _ _ r_peq). pose proof w_pow as HP.
  unfold rpure. rewrite !E_bind. 
  apply (ui0_Uniform (Ity Wr false) 0 (2 ^ eb - 1) e_wf i32 (2 ^ w - 1) ltac:(cbn; lia) ltac:(split; [lia|exact (proj2 i_in)]) fuel). intro k.
  replace (2 ^ w - 1 + 1) with (2 ^ w) by ring.
  assert (K: forall b, 0 <= b < 2 ^ w ->
    ssum (Z.to_nat (2 ^ w)) (fun c => E 0 (2 ^ eb - 1) (r <~ U01;; PRet (r, 0 + c)) k (fun x k => fin k (ind (P (fst x) && (snd x =? b))))) =
    E 0 (2 ^ eb - 1) U01 k (fun q k => fin k (ind (P q)))).
  { intros b Hb. rewrite <- (Z.mul_1_l (E 0 _ U01 k _)), <- (ssum_delta (Z.to_nat (2 ^ w)) b) by (rewrite Z2Nat.id; lia).
    rewrite Z.mul_comm, <- Ifp3Proofs.ssum_scale. apply ssum_ext. intros c Hc. rewrite E_bind, Z.mul_comm, <- Ifp3Proofs.E_scale. apply E_ext.
    intros q k'. cbn [E fst snd]. rewrite fin_ind, Z.add_0_l. unfold ind at 2. ring. }
  rewrite !K by assumption. reflexivity.
Qed.
End RealEng.
