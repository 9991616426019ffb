(* Lemmas for HypProps.v: the assertions of the constructors *)
From Coq Require Import Lqa.
From Verif Require Import Base ProgModel ProgSpec ProgProofs UIntModel UIntSpec FloatModel FloatSpec FloatProofs RealModel RealSpec RealProofs UniProofs
  DiscModel DiscProofs Disc2Proofs Disc4Proofs RDiscModel RDiscSpec RDiscProofs RDisc2Proofs RDisc3Proofs RDisc4Proofs RDisc5Proofs RDisc6Proofs HypModel HypProofs.
Open Scope Q_scope.

Section N.
Variables (f : fmt) (md : rmode).
Hypothesis Hf : fmt_ok f.
Local Notation rnd := (fround f md).
Local Notation good := (fun x => representable f x /\ 0 <= x).

Lemma put_good : forall (l : list Q) i v l', Forall good l -> good v -> put l i v = Some l' -> Forall good l' /\ length l' = length l.
Proof using.
  induction l as [|x l IH]; intros i v l' HF HV; [discriminate|]. pose proof (Forall_inv HF) as HX. apply Forall_inv_tail in HF. destruct i as [|i]; cbn [put].
  - intro E. inversion E. subst l'. split; [constructor; assumption|reflexivity].
  - destruct (put l i v) as [q|] eqn:E; [|discriminate]. cbn [bind]. intro H. inversion H. subst l'. destruct (IH i v q HF HV E). split; [constructor; assumption|]. cbn [length]. lia.
Qed.
Lemma at_good : forall (l : list Q) i x, Forall good l -> at_ l i = Some x -> good x.
Proof using. intros l i x HF. unfold at_. destruct (i <? 0)%Z; [discriminate|]. intro E. apply nth_error_In in E. rewrite Forall_forall in HF. apply HF, E. Qed.

Lemma prob_loop_good : forall l i res res', Forall (fun x => 0 <= fst x <= 1) l -> Forall good res -> r_prob_loop f md i l res = Some res' -> Forall good res'.
Proof using Hf.
  induction l as [|x l IH]; intros i res res' HL HR; cbn [r_prob_loop]; [intro E; inversion E; subst; exact HR|].
  pose proof (Forall_inv HL) as [X0 X1]. apply Forall_inv_tail in HL.
  destruct (at_ res i) as [a|] eqn:EA; [|discriminate]. cbn [bind]. unfold put_ at 1. destruct (i <? 0)%Z; [discriminate|].
  destruct (put res (Z.to_nat i) (rnd (a + fst x))) as [res1|] eqn:EP; [|discriminate]. cbn [bind]. destruct (at_good _ _ _ HR EA) as [_ A0].
  apply put_good in EP; [|exact HR|split; [apply rnd_repr; exact Hf|apply rnd_nonneg; lra]]. destruct EP as [H1 _].
  destruct (at_ res1 (snd x)) as [b|] eqn:EB; [|discriminate]. cbn [bind]. unfold put_ at 1. destruct (snd x <? 0)%Z; [discriminate|].
  destruct (put res1 (Z.to_nat (snd x)) (rnd (b + rnd (1 - fst x)))) as [res2|] eqn:EP; [|discriminate]. cbn [bind]. destruct (at_good _ _ _ H1 EB) as [_ B0].
  assert (R0: 0 <= rnd (1 - fst x)) by (apply rnd_nonneg; lra).
  apply put_good in EP; [|exact H1|split; [apply rnd_repr; exact Hf|apply rnd_nonneg; lra]]. destruct EP as [H2 _]. apply IH; assumption.
Qed.

Lemma r_norm_unit : forall avg l ps, 0 <= avg -> (forall w, In w l -> 0 <= w /\ w <= avg) -> r_norm f md avg l = Some ps -> Forall (fun p => 0 <= p /\ p <= 1) ps.
Proof using Hf.
  intros avg l. induction l as [|w l IH]; intros ps A0 HL; cbn [r_norm]; [intro E; inversion E; constructor|].
  unfold fdiv. destruct (Qeq_bool avg 0) eqn:E; [discriminate|]. cbn [bind]. destruct (r_norm f md avg l) as [q|] eqn:EQ; [|discriminate]. cbn [bind].
  intro H. inversion H. subst ps. assert (AP: 0 < avg). { destruct (Qlt_le_dec 0 avg) as [C|C]; [exact C|]. assert (avg == 0) by lra. apply Qeq_eq_bool in H0. congruence. }
  constructor.
  - destruct (HL w (or_introl eq_refl)) as [W0 W1]. apply (div_unit f md Hf w avg W0 W1 AP).
  - apply IH; [exact A0|intros v Hv; apply HL; right; exact Hv|reflexivity].
Qed.

Lemma normalize_unit : forall l ps, Forall good l -> r_normalize f md l = Some ps -> Forall (fun p => 0 <= p /\ p <= 1) ps.
Proof using Hf.
  intros l ps HG. unfold r_normalize. destruct (fold_ge f md Hf l 0 HG (repr_0 f Hf) ltac:(lra)) as [G0 G1]. apply r_norm_unit; [exact G0|].
  intros w Hw. split; [rewrite Forall_forall in HG; apply HG, Hw|apply G1, Hw].
Qed.

Lemma prob_unit : forall t ws old tab ps, rweights_ok f t ws -> (qlen ws + 3) * p2 (1 - prec f) <= 1 # 8 ->
  rd_init f md t old ws = Some tab -> rd_probabilities f md tab = Some ps -> Forall (fun p => 0 <= p /\ p <= 1) ps.
Proof using Hf.
  intros t ws old tab ps Hok Hsm E EP. destruct (rd_init_ok f md t Hf ws Hok Hsm) as (h & H1 & _ & _ & H4). destruct (H4 old) as (tab' & T1 & T2 & T3).
  rewrite E in T1. inversion T1. subst tab'. unfold rd_probabilities in EP. destruct (r_prob_loop f md 0 tab (repeat 0 (length tab))) as [l|] eqn:EL; [|discriminate]. cbn [bind] in EP.
  apply normalize_unit with l; [|exact EP]. apply prob_loop_good in EL; [exact EL| |].
  - apply Forall_forall. intros x Hx. apply (In_nth _ _ (0, 0%Z)) in Hx. destruct Hx as (k & K1 & K2). assert (KR: (0 <= Z.of_nat k < Z.of_nat (length ws))%Z) by lia.
    pose proof (T3 _ KR) as EE. unfold tabQ at 1 in EE. rewrite Nat2Z.id, K2 in EE. destruct (H1 _ KR) as (_ & A2 & A3 & _). rewrite EE. unfold r_apply. cbn [fst]. split; assumption.
  - apply Forall_forall. intros x Hx. apply repeat_spec in Hx. subst x. split; [apply repr_0; exact Hf|lra].
Qed.
End N.

Lemma check_probs : forall ps, Forall (fun p => 0 <= p /\ p <= 1) ps -> hx_check_probs ps = true.
Proof.
  intros ps H. unfold hx_check_probs. apply forallb_forall. intros p Hp. rewrite Forall_forall in H. destruct (H p Hp) as [A B].
  pose proof (qlt_spec p 0). pose proof (qlt_spec 1 p). destruct (qlt p 0), (qlt 1 p); try reflexivity; exfalso; lra.
Qed.
Lemma check_rates : forall rs, hx_check_rates rs = true <-> Forall (fun r => 0 < r) rs.
Proof.
  intros rs. unfold hx_check_rates. rewrite forallb_forall, Forall_forall. split; intros H r Hr; specialize (H r Hr).
  - apply negb_true_iff in H. destruct (Qlt_le_dec 0 r) as [L|L]; [exact L|]. apply Qle_bool_iff in L. congruence.
  - apply negb_true_iff. apply not_true_is_false. intro C. apply Qle_bool_iff in C. lra.
Qed.
