(* The output function of the Mersenne twister is a bijection. *)
From Verif Require Import Base WinProofs BitsProofs MtModel MtSpec.
Ltac Zify.zify_post_hook ::= idtac.

Definition bij_on (P : Z -> Prop) (f : Z -> Z) : Prop :=
  (forall z, P z -> P (f z)) /\ (forall z z', P z -> P z' -> f z = f z' -> z = z') /\ (forall y, P y -> exists z, P z /\ f z = y).

Lemma bij_comp : forall (P : Z -> Prop) f g, bij_on P f -> bij_on P g -> bij_on P (fun z => g (f z)).
Proof.
  intros P f g [F1 [F2 F3]] [G1 [G2 G3]]. split; [auto|]. split.
  - intros z z' H H' E. apply F2; auto.
  - intros y Hy. destruct (G3 y Hy) as [t [Ht E]]. destruct (F3 t Ht) as [z [Hz E']]. exists z. split; [exact Hz|]. rewrite E'. exact E.
Qed.

Section Contr.
Variable P : Z -> Prop.
Variable A : Z -> Z.
Variable agree : nat -> Z -> Z -> Prop.
Variable K : nat.
Hypothesis P0 : P 0.
Hypothesis PX : forall y z, P y -> P z -> P (Z.lxor y (A z)).
Hypothesis ag0 : forall z z', P z -> P z' -> agree 0 z z'.
Hypothesis agS : forall y k z z', P y -> P z -> P z' -> agree k z z' -> agree (S k) (Z.lxor y (A z)) (Z.lxor y (A z')).
Hypothesis agK : forall z z', P z -> P z' -> agree K z z' -> z = z'.

Lemma xor_move : forall z y, Z.lxor z (A z) = y <-> z = Z.lxor y (A z).
Proof.
  intros z y. split; intro H.
  - rewrite <- H. rewrite Z.lxor_assoc, Z.lxor_nilpotent, Z.lxor_0_r. reflexivity.
  - rewrite H at 1. rewrite Z.lxor_assoc, Z.lxor_nilpotent, Z.lxor_0_r. reflexivity.
Qed.

Lemma contr_bij : bij_on P (fun z => Z.lxor z (A z)).
Proof.
  split; [intros z Hz; apply PX; exact Hz|]. split.
  - intros z z' Hz Hz' E. pose proof (PX z z Hz Hz) as Hy. set (y := Z.lxor z (A z)) in *.
    symmetry in E. assert (E': Z.lxor z (A z) = y) by reflexivity. clearbody y. apply xor_move in E. apply xor_move in E'.
    apply agK; auto. generalize K. intro n. induction n as [|n IH]; [auto|].
    rewrite E, E'. apply agS; auto.
  - intros y Hy. set (F := fun z => Z.lxor y (A z)).
    assert (HI: forall n, P (iter n F 0)).
    { induction n as [|n IH]; [exact P0|]. rewrite iter_succ. apply PX; auto. }
    assert (HA: forall n, agree n (iter n F 0) (F (iter n F 0))).
    { induction n as [|n IH]; [apply ag0; [exact P0|apply (HI 1%nat)]|]. rewrite iter_succ. apply agS; auto. apply PX; auto. }
    exists (iter K F 0). split; [auto|]. apply xor_move. apply agK; [auto|apply PX; auto|apply HA].
Qed.
End Contr.

Definition word (w z : Z) : Prop := 0 <= z < 2 ^ w.

Lemma rshift_bij : forall w u d, 0 <= w -> 1 <= u -> 0 <= d \/ d = -1 -> bij_on (word w) (fun z => Z.lxor z (Z.land (z / 2 ^ u) d)).
Proof.
  intros w u d Hw Hu Hd.
  assert (R: forall z, word w z -> word w (Z.land (z / 2 ^ u) d)).
  { intros z Hz. pose proof (div2_range z u w Hw ltac:(lia) Hz). destruct Hd as [Hd| ->].
    - apply land_range_l; [lia|lia|lia].
    - rewrite Z.land_m1_r. exact H. }
  apply (contr_bij (word w) (fun z => Z.land (z / 2 ^ u) d)
    (fun k z z' => forall i, 0 <= i -> w - Z.of_nat k <= i -> Z.testbit z i = Z.testbit z' i) (Z.to_nat w)).
  - unfold word. split; [lia|apply Z.pow_pos_nonneg; lia].
  - intros y z Hy Hz. apply lxor_range; [lia|exact Hy|]. apply R. exact Hz.
  - intros z z' Hz Hz' i Hi Hi'. rewrite !(bits_above _ w) by (unfold word in *; lia). reflexivity.
  - intros y k z z' Hy Hz Hz' HA i Hi Hi'. rewrite !Z.lxor_spec, !Z.land_spec. do 2 f_equal.
    rewrite <- !Z.shiftr_div_pow2 by lia. rewrite !Z.shiftr_spec by lia. apply HA; lia.
  - intros z z' Hz Hz' HA. apply Z.bits_inj'. intros i Hi. apply HA; lia.
Qed.

Lemma lshift_bij : forall w s b, 0 <= w -> 1 <= s -> 0 <= b < 2 ^ w ->
  bij_on (word w) (fun z => Z.lxor z (Z.land (z * 2 ^ s mod 2 ^ w) b)).
Proof.
  intros w s b Hw Hs Hb. assert (0 < 2 ^ w) by (apply Z.pow_pos_nonneg; lia).
  assert (R: forall z, word w (Z.land (z * 2 ^ s mod 2 ^ w) b)).
  { intros z. apply land_range_l; [lia| |lia]. apply Z.mod_pos_bound. lia. }
  apply (contr_bij (word w) (fun z => Z.land (z * 2 ^ s mod 2 ^ w) b)
    (fun k z z' => forall i, 0 <= i -> i < Z.of_nat k -> Z.testbit z i = Z.testbit z' i) (Z.to_nat w)).
  - unfold word. lia.
  - intros y z Hy Hz. apply lxor_range; [lia|exact Hy|]. apply R.
  - intros z z' Hz Hz' i Hi Hi'. lia.
  - intros y k z z' Hy Hz Hz' HA i Hi Hi'. rewrite !Z.lxor_spec, !Z.land_spec. do 2 f_equal.
    rewrite !lower_bits by lia. f_equal. rewrite !Z.mul_pow2_bits by lia.
    destruct (Z.lt_ge_cases i s) as [L|L]; [rewrite !Z.testbit_neg_r by lia; reflexivity|]. apply HA; lia.
  - intros z z' Hz Hz' HA. apply Z.bits_inj'. intros i Hi. destruct (Z.lt_ge_cases i w); [apply HA; lia|].
    rewrite !(bits_above _ w) by (unfold word in *; lia). reflexivity.
Qed.

Lemma tempered_bij : forall p, mt_temper_params p -> bij_on (word (mw p)) (tempered p).
Proof.
  intros p [Hw [Hu [Hs [Ht [Hl [Hd [Hb Hc]]]]]]].
  pose proof (rshift_bij (mw p) (mu p) (md p) ltac:(lia) Hu ltac:(lia)) as B1.
  pose proof (lshift_bij (mw p) (ms p) (mb p) ltac:(lia) Hs Hb) as B2.
  pose proof (lshift_bij (mw p) (mt_ p) (mc p) ltac:(lia) Ht Hc) as B3.
  pose proof (rshift_bij (mw p) (ml p) (-1) ltac:(lia) Hl ltac:(lia)) as B4.
  pose proof (bij_comp _ _ _ (bij_comp _ _ _ (bij_comp _ _ _ B1 B2) B3) B4) as [C1 [C2 C3]].
  assert (E: forall z, tempered p z = (fun z =>
    Z.lxor z (Z.land (z / 2 ^ ml p) (-1))) ((fun z => Z.lxor z (Z.land (z * 2 ^ mt_ p mod 2 ^ mw p) (mc p)))
      ((fun z => Z.lxor z (Z.land (z * 2 ^ ms p mod 2 ^ mw p) (mb p))) ((fun z => Z.lxor z (Z.land (z / 2 ^ mu p) (md p))) z)))).
  { intro z. unfold tempered. cbv beta zeta. rewrite Z.land_m1_r. reflexivity. }
  split; [|split].
  - intros z Hz. rewrite E. apply C1. exact Hz.
  - intros z z' Hz Hz' H. rewrite !E in H. apply C2; assumption.
  - intros y Hy. destruct (C3 y Hy) as [z [Hz H]]. exists z. split; [exact Hz|]. rewrite E. exact H.
Qed.

(* what the code computes *)
Lemma lshift_code : forall W w s b z, 0 <= w <= W -> 0 <= s -> 0 <= b < 2 ^ w ->
  Z.land (wrap W (Z.shiftl z s)) b = Z.land (z * 2 ^ s mod 2 ^ w) b.
Proof.
  intros W w s b z Hw Hs Hb. unfold wrap. rewrite Z.shiftl_mul_pow2 by lia. apply Z.bits_inj'. intros i Hi.
  rewrite !Z.land_spec, !lower_bits by lia. destruct (Z.ltb_spec i w).
  - destruct (Z.ltb_spec i W); [reflexivity|lia].
  - rewrite (bits_above b w) by lia. rewrite !andb_false_r. reflexivity.
Qed.
Lemma mt_temper_spec : forall p z, mt_temper_params p -> mt_temper p z = tempered p z.
Proof.
  intros p z [Hw [Hu [Hs [Ht [Hl [Hd [Hb Hc]]]]]]]. unfold mt_temper, tempered. cbv zeta.
  rewrite !Z.shiftr_div_pow2 by lia.
  rewrite !(lshift_code (mW p) (mw p) (ms p)) by lia. rewrite !(lshift_code (mW p) (mw p) (mt_ p)) by lia. reflexivity.
Qed.
Lemma tempered_0 : forall p, tempered p 0 = 0.
Proof.
  intro p. unfold tempered. cbv zeta.
  repeat (rewrite ?Zdiv_0_l, ?Z.mul_0_l, ?Zmod_0_l, ?Z.land_0_l, ?Z.lxor_0_l). reflexivity.
Qed.
