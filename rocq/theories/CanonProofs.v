(* generate_canonical, and the accuracy of uniform_01. *)
From Coq Require Import Lqa.
From Verif Require Import Base ProgModel ProgSpec ProgProofs UIntModel UIntSpec UIntProofs FloatModel FloatSpec FloatProofs RealModel RealSpec RealProofs UniProofs Uni2Proofs.
Open Scope Q_scope.
Ltac Zify.zify_post_hook ::= idtac.

Section C.
Variables (f : fmt) (md : rmode).
Hypothesis Hf : fmt_ok f.
Local Notation P := (prec f).
Local Notation rnd := (fround f md).

Lemma limit_eq : forall bits, (0 <= bits)%Z -> gc_limit f md bits == p2 (Z.min bits P).
Proof using Hf.
  intros b Hb. unfold gc_limit. apply rnd_fix; [exact Hf|]. apply repr_p2; [exact Hf|]. destruct Hf. lia.
Qed.
Lemma limit_le : forall bits, (0 <= bits)%Z -> gc_limit f md bits <= inject_Z (2 ^ P).
Proof using Hf.
  intros b Hb. rewrite limit_eq by exact Hb. rewrite <- p2_Z by (destruct Hf; lia). apply p2_le. lia.
Qed.

(* the last step *)
Lemma fix_range : forall q, 0 <= q -> q <= 1 -> 0 <= gc_fix f md q /\ gc_fix f md q < 1.
Proof using Hf.
  intros q H0 H1. unfold gc_fix. destruct (Qeq_bool q 1) eqn:E.
  2:{ assert (~ q == 1) by (intro C; apply Qeq_bool_iff in C; congruence). lra. }
  apply Qeq_bool_iff in E. destruct Hf as [HP HE].
  assert (E2: p2 (1 - P) / 2 == p2 (- P)).
  { replace (1 - P)%Z with (1 + - P)%Z by lia. rewrite p2_add, p2_1. field. }
  assert (E3: rnd (p2 (1 - P) / 2) == p2 (- P)).
  { rewrite (rnd_compat f md Hf _ _ E2). apply rnd_fix; [exact Hf|]. apply repr_p2; [exact Hf|lia]. }
  assert (E4: rnd (q - rnd (p2 (1 - P) / 2)) == 1 - p2 (- P)).
  { rewrite (rnd_compat f md Hf _ (1 - p2 (- P))) by (rewrite E, E3; reflexivity). apply rnd_fix; [exact Hf|].
    exists (2 ^ P - 1)%Z, (- P)%Z. assert (0 < 2 ^ P)%Z by (apply Z.pow_pos_nonneg; lia).
    split; [lia|]. split; [rewrite Z.abs_eq by lia; lia|]. unfold Z.sub. rewrite inject_Z_plus, <- p2_Z by lia.
    change (inject_Z (- (1))) with (-(1)). rewrite Qmult_plus_distr_l, <- p2_add, Z.add_opp_diag_r, p2_0. ring. }
  rewrite E4. pose proof (p2_pos (- P)). assert (p2 (- P) <= p2 0) as L by (apply p2_le; lia). rewrite p2_0 in L. lra.
Qed.
Lemma fix_lt1 : forall q, q < 1 -> gc_fix f md q = q.
Proof using. intros q H. unfold gc_fix. rewrite qeqb_false by lra. reflexivity. Qed.

Lemma repr_2 : representable f 2.
Proof using Hf. apply repr_compat with (1 * p2 1); [reflexivity|]. apply repr_scale; [apply repr_1; exact Hf|lia]. Qed.

Lemma inj_sub : forall a b, inject_Z (a - b) == inject_Z a - inject_Z b.
Proof using. intros. unfold Z.sub. rewrite inject_Z_plus, inject_Z_opp. reflexivity. Qed.

Lemma int_prod_exact : forall x M mult, mult == inject_Z M -> (Z.abs (x * M) <= 2 ^ P)%Z ->
  rnd (inject_Z x * mult) == inject_Z (x * M).
Proof using Hf.
  intros x M mult E H. rewrite (rnd_compat f md Hf _ (inject_Z (x * M))) by (rewrite E, inject_Z_mult; reflexivity).
  apply rnd_fix; [exact Hf|]. apply repr_Z; assumption.
Qed.

Section I.
Variables (tb : ity) (bmin bmax : Z).
Hypothesis He : eng_wf tb bmin bmax.
Local Notation R := (bmax - bmin)%Z.
(* max() and min() convert without loss, or min() is 0 *)
Hypothesis Hexact : (bmin = 0 \/ Z.abs bmin <= 2 ^ P /\ Z.abs bmax <= 2 ^ P)%Z.
Local Notation r := (gc_R f md bmin bmax).

Lemma R_eq : r == rnd (rnd (inject_Z R) + 1).
Proof using Hf Hexact.
  unfold gc_R. apply rnd_compat; [exact Hf|].
  assert (E: rnd (rnd (inject_Z bmax) - rnd (inject_Z bmin)) == rnd (inject_Z R)); [|rewrite E; reflexivity].
  destruct Hexact as [E0|[E1 E2]].
  - rewrite E0. replace (bmax - 0)%Z with bmax by lia. rewrite <- (rnd_idem f md Hf (inject_Z bmax)) at 2.
    apply rnd_compat; [exact Hf|]. change (inject_Z 0) with 0. rewrite (rnd_fix f md Hf 0 (repr_0 f Hf)). ring.
  - apply rnd_compat; [exact Hf|]. rewrite !(rnd_fix f md Hf (inject_Z _)) by (apply repr_Z; assumption).
    rewrite inj_sub. reflexivity.
Qed.

Lemma R1 : (1 <= R)%Z. Proof using He. clear Hexact. destruct He as (_ & _ & _ & ?). lia. Qed.

Lemma r_ge2 : 2 <= r.
Proof using Hf He Hexact.
  rewrite R_eq. apply repr_rnd_ge; [exact Hf|apply repr_2|].
  assert (1 <= rnd (inject_Z R)); [|lra]. apply rnd_ge_1; [exact Hf|]. change 1 with (inject_Z 1). apply injZ_le. exact R1.
Qed.

(* the first draw *)
Lemma first_le : forall x, (0 <= x <= R)%Z -> 0 <= rnd (inject_Z x) /\ rnd (inject_Z x) <= r.
Proof using Hf Hexact.
  intros x Hx. split; [apply rnd_nonneg; change 0 with (inject_Z 0); apply injZ_le; lia|].
  rewrite R_eq. assert (rnd (inject_Z x) <= rnd (inject_Z R)) by (apply rnd_mono; [exact Hf|apply injZ_le; lia]).
  apply repr_rnd_ge; [exact Hf|apply rnd_repr; exact Hf|]. lra.
Qed.

(* r below 2^P is exact *)
Lemma r_small : r < inject_Z (2 ^ P) -> (R + 1 < 2 ^ P)%Z /\ r == inject_Z (R + 1).
Proof using Hf He Hexact.
  intro H. pose proof R1. assert (HR: (R < 2 ^ P)%Z).
  { apply Z.nle_gt. intro C. assert (inject_Z (2 ^ P) <= rnd (inject_Z R)).
    { apply repr_rnd_ge; [exact Hf| |apply injZ_le; exact C]. apply repr_Z; [exact Hf|]. rewrite Z.abs_eq by (apply Z.pow_nonneg; lia). lia. }
    assert (inject_Z (2 ^ P) <= r); [|lra]. rewrite R_eq. apply repr_rnd_ge; [exact Hf| |lra].
    apply repr_Z; [exact Hf|]. rewrite Z.abs_eq by (apply Z.pow_nonneg; lia). lia. }
  assert (E: r == inject_Z (R + 1)).
  { rewrite R_eq. rewrite (rnd_compat f md Hf _ (inject_Z (R + 1))).
    - apply rnd_fix; [exact Hf|]. apply repr_Z; [exact Hf|]. rewrite Z.abs_eq by lia. lia.
    - rewrite (rnd_fix f md Hf (inject_Z R)) by (apply repr_Z; [exact Hf|]; rewrite Z.abs_eq by lia; lia).
      rewrite inject_Z_plus. reflexivity. }
  split; [|exact E]. rewrite E in H. rewrite Zlt_Qlt. exact H.
Qed.

Lemma sub_ok : forall v, (bmin <= v <= bmax)%Z -> usub tb v bmin = Some (v - bmin)%Z.
Proof using He.
  clear Hexact. intros v Hv. destruct He as (H1 & H2 & H3 & H4). apply usub_ok; try assumption; [unfold inT in *; lia|lia].
Qed.

(* ---- the loop stays below mult as long as the products do not round up ---- *)
Section loop.
Variables (bits : Z) (I : Q -> Prop).
Hypothesis Hbits : (0 <= bits)%Z.
Hypothesis Istep : forall mult, I mult -> mult < gc_limit f md bits -> r < inject_Z (2 ^ P) ->
  I (rnd (mult * r)) /\
  forall x, (0 <= x <= R)%Z -> rnd (inject_Z x * mult) <= inject_Z x * mult.

Lemma loop_wp : forall F n s mult, (1 <= F)%nat -> I mult -> 0 <= s -> s <= mult -> r <= mult -> representable f mult ->
  p2 (Z.min bits P - Z.of_nat F + 1) <= mult ->
  wp bmin bmax (gc_loop f md F tb bmin (gc_limit f md bits) r s mult) n (fun q _ => 0 <= q /\ q <= 1).
Proof using Hf He Hexact Istep Hbits.
  pose proof r_ge2 as R2. pose proof (limit_le bits Hbits) as LL.
  induction F as [|F IH]; intros n s mult F1 HI S0 S1 HRm HM HF.
  - lia.
  - cbn [gc_loop]. destruct (qlt mult (gc_limit f md bits)) eqn:E.
    + apply qlt_iff in E. unfold draw. cbn [pbind wp]. destruct n as [|n]; [exact Logic.I|]. intros v Hv.
      rewrite (sub_ok v Hv). cbn [plift pbind].
      assert (RS: r < inject_Z (2 ^ P)) by lra.
      destruct (Istep mult HI E RS) as [HI' HX]. destruct (r_small RS) as [HR HRE].
      set (x := (v - bmin)%Z). assert (Hx: (0 <= x <= R)%Z) by (unfold x; lia). specialize (HX x Hx).
      assert (EX: rnd (inject_Z x) == inject_Z x).
      { apply rnd_fix; [exact Hf|]. apply repr_Z; [exact Hf|]. rewrite Z.abs_eq by lia. lia. }
      assert (EP: rnd (rnd (inject_Z x) * mult) == rnd (inject_Z x * mult)) by (apply rnd_compat; [exact Hf|rewrite EX; reflexivity]).
      assert (X0: 0 <= inject_Z x) by (change 0 with (inject_Z 0); apply injZ_le; lia).
      assert (X1: inject_Z x + 1 <= r).
      { rewrite HRE, inject_Z_plus. change (inject_Z 1) with 1. assert (inject_Z x <= inject_Z R) by (apply injZ_le; lia). lra. }
      apply IH.
      * rewrite limit_eq in E by exact Hbits. assert (L: p2 (Z.min bits P - Z.of_nat (S F) + 1) < p2 (Z.min bits P)) by lra.
        apply p2_lt_inv in L. lia.
      * exact HI'.
      * apply rnd_nonneg. assert (0 <= rnd (rnd (inject_Z x) * mult)); [|lra].
        apply rnd_nonneg. apply Qmult_le_0_compat; [rewrite EX; exact X0|lra].
      * apply rnd_mono; [exact Hf|]. rewrite EP. nra.
      * apply repr_rnd_ge; [exact Hf|apply rnd_repr; exact Hf|]. nra.
      * apply rnd_repr. exact Hf.
      * assert (2 * mult <= rnd (mult * r)).
        { apply repr_rnd_ge; [exact Hf| |nra]. apply repr_compat with (mult * p2 1); [rewrite p2_1; ring|]. apply repr_scale; [exact HM|lia]. }
        replace (Z.min bits P - Z.of_nat F + 1)%Z with (1 + (Z.min bits P - Z.of_nat (S F) + 1))%Z by lia.
        rewrite p2_add, p2_1. lra.
    + rewrite fdiv_ok by lra. cbn [plift wp]. split.
      * apply rnd_nonneg. apply div_nonneg; lra.
      * apply repr_rnd_le; [exact Hf|apply repr_1; exact Hf|]. apply Qle_shift_div_r; lra.
Qed.

Lemma gc_wp : forall F n, (1 <= F)%nat -> (Z.min bits P <= Z.of_nat F)%Z -> I r ->
  wp bmin bmax (generate_canonical f md F bits tb bmin bmax) n (fun q _ => 0 <= q /\ q < 1).
Proof using Hf He Hexact Istep Hbits.
  intros F n HF1 HF HI. unfold generate_canonical. apply wp_bind.
  apply wp_mono with (Q := fun q _ => 0 <= q /\ q <= 1).
  - intros q m _ [Q0 Q1]. cbn [wp]. apply fix_range; assumption.
  - unfold gc_int, draw. cbn [pbind wp]. destruct n as [|n]; [exact Logic.I|]. intros v Hv.
    rewrite (sub_ok v Hv). cbn [plift pbind]. destruct (first_le (v - bmin) ltac:(lia)) as [S0 S1].
    apply loop_wp; try assumption; [lra|apply rnd_repr; exact Hf|]. pose proof r_ge2.
    apply Qle_trans with (p2 1); [apply p2_le; lia|]. rewrite p2_1. assumption.
Qed.
End loop.

Definition gc_safe (bits : Z) : Prop :=
  md = RDN \/ md = RZR \/
  (exists k, (0 <= k)%Z /\ R + 1 = 2 ^ k)%Z \/
  (2 ^ Z.min bits P <= R + 1)%Z \/
  (exists n, (0 <= n)%Z /\ 2 ^ Z.min bits P <= (R + 1) ^ n <= 2 ^ P)%Z.

Lemma r_of_exact : (R + 1 <= 2 ^ P)%Z -> r == inject_Z (R + 1).
Proof using Hf He Hexact.
  intro H. pose proof R1. rewrite R_eq. rewrite (rnd_compat f md Hf _ (inject_Z (R + 1))).
  - apply rnd_fix; [exact Hf|]. apply repr_Z; [exact Hf|]. rewrite Z.abs_eq by lia. lia.
  - rewrite (rnd_fix f md Hf (inject_Z R)) by (apply repr_Z; [exact Hf|]; rewrite Z.abs_eq by lia; lia).
    rewrite inject_Z_plus. reflexivity.
Qed.

Theorem gc_range : forall bits F n, (0 <= bits)%Z -> gc_safe bits -> (1 <= F)%nat -> (Z.min bits P <= Z.of_nat F)%Z ->
  wp bmin bmax (generate_canonical f md F bits tb bmin bmax) n (fun q _ => 0 <= q /\ q < 1).
Proof using Hf He Hexact.
  intros bits F n Hbits HS HF1 HF. destruct Hf as [HP HE]. pose proof R1 as HR1.
  assert (DIR: md = RDN \/ md = RZR -> wp bmin bmax (generate_canonical f md F bits tb bmin bmax) n (fun q _ => 0 <= q /\ q < 1)).
  { intro HM. apply (gc_wp bits (fun m => 0 <= m) Hbits); [|exact HF1|exact HF|pose proof r_ge2; lra].
    intros mult HI _ _. split; [apply rnd_nonneg; pose proof r_ge2; nra|]. intros x Hx.
    assert (X0: 0 <= inject_Z x) by (change 0 with (inject_Z 0); apply injZ_le; lia).
    apply rnd_dir_le. destruct HM as [E|E]; [left; exact E|right; split; [exact E|nra]]. }
  assert (ONE: (2 ^ Z.min bits P <= R + 1)%Z -> wp bmin bmax (generate_canonical f md F bits tb bmin bmax) n (fun q _ => 0 <= q /\ q < 1)).
  { intro H1. apply (gc_wp bits (fun m => r <= m) Hbits); [|exact HF1|exact HF|lra].
    intros mult HI HL HRP. exfalso. destruct (r_small HRP) as [RS RE]. rewrite limit_eq in HL by exact Hbits.
    rewrite p2_Z in HL by lia. apply injZ_le in H1. rewrite RE in HI. lra. }
  destruct HS as [HS|[HS|[(k & Hk & HS)|[HS|(m & Hm & HS1 & HS2)]]]]; [apply DIR; left; exact HS|apply DIR; right; exact HS| | |].
  - (* powers of two *)
    apply (gc_wp bits (fun m => (k < P)%Z -> exists j, (0 <= j)%Z /\ m == p2 j) Hbits); [|exact HF1|exact HF|].
    + intros mult HI HL HRP. destruct (r_small HRP) as [RS RE]. rewrite HS in RS.
      assert (KP: (k < P)%Z) by (apply (Z.pow_lt_mono_r_iff 2); lia).
      destruct (HI KP) as (j & Hj & Ej). split.
      * intros _. exists (j + k)%Z. split; [lia|]. rewrite (rnd_compat f md Hf _ (p2 (j + k))).
        -- apply rnd_fix; [exact Hf|]. apply repr_p2; [exact Hf|lia].
        -- rewrite Ej, RE, HS, p2_add, (p2_Z k) by lia. reflexivity.
      * intros x Hx. rewrite (rnd_fix f md Hf); [lra|]. apply repr_compat with (inject_Z x * p2 j); [rewrite Ej; reflexivity|].
        apply repr_scale; [|exact Hj]. apply repr_Z; [exact Hf|]. rewrite Z.abs_eq by lia. lia.
    + intro KP. exists k. split; [lia|]. rewrite r_of_exact.
      * rewrite HS, p2_Z by lia. reflexivity.
      * rewrite HS. apply Z.pow_le_mono_r; lia.
  - exact (ONE HS).
  - (* all products are integers up to 2^P *)
    destruct (Z.le_gt_cases (2 ^ Z.min bits P) (R + 1)) as [L|L]; [exact (ONE L)|].
    assert (M2: (1 < m)%Z) by (apply (Z.pow_lt_mono_r_iff (R + 1)); lia).
    assert (RP: (R + 1 <= 2 ^ P)%Z) by (assert (R + 1 < (R + 1) ^ m)%Z by lia; lia).
    pose proof (r_of_exact RP) as RE.
    apply (gc_wp bits (fun q => exists j, (1 <= j <= m)%Z /\ q == inject_Z ((R + 1) ^ j)) Hbits); [|exact HF1|exact HF|].
    + intros mult (j & Hj & Ej) HL _. rewrite limit_eq in HL by exact Hbits. rewrite p2_Z, Ej, <- Zlt_Qlt in HL by lia.
      assert (JM: (j < m)%Z) by (apply (Z.pow_lt_mono_r_iff (R + 1)); lia).
      assert (JP: ((R + 1) ^ (j + 1) <= 2 ^ P)%Z).
      { assert ((R + 1) ^ (j + 1) <= (R + 1) ^ m)%Z by (apply Z.pow_le_mono_r; lia). lia. }
      assert (J0: (0 < (R + 1) ^ j)%Z) by (apply Z.pow_pos_nonneg; lia).
      assert (JS: ((R + 1) ^ (j + 1) = (R + 1) ^ j * (R + 1))%Z) by (rewrite Z.pow_add_r, Z.pow_1_r by lia; reflexivity).
      split.
      * exists (j + 1)%Z. split; [lia|]. rewrite (rnd_compat f md Hf _ (inject_Z ((R + 1) ^ (j + 1)))).
        -- apply rnd_fix; [exact Hf|]. apply repr_Z; [exact Hf|]. rewrite Z.abs_eq by lia. exact JP.
        -- rewrite Ej, RE, JS, inject_Z_mult. reflexivity.
      * intros x Hx. rewrite (int_prod_exact x ((R + 1) ^ j) mult Ej).
        -- rewrite Ej, inject_Z_mult. lra.
        -- rewrite Z.abs_eq by (apply Z.mul_nonneg_nonneg; lia). rewrite JS in JP.
           assert (x * (R + 1) ^ j <= (R + 1) * (R + 1) ^ j)%Z by (apply Z.mul_le_mono_nonneg_r; lia). lia.
    + exists 1%Z. split; [lia|]. rewrite Z.pow_1_r. exact RE.
Qed.

End I.
End C.
