(* uniform_real: the branch that avoids overflow. *)
From Coq Require Import Lqa.
From Verif Require Import Base ProgModel ProgSpec ProgProofs UIntModel UIntSpec UIntProofs FloatModel FloatSpec FloatProofs RealModel RealSpec RealProofs UniProofs.
Open Scope Q_scope.
Ltac Zify.zify_post_hook ::= idtac.

Lemma p2_split : forall e, p2 e == 2 * p2 (e - 1).
Proof. intro e. rewrite <- p2_1, <- p2_add. replace (1 + (e - 1))%Z with e by lia. reflexivity. Qed.

(* directed rounding *)
Lemma rnd_dir_le : forall f md x, md = RDN \/ (md = RZR /\ 0 <= x) -> fround f md x <= x.
Proof.
  intros f md x H. rewrite rnd_eq. pose proof (p2_pos (fexp f x)) as HS.
  assert (Ex: x == x / p2 (fexp f x) * p2 (fexp f x)) by (field; apply p2_nz).
  rewrite Ex at 3. apply mul_le_compat; [exact HS|]. unfold mant.
  destruct H as [->|[-> H]]; cbn [rint]; [apply Qfloor_le|].
  assert (L: 0 <= x / p2 (fexp f x)) by (apply Qle_shift_div_l; lra).
  apply Qle_bool_iff in L. rewrite L. apply Qfloor_le.
Qed.
Lemma rnd_dir_ge : forall f md x, md = RUP \/ (md = RZR /\ x < 0) -> x <= fround f md x.
Proof.
  intros f md x H. rewrite rnd_eq. pose proof (p2_pos (fexp f x)) as HS.
  assert (Ex: x == x / p2 (fexp f x) * p2 (fexp f x)) by (field; apply p2_nz).
  rewrite Ex at 1. apply mul_le_compat; [exact HS|]. unfold mant.
  destruct H as [->|[-> H]]; cbn [rint]; [apply Qle_ceiling|].
  destruct (Qle_bool 0 (x / p2 (fexp f x))) eqn:E; [|apply Qle_ceiling].
  apply Qle_bool_iff in E. exfalso. nra.
Qed.

Section W.
Variables (f : fmt) (md : rmode).
Hypothesis Hf : fmt_ok f.
Hypothesis HP2 : (2 <= prec f)%Z.
Local Notation P := (prec f).
Local Notation rnd := (fround f md).
Variable fmax : Q.
Hypothesis Hm : is_fmax f fmax.

Lemma fmax_half : exists e, (emin f + P + 2 <= e)%Z /\ fmax / 2 == inject_Z (2 ^ P - 1) * p2 e.
Proof using Hm.
  destruct Hm as (e & He & Ex). exists (e - 1)%Z. split; [lia|]. rewrite Ex, (p2_split e). field.
Qed.

Lemma pow_ge2 : (4 <= 2 ^ P)%Z.
Proof using HP2. change 4%Z with (2 ^ 2)%Z. apply Z.pow_le_mono_r; lia. Qed.

Lemma repr_half : representable f (fmax / 2).
Proof using Hf HP2 Hm.
  destruct fmax_half as (e & He & Ex). pose proof pow_ge2. destruct Hf as [HP _].
  exists (2 ^ P - 1)%Z, e. split; [lia|]. split; [|exact Ex]. rewrite Z.abs_eq; lia.
Qed.
Lemma repr_quarter : representable f (fmax / 2 / 2).
Proof using Hf HP2 Hm.
  destruct fmax_half as (e & He & Ex). pose proof pow_ge2. destruct Hf as [HP _].
  exists (2 ^ P - 1)%Z, (e - 1)%Z. split; [lia|]. split; [rewrite Z.abs_eq; lia|].
  rewrite Ex, (p2_split e). field.
Qed.
Lemma repr_opp : forall x, representable f x -> representable f (- x).
Proof using.
  intros x (m & e & H1 & H2 & H3). exists (- m)%Z, e. split; [exact H1|]. split; [rewrite Z.abs_opp; exact H2|].
  rewrite H3, inject_Z_opp. ring.
Qed.

(* the next number above fmax/2 *)
Lemma next_up : forall e z, (emin f <= e)%Z -> representable f z -> inject_Z (2 ^ P - 1) * p2 e < z ->
  inject_Z (2 ^ P) * p2 e <= z.
Proof using HP2.
  intros e z He (m & e' & H1 & H2 & H3) Hz. pose proof (p2_pos e) as PE. pose proof (p2_pos e') as PE'. pose proof pow_ge2 as P4.
  assert (Q4: 4 <= inject_Z (2 ^ P)) by (change 4 with (inject_Z 4); apply injZ_le; exact P4).
  assert (QM: inject_Z m <= inject_Z (2 ^ P)) by (apply injZ_le; lia).
  unfold Z.sub in Hz. rewrite inject_Z_plus in Hz. change (inject_Z (- (1))) with (-(1)) in Hz.
  destruct (Z.lt_ge_cases e' e) as [L|L].
  - exfalso. assert (HL: p2 e' <= p2 (e - 1)) by (apply p2_le; lia). pose proof (p2_split e) as SE.
    rewrite H3 in Hz. set (M := inject_Z (2 ^ P)) in *. set (mq := inject_Z m) in *.
    assert (mq * p2 e' <= M * p2 (e - 1)) by nra. pose proof (p2_pos (e - 1)). nra.
  - assert (EM: z == inject_Z (m * 2 ^ (e' - e)) * p2 e).
    { rewrite inject_Z_mult, <- p2_Z by lia. rewrite <- Qmult_assoc, <- p2_add.
      replace (e' - e + e)%Z with e' by lia. exact H3. }
    rewrite EM in *. set (k := (m * 2 ^ (e' - e))%Z) in *.
    apply mul_le_compat; [exact PE|]. apply injZ_le.
    assert ((2 ^ P - 1 < k)%Z); [|lia]. rewrite Zlt_Qlt. unfold Z.sub. rewrite inject_Z_plus. change (inject_Z (- (1))) with (-(1)).
    apply Qnot_le_lt. intro C. nra.
Qed.

Section ab.
Variables a b : Q.
Hypothesis Hab : a < b.
Hypothesis Ha : representable f a.
Hypothesis Hb : representable f b.
Hypothesis Ha1 : - fmax <= a.
Hypothesis Hb1 : b <= fmax.
Local Notation h := (fmax / 2).

Lemma h_pos : 0 < h.
Proof using Hf HP2 Hm.
  destruct fmax_half as (e & He & Ex). rewrite Ex. pose proof (p2_pos e). pose proof pow_ge2 as P4.
  assert (0 < inject_Z (2 ^ P - 1)) by (change 0 with (inject_Z 0); rewrite <- Zlt_Qlt; lia). nra.
Qed.

Lemma half_eq : forall x, x / 2 == x * (1 # 2).
Proof using. intro. field. Qed.

Lemma b_half_le : rnd (b / 2) <= h.
Proof using Hf HP2 Hm Hb1.
  apply repr_rnd_le; [exact Hf|exact repr_half|]. rewrite !half_eq. lra.
Qed.
Lemma a_half_ge : - h <= rnd (a / 2).
Proof using Hf HP2 Hm Ha1.
  apply repr_rnd_ge; [exact Hf|apply repr_opp, repr_half|]. rewrite !half_eq. lra.
Qed.

Lemma half_low : h < rnd (rnd (b / 2) - rnd (a / 2)) -> a / 2 <= rnd (a / 2).
Proof using Hf HP2 Hm Hab Ha Hb Ha1 Hb1.
  intro HG. apply Qnot_lt_le. intro C.
  pose proof b_half_le as BH. set (a' := rnd (a / 2)) in *. set (b' := rnd (b / 2)) in *.
  destruct (Qlt_le_dec a 0) as [Ng|Ng].
  2:{ assert (0 <= a') by (apply rnd_nonneg; rewrite half_eq; lra).
      assert (rnd (b' - a') <= h) by (apply repr_rnd_le; [exact Hf|exact repr_half|lra]). lra. }
  assert (NR: ~ representable f (a / 2)).
  { intro H. pose proof (rnd_fix f md Hf _ H) as E. fold a' in E. lra. }
  (* a is tiny *)
  assert (AT: - p2 (P + emin f - 1) <= a / 2).
  { destruct Ha as (m & e & H1 & H2 & H3). destruct (Z.le_gt_cases (emin f + 1) e) as [L|L].
    - exfalso. apply NR. exists m, (e - 1)%Z. split; [lia|]. split; [exact H2|]. rewrite H3, (p2_split e). field.
    - assert (e = emin f) as -> by lia. rewrite half_eq, H3. replace (P + emin f - 1)%Z with (P + (emin f - 1))%Z by lia.
      rewrite p2_add, (p2_split (emin f)). rewrite p2_Z by lia.
      assert (L2: inject_Z (- 2 ^ P) <= inject_Z m) by (apply injZ_le; lia). rewrite inject_Z_opp in L2.
      pose proof (p2_pos (emin f - 1)). nra. }
  assert (A'T: - p2 (P + emin f - 1) <= a').
  { apply repr_rnd_ge; [exact Hf| |exact AT]. apply repr_opp, repr_p2; [exact Hf|lia]. }
  destruct fmax_half as (e & He & Eh).
  assert (ST: p2 (P + emin f - 1) <= p2 (e - 3)) by (apply p2_le; lia).
  pose proof (p2_split e) as S1. pose proof (p2_split (e - 1)) as S2. pose proof (p2_split (e - 1 - 1)) as S3.
  replace (e - 1 - 1 - 1)%Z with (e - 3)%Z in S3 by lia. pose proof (p2_pos (e - 3)) as PP.
  set (y := b' - a') in *. assert (YU: y <= h + p2 (e - 3)) by (unfold y; lra).
  assert (ZU: inject_Z (2 ^ P) * p2 e <= rnd y).
  { apply next_up; [lia|apply rnd_repr; exact Hf|]. rewrite <- Eh. exact HG. }
  assert (Eh2: inject_Z (2 ^ P) * p2 e == h + p2 e).
  { rewrite Eh. unfold Z.sub. rewrite inject_Z_plus. change (inject_Z (- (1))) with (-(1)). ring. }
  assert (BAD: rnd y <= y + p2 (e - 1)).
  { assert (Hcases: forall md', md' = md -> fround f md' y <= y + p2 (e - 1)); [|apply Hcases; reflexivity].
    intros md' E'. unfold a' in C. rewrite <- E' in C. destruct md'.
    - pose proof (rnd_err_half f y) as [_ U]. rewrite half_eq in U.
      assert (p2 (fexp f y) <= p2 e); [|lra]. apply p2_le.
      destruct (Z.eq_dec (fexp f y) (emin f)) as [E|E]; [lia|].
      pose proof (fexp_lower f y E) as L.
      assert (Y0: 0 <= y). { apply Qnot_lt_le. intro C2. pose proof (rnd_nonpos f md y ltac:(lra)). pose proof h_pos. lra. }
      rewrite Qabs_pos in L by exact Y0.
      assert (L3: p2 (fexp f y + P - 1) < p2 (P + e)).
      { rewrite (p2_add P e). rewrite (p2_Z P) by lia. lra. }
      apply p2_lt_inv in L3. lia.
    - exfalso. pose proof (rnd_dir_ge f RUP (a / 2) ltac:(left; reflexivity)). lra.
    - pose proof (rnd_dir_le f RDN y ltac:(left; reflexivity)). lra.
    - exfalso. pose proof (rnd_dir_ge f RZR (a / 2) ltac:(right; split; [reflexivity|rewrite half_eq; lra])). lra. }
  lra.
Qed.

Lemma inner_guard : forall a' b', - h <= a' -> b' <= h ->
  qlt (rnd (fmax / 2)) (rnd (rnd (b' / 2) - rnd (a' / 2))) = false.
Proof using Hf HP2 Hm.
  intros a' b' H1 H2. apply qlt_false. rewrite (rnd_fix f md Hf (fmax / 2) repr_half).
  apply repr_rnd_le; [exact Hf|exact repr_half|].
  pose proof (half_eq fmax) as E1. pose proof (half_eq (fmax / 2)) as E2. pose proof (half_eq a') as E3. pose proof (half_eq b') as E4.
  assert (rnd (b' / 2) <= fmax / 2 / 2) by (apply repr_rnd_le; [exact Hf|exact repr_quarter|]; lra).
  assert (- (fmax / 2 / 2) <= rnd (a' / 2)) by (apply repr_rnd_ge; [exact Hf|apply repr_opp, repr_quarter|]; lra).
  lra.
Qed.

Lemma ur_wrap_wp : forall bmin bmax inner n,
  (forall a b, a < b -> representable f a -> wp bmin bmax (inner a b) n (fun q _ => in_range f a b q)) ->
  wp bmin bmax (ur_wrap f md 2 inner fmax a b) n (fun q _ => a <= q /\ q < b).
Proof using Hf HP2 Hm Hab Ha Hb Ha1 Hb1.
  intros bmin bmax inner n HI. cbn [ur_wrap]. destruct (qlt (rnd (fmax / 2)) (rnd (rnd (b / 2) - rnd (a / 2)))) eqn:G.
  - apply qlt_iff in G. rewrite (rnd_fix f md Hf (fmax / 2) repr_half) in G.
    pose proof (half_low G) as AL. pose proof h_pos as H0.
    rewrite inner_guard by (first [exact a_half_ge|exact b_half_le]).
    assert (L: rnd (a / 2) < rnd (b / 2)).
    { apply Qnot_le_lt. intro C. pose proof (rnd_nonpos f md (rnd (b / 2) - rnd (a / 2)) ltac:(lra)). lra. }
    apply wp_bind. eapply wp_mono; [|apply HI; [exact L|apply rnd_repr; exact Hf]].
    cbn [wp]. intros q m _ (Q1 & Q2 & Q3).
    assert (E: rnd (2 * q) == 2 * q).
    { apply rnd_fix; [exact Hf|]. apply repr_compat with (q * p2 1); [rewrite p2_1; ring|]. apply repr_scale; [exact Q3|lia]. }
    rewrite E. pose proof (half_eq a) as EA. split; [lra|].
    assert (q < b / 2); [|pose proof (half_eq b); lra].
    apply Qnot_le_lt. intro C. pose proof (repr_rnd_le f md Hf _ _ Q3 C). lra.
  - eapply wp_mono; [|apply HI; assumption]. intros q m _ (Q1 & Q2 & _). split; assumption.
Qed.
End ab.
End W.
