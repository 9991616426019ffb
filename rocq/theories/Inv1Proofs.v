(* Numbers below 1, and rounding in the real numbers. *)
From Coq Require Import Reals Lqa Lra Qreals.
From Verif Require Import Base ProgModel ProgSpec ProgProofs UIntSpec FloatModel FloatSpec FloatProofs RealModel UniProofs BinModel BinSpec PoisRSpec Pois3Proofs InvSpec.
Ltac Zify.zify_post_hook ::= idtac.
Ltac ql := Lqa.lra.

Section Q.
Open Scope Q_scope.
Lemma below_1 : forall f u, fmt_ok f -> representable f u -> u < 1 -> u <= 1 - p2 (- prec f).
Proof.
  intros f u [HP HE] (m & e & He & Hm & EQ) H1.
  assert (PP: p2 (- prec f) <= 1 # 2) by (apply Qle_trans with (p2 (-1)); [apply p2_le; lia|apply Qle_refl]).
  destruct (Z_lt_le_dec e (- prec f)) as [H|H].
  - assert (u <= 1 # 2); [|ql]. rewrite EQ. pose proof (p2_pos e) as E0.
    apply Qle_trans with (inject_Z (2 ^ prec f) * p2 e); [apply mul_le_compat; [exact E0|apply injZ_le; lia]|].
    rewrite <- p2_Z by lia. rewrite <- p2_add. apply (p2_le _ (-1)). lia.
  - assert (EQ2: u == inject_Z (m * 2 ^ (e + prec f)) * p2 (- prec f)).
    { rewrite EQ, inject_Z_mult, <- p2_Z by lia. rewrite <- Qmult_assoc, <- p2_add. replace (e + prec f + - prec f)%Z with e by lia. reflexivity. }
    assert (ONE: 1 == inject_Z (2 ^ prec f) * p2 (- prec f)) by (rewrite <- p2_Z by lia; rewrite <- p2_add; replace (prec f + - prec f)%Z with 0%Z by lia; reflexivity).
    set (M := (m * 2 ^ (e + prec f))%Z) in *. pose proof (p2_pos (- prec f)) as D0.
    assert (M < 2 ^ prec f)%Z.
    { destruct (Z_lt_le_dec M (2 ^ prec f)) as [G|G]; [exact G|exfalso]. apply injZ_le in G. pose proof (mul_le_compat _ _ _ D0 G). rewrite <- ONE, <- EQ2 in H0. ql. }
    assert (G: (M <= 2 ^ prec f - 1)%Z) by lia. apply injZ_le in G. pose proof (mul_le_compat _ _ _ D0 G) as G2. rewrite <- EQ2 in G2.
    unfold Z.sub in G2. rewrite inject_Z_plus in G2. change (inject_Z (- (1))) with (-1) in G2. rewrite ONE at 1. ql.
Qed.
Lemma one_minus : forall f md u, fmt_ok f -> representable f u -> 0 <= u -> u < 1 ->
  p2 (- prec f) <= fround f md (1 - u) /\ fround f md (1 - u) <= 1 /\ representable f (fround f md (1 - u)).
Proof.
  intros f md u Hf Hu H0 H1. pose proof (below_1 f u Hf Hu H1) as HB. repeat split.
  - apply repr_rnd_ge; [exact Hf|apply repr_p2; [exact Hf|destruct Hf; lia]|ql].
  - apply repr_rnd_le; [exact Hf|apply repr_1; exact Hf|ql].
  - apply rnd_repr; exact Hf.
Qed.
Lemma u01_run2 : forall f md tb bmin bmax F ds, fmt_ok f -> eng_wf tb bmin bmax -> (bmax - bmin <= imax tb)%Z ->
  valid_draws bmin bmax ds -> (length ds < F)%nat ->
  exec (uniform_01 f md F tb bmin bmax) ds = OMore \/
  exists u rest, exec (uniform_01 f md F tb bmin bmax) ds = ORet u rest /\ (length rest < length ds)%nat /\ 0 <= u /\ u < 1 /\ representable f u.
Proof.
  intros f md tb bmin bmax F ds Hf He HR Hv HF.
  pose proof (u01_wp f md Hf tb bmin bmax He F (length ds) HF HR) as W.
  destruct (wp_exec _ _ _ _ _ _ W Hv) as [E|(u & rest & E & (A & B & v & _ & C) & _)]; [left; exact E|right].
  exists u, rest. split; [exact E|]. split; [|split; [exact A|split; [exact B|rewrite C; apply rnd_repr; exact Hf]]].
  destruct (exec_rest _ _ _ _ _ E) as (us & -> & HU). destruct us as [|z us]; [|rewrite app_length; cbn [length]; lia].
  exfalso. pose proof (HU []) as N. destruct F as [|F]; [lia|]. unfold uniform_01 in N. cbn [retry] in N.
  destruct (u01_factor f md (cast tb) tb bmin bmax); cbn in N; discriminate.
Qed.
End Q.

Open Scope R_scope.
Lemma tiny_pos : forall f, 0 < tiny f.
Proof. intro f. unfold tiny. rewrite <- Q2R_0. apply Qlt_Rlt, p2_pos. Qed.
Lemma rt : forall f md x, Rabs (Q2R (fround f md x) - Q2R x) <= eps f * Rabs (Q2R x) + tiny f.
Proof.
  intros f md x.
  assert (U: (p2 (fexp f x) <= Qabs x * p2 (1 - prec f) + p2 (emin f))%Q).
  { assert (FE: fexp f x = fexp f (Qabs x)).
    { unfold fexp. assert (AA: Qabs (Qabs x) = Qabs x) by (destruct x as [[|n|n] d]; reflexivity). rewrite AA.
      assert (QB: Qeq_bool (Qabs x) 0 = Qeq_bool x 0) by (destruct x as [[|n|n] d]; reflexivity). rewrite QB. reflexivity. }
    rewrite FE. apply ulp_gen. apply Qabs_nonneg. }
  pose proof (rnd_err f md x) as [A B].
  assert (QA: Q2R (Qabs x) = Rabs (Q2R x)).
  { apply Qabs_case; intro H.
    - apply Q2R_le in H. rewrite Q2R_0 in H. rewrite Rabs_pos_eq by exact H. reflexivity.
    - apply Q2R_le in H. rewrite Q2R_0 in H. rewrite Rabs_left1 by exact H. apply Q2R_opp. }
  apply Q2R_le in U. rewrite Q2R_plus, Q2R_mult, QA in U. apply Qlt_Rlt in A, B. rewrite Q2R_minus in A. rewrite Q2R_plus in B.
  unfold eps, tiny. apply Rabs_le. lra.
Qed.

(* differences of numbers of the format are exact or normal *)
Lemma repr_mult : forall f x, representable f x -> exists n, (x == inject_Z n * p2 (emin f))%Q.
Proof.
  intros f x (m & e & He & _ & EQ). exists (m * 2 ^ (e - emin f))%Z. rewrite EQ, inject_Z_mult, <- p2_Z by lia. rewrite <- Qmult_assoc, <- p2_add.
  replace (e - emin f + emin f)%Z with e by lia. reflexivity.
Qed.
Lemma sub_rel : forall f md a b, fmt_ok f -> representable f a -> representable f b -> (a <= b)%Q ->
  (1 - eps f) * (Q2R b - Q2R a) <= Q2R (fround f md (b - a)) /\ Q2R (fround f md (b - a)) <= (1 + eps f) * (Q2R b - Q2R a).
Proof.
  intros f md a b Hf RA RB H. rewrite <- Q2R_minus.
  destruct (Qlt_le_dec (b - a) (p2 (emin f + prec f - 1))) as [L|L]; [|apply rrel; [lia|exact L]].
  assert (RX: representable f (b - a)).
  { destruct (repr_mult f a RA) as (n & EA). destruct (repr_mult f b RB) as (m & EB). pose proof (p2_pos (emin f)) as P0. destruct Hf as [HP HE].
    exists (m - n)%Z, (emin f). split; [lia|]. assert (EQ: (b - a == inject_Z (m - n) * p2 (emin f))%Q) by (unfold Z.sub; rewrite inject_Z_plus, inject_Z_opp, EA, EB; ring).
    split; [|exact EQ].
    assert (0 <= m - n)%Z.
    { destruct (Z_le_gt_dec 0 (m - n)) as [G|G]; [exact G|exfalso]. assert (G': (m - n <= -1)%Z) by lia. apply injZ_le in G'. pose proof (mul_le_compat _ _ _ P0 G') as G2. rewrite <- EQ in G2. change (inject_Z (-1)) with (-1)%Q in G2. ql. }
    destruct (Z_le_gt_dec (m - n) (2 ^ prec f)) as [G|G]; [lia|exfalso]. assert (G': (2 ^ prec f <= m - n)%Z) by lia. apply injZ_le in G'. pose proof (mul_le_compat _ _ _ P0 G') as G2. rewrite <- EQ in G2.
    rewrite <- p2_Z in G2 by lia. rewrite <- p2_add in G2. pose proof (p2_lt (emin f + prec f - 1) (prec f + emin f) ltac:(lia)). ql. }
  pose proof (rnd_fix f md Hf _ RX) as E. apply Qeq_eqR in E. rewrite E. pose proof (e_pos f) as E0. assert (X0: 0 <= Q2R (b - a)) by (rewrite <- Q2R_0; apply Q2R_le; ql).
  pose proof (Rmult_le_pos _ _ (Rlt_le _ _ E0) X0). lra.
Qed.
Lemma sub_pos : forall f md a b, fmt_ok f -> representable f a -> representable f b -> (a < b)%Q -> (0 < fround f md (b - a))%Q.
Proof.
  intros f md a b Hf RA RB H. apply Qlt_le_trans with (p2 (emin f)); [apply p2_pos|]. apply repr_rnd_ge; [exact Hf|apply repr_p2; [exact Hf|lia]|].
  destruct (repr_mult f a RA) as (n & EA). destruct (repr_mult f b RB) as (m & EB). pose proof (p2_pos (emin f)) as P0.
  assert (EQ: (b - a == inject_Z (m - n) * p2 (emin f))%Q) by (unfold Z.sub; rewrite inject_Z_plus, inject_Z_opp, EA, EB; ring).
  assert (1 <= m - n)%Z.
  { destruct (Z_le_gt_dec 1 (m - n)) as [G|G]; [exact G|exfalso]. assert (G': (m - n <= 0)%Z) by lia. apply injZ_le in G'. pose proof (mul_le_compat _ _ _ P0 G') as G2. rewrite <- EQ in G2. change (inject_Z 0) with 0%Q in G2. ql. }
  apply injZ_le in H0. pose proof (mul_le_compat _ _ _ P0 H0) as G2. rewrite <- EQ in G2. change (inject_Z 1) with 1%Q in G2. ql.
Qed.
(* square roots *)
Lemma sqrt_add : forall x y, 0 <= x -> 0 <= y -> sqrt (x + y) <= sqrt x + sqrt y.
Proof.
  intros x y X Y. pose proof (sqrt_pos x). pose proof (sqrt_pos y). rewrite <- (sqrt_square (sqrt x + sqrt y)) by lra. apply sqrt_le_1_alt.
  pose proof (sqrt_sqrt x X). pose proof (sqrt_sqrt y Y). pose proof (Rmult_le_pos (sqrt x) (sqrt y)). lra.
Qed.
Lemma sqrt_pert : forall y z d t, 0 <= y -> 0 <= z -> 0 <= d -> d <= 1 -> 0 <= t -> Rabs (y - z) <= d * z + t -> Rabs (sqrt y - sqrt z) <= d * sqrt z + sqrt t.
Proof.
  intros y z d t Y Z D0 D1 T H. apply Rabs_le_inv in H. pose proof (sqrt_pos z) as SZ.
  assert (U: sqrt y <= (1 + d) * sqrt z + sqrt t).
  { apply Rle_trans with (sqrt ((1 + d) * (1 + d) * z + t)).
    - apply sqrt_le_1_alt. pose proof (Rmult_le_pos d z D0 Z). pose proof (Rmult_le_pos d (d * z) D0 H0). lra.
    - apply Rle_trans with (sqrt ((1 + d) * (1 + d) * z) + sqrt t); [apply sqrt_add; [apply Rmult_le_pos; [apply Rmult_le_pos; lra|exact Z]|exact T]|].
      rewrite sqrt_mult by (try apply Rmult_le_pos; lra). rewrite sqrt_square by lra. lra. }
  assert (L: (1 - d) * sqrt z <= sqrt y + sqrt t).
  { apply Rle_trans with (sqrt (y + t)); [|apply sqrt_add; assumption].
    rewrite <- (sqrt_square (1 - d)) by lra. rewrite <- sqrt_mult by (try apply Rmult_le_pos; lra). apply sqrt_le_1_alt.
    pose proof (Rmult_le_pos d z D0 Z). pose proof (Rmult_le_compat_r (d * z) d 1 H0 D1). lra. }
  apply Rabs_le. lra.
Qed.
