(* Rounding errors of sums and quotients, and the alias table over the reals. *)
From Coq Require Import Permutation Lqa.
From Verif Require Import Base ProgModel ProgSpec ProgProofs UIntModel UIntSpec UIntProofs FloatModel FloatSpec FloatProofs RealModel DiscModel DiscSpec DiscProofs Disc2Proofs RDiscModel.
Ltac Zify.zify_post_hook ::= idtac.
Open Scope Q_scope.

(* ---- sums ---- *)
Fixpoint qsum {A} (g : A -> Q) (l : list A) : Q :=
  match l with [] => 0 | x :: r => g x + qsum g r end.

Lemma qsum_app : forall A (g : A -> Q) l m, qsum g (l ++ m) == qsum g l + qsum g m.
Proof. intros A g l m. induction l as [|x l IH]; cbn [app qsum]; [lra|]. rewrite IH. ring. Qed.
Lemma qsum_ext : forall A (g h : A -> Q) l, (forall x, In x l -> g x == h x) -> qsum g l == qsum h l.
Proof.
  intros A g h l. induction l as [|x l IH]; cbn [qsum]; intros H; [lra|].
  rewrite (H x), IH; [reflexivity| |left; reflexivity]. intros y Hy. apply H. right. exact Hy.
Qed.
Lemma qsum_perm : forall A (g : A -> Q) l m, Permutation l m -> qsum g l == qsum g m.
Proof. intros A g l m H. induction H; cbn [qsum]; lra. Qed.
Lemma qsum_map : forall A B (g : B -> Q) (h : A -> B) l, qsum g (map h l) == qsum (fun x => g (h x)) l.
Proof. intros A B g h l. induction l as [|x l IH]; cbn [map qsum]; lra. Qed.
Lemma qsum_le : forall A (g h : A -> Q) l, (forall x, In x l -> g x <= h x) -> qsum g l <= qsum h l.
Proof.
  intros A g h l. induction l as [|x l IH]; cbn [qsum]; intros H; [lra|].
  pose proof (H x (or_introl eq_refl)). specialize (IH (fun y Hy => H y (or_intror Hy))). lra.
Qed.
Lemma qsum_nonneg : forall A (g : A -> Q) l, (forall x, In x l -> 0 <= g x) -> 0 <= qsum g l.
Proof.
  intros A g l. induction l as [|x l IH]; cbn [qsum]; intros H; [lra|].
  pose proof (H x (or_introl eq_refl)). specialize (IH (fun y Hy => H y (or_intror Hy))). lra.
Qed.
Lemma qsum_in : forall A (g : A -> Q) l x, (forall x, In x l -> 0 <= g x) -> In x l -> g x <= qsum g l.
Proof.
  intros A g l. induction l as [|y l IH]; cbn [qsum]; intros x H Hx; [contradiction|].
  pose proof (H y (or_introl eq_refl)). pose proof (qsum_nonneg A g l (fun z Hz => H z (or_intror Hz))).
  destruct Hx as [->|Hx]; [lra|]. specialize (IH x (fun z Hz => H z (or_intror Hz)) Hx). lra.
Qed.
Lemma qsum_const : forall A c (l : list A), qsum (fun _ => c) l == c * inject_Z (Z.of_nat (length l)).
Proof.
  intros A c l. induction l as [|x l IH]; [cbn; ring|]. cbn [qsum length]. rewrite IH, Nat2Z.inj_succ.
  unfold Z.succ. rewrite inject_Z_plus. change (inject_Z 1) with 1. ring.
Qed.
Lemma qsum_scale : forall A c (g : A -> Q) l, qsum (fun x => c * g x) l == c * qsum g l.
Proof. intros A c g l. induction l as [|x l IH]; cbn [qsum]; [ring|]. rewrite IH. ring. Qed.
Lemma qsum_plus : forall A (g h : A -> Q) l, qsum (fun x => g x + h x) l == qsum g l + qsum h l.
Proof. intros A g h l. induction l as [|x l IH]; cbn [qsum]; [ring|]. rewrite IH. ring. Qed.

Lemma abs_le : forall x y, - y <= x -> x <= y -> Qabs x <= y.
Proof. intros x y H1 H2. apply Qabs_Qle_condition. lra. Qed.
Lemma abs_le_inv : forall x y, Qabs x <= y -> - y <= x /\ x <= y.
Proof. intros x y H. apply Qabs_Qle_condition in H. exact H. Qed.
Lemma qlt_spec : forall a b, if qlt a b then a < b else b <= a.
Proof.
  intros a b. unfold qlt. destruct (Qle_bool b a) eqn:E; cbn [negb].
  - apply Qle_bool_iff. exact E.
  - apply Qnot_le_lt. intro C. apply Qle_bool_iff in C. congruence.
Qed.

(* ---- relative errors ---- *)
Section Err.
Variables (f : fmt) (md : rmode).
Hypothesis Hf : fmt_ok f.
Local Notation rnd := (fround f md).
Local Notation P := (prec f).
Local Notation e := (p2 (1 - P)).

Lemma e_pos : 0 < e /\ e <= 1.
Proof using Hf. split; [apply p2_pos|]. change 1 with (p2 0). apply p2_le. destruct Hf. lia. Qed.

Lemma delta_le : p2 (emin f) <= e / 2.
Proof using Hf.
  assert (X: e == p2 (- P) * 2). { replace (1 - P)%Z with (- P + 1)%Z by lia. rewrite p2_add, p2_1. reflexivity. }
  rewrite X. assert (p2 (emin f) <= p2 (- P)) by (apply p2_le; destruct Hf; lia).
  assert (p2 (- P) * 2 / 2 == p2 (- P)) by field. lra.
Qed.

(* x and y agree to within k units of relative error *)
Definition near (k x y : Q) : Prop := 0 <= x /\ 0 <= y /\ (1 - k * e) * x <= y /\ (1 - k * e) * y <= x.

Lemma near_sym : forall k x y, near k x y -> near k y x.
Proof using. intros k x y (A & B & C & D). repeat split; assumption. Qed.

Lemma near_refl : forall k x, 0 <= k -> 0 <= x -> near k x x.
Proof using.
  intros k x Hk Hx. pose proof (p2_pos (1 - P)). assert (0 <= k * e * x) by (apply Qmult_le_0_compat; [apply Qmult_le_0_compat|]; lra).
  unfold near. repeat split; lra.
Qed.

Lemma near_trans : forall j k x y z, 0 <= j -> 0 <= k -> j * e <= 1 -> k * e <= 1 ->
  near j x y -> near k y z -> near (j + k) x z.
Proof using.
  intros j k x y z Hj Hk Hj1 Hk1 (A1 & A2 & A3 & A4) (B1 & B2 & B3 & B4). pose proof (p2_pos (1 - P)) as He.
  set (u := j * e) in *. set (v := k * e) in *.
  assert (U: 0 <= u) by (apply Qmult_le_0_compat; lra). assert (V: 0 <= v) by (apply Qmult_le_0_compat; lra).
  assert (E: (j + k) * e == u + v) by (unfold u, v; ring).
  assert (UV: 0 <= u * v) by (apply Qmult_le_0_compat; assumption).
  repeat split; try assumption; rewrite E.
  - assert (0 <= u * v * x) by (apply Qmult_le_0_compat; assumption).
    assert ((1 - v) * ((1 - u) * x) <= (1 - v) * y). { rewrite !(Qmult_comm (1 - v)). apply Qmult_le_compat_r; lra. }
    lra.
  - assert (0 <= u * v * z) by (apply Qmult_le_0_compat; assumption).
    assert ((1 - u) * ((1 - v) * z) <= (1 - u) * y). { rewrite !(Qmult_comm (1 - u)). apply Qmult_le_compat_r; lra. }
    lra.
Qed.

Lemma near_compat : forall k x x' y y', x == x' -> y == y' -> near k x y -> near k x' y'.
Proof using. intros k x x' y y' E1 E2 (A & B & C & D). unfold near. rewrite <- E1, <- E2. repeat split; assumption. Qed.

Lemma near_add : forall k x y w, 0 <= k -> 0 <= w -> near k x y -> near k (x + w) (y + w).
Proof using.
  intros k x y w Hk Hw (A & B & C & D). pose proof (p2_pos (1 - P)).
  assert (0 <= k * e * w) by (apply Qmult_le_0_compat; [apply Qmult_le_0_compat|]; lra). unfold near. repeat split; lra.
Qed.

Lemma near_mul : forall k x y w, 0 <= w -> near k x y -> near k (x * w) (y * w).
Proof using.
  intros k x y w Hw (A & B & C & D). unfold near. repeat split.
  - apply Qmult_le_0_compat; assumption.
  - apply Qmult_le_0_compat; assumption.
  - rewrite Qmult_assoc. apply Qmult_le_compat_r; assumption.
  - rewrite Qmult_assoc. apply Qmult_le_compat_r; assumption.
Qed.

Lemma near_inv : forall k x y, 0 < x -> 0 < y -> near k x y -> near k (/ x) (/ y).
Proof using.
  intros k x y Hx Hy (A & B & C & D). pose proof (Qinv_lt_0_compat x Hx) as Ix. pose proof (Qinv_lt_0_compat y Hy) as Iy.
  assert (X: x * / x == 1) by (field; lra). assert (Y: y * / y == 1) by (field; lra).
  assert (Pxy: 0 <= / x * / y) by (apply Qmult_le_0_compat; lra).
  unfold near. repeat split; try lra.
  - apply (Qmult_le_compat_r _ _ _ D) in Pxy.
    assert (E1: (1 - k * e) * y * (/ x * / y) == (1 - k * e) * / x) by (rewrite <- (Qmult_1_r ((1 - k * e) * / x)), <- Y; ring).
    assert (E2: x * (/ x * / y) == / y) by (rewrite <- (Qmult_1_l (/ y)) at 2; rewrite <- X; ring). lra.
  - apply (Qmult_le_compat_r _ _ _ C) in Pxy.
    assert (E1: (1 - k * e) * x * (/ x * / y) == (1 - k * e) * / y) by (rewrite <- (Qmult_1_r ((1 - k * e) * / y)), <- X; ring).
    assert (E2: y * (/ x * / y) == / x) by (rewrite <- (Qmult_1_l (/ x)) at 2; rewrite <- Y; ring). lra.
Qed.

(* rounding a normal number *)
Lemma near_rnd : forall x, p2 (emin f + P - 1) <= x -> near 1 x (rnd x).
Proof using Hf.
  intros x Hx. pose proof (p2_pos (emin f + P - 1)) as H0. pose proof (rnd_err f md x) as [R1 R2].
  pose proof (ulp_rel f x Hx) as U. destruct e_pos as [E0 E1]. assert (X: 0 <= x) by lra.
  pose proof (rnd_nonneg f md x X) as N. unfold near. repeat split; try lra.
  assert ((1 - e) * rnd x <= (1 - e) * (x + x * e)). { rewrite !(Qmult_comm (1 - e)). apply Qmult_le_compat_r; lra. }
  assert (0 <= e * e * x) by (apply Qmult_le_0_compat; [apply Qmult_le_0_compat|]; lra). lra.
Qed.

(* a sum of two numbers of the format never underflows *)
Lemma repr_sum_small : forall a b, representable f a -> representable f b -> Qabs (a + b) < p2 (emin f + P) ->
  representable f (a + b).
Proof using Hf.
  intros a b (m1 & e1 & H1 & _ & E1) (m2 & e2 & H2 & _ & E2) HS.
  assert (G: forall m k, (emin f <= k)%Z -> inject_Z m * p2 k == inject_Z (m * 2 ^ (k - emin f)) * p2 (emin f)).
  { intros m k Hk. rewrite inject_Z_mult, <- (p2_Z (k - emin f)) by lia. rewrite <- Qmult_assoc, <- p2_add.
    replace (k - emin f + emin f)%Z with k by lia. reflexivity. }
  exists (m1 * 2 ^ (e1 - emin f) + m2 * 2 ^ (e2 - emin f))%Z, (emin f). split; [lia|].
  assert (E: a + b == inject_Z (m1 * 2 ^ (e1 - emin f) + m2 * 2 ^ (e2 - emin f)) * p2 (emin f)).
  { rewrite E1, E2, (G m1 e1 H1), (G m2 e2 H2), inject_Z_plus. ring. }
  split; [|exact E]. set (M := (m1 * 2 ^ (e1 - emin f) + m2 * 2 ^ (e2 - emin f))%Z) in *. rewrite E in HS. rewrite Qabs_Qmult in HS.
  pose proof (p2_pos (emin f)) as D0. rewrite (Qabs_pos (p2 (emin f))) in HS by lra.
  assert (HP: (1 <= P)%Z) by apply Hf. pose proof (p2_add (emin f) P) as HA. rewrite (p2_Z P) in HA by lia.
  assert (Qabs (inject_Z M) < inject_Z (2 ^ P)).
  { apply Qnot_le_lt. intro C. apply (Qmult_le_compat_r _ _ (p2 (emin f))) in C; lra. }
  rewrite Zle_Qle. unfold inject_Z at 1. change (Z.abs M # 1) with (Qabs (inject_Z M)). lra.
Qed.

Lemma near_sum : forall a b, representable f a -> representable f b -> 0 <= a -> 0 <= b -> near 1 (a + b) (rnd (a + b)).
Proof using Hf.
  intros a b Ra Rb Ha Hb. destruct (Qlt_le_dec (a + b) (p2 (emin f + P - 1))) as [L|L].
  - assert (R: representable f (a + b)).
    { apply repr_sum_small; try assumption. rewrite Qabs_pos by lra.
      assert (p2 (emin f + P - 1) <= p2 (emin f + P)) by (apply p2_le; lia). lra. }
    apply near_compat with (a + b) (a + b); [reflexivity|symmetry; apply rnd_fix; assumption|].
    apply near_refl; lra.
  - apply near_rnd. exact L.
Qed.

(* absolute error of rounding a number between 0 and B *)
Lemma rnd_abs : forall x, 0 <= x -> x - (x * e + e / 2) <= rnd x /\ rnd x <= x + (x * e + e / 2).
Proof using Hf.
  intros x Hx. pose proof (rnd_err f md x) as [R1 R2]. pose proof (ulp_gen f x Hx) as U. pose proof delta_le. lra.
Qed.

(* std::accumulate *)
Lemma racc_near : forall ws s S k, Forall (fun w => representable f w /\ 0 <= w) ws -> representable f s ->
  0 <= k -> (k + inject_Z (Z.of_nat (length ws))) * e <= 1 -> near k S s ->
  near (k + inject_Z (Z.of_nat (length ws))) (S + qsum (fun w => w) ws) (fold_left (fun s x => rnd (s + x)) ws s) /\
  representable f (fold_left (fun s x => rnd (s + x)) ws s).
Proof using Hf.
  destruct e_pos as [E0 E1].
  induction ws as [|w ws IH]; intros s S k HF Rs Hk HK N.
  - cbn [length qsum fold_left]. change (inject_Z (Z.of_nat 0)) with 0. split; [|exact Rs].
    destruct N as (N1 & N2 & N3 & N4). unfold near.
    assert (X: (k + 0) * e == k * e) by ring. rewrite X. repeat split; try lra.
  - pose proof (Forall_inv HF) as [Rw Hw]. apply Forall_inv_tail in HF. cbn [length] in HK |- *.
    assert (NS: inject_Z (Z.of_nat (Datatypes.S (length ws))) == 1 + inject_Z (Z.of_nat (length ws))).
    { rewrite Nat2Z.inj_succ. unfold Z.succ. rewrite inject_Z_plus. change (inject_Z 1) with 1. ring. }
    assert (NN: 0 <= inject_Z (Z.of_nat (length ws))) by (change 0 with (inject_Z 0); apply injZ_le; lia).
    set (m := inject_Z (Z.of_nat (length ws))) in *. set (m' := inject_Z (Z.of_nat (Datatypes.S (length ws)))) in *.
    assert (K1: (k + 1 + m) * e <= 1) by (assert (X: (k + m') * e == (k + 1 + m) * e) by (rewrite NS; ring); lra).
    assert (P1: 0 <= m * e) by (apply Qmult_le_0_compat; lra).
    assert (P2: 0 <= k * e) by (apply Qmult_le_0_compat; lra).
    assert (X1: (k + 1 + m) * e == k * e + e + m * e) by ring.
    destruct (IH (rnd (s + w)) (S + w) (k + 1) HF) as [I1 I2].
    + apply rnd_repr. exact Hf.
    + lra.
    + exact K1.
    + apply near_trans with (s + w); try lra.
      * apply near_add; assumption.
      * apply near_sum; try assumption. apply N.
    + cbn [fold_left qsum]. split; [|exact I2]. destruct I1 as (J1 & J2 & J3 & J4). unfold near.
      assert (Y1: (k + m') * e == (k + 1 + m) * e) by (rewrite NS; ring).
      assert (Y2: S + (w + qsum (fun w0 : Q => w0) ws) == S + w + qsum (fun w0 : Q => w0) ws) by ring.
      rewrite Y1, Y2. repeat split; assumption.
Qed.
End Err.
