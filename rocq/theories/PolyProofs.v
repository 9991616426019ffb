(* GF(2)[x] on N: ring structure. *)
From Verif Require Import Base PolyModel PolySpec.
From Coq Require Import NArith Ring.
Open Scope nat_scope.
Ltac Zify.zify_post_hook ::= idtac.

Fixpoint pgm (p : positive) (b : N) : N :=
  match p with
  | xH => b
  | xO p => N.double (pgm p b)
  | xI p => N.lxor b (N.double (pgm p b))
  end.
Definition gm (a b : N) : N := match a with N0 => N0 | Npos p => pgm p b end.

Declare Scope gf_scope.
Notation "a (+) b" := (N.lxor a b) (at level 50, left associativity) : gf_scope.
Notation "a (x) b" := (gm a b) (at level 40, left associativity) : gf_scope.
Open Scope gf_scope.

Lemma coef_ext : forall a b, (forall k, coef a k = coef b k) -> a = b.
Proof. intros a b H. apply N.bits_inj. intro k. specialize (H (N.to_nat k)). unfold coef in H. rewrite N2Nat.id in H. exact H. Qed.
Lemma coef_xor : forall a b k, coef (a (+) b) k = xorb (coef a k) (coef b k).
Proof. intros. apply N.lxor_spec. Qed.
Lemma coef_and : forall a b k, coef (N.land a b) k = coef a k && coef b k.
Proof. intros. apply N.land_spec. Qed.
Lemma coef_or : forall a b k, coef (N.lor a b) k = coef a k || coef b k.
Proof. intros. apply N.lor_spec. Qed.
Lemma coef_0 : forall k, coef 0 k = false.
Proof. intros. apply N.bits_0. Qed.
Lemma coef_shl : forall a s k, coef (N.shiftl a (N.of_nat s)) k = if k <? s then false else coef a (k - s).
Proof.
  intros. unfold coef. destruct (Nat.ltb_spec k s).
  - apply N.shiftl_spec_low. lia.
  - rewrite N.shiftl_spec_high' by lia. f_equal. lia.
Qed.
Lemma coef_shr : forall a s k, coef (N.shiftr a (N.of_nat s)) k = coef a (k + s).
Proof. intros. unfold coef. rewrite N.shiftr_spec'. f_equal. lia. Qed.
Lemma coef_mod : forall a s k, coef (a mod 2 ^ N.of_nat s)%N k = if k <? s then coef a k else false.
Proof.
  intros. unfold coef. destruct (Nat.ltb_spec k s).
  - apply N.mod_pow2_bits_low. lia.
  - apply N.mod_pow2_bits_high. lia.
Qed.
Lemma coef_ones : forall n k, coef (N.ones (N.of_nat n)) k = (k <? n).
Proof.
  intros. unfold coef. destruct (Nat.ltb_spec k n).
  - apply N.ones_spec_low. lia.
  - apply N.ones_spec_high. lia.
Qed.
Lemma double_xor : forall a b, N.double (a (+) b) = N.double a (+) N.double b.
Proof. intros [|a] [|b]; reflexivity. Qed.
Lemma sd_xor : forall a, N.succ_double a = 1%N (+) N.double a.
Proof. intros [|a]; reflexivity. Qed.
Lemma xor_nil : forall a, a (+) a = 0%N. Proof. apply N.lxor_nilpotent. Qed.
Lemma xor_0_r : forall a, a (+) 0%N = a. Proof. apply N.lxor_0_r. Qed.
Lemma xor_0_l : forall a, 0%N (+) a = a. Proof. apply N.lxor_0_l. Qed.

Lemma gm_double_l : forall a b, N.double a (x) b = N.double (a (x) b).
Proof. intros [|a] b; reflexivity. Qed.
Lemma gm_sd_l : forall a b, N.succ_double a (x) b = b (+) N.double (a (x) b).
Proof. intros [|a] b; [cbn; symmetry; apply N.lxor_0_r|reflexivity]. Qed.
Lemma gm_0_r : forall a, a (x) 0%N = 0%N.
Proof. intros a. induction a using N.binary_ind; [reflexivity| |]; rewrite ?gm_double_l, ?gm_sd_l, IHa; reflexivity. Qed.
Lemma xor_shuffle : forall a b c d, (a (+) b) (+) (c (+) d) = (a (+) c) (+) (b (+) d).
Proof. intros. apply N.bits_inj. intro k. rewrite !N.lxor_spec. destruct (N.testbit a k), (N.testbit b k), (N.testbit c k), (N.testbit d k); reflexivity. Qed.
Lemma gm_xor_l : forall a a' b, (a (+) a') (x) b = (a (x) b) (+) (a' (x) b).
Proof.
  intros a. induction a as [|a IH|a IH] using N.binary_ind; intros a' b.
  - rewrite N.lxor_0_l. cbn [gm]. rewrite N.lxor_0_l. reflexivity.
  - destruct a' as [|a'|a'] using N.binary_ind.
    + rewrite N.lxor_0_r. cbn [gm]. rewrite N.lxor_0_r. reflexivity.
    + rewrite <- double_xor, !gm_double_l, IH, double_xor. reflexivity.
    + rewrite sd_xor, (N.lxor_comm _ (1 (+) _)), N.lxor_assoc, <- double_xor, <- !sd_xor, !gm_sd_l, gm_double_l, (N.lxor_comm a' a), IH, double_xor.
      apply N.bits_inj. intro k. rewrite !N.lxor_spec. repeat match goal with |- context [N.testbit ?x k] => generalize (N.testbit x k) end. intros [] [] []; reflexivity.
  - destruct a' as [|a'|a'] using N.binary_ind.
    + rewrite N.lxor_0_r. cbn [gm]. rewrite N.lxor_0_r. reflexivity.
    + rewrite sd_xor, N.lxor_assoc, <- double_xor, <- !sd_xor, !gm_sd_l, gm_double_l, IH, double_xor. rewrite N.lxor_assoc. reflexivity.
    + rewrite (sd_xor a), (sd_xor a'), xor_shuffle, xor_nil, N.lxor_0_l, <- double_xor, <- !sd_xor, gm_double_l, !gm_sd_l, xor_shuffle, xor_nil, N.lxor_0_l, IH, double_xor. reflexivity.
Qed.
Lemma gm_double_r : forall a b, a (x) N.double b = N.double (a (x) b).
Proof.
  intros a b. induction a as [|a IH|a IH] using N.binary_ind; [reflexivity| |]; rewrite ?gm_double_l, ?gm_sd_l, IH, ?double_xor; reflexivity.
Qed.
Lemma gm_xor_r : forall a b b', a (x) (b (+) b') = (a (x) b) (+) (a (x) b').
Proof.
  intros a b b'. induction a as [|a IH|a IH] using N.binary_ind; [reflexivity| |]; rewrite ?gm_double_l, ?gm_sd_l, IH, ?double_xor; [reflexivity|].
  apply xor_shuffle.
Qed.
Lemma gm_1_l : forall a, 1%N (x) a = a. Proof. reflexivity. Qed.
Lemma gm_1_r : forall a, a (x) 1%N = a.
Proof. intros a. induction a as [|a IH|a IH] using N.binary_ind; [reflexivity| |]; rewrite ?gm_double_l, ?gm_sd_l, IH; [reflexivity|symmetry; apply sd_xor]. Qed.
Lemma gm_comm : forall a b, a (x) b = b (x) a.
Proof.
  intros a b. induction a as [|a IH|a IH] using N.binary_ind.
  - rewrite gm_0_r. reflexivity.
  - rewrite gm_double_l, gm_double_r, IH. reflexivity.
  - rewrite gm_sd_l, sd_xor, gm_xor_r, gm_double_r, gm_1_r, IH. reflexivity.
Qed.
Lemma gm_assoc : forall a b c, a (x) (b (x) c) = (a (x) b) (x) c.
Proof.
  intros a b c. induction a as [|a IH|a IH] using N.binary_ind; [reflexivity| |].
  - rewrite !gm_double_l, IH. reflexivity.
  - rewrite !gm_sd_l, gm_xor_l, gm_double_l, IH. reflexivity.
Qed.

Lemma gf_rt : ring_theory 0%N 1%N N.lxor gm N.lxor (fun x => x) eq.
Proof.
  constructor; intros; rewrite ?gm_1_l; auto using N.lxor_comm, gm_comm, gm_assoc, gm_xor_l, xor_nil, xor_0_l. symmetry. apply N.lxor_assoc.
Qed.
Definition bphi (b : bool) : N := if b then 1%N else 0%N.
Lemma gf_morph : ring_morph 0%N 1%N N.lxor gm N.lxor (fun x => x) eq false true xorb andb xorb (fun x => x) Bool.eqb bphi.
Proof.
  constructor; try reflexivity; try (intros [] []; reflexivity).
  intros x y H. apply eqb_prop in H. subst; reflexivity.
Qed.
Ltac gf_cst t := match t with 0%N => constr:(false) | 1%N => constr:(true) | _ => constr:(InitialRing.NotConstant) end.
Add Ring gf2 : gf_rt (morphism gf_morph, constants [gf_cst]).
Goal forall a b c, (a (+) b) (x) (a (+) c (+) b) = (a (x) a) (+) (a (+) b) (x) c (+) (b (x) b).
Proof. intros. ring. Qed.

(* powers of x *)
Definition X (k : nat) : N := N.shiftl 1 (N.of_nat k).
Lemma coef_X : forall k i, coef (X k) i = (i =? k).
Proof.
  intros. unfold X. rewrite coef_shl. destruct (Nat.ltb_spec i k), (Nat.eqb_spec i k); try lia; try reflexivity.
  - subst. rewrite Nat.sub_diag. reflexivity.
  - unfold coef. change 1%N with (2 ^ 0)%N. apply N.pow2_bits_false. lia.
Qed.
Lemma X0 : X 0 = 1%N. Proof. reflexivity. Qed.
Lemma XS : forall k, X (S k) = N.double (X k).
Proof. intros. unfold X. rewrite Nat2N.inj_succ, N.shiftl_succ_r. reflexivity. Qed.
Lemma shl_X : forall k a, N.shiftl a (N.of_nat k) = X k (x) a.
Proof.
  induction k as [|k IH]; intro a; [rewrite X0, gm_1_l; apply N.shiftl_0_r|].
  rewrite Nat2N.inj_succ, N.shiftl_succ_r, XS, gm_double_l, IH. reflexivity.
Qed.
Lemma X_add : forall a b, X (a + b) = X a (x) X b.
Proof. induction a as [|a IH]; intro b; [reflexivity|]. cbn [plus]. rewrite !XS, gm_double_l, IH. reflexivity. Qed.
Lemma X_pow : forall k, X k = (2 ^ N.of_nat k)%N.
Proof. intros. unfold X. rewrite N.shiftl_mul_pow2, N.mul_1_l. reflexivity. Qed.
Lemma coef_Xm : forall s a k, coef (X s (x) a) k = if k <? s then false else coef a (k - s).
Proof. intros. rewrite <- shl_X. apply coef_shl. Qed.

(* degree *)
Lemma deg_iff : forall a d, deg_lt a d <-> (a < 2 ^ N.of_nat d)%N.
Proof.
  intros a d. split; intro H.
  - assert (E: a = (a mod 2 ^ N.of_nat d)%N).
    { apply coef_ext. intro k. rewrite coef_mod. destruct (Nat.ltb_spec k d); [reflexivity|apply H; lia]. }
    rewrite E. apply N.mod_lt. apply N.pow_nonzero. discriminate.
  - intros k Hk. rewrite <- (N.mod_small a (2 ^ N.of_nat d)%N) by exact H. rewrite coef_mod. destruct (Nat.ltb_spec k d); [lia|reflexivity].
Qed.
Lemma deg_mono : forall a d e, deg_lt a d -> d <= e -> deg_lt a e.
Proof. intros a d e H L k Hk. apply H. lia. Qed.
Lemma deg_xor : forall a b d, deg_lt a d -> deg_lt b d -> deg_lt (a (+) b) d.
Proof. intros a b d H1 H2 k Hk. rewrite coef_xor, H1, H2 by lia. reflexivity. Qed.
Lemma deg_0 : forall d, deg_lt 0 d. Proof. intros d k Hk. apply coef_0. Qed.
Lemma deg_zero : forall a, deg_lt a 0 -> a = 0%N.
Proof. intros a H. apply coef_ext. intro k. rewrite H by lia. symmetry. apply coef_0. Qed.
Lemma deg_X : forall k d, k < d -> deg_lt (X k) d.
Proof. intros k d H i Hi. rewrite coef_X. apply Nat.eqb_neq. lia. Qed.
Lemma deg_Xm : forall s a d, deg_lt a d -> deg_lt (X s (x) a) (s + d).
Proof. intros s a d H k Hk. rewrite coef_Xm. destruct (Nat.ltb_spec k s); [reflexivity|]. apply H. lia. Qed.
Lemma deg_mod : forall a d, deg_lt (a mod 2 ^ N.of_nat d) d.
Proof. intros a d k Hk. rewrite coef_mod. destruct (Nat.ltb_spec k d); [lia|reflexivity]. Qed.
Lemma mod_deg : forall a d, deg_lt a d -> (a mod 2 ^ N.of_nat d)%N = a.
Proof. intros. apply N.mod_small. apply deg_iff. assumption. Qed.
(* splitting at a bit *)
Lemma split_at : forall a k, a = (a mod 2 ^ N.of_nat k)%N (+) X k (x) N.shiftr a (N.of_nat k).
Proof.
  intros a k. apply coef_ext. intro i. rewrite coef_xor, coef_mod, coef_Xm, coef_shr.
  destruct (Nat.ltb_spec i k); [rewrite xorb_false_r; reflexivity|]. rewrite xorb_false_l. f_equal. lia.
Qed.
Lemma mod_S : forall a k, (a mod 2 ^ N.of_nat (S k))%N = (a mod 2 ^ N.of_nat k)%N (+) (if coef a k then X k else 0%N).
Proof.
  intros a k. apply coef_ext. intro i. rewrite coef_xor, !coef_mod.
  assert (E: coef (if coef a k then X k else 0%N) i = (coef a k && (i =? k))).
  { destruct (coef a k); [rewrite coef_X; reflexivity|apply coef_0]. }
  rewrite E. destruct (Nat.eqb_spec i k) as [EK|NK].
  - rewrite EK. destruct (Nat.ltb_spec k (S k)); [|lia]. destruct (Nat.ltb_spec k k); [lia|]. rewrite andb_true_r. destruct (coef a k); reflexivity.
  - rewrite andb_false_r, xorb_false_r. destruct (Nat.ltb_spec i (S k)), (Nat.ltb_spec i k); try lia; reflexivity.
Qed.
Lemma mod_0 : forall a, (a mod 2 ^ N.of_nat 0)%N = 0%N.
Proof. intros. cbn. apply N.mod_1_r. Qed.
(* degree of a product *)
Lemma deg_gm : forall p a b q, deg_lt a (S p) -> deg_lt b q -> deg_lt (a (x) b) (p + q).
Proof.
  intros p a b q Ha Hb. rewrite <- (mod_deg a (S p) Ha). clear Ha. induction p as [|p IH].
  - rewrite mod_S, mod_0, N.lxor_0_l. destruct (coef a 0); [exact Hb|apply deg_0].
  - rewrite mod_S, gm_xor_l. apply deg_xor; [apply (deg_mono _ (p + q)); [exact IH|lia]|].
    destruct (coef a (S p)); [apply deg_Xm; exact Hb|apply deg_0].
Qed.
Lemma deg_gm' : forall a b p q r, deg_lt a p -> deg_lt b q -> p + q <= S r -> deg_lt (a (x) b) r.
Proof.
  intros a b p q r Ha Hb L. destruct p as [|p].
  - rewrite (deg_zero a Ha). apply deg_0.
  - destruct q as [|q]; [rewrite (deg_zero b Hb), gm_0_r; apply deg_0|].
    apply (deg_mono _ (p + S q)); [apply deg_gm; assumption|lia].
Qed.

(* coefficients of a product *)
Lemma xsum_ext : forall n f g, (forall i, i < n -> f i = g i) -> xsum n f = xsum n g.
Proof. induction n as [|n IH]; intros f g H; [reflexivity|]. cbn. rewrite (IH f g), (H n) by (intros; try apply H; lia). reflexivity. Qed.
Lemma xsum_xor : forall n f g, xsum n (fun i => xorb (f i) (g i)) = xorb (xsum n f) (xsum n g).
Proof. induction n as [|n IH]; intros; [reflexivity|]. cbn. rewrite IH. destruct (xsum n f), (xsum n g), (f n), (g n); reflexivity. Qed.
Lemma xsum_false : forall n f, (forall i, i < n -> f i = false) -> xsum n f = false.
Proof. induction n as [|n IH]; intros f H; [reflexivity|]. cbn. rewrite IH, H by (intros; try apply H; lia). reflexivity. Qed.
Lemma xsum_head : forall n f, xsum (S n) f = xorb (f 0) (xsum n (fun i => f (S i))).
Proof. induction n as [|n IH]; intro f; [cbn; destruct (f 0); reflexivity|]. cbn [xsum] in *. rewrite IH. rewrite xorb_assoc. reflexivity. Qed.
Lemma coef_double : forall a k, coef (N.double a) (S k) = coef a k.
Proof. intros a k. unfold coef. rewrite Nat2N.inj_succ. rewrite N.double_spec. apply N.testbit_even_succ. lia. Qed.
Lemma coef_double0 : forall a, coef (N.double a) 0 = false.
Proof. intros [|a]; reflexivity. Qed.
Lemma coef_1 : forall k, coef 1 (S k) = false.
Proof. intros k. change 1%N with (X 0). rewrite coef_X. reflexivity. Qed.
Lemma gm_product : forall a b, is_product a b (a (x) b).
Proof.
  intros a. induction a as [|a IH|a IH] using N.binary_ind; intros b k.
  - cbn [gm]. rewrite coef_0. symmetry. apply xsum_false. intros. rewrite coef_0. reflexivity.
  - rewrite gm_double_l, xsum_head, coef_double0. cbn [andb]. rewrite xorb_false_l. destruct k as [|k]; [apply coef_double0|].
    rewrite coef_double, IH. apply xsum_ext. intros i Hi. rewrite coef_double. reflexivity.
  - rewrite gm_sd_l, coef_xor, xsum_head, sd_xor. rewrite Nat.sub_0_r.
    assert (E0: coef (1 (+) N.double a) 0 = true) by (rewrite coef_xor, coef_double0; reflexivity). rewrite E0. cbn [andb]. f_equal.
    destruct k as [|k]; [apply coef_double0|].
    rewrite coef_double, IH. apply xsum_ext. intros i Hi. rewrite coef_xor, coef_double, coef_1, xorb_false_l. reflexivity.
Qed.
Lemma product_gm : forall a b c, is_product a b c <-> c = a (x) b.
Proof.
  intros a b c. split.
  - intro H. apply coef_ext. intro k. rewrite H. symmetry. apply gm_product.
  - intros ->. apply gm_product.
Qed.
