(* The rows of the Sobol and of the Niederreiter direction numbers. *)
From Coq Require Import NArith Ring.
From Verif Require Import Base QrngSpec BitsProofs PolySpec PolyProofs MtJumpProofs NetSpec Gf2Proofs NetProofs Net2Proofs SobolSpec SobolProofs.
Open Scope nat_scope.
Open Scope gf_scope.
Ltac Zify.zify_post_hook ::= idtac.

(* ---- course-of-values recursion ---- *)
Section Cv.
Context {A : Type} (dflt : A) (F : nat -> (nat -> A) -> A).
Fixpoint cvl (n : nat) : list A := match n with O => [] | S k => cvl k ++ [F k (fun i => nth i (cvl k) dflt)] end.
Definition cv (j : nat) : A := F j (fun i => nth i (cvl j) dflt).
Lemma cvl_len : forall n, length (cvl n) = n.
Proof. induction n as [|n IH]; [reflexivity|]. cbn [cvl]. rewrite app_length, IH. cbn. lia. Qed.
Lemma cvl_nth : forall n i, i < n -> nth i (cvl n) dflt = cv i.
Proof.
  induction n as [|n IH]; intros i Hi; [lia|]. cbn [cvl]. destruct (Nat.eq_dec i n) as [->|N].
  - rewrite app_nth2 by (rewrite cvl_len; lia). rewrite cvl_len, Nat.sub_diag. reflexivity.
  - rewrite app_nth1 by (rewrite cvl_len; lia). apply IH. lia.
Qed.
Hypothesis Fext : forall j m m', (forall k, k < j -> m k = m' k) -> F j m = F j m'.
Lemma cv_eq : forall j, cv j = F j cv.
Proof. intro j. unfold cv at 1. apply Fext. intros k Hk. apply cvl_nth. exact Hk. Qed.
End Cv.

(* ---- Sobol ---- *)
Lemma act_lin : forall a n f R j, act a (lin n f R) j = lin n f (fun b => act a (R b)) j.
Proof.
  intros a n f R j. unfold lin. induction n as [|n IH]; [apply act_zero; reflexivity|].
  cbn [xsum]. rewrite <- IH. change (fun j => xorb (xsum n (fun b => f b && R b j)) (f n && R n j)) with (cxor (fun j => xsum n (fun b => f b && R b j)) (fun j => f n && R n j)).
  rewrite act_cxor. f_equal. destruct (f n); [reflexivity|]. apply act_zero. reflexivity.
Qed.
Section Sobol.
Variables (p : N) (e : nat) (m : nat -> Z).
Hypothesis PD : has_deg p e.
Hypothesis E1 : 1 <= e.
Hypothesis MB : forall n, odd_bounded m n.
Hypothesis MR : forall j, e <= j -> m j = s_next (Z.of_N p) e j m.
Definition srow (b j : nat) : bool := Z.testbit (m j) (Z.of_nat j - Z.of_nat b).

Lemma xors_bit : forall n f i, Z.testbit (xors n f) i = xsum n (fun k => Z.testbit (f k) i).
Proof. induction n as [|n IH]; intros f i; [apply Z.testbit_0_l|]. cbn [xors xsum]. rewrite Z.lxor_spec, IH. reflexivity. Qed.
Lemma coefZ : forall k, Z.testbit (Z.of_N p) (Z.of_nat k) = coef p k.
Proof. intros. unfold coef. rewrite <- nat_N_Z. rewrite Z.testbit_of_N' by lia. rewrite N2Z.id. reflexivity. Qed.
Lemma srow_act : forall b j, act p (srow b) j = Z.testbit (m j) (Z.of_nat (j + e) - Z.of_nat b).
Proof using PD E1 MR.
  intros b j. destruct PD as [C D]. rewrite (act_sum (S e) _ _ _ D). cbn [xsum]. rewrite C. cbn [andb]. unfold srow at 2. rewrite MR by lia. unfold s_next. rewrite Z.lxor_spec, xors_bit.
  replace (j + e - e) with j by lia. set (A := xsum e _). replace (xsum e (fun k => Z.testbit (if Z.testbit (Z.of_N p) (Z.of_nat k) then _ else _) _)) with A.
  - destruct A, (Z.testbit (m j) (Z.of_nat (j + e) - Z.of_nat b)); reflexivity.
  - unfold A. apply xsum_ext. intros k Hk. rewrite coefZ. destruct (coef p k); cbn [andb]; [|symmetry; apply Z.testbit_0_l]. unfold srow.
    replace (j + e - (e - k)) with (j + k) by lia. rewrite Z.mul_pow2_bits by lia. f_equal. lia.
Qed.
Lemma srow_low : forall b, b < e -> ann p (srow b).
Proof using PD E1 MR MB.
  intros b Hb j. rewrite srow_act. destruct (MB (S j) j ltac:(lia)) as [_ B]. apply (bits_above _ (Z.of_nat j + 1)); [exact B|lia].
Qed.
Lemma srow_step : forall b, e <= b -> forall j, act p (srow b) j = srow (b - e) j.
Proof using PD E1 MR. intros b Hb j. rewrite srow_act. unfold srow. f_equal. lia. Qed.
Lemma srow_pow : forall q u j, act (gpow p q) (srow (q * e + u)) j = srow u j.
Proof using PD E1 MR.
  induction q as [|q IH]; intros u j; [reflexivity|]. cbn [gpow]. rewrite gm_comm, act_gm. rewrite <- (IH u j). apply act_ext. intro i. rewrite srow_step by lia. f_equal. lia.
Qed.
Lemma srow_tri : forall n f, (forall j, lin e f srow j = false) -> forall u, u < n -> u < e -> f u = false.
Proof using MB E1.
  intros n f Z. induction n as [|n IH]; intros u Hu Hue; [lia|]. destruct (Nat.eq_dec u n) as [->|N]; [|apply IH; lia].
  specialize (Z n). unfold lin in Z. rewrite (xsum_single e _ n) in Z; [|exact Hue|].
  - unfold srow in Z. rewrite Z.sub_diag in Z. destruct (MB (S n) n ltac:(lia)) as [O _]. rewrite Z.bit0_odd, O, andb_true_r in Z. exact Z.
  - intros k Hk NK. destruct (Nat.lt_ge_cases k n) as [L|G]; [rewrite (IH k) by lia; reflexivity|]. unfold srow. rewrite Z.testbit_neg_r by lia. apply andb_false_r.
Qed.
Lemma sobol_rows_ok : rows_ok p e srow.
Proof using PD E1 MR MB.
  split; [exact PD|]. split; [exact E1|]. split.
  - intros b j. rewrite (Nat.div_mod b e) at 2 by lia. rewrite (Nat.mul_comm e). cbn [gpow]. rewrite act_gm. rewrite (act_ext p _ (srow (b mod e))); [|intro i; apply srow_pow].
    apply srow_low. apply Nat.mod_upper_bound. lia.
  - intros q f H u Hu. apply (srow_tri e); [|exact Hu|exact Hu]. clear u Hu. intro j. rewrite <- (H j), act_lin. unfold lin. apply xsum_ext. intros u Hu. rewrite srow_pow. reflexivity.
Qed.
End Sobol.

(* ---- Niederreiter ---- *)
(* the sum of f u x^u for u < n *)
Fixpoint gpoly (n : nat) (f : nat -> bool) : N := match n with O => 0%N | S k => gpoly k f (+) (if f k then X k else 0%N) end.
Lemma gpoly_coef : forall n f k, coef (gpoly n f) k = if k <? n then f k else false.
Proof.
  induction n as [|n IH]; intros f k; [apply coef_0|]. cbn [gpoly]. rewrite coef_xor, IH.
  assert (E : coef (if f n then X n else 0%N) k = (k =? n) && f k). { destruct (Nat.eqb_spec k n) as [->|N]; destruct (f n) eqn:F; cbn [andb]; rewrite ?coef_X, ?coef_0, ?F, ?Nat.eqb_refl; try reflexivity. apply Nat.eqb_neq. exact N. }
  rewrite E. destruct (Nat.ltb_spec k n), (Nat.eqb_spec k n), (Nat.ltb_spec k (S n)); try lia; cbn [andb]; destruct (f k); reflexivity.
Qed.
Lemma gpoly_act : forall n f s j, act (gpoly n f) s j = xsum n (fun u => f u && s (j + u)).
Proof.
  induction n as [|n IH]; intros f s j; [reflexivity|]. cbn [gpoly xsum]. rewrite act_xor, IH. f_equal. destruct (f n); [apply act_X|reflexivity].
Qed.

Section Nied.
Variables (p : N) (e : nat) (V : nat -> nat -> bool).
Hypothesis PI : irreducible p.
Hypothesis PD : has_deg p e.
Hypothesis VZ : forall q r, r < q * e -> V q r = false.
Hypothesis V1 : forall q r, q * e <= r -> r < S q * e -> V q r = true.
Hypothesis VA : forall q, ann (gpow p (S q)) (V q).
Definition nrow (b j : nat) : bool := V (b / e) (j + b mod e).

Lemma nied_rows_ok : rows_ok p e nrow.
Proof using PI PD VZ V1 VA.
  assert (E1 : 1 <= e). { destruct e as [|k]; [|lia]. apply has_deg_0 in PD. destruct PI as [G _]. rewrite PD in G. exfalso. revert G. apply N.lt_irrefl. }
  split; [exact PD|]. split; [exact E1|]. split.
  - intros b j. rewrite (act_ext _ _ (act (X (b mod e)) (V (b / e)))) by (intro i; symmetry; apply act_X).
    rewrite <- act_gm, gm_comm, act_gm. apply act_zero. apply VA.
  - intros q f H.
    assert (HG : ann (gpoly e f) (act (gpow p q) (V q))).
    { intro j. rewrite <- act_gm, gm_comm, act_gm. rewrite <- (H j). apply act_ext. intro i. rewrite gpoly_act. unfold lin. apply xsum_ext. intros u Hu. f_equal. unfold nrow.
      rewrite Nat.div_add_l by lia. rewrite (Nat.div_small u e) by lia. rewrite Nat.add_0_r. rewrite (Nat.add_comm (q * e) u), Nat.mod_add by lia. rewrite Nat.mod_small by lia. reflexivity. }
    assert (Y0 : act (gpow p q) (V q) 0 = true).
    { destruct (gpow_deg p e q PD) as [C D]. rewrite (act_sum _ _ _ _ D), (xsum_single (S (q * e)) _ (q * e)); [|lia|].
      - rewrite C. cbn [andb Nat.add]. apply V1; lia.
      - intros k Hk N. cbn [Nat.add]. rewrite VZ by lia. apply andb_false_r. }
    assert (YP : ann p (act (gpow p q) (V q))). { intro j. rewrite <- act_gm. apply VA. }
    destruct (N.eq_dec (gpoly e f) 0) as [G0|GN].
    + intros u Hu. pose proof (gpoly_coef e f u) as K. rewrite G0, coef_0 in K. destruct (Nat.ltb_spec u e); [symmetry; exact K|lia].
    + exfalso. assert (ND : ~ gdvd p (gpoly e f)).
      { intros [c Ec]. assert (c <> 0%N). { intros ->. apply GN. rewrite Ec. reflexivity. }
        pose proof (has_deg_gm _ _ _ _ (has_deg_log c H0) PD) as K. rewrite <- Ec in K. assert (deg_lt (gpoly e f) e). { intros k Hk. rewrite gpoly_coef. destruct (Nat.ltb_spec k e); [lia|reflexivity]. }
        pose proof (has_deg_lt _ _ _ K H1). lia. }
      pose proof (coprime_ann _ _ _ (irr_coprime p _ PI ND) HG YP 0) as K. rewrite Y0 in K. discriminate K.
Qed.
End Nied.

(* the infinite sequence of the recurrence of P, of degree D, with 0 before kj and
   1 from kj to D-1 *)
Definition vnext (P : N) (D kj : nat) (r : nat) (v : nat -> bool) : bool :=
  if r <? kj then false else if r <? D then true else xsum D (fun k => coef P k && v (r + k - D)).
Definition vseq (P : N) (D kj : nat) : nat -> bool := cv false (vnext P D kj).
Lemma vseq_eq : forall P D kj r, vseq P D kj r = vnext P D kj r (vseq P D kj).
Proof.
  intros P D kj r. apply cv_eq. intros j m m' H. unfold vnext. destruct (j <? kj); [reflexivity|]. destruct (Nat.ltb_spec j D); [reflexivity|].
  apply xsum_ext. intros k Hk. rewrite H by lia. reflexivity.
Qed.
Lemma vseq_ann : forall P D kj, has_deg P D -> kj <= D -> ann P (vseq P D kj).
Proof.
  intros P D kj [C HD] L j. rewrite (act_sum _ _ _ _ HD). cbn [xsum]. rewrite C. cbn [andb]. rewrite (vseq_eq P D kj (j + D)). unfold vnext.
  destruct (Nat.ltb_spec (j + D) kj); [lia|]. destruct (Nat.ltb_spec (j + D) D); [lia|].
  rewrite <- xsum_xor. apply xsum_false. intros k Hk. replace (j + D + k - D) with (j + k) by lia. destruct (coef P k && vseq P D kj (j + k)); reflexivity.
Qed.

(* the infinite sequence of Sobol numbers *)
Definition mnext (poly : Z) (e : nat) (init : nat -> Z) (j : nat) (m : nat -> Z) : Z := if j <? e then init j else s_next poly e j m.
Definition mseq (poly : Z) (e : nat) (init : nat -> Z) : nat -> Z := cv 0%Z (mnext poly e init).
Lemma mseq_eq : forall poly e init j, 1 <= e -> mseq poly e init j = mnext poly e init j (mseq poly e init).
Proof.
  intros poly e init j He. apply cv_eq. intros i m m' H. unfold mnext. destruct (Nat.ltb_spec i e); [reflexivity|]. apply s_next_ext; [lia|exact H].
Qed.
Lemma mseq_ob : forall poly e init, 1 <= e -> odd_bounded init e -> forall n, odd_bounded (mseq poly e init) n.
Proof.
  intros poly e init He HI. induction n as [|n IH]; intros k Hk; [lia|]. destruct (Nat.eq_dec k n) as [->|N]; [|apply IH; lia].
  rewrite mseq_eq by exact He. unfold mnext. destruct (Nat.ltb_spec n e) as [L|G]; [apply HI; exact L|]. apply s_next_ob; [lia|exact IH].
Qed.
