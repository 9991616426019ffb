(* Polynomials acting on sequences of bits; the polynomial of the recurrence. *)
From Coq Require Import NArith Ring.
From Verif Require Import Base PolySpec PolyProofs MtJumpSpec.
Open Scope nat_scope.
Open Scope gf_scope.
Ltac Zify.zify_post_hook ::= idtac.

(* ---- the action: x^l takes s to the sequence l places later ---- *)
Fixpoint pact (q : positive) (s : nat -> bool) (j : nat) : bool :=
  match q with
  | xH => s j
  | xO q => pact q s (S j)
  | xI q => xorb (s j) (pact q s (S j))
  end.
Definition act (q : N) (s : nat -> bool) (j : nat) : bool :=
  match q with N0 => false | Npos q => pact q s j end.

Lemma act_double : forall q s j, act (N.double q) s j = act q s (S j).
Proof. intros [|q] s j; reflexivity. Qed.
Lemma act_sd : forall q s j, act (N.succ_double q) s j = xorb (s j) (act q s (S j)).
Proof. intros [|q] s j; [symmetry; apply xorb_false_r|reflexivity]. Qed.
Lemma act_ext : forall q s t j, (forall i, s i = t i) -> act q s j = act q t j.
Proof.
  intros [|q] s t j H; [reflexivity|]. cbn [act]. revert j. induction q as [q IH|q IH|]; intro j; cbn [pact]; [rewrite H, IH; reflexivity|apply IH|apply H].
Qed.
Lemma act_sum : forall d q s j, deg_lt q d -> act q s j = xsum d (fun l => coef q l && s (j + l)).
Proof.
  induction d as [|d IH]; intros q s j H; [rewrite (deg_zero q H); reflexivity|]. rewrite xsum_head.
  destruct q as [|q _|q _] using N.binary_ind.
  - rewrite xsum_false by (intros; rewrite coef_0; reflexivity). rewrite coef_0. reflexivity.
  - rewrite act_double, coef_double0, (IH q). 2:{ intros k Hk. rewrite <- coef_double. apply H. lia. }
    cbn [andb]. rewrite xorb_false_l. apply xsum_ext. intros i _. rewrite coef_double. do 2 f_equal. lia.
  - rewrite act_sd, (IH q). 2:{ intros k Hk. rewrite <- coef_double. rewrite <- (H (S k)) by lia. rewrite sd_xor, coef_xor, coef_1. symmetry. apply xorb_false_l. }
    f_equal; [rewrite sd_xor, coef_xor, coef_double0, Nat.add_0_r; reflexivity|]. apply xsum_ext. intros i _. rewrite sd_xor, coef_xor, coef_1, coef_double. rewrite xorb_false_l. do 2 f_equal. lia.
Qed.
Lemma deg_exists : forall a, exists d, deg_lt a d.
Proof. intro a. exists (N.to_nat (N.size a)). apply deg_iff. rewrite N2Nat.id. apply N.size_gt. Qed.
Lemma act_xor : forall a b s j, act (a (+) b) s j = xorb (act a s j) (act b s j).
Proof.
  intros a b s j. destruct (deg_exists a) as [d Hd]. destruct (deg_exists b) as [e He].
  assert (Da: deg_lt a (d + e)) by (apply (deg_mono _ _ _ Hd); lia). assert (Db: deg_lt b (d + e)) by (apply (deg_mono _ _ _ He); lia).
  rewrite (act_sum (d + e) (a (+) b)), (act_sum (d + e) a), (act_sum (d + e) b) by (try apply deg_xor; assumption). rewrite <- xsum_xor. apply xsum_ext. intros i _. rewrite coef_xor.
  destruct (coef a i), (coef b i), (s (j + i)); reflexivity.
Qed.
Lemma act_gm : forall a b s j, act (a (x) b) s j = act a (act b s) j.
Proof.
  intros a. induction a as [|a IH|a IH] using N.binary_ind; intros b s j.
  - reflexivity.
  - rewrite gm_double_l, !act_double. apply IH.
  - rewrite gm_sd_l, act_xor, act_double, act_sd, IH. reflexivity.
Qed.
Lemma act_X : forall k s j, act (X k) s j = s (j + k).
Proof. induction k as [|k IH]; intros s j; [rewrite Nat.add_0_r; reflexivity|]. rewrite XS, act_double, IH. f_equal. lia. Qed.
Lemma act_shl : forall q k s j, act (N.shiftl q (N.of_nat k)) s j = act q s (j + k).
Proof. intros. rewrite shl_X, act_gm, act_X. reflexivity. Qed.
Lemma act_zero : forall q s, (forall j, s j = false) -> forall j, act q s j = false.
Proof.
  intros q s H j. rewrite (act_ext q s (fun _ => false) j H). destruct q as [|q]; [reflexivity|]. cbn [act]. revert j.
  induction q as [q IH|q IH|]; intro j; cbn [pact]; [rewrite IH; reflexivity|apply IH|reflexivity].
Qed.
(* congruent polynomials act alike on a sequence killed by the modulus *)
Lemma act_cong : forall m a b s, congruent m a b -> (forall j, act m s j = false) -> forall j, act a s j = act b s j.
Proof.
  intros m a b s (q & c & H & E) Z j. apply product_gm in H. subst c.
  assert (F: act (a (+) b) s j = false). { rewrite E, act_gm. apply act_zero. exact Z. }
  rewrite act_xor in F. destruct (act a s j), (act b s j); try reflexivity; discriminate.
Qed.

(* ---- leading terms ---- *)
(* degree e, and s is the coefficient of degree e - 1 *)
Definition lead (s : bool) (c : N) (e : nat) : Prop := coef c e = true /\ deg_lt c (e + 1) /\ forall i, i + 1 = e -> coef c i = s.
Definition adj (n m : nat) : bool := m + 1 =? n.
Lemma lead_step : forall s c e n m t, (e = 0 -> s = false) -> lead s c e -> m < n -> deg_lt t (n - 1) ->
  lead (xorb s (adj n m)) (N.lxor (N.lxor (N.shiftl c (N.of_nat n)) (N.shiftl c (N.of_nat m))) t) (n + e).
Proof.
  intros s c e n m t H0 (H1 & H2 & H3) Hn Ht. split; [|split].
  - rewrite !coef_xor, !coef_shl. destruct (Nat.ltb_spec (n + e) n); [lia|]. destruct (Nat.ltb_spec (n + e) m); [lia|].
    replace (n + e - n) with e by lia. rewrite H1, (H2 (n + e - m)), Ht by lia. reflexivity.
  - intros k Hk. rewrite !coef_xor, !coef_shl. destruct (Nat.ltb_spec k n); [lia|]. destruct (Nat.ltb_spec k m); [lia|]. rewrite !H2, Ht by lia. reflexivity.
  - intros i Hi. rewrite !coef_xor, !coef_shl. rewrite Ht by lia. destruct (Nat.ltb_spec i m); [lia|]. unfold adj.
    assert (A: coef c (i - m) = (m + 1 =? n)). { destruct (Nat.eqb_spec (m + 1) n); [replace (i - m) with e by lia; exact H1|apply H2; lia]. } rewrite A.
    destruct (Nat.ltb_spec i n); [rewrite H0 by lia|rewrite H3 by lia]; destruct (m + 1 =? n); try reflexivity; apply xorb_false_r.
Qed.
Definition need0 (n r b : nat) : nat := if b <? r then b * (n - 1) else (r - 1) * (n - 1) + (b - r + 1) * n.
Lemma adj_S : forall n m, 1 <= m -> m < n -> adj (n - 1) (m - 1) = adj n m.
Proof. intros n m H1 H2. unfold adj. destruct (Nat.eqb_spec (m - 1 + 1) (n - 1)), (Nat.eqb_spec (m + 1) n); try reflexivity; lia. Qed.
Lemma bit_poly_lead : forall n m r a b, 2 <= m -> m < n -> 1 <= r -> lead (Nat.odd b && adj n m) (bit_poly n m r a b) (need0 n r b) /\ (need0 n r b = 0 -> Nat.odd b && adj n m = false).
Proof.
  intros n m r a b Hm Hn Hr. induction b as [|b [IH IZ]].
  - split; [|reflexivity]. unfold need0. destruct (Nat.ltb_spec 0 r); [|lia]. split; [reflexivity|]. split; [apply (deg_X 0); lia|]. intros i Hi. lia.
  - assert (OD: Nat.odd (S b) && adj n m = xorb (Nat.odd b && adj n m) (adj n m)). { rewrite Nat.odd_succ, <- Nat.negb_odd. destruct (Nat.odd b), (adj n m); reflexivity. } rewrite OD.
    cbn [bit_poly]. unfold need0 in *. destruct (Nat.ltb_spec (S b) r) as [L|L].
    + destruct (Nat.ltb_spec b r); [|lia]. replace (S b * (n - 1)) with (n - 1 + b * (n - 1)) by lia. split; [|intro EZ; exfalso; apply Nat.eq_add_0 in EZ; lia].
      rewrite <- (adj_S n m) at 2 by lia. apply lead_step; [exact IZ|exact IH|lia|].
      destruct (a b); [apply (deg_X 0); lia|apply deg_0].
    + replace ((r - 1) * (n - 1) + (S b - r + 1) * n) with (n + (if b <? r then b * (n - 1) else (r - 1) * (n - 1) + (b - r + 1) * n)).
      * split; [|intro EZ; exfalso; apply Nat.eq_add_0 in EZ; lia]. apply lead_step; [exact IZ|exact IH|lia|]. destruct (a b); [apply (deg_X 1); lia|apply deg_0].
      * destruct (Nat.ltb_spec b r); [replace (S b - r + 1) with 1 by lia; replace (r - 1) with b by lia; lia|]. replace (S b - r + 1) with (S (b - r + 1)) by lia. lia.
Qed.
