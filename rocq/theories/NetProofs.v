(* Counting the points that satisfy independent linear conditions. *)
From Coq Require Import NArith.
From Verif Require Import Base QrngSpec BitsProofs Qrng2Proofs PolySpec PolyProofs NetSpec.
Open Scope Z_scope.
Ltac Zify.zify_post_hook ::= idtac.

(* the linear form with coefficients c, of a number given by its bits *)
Definition psi (c : nat -> bool) (w : nat) (g : Z) : bool := xsum w (fun j => Z.testbit g (Z.of_nat j) && c j).
Definition phi (c : nat -> bool) (w : nat) (n : Z) : bool := psi c w (gray n).
Definition cxor (c c' : nat -> bool) (j : nat) : bool := xorb (c j) (c' j).

Lemma psi_lxor : forall c w g h, psi c w (Z.lxor g h) = xorb (psi c w g) (psi c w h).
Proof. intros. unfold psi. rewrite <- xsum_xor. apply xsum_ext. intros i _. rewrite Z.lxor_spec. destruct (Z.testbit g _), (Z.testbit h _), (c i); reflexivity. Qed.
Lemma psi_cxor : forall c c' w g, psi (cxor c c') w g = xorb (psi c w g) (psi c' w g).
Proof. intros. unfold psi. rewrite <- xsum_xor. apply xsum_ext. intros i _. unfold cxor. destruct (Z.testbit g _), (c i), (c' i); reflexivity. Qed.
Lemma psi_pow : forall c w k, psi c w (2 ^ Z.of_nat k) = if (k <? w)%nat then c k else false.
Proof.
  intros c w k. unfold psi. assert (T : forall i, Z.testbit (2 ^ Z.of_nat k) (Z.of_nat i) = (i =? k)%nat).
  { intros i. rewrite Z.pow2_bits_eqb by lia. destruct (Nat.eqb_spec i k) as [->|N]; [apply Z.eqb_refl|]. apply Z.eqb_neq. lia. }
  induction w as [|w IH]; [reflexivity|]. cbn [xsum]. rewrite IH, T. destruct (Nat.eqb_spec w k) as [->|N].
  - rewrite Nat.ltb_irrefl. destruct (Nat.ltb_spec k (S k)); [|lia]. destruct (c k); reflexivity.
  - destruct (Nat.ltb_spec k w), (Nat.ltb_spec k (S w)); try lia; cbn [andb]; apply xorb_false_r.
Qed.

(* the coefficients with respect to the bits of n *)
Definition dif (c : nat -> bool) (k : nat) : bool := xorb (c k) (match k with O => false | S i => c i end).
Lemma gray_pow : forall k, gray (2 ^ Z.of_nat k) = match k with O => 1 | S i => Z.lxor (2 ^ Z.of_nat k) (2 ^ Z.of_nat i) end.
Proof.
  intros [|i]; [reflexivity|]. unfold gray. rewrite Nat2Z.inj_succ, Z.pow_succ_r by lia. f_equal. rewrite Z.mul_comm. apply Z.div_mul. lia.
Qed.
Lemma phi_flip : forall c w n k, (k < w)%nat -> phi c w (Z.lxor n (2 ^ Z.of_nat k)) = xorb (phi c w n) (dif c k).
Proof.
  intros c w n k Hk. unfold phi. rewrite gray_lxor, psi_lxor. f_equal. rewrite gray_pow. unfold dif. destruct k as [|i].
  - change 1 with (2 ^ Z.of_nat 0). rewrite psi_pow. destruct (Nat.ltb_spec 0 w); [|lia]. symmetry. apply xorb_false_r.
  - rewrite psi_lxor, !psi_pow. destruct (Nat.ltb_spec (S i) w), (Nat.ltb_spec i w); try lia. reflexivity.
Qed.
Lemma dif_nz : forall c m, (exists j, (j < m)%nat /\ c j = true) -> exists j, (j < m)%nat /\ dif c j = true.
Proof.
  intros c. induction m as [|m IH]; intros (j & Hj & Hc); [lia|].
  destruct (existsb c (seq 0 m)) eqn:E.
  - apply existsb_exists in E. destruct E as (i & Hi & E). apply in_seq in Hi. destruct IH as (k & Hk & K); [exists i; split; [lia|exact E]|]. exists k. split; [lia|exact K].
  - assert (Z : forall i, (i < m)%nat -> c i = false). { intros i Hi. destruct (c i) eqn:Ei; [|reflexivity]. exfalso. assert (existsb c (seq 0 m) = true) by (apply existsb_exists; exists i; split; [apply in_seq; lia|exact Ei]). congruence. }
    assert (j = m) as ->. { destruct (Nat.eq_dec j m); [assumption|]. rewrite Z in Hc by lia. discriminate. }
    exists m. split; [lia|]. unfold dif. rewrite Hc. destruct m as [|i]; [reflexivity|]. rewrite Z by lia. reflexivity.
Qed.

(* ---- sums over a block ---- *)
Fixpoint ssum (f : Z -> Z) (m : nat) (base : Z) : Z :=
  match m with O => f base | S k => ssum f k base + ssum f k (base + 2 ^ Z.of_nat k) end.
Lemma ssum_ext : forall m f g base, (forall n, base <= n < base + 2 ^ Z.of_nat m -> f n = g n) -> ssum f m base = ssum g m base.
Proof.
  induction m as [|m IH]; intros f g base H; cbn [ssum].
  - apply H. change (2 ^ Z.of_nat 0) with 1. lia.
  - rewrite Nat2Z.inj_succ, Z.pow_succ_r in H by lia. assert (0 < 2 ^ Z.of_nat m) by (apply Z.pow_pos_nonneg; lia).
    rewrite (IH f g base), (IH f g (base + 2 ^ Z.of_nat m)) by (intros; apply H; lia). reflexivity.
Qed.
Lemma ssum_shift : forall m f base a, ssum f m (base + a) = ssum (fun n => f (n + a)) m base.
Proof.
  induction m as [|m IH]; intros f base a; cbn [ssum]; [reflexivity|]. rewrite <- !IH. f_equal. f_equal. lia.
Qed.
Lemma ssum_lin : forall m f g a b base, ssum (fun n => a * f n + b * g n) m base = a * ssum f m base + b * ssum g m base.
Proof. induction m as [|m IH]; intros f g a b base; cbn [ssum]; [reflexivity|]. rewrite !IH. lia. Qed.
Lemma ssum_one : forall m base, ssum (fun _ => 1) m base = 2 ^ Z.of_nat m.
Proof. induction m as [|m IH]; intros base; cbn [ssum]; [reflexivity|]. rewrite !IH, Nat2Z.inj_succ, Z.pow_succ_r by lia. lia. Qed.
Lemma ssum_neg : forall m f base, ssum (fun n => - f n) m base = - ssum f m base.
Proof. induction m as [|m IH]; intros f base; cbn [ssum]; [reflexivity|]. rewrite !IH. lia. Qed.
Lemma zcount_ssum : forall m f base, zcount f m base = ssum (fun n => if f n then 1 else 0) m base.
Proof. induction m as [|m IH]; intros f base; cbn [ssum zcount]; [reflexivity|]. rewrite !IH. reflexivity. Qed.

Definition sg (b : bool) : Z := if b then -1 else 1.
Lemma sg_xor : forall a b, sg (xorb a b) = sg a * sg b.
Proof. intros [] []; reflexivity. Qed.

Lemma flip_add : forall n l m, 0 <= l -> l * 2 ^ Z.of_nat (S m) <= n < l * 2 ^ Z.of_nat (S m) + 2 ^ Z.of_nat m -> n + 2 ^ Z.of_nat m = Z.lxor n (2 ^ Z.of_nat m).
Proof.
  intros n l m Hl H. assert (P : 0 < 2 ^ Z.of_nat m) by (apply Z.pow_pos_nonneg; lia). apply Z.add_nocarry_lxor.
  assert (B : Z.testbit n (Z.of_nat m) = false).
  { assert (E : n / 2 ^ Z.of_nat m = 2 * l). { symmetry. apply (Z.div_unique _ _ _ (n - l * 2 ^ Z.of_nat (S m))); rewrite Nat2Z.inj_succ, Z.pow_succ_r in * by lia; lia. }
    rewrite <- (Z.add_0_l (Z.of_nat m)), <- Z.shiftr_spec, Z.shiftr_div_pow2, E, Z.testbit_even_0 by lia. reflexivity. }
  apply Z.bits_inj'. intros i Hi. rewrite Z.land_spec, Z.testbit_0_l, Z.pow2_bits_eqb by lia. destruct (Z.eqb_spec (Z.of_nat m) i) as [<-|N]; [rewrite B; reflexivity|apply andb_false_r].
Qed.

Lemma ssum_cancel : forall c w m l, (m <= w)%nat -> 0 <= l -> (exists j, (j < m)%nat /\ dif c j = true) ->
  ssum (fun n => sg (phi c w n)) m (l * 2 ^ Z.of_nat m) = 0.
Proof.
  intros c w. induction m as [|m IH]; intros l Hm Hl (j & Hj & HD); [lia|]. cbn [ssum].
  assert (E2 : l * 2 ^ Z.of_nat (S m) + 2 ^ Z.of_nat m = (2 * l + 1) * 2 ^ Z.of_nat m) by (rewrite Nat2Z.inj_succ, Z.pow_succ_r by lia; lia).
  assert (E1 : l * 2 ^ Z.of_nat (S m) = (2 * l) * 2 ^ Z.of_nat m) by (rewrite Nat2Z.inj_succ, Z.pow_succ_r by lia; lia).
  destruct (Nat.eq_dec j m) as [->|N].
  - rewrite ssum_shift, (ssum_ext m (fun n => sg (phi c w (n + 2 ^ Z.of_nat m))) (fun n => - sg (phi c w n))); [rewrite ssum_neg; lia|].
    intros n Hn. rewrite (flip_add n l m Hl Hn), phi_flip, HD by lia. rewrite sg_xor. cbn [sg]. lia.
  - rewrite E2, E1, !IH; try lia; try (exists j; split; [lia|exact HD]); lia.
Qed.

Section Block.
Variables (w m : nat) (l : Z).
Hypothesis Hm : (m <= w)%nat.
Hypothesis Hl : 0 <= l.
Let base := l * 2 ^ Z.of_nat m.
Definition nz (c : nat -> bool) : Prop := exists j, (j < m)%nat /\ c j = true.
Definition conds (cs : list ((nat -> bool) * bool)) (n : Z) : bool := forallb (fun ct => eqb (phi (fst ct) w n) (snd ct)) cs.
Definition ssig (cs : list ((nat -> bool) * bool)) (c : nat -> bool) : Z := ssum (fun n => if conds cs n then sg (phi c w n) else 0) m base.
Definition scnt (cs : list ((nat -> bool) * bool)) : Z := ssum (fun n => if conds cs n then 1 else 0) m base.

Lemma cond_split : forall c t n x, 2 * (if eqb (phi c w n) t then x else 0) = x + sg t * (sg (phi c w n) * x).
Proof. intros. destruct (phi c w n), t; cbn [eqb sg]; lia. Qed.
Lemma ssig_cons : forall c t cs c', 2 * ssig ((c, t) :: cs) c' = ssig cs c' + sg t * ssig cs (cxor c' c).
Proof.
  intros c t cs c'. unfold ssig. transitivity (2 * ssum (fun n => if conds ((c, t) :: cs) n then sg (phi c' w n) else 0) m base + 0 * ssum (fun _ => 1) m base); [lia|].
  rewrite <- ssum_lin. rewrite <- (Z.mul_1_l (ssum (fun n => if conds cs n then sg (phi c' w n) else 0) m base)), <- ssum_lin. apply ssum_ext. intros n _.
  cbn [conds forallb fst snd]. fold (conds cs n). unfold phi at 4. rewrite psi_cxor. fold (phi c' w n) (phi c w n). rewrite sg_xor.
  pose proof (cond_split c t n (if conds cs n then sg (phi c' w n) else 0)) as K. destruct (eqb (phi c w n) t), (conds cs n); cbn [andb]; lia.
Qed.
Lemma scnt_cons : forall c t cs, 2 * scnt ((c, t) :: cs) = scnt cs + sg t * ssig cs c.
Proof.
  intros c t cs. unfold ssig, scnt. transitivity (2 * ssum (fun n => if conds ((c, t) :: cs) n then 1 else 0) m base + 0 * ssum (fun _ => 1) m base); [lia|].
  rewrite <- ssum_lin. rewrite <- (Z.mul_1_l (ssum (fun n => if conds cs n then 1 else 0) m base)), <- ssum_lin. apply ssum_ext. intros n _.
  cbn [conds forallb fst snd]. fold (conds cs n). 
  pose proof (cond_split c t n (if conds cs n then 1 else 0)) as K. destruct (eqb (phi c w n) t), (conds cs n); cbn [andb]; lia.
Qed.

(* c plus any combination of the forms of cs is not 0 *)
Fixpoint indep (cs : list ((nat -> bool) * bool)) (c : nat -> bool) : Prop :=
  match cs with
  | [] => nz c
  | (c1, _) :: r => indep r c /\ indep r (cxor c c1)
  end.
Fixpoint free (cs : list ((nat -> bool) * bool)) : Prop :=
  match cs with [] => True | (c, _) :: r => indep r c /\ free r end.

Lemma indep_ssig : forall cs c, indep cs c -> ssig cs c = 0.
Proof using Hm Hl.
  induction cs as [|[c1 t] cs IH]; intros c H; cbn [indep] in H.
  - unfold ssig, conds. cbn [forallb]. apply ssum_cancel; [exact Hm|exact Hl|apply dif_nz; exact H].
  - destruct H as [H1 H2]. pose proof (ssig_cons c1 t cs c) as K. rewrite (IH c H1), (IH _ H2) in K. lia.
Qed.
Lemma free_count : forall cs, free cs -> 2 ^ Z.of_nat (length cs) * scnt cs = 2 ^ Z.of_nat m.
Proof using Hm Hl.
  induction cs as [|[c t] cs IH]; intros H.
  - unfold scnt, conds. cbn [forallb length]. rewrite ssum_one. lia.
  - destruct H as [H1 H2]. cbn [length]. rewrite Nat2Z.inj_succ, Z.pow_succ_r by lia. pose proof (scnt_cons c t cs) as K. rewrite (indep_ssig cs c H1) in K. rewrite <- (IH H2). 
    replace (2 * 2 ^ Z.of_nat (length cs) * scnt ((c, t) :: cs)) with (2 ^ Z.of_nat (length cs) * (2 * scnt ((c, t) :: cs))) by lia. rewrite K. f_equal. lia.
Qed.

(* ---- forms given by an index ---- *)
Variable I : Type.
Hypothesis Ieq : forall x y : I, {x = y} + {x <> y}.
Variable row : I -> nat -> bool.
Variable target : I -> bool.
Fixpoint comb (idx : list I) (f : I -> bool) (j : nat) : bool :=
  match idx with [] => false | p :: r => xorb (f p && row p j) (comb r f j) end.
Definition free_idx (idx : list I) : Prop := forall f, (forall j, (j < m)%nat -> comb idx f j = false) -> forall p, In p idx -> f p = false.

Lemma comb_ext : forall idx f g j, (forall p, In p idx -> f p = g p) -> comb idx f j = comb idx g j.
Proof. clear. induction idx as [|p r IH]; intros f g j H; [reflexivity|]. cbn [comb]. rewrite (H p) by (left; reflexivity). rewrite (IH f g) by (intros; apply H; right; assumption). reflexivity. Qed.
Lemma indep_intro : forall idx c, NoDup idx -> (forall f, nz (cxor c (comb idx f))) -> indep (map (fun p => (row p, target p)) idx) c.
Proof using Ieq.
  clear Hm Hl base. induction idx as [|p r IH]; intros c ND H; cbn [map indep].
  - destruct (H (fun _ => false)) as (j & Hj & K). exists j. split; [exact Hj|]. unfold cxor in K. cbn [comb] in K. rewrite xorb_false_r in K. exact K.
  - inversion_clear ND as [|? ? NI ND']. assert (X : forall b f j, comb (p :: r) (fun q => if Ieq q p then b else f q) j = xorb (b && row p j) (comb r f j)).
    { intros b f j. cbn [comb]. destruct (Ieq p p); [|contradiction]. f_equal. apply comb_ext. intros q Hq. destruct (Ieq q p); [subst; contradiction|reflexivity]. }
    split; apply IH; try assumption; intros f.
    + destruct (H (fun q => if Ieq q p then false else f q)) as (j & Hj & K). exists j. split; [exact Hj|]. unfold cxor in *. rewrite X in K. cbn [andb] in K. rewrite xorb_false_l in K. exact K.
    + destruct (H (fun q => if Ieq q p then true else f q)) as (j & Hj & K). exists j. split; [exact Hj|]. unfold cxor in *. rewrite X in K. cbn [andb] in K. rewrite xorb_assoc. exact K.
Qed.
Lemma free_intro : forall idx, NoDup idx -> free_idx idx -> free (map (fun p => (row p, target p)) idx).
Proof using Ieq.
  clear Hm Hl base. induction idx as [|p r IH]; intros ND H; [exact Logic.I|]. inversion_clear ND as [|? ? NI ND']. cbn [map free].
  assert (X : forall b f j, comb (p :: r) (fun q => if Ieq q p then b else f q) j = xorb (b && row p j) (comb r f j)).
  { intros b f j. cbn [comb]. destruct (Ieq p p); [|contradiction]. f_equal. apply comb_ext. intros q Hq. destruct (Ieq q p); [subst; contradiction|reflexivity]. }
  split.
  - apply indep_intro; [exact ND'|]. intros f. 
    destruct (existsb (cxor (row p) (comb r f)) (seq 0 m)) eqn:E.
    + apply existsb_exists in E. destruct E as (j & Hj & E). apply in_seq in Hj. exists j. split; [lia|exact E].
    + exfalso. specialize (H (fun q => if Ieq q p then true else f q)).
      assert (Z : forall j, (j < m)%nat -> comb (p :: r) (fun q => if Ieq q p then true else f q) j = false).
      { intros j Hj. rewrite X. cbn [andb]. destruct (xorb (row p j) (comb r f j)) eqn:Q; [|reflexivity]. exfalso.
        assert (existsb (cxor (row p) (comb r f)) (seq 0 m) = true) by (apply existsb_exists; exists j; split; [apply in_seq; lia|exact Q]). congruence. }
      specialize (H Z p (or_introl eq_refl)). cbn beta in H. destruct (Ieq p p); [discriminate|contradiction].
  - apply IH; [exact ND'|]. intros f Z q Hq. specialize (H (fun q => if Ieq q p then false else f q)).
    assert (Z' : forall j, (j < m)%nat -> comb (p :: r) (fun q => if Ieq q p then false else f q) j = false).
    { intros j Hj. rewrite X. cbn [andb]. rewrite xorb_false_l. apply Z. exact Hj. }
    specialize (H Z' q (or_intror Hq)). cbn beta in H. destruct (Ieq q p); [subst; contradiction|exact H].
Qed.
End Block.
