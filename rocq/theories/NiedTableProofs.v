(* The polynomials of the table are irreducible, and different from each other. *)
From Coq Require Import NArith Ring.
From Verif Require Import Base PolySpec PolyProofs NetSpec Gf2Proofs NiedTable.
Open Scope nat_scope.
Open Scope gf_scope.
Ltac Zify.zify_post_hook ::= idtac.

(* the irreducible polynomials of degree at most 7 *)
Definition small : list N := [2; 3; 7; 11; 13; 19; 25; 31; 37; 41; 47; 55; 59; 61; 67; 73; 87; 91; 97; 103; 109; 115; 117; 131; 137; 143; 145; 157;
  167; 171; 185; 191; 193; 203; 211; 213; 229; 239; 241; 247; 253]%N.
Definition irr_check (p : N) : bool := forallb (fun s => (s =? p)%N || negb (gmod s p =? 0)%N) small.
Definition small_check (a : N) : bool := existsb (fun s => (gmod s a =? 0)%N) small.

Lemma small_big : Forall (fun s => (1 < s)%N) small.
Proof. repeat constructor. Qed.
Lemma small_ok : forallb (fun k => small_check (N.of_nat k)) (seq 2 254) = true.
Proof. vm_compute. reflexivity. Qed.
Lemma small_factor : forall a, (1 < a < 256)%N -> exists s, In s small /\ gdvd s a.
Proof.
  intros a Ha. pose proof small_ok as K. rewrite forallb_forall in K. specialize (K (N.to_nat a) ltac:(apply in_seq; lia)). rewrite N2Nat.id in K.
  unfold small_check in K. apply existsb_exists in K. destruct K as (s & I & E). apply N.eqb_eq in E. exists s. split; [exact I|].
  pose proof small_big as B. rewrite Forall_forall in B. apply gmod_gdvd; [apply B; exact I|exact E].
Qed.
Lemma big_deg : forall a, a <> 0%N -> a <> 1%N -> 1 <= N.to_nat (N.log2 a).
Proof. intros a H0 H1. assert (0 < N.log2 a)%N by (apply N.log2_pos; lia). lia. Qed.
Lemma irr_check_ok : forall p, (1 < p < 65536)%N -> irr_check p = true -> irreducible p.
Proof.
  intros p Hp C. split; [lia|]. intros a b P. apply product_gm in P.
  destruct (N.eq_dec a 1) as [->|Na]; [left; reflexivity|]. destruct (N.eq_dec b 1) as [->|Nb]; [right; reflexivity|]. exfalso.
  assert (Za : a <> 0%N). { intros ->. cbn in P. lia. }
  assert (Zb : b <> 0%N). { intros ->. rewrite gm_0_r in P. lia. }
  assert (K : forall a b, p = a (x) b -> a <> 0%N -> a <> 1%N -> b <> 0%N -> b <> 1%N -> (a < 256)%N -> False).
  { clear a b P Na Nb Za Zb. intros a b P Za Na Zb Nb L. destruct (small_factor a) as (s & I & D); [lia|].
    pose proof small_big as B. rewrite Forall_forall in B. specialize (B s I).
    unfold irr_check in C. rewrite forallb_forall in C. specialize (C s I). apply orb_true_iff in C. destruct C as [C|C].
    - apply N.eqb_eq in C. subst s. destruct D as (q & D). pose proof (big_deg b Zb Nb).
      pose proof (has_deg_gm _ _ _ _ (has_deg_log a Za) (has_deg_log b Zb)) as H1. rewrite <- P in H1.
      assert (Zq : q <> 0%N). { intros ->. cbn in D. contradiction. }
      pose proof (has_deg_gm _ _ _ _ (has_deg_log q Zq) H1) as H2. rewrite <- D in H2. pose proof (has_deg_uniq _ _ _ H2 (has_deg_log a Za)). lia.
    - apply negb_true_iff, N.eqb_neq in C. apply C. apply gdvd_gmod; [exact B|]. apply (gdvd_trans s a p D). exists b. rewrite P. ring. }
  destruct (N.lt_ge_cases a 256) as [L|L]; [exact (K a b P Za Na Zb Nb L)|].
  destruct (N.lt_ge_cases b 256) as [L'|L']; [apply (K b a); try assumption; rewrite P; ring|].
  pose proof (has_deg_gm _ _ _ _ (has_deg_log a Za) (has_deg_log b Zb)) as H1. rewrite <- P in H1.
  assert (DP : deg_lt p 16) by (apply deg_iff; change (2 ^ N.of_nat 16)%N with 65536%N; lia). pose proof (has_deg_lt _ _ _ H1 DP).
  assert (8 <= N.log2 a)%N by (apply N.log2_le_pow2; [lia|exact L]). assert (8 <= N.log2 b)%N by (apply N.log2_le_pow2; [lia|exact L']). lia.
Qed.

Fixpoint increasing (a : N) (l : list N) : bool := match l with [] => true | b :: r => (a <? b)%N && increasing b r end.
Lemma increasing_nth : forall l a, increasing a l = true -> forall i, i < length l -> (a < nth i l 0)%N /\ forall j, i < j < length l -> (nth i l 0 < nth j l 0)%N.
Proof.
  induction l as [|b l IH]; intros a H i Hi; [cbn in Hi; lia|]. cbn [increasing] in H. apply andb_true_iff in H. destruct H as [H1 H2]. apply N.ltb_lt in H1. cbn [length] in *. destruct i as [|i]; cbn [nth].
  - split; [exact H1|]. intros [|j] Hj; [lia|]. apply (IH b H2 j). lia.
  - destruct (IH b H2 i ltac:(lia)) as [K1 K2]. split; [lia|]. intros [|j] Hj; [lia|]. apply K2. lia.
Qed.

Lemma nied_length : length nied_polys = Z.to_nat 4720.
Proof. vm_compute. reflexivity. Qed.
Lemma nied_increasing : increasing 1 nied_polys = true.
Proof. vm_compute. reflexivity. Qed.
Lemma nied_small : forallb (fun p => (p <? 65536)%N) nied_polys = true.
Proof. vm_compute. reflexivity. Qed.
Lemma nied_irr_check : forallb irr_check nied_polys = true.
Proof. vm_compute. reflexivity. Qed.

Lemma nied_range : forall p, In p nied_polys -> (1 < p < 65536)%N.
Proof.
  intros p I. pose proof nied_small as K. rewrite forallb_forall in K. specialize (K p I). apply N.ltb_lt in K.
  apply (In_nth _ _ 0%N) in I. destruct I as (i & Hi & <-). pose proof (proj1 (increasing_nth _ _ nied_increasing i Hi)). lia.
Qed.
Lemma nied_irreducible : forall p, In p nied_polys -> irreducible p.
Proof. intros p I. apply irr_check_ok; [apply nied_range; exact I|]. pose proof nied_irr_check as K. rewrite forallb_forall in K. apply K. exact I. Qed.
Lemma nied_distinct : forall i j, i < length nied_polys -> j < length nied_polys -> i <> j -> nth i nied_polys 0%N <> nth j nied_polys 0%N.
Proof.
  intros i j Hi Hj N E. destruct (Nat.lt_total i j) as [L|[L|L]]; [|contradiction|].
  - pose proof (proj2 (increasing_nth _ _ nied_increasing i Hi) j ltac:(lia)) as K. rewrite E in K. lia.
  - pose proof (proj2 (increasing_nth _ _ nied_increasing j Hj) i ltac:(lia)) as K. rewrite E in K. lia.
Qed.

(* ---- nothing is missing: every other number below 65536 has a factor of degree <= 7 ---- *)
Fixpoint has_factor (n : N) (l : list N) : bool :=
  match l with [] => false | s :: r => if (s <? n)%N then (if (gmod s n =? 0)%N then true else has_factor n r) else false end.
Definition reducible (n : N) : bool := if (n <? 2)%N then true else has_factor n small.
Lemma has_factor_ok : forall n l, has_factor n l = true -> exists s, In s l /\ (s < n)%N /\ gmod s n = 0%N.
Proof.
  intros n l. induction l as [|s l IH]; intros H; cbn [has_factor] in H; [discriminate H|]. destruct (N.ltb_spec s n) as [L|_]; [|discriminate H]. destruct (N.eqb_spec (gmod s n) 0) as [E|_].
  - exists s. split; [left; reflexivity|]. split; assumption.
  - destruct (IH H) as (t & T1 & T2). exists t. split; [right; exact T1|exact T2].
Qed.
Definition chk1 (n : N) (l : list N) : option (list N) :=
  match l with
  | p :: r => if (p =? n)%N then Some r else if reducible n then Some l else None
  | [] => if reducible n then Some l else None
  end.
Fixpoint chk (k : nat) (base : N) (l : list N) : option (list N) :=
  match k with
  | O => chk1 base l
  | S k => match chk k base l with Some l' => chk k (base + 2 ^ N.of_nat k)%N l' | None => None end
  end.
Lemma chk_ok : forall k base l l', chk k base l = Some l' -> (exists a, l = a ++ l') /\ forall n, (base <= n < base + 2 ^ N.of_nat k)%N -> reducible n = true \/ In n l.
Proof.
  induction k as [|k IH]; intros base l l' H; cbn [chk] in H.
  - assert (K : (exists a, l = a ++ l') /\ (reducible base = true \/ In base l)).
    { unfold chk1 in H. destruct l as [|p r].
      - destruct (reducible base); [|discriminate H]. injection H as <-. split; [exists []; reflexivity|left; reflexivity].
      - destruct (N.eqb_spec p base) as [->|N]; [injection H as <-; split; [exists [base]; reflexivity|right; left; reflexivity]|].
        destruct (reducible base); [|discriminate H]. injection H as <-. split; [exists []; reflexivity|left; reflexivity]. }
    destruct K as [K1 K2]. split; [exact K1|]. intros n Hn. change (2 ^ N.of_nat 0)%N with 1%N in Hn. replace n with base by lia. exact K2.
  - destruct (chk k base l) as [l1|] eqn:E; [|discriminate H]. destruct (IH _ _ _ E) as [[a A] B]. destruct (IH _ _ _ H) as [[a' A'] B']. split; [exists (a ++ a'); rewrite A, A', app_assoc; reflexivity|].
    intros n Hn. rewrite Nat2N.inj_succ, N.pow_succ_r' in Hn. destruct (N.lt_ge_cases n (base + 2 ^ N.of_nat k)) as [L|G]; [apply B; lia|].
    destruct (B' n ltac:(lia)) as [R|I]; [left; exact R|right; rewrite A; apply in_or_app; right; exact I].
Qed.
Lemma nied_chk : match chk 16 0 nied_polys with Some _ => true | None => false end = true.
Proof. vm_compute. reflexivity. Qed.
Lemma small_gt1 : forallb (fun s => (1 <? s)%N) small = true.
Proof. vm_compute. reflexivity. Qed.
Lemma reducible_not : forall n, reducible n = true -> ~ irreducible n.
Proof.
  intros n R [G I]. unfold reducible in R. destruct (N.ltb_spec n 2); [lia|]. apply has_factor_ok in R. destruct R as (s & Is & R1 & R2). pose proof small_gt1 as S1. rewrite forallb_forall in S1. specialize (S1 s Is). apply N.ltb_lt in S1.
  destruct (gmod_gdvd s n S1 R2) as [q Q]. destruct (I q s) as [A|A]; [apply product_gm; exact Q| |lia]. rewrite A, gm_1_l in Q. lia.
Qed.
Lemma nied_complete : forall p, (p < 65536)%N -> irreducible p -> In p nied_polys.
Proof.
  intros p L I. pose proof nied_chk as K. destruct (chk 16 0 nied_polys) as [l|] eqn:E; [|discriminate K]. destruct (chk_ok _ _ _ _ E) as [_ B].
  destruct (B p) as [R|H]; [change (2 ^ N.of_nat 16)%N with 65536%N; lia| |exact H]. exfalso. exact (reducible_not p R I).
Qed.
