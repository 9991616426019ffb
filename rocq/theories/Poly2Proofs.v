(* Arrays of digits; addition and shifted addition. *)
From Coq Require Import NArith Ring.
From Verif Require Import Base PolyModel PolySpec PolyProofs.
Open Scope nat_scope.
Open Scope gf_scope.
Ltac Zify.zify_post_hook ::= idtac.

Definition at_ (l : list N) (i : nat) : N := nth i l 0%N.

Lemma rd_at : forall l i, i < length l -> rd l i = Some (at_ l i).
Proof. intros l i H. unfold rd, at_. apply nth_error_nth'. exact H. Qed.
Lemma wr_at : forall l i v, i < length l ->
  exists l', wr l i v = Some l' /\ length l' = length l /\ at_ l' i = v /\ (forall j, j <> i -> at_ l' j = at_ l j).
Proof.
  induction l as [|h t IH]; intros i v H; [cbn in H; lia|]. destruct i as [|i].
  - exists (v :: t). cbn. repeat split. intros [|j] Hj; [lia|reflexivity].
  - cbn in H. destruct (IH i v ltac:(lia)) as (t' & E & EL & EV & EO). exists (h :: t'). cbn [wr]. rewrite E. cbn [bind].
    repeat split; [cbn; lia|exact EV|]. intros [|j] Hj; [reflexivity|]. cbn. apply EO. lia.
Qed.
Lemma at_out : forall l i, length l <= i -> at_ l i = 0%N.
Proof. intros. apply nth_overflow. assumption. Qed.

Lemma floop_gen : forall S (I : nat -> S -> Prop) body n i s,
  I i s -> (forall k t, i <= k < i + n -> I k t -> exists t', body k t = Some t' /\ I (Datatypes.S k) t') ->
  exists s', floop body i n s = Some s' /\ I (i + n) s'.
Proof.
  intros S I body n. induction n as [|n IH]; intros i s H0 HS.
  - exists s. rewrite Nat.add_0_r. split; [reflexivity|exact H0].
  - cbn [floop]. destruct (HS i s ltac:(lia) H0) as (s1 & E1 & I1). rewrite E1. cbn [bind].
    destruct (IH (Datatypes.S i) s1 I1) as (s' & E' & I').
    + intros k t Hk. apply HS. lia.
    + exists s'. split; [exact E'|]. replace (i + Datatypes.S n) with (Datatypes.S i + n) by lia. exact I'.
Qed.
Lemma floop_inv : forall S (I : nat -> S -> Prop) body n s,
  I 0 s -> (forall k t, k < n -> I k t -> exists t', body k t = Some t' /\ I (Datatypes.S k) t') ->
  exists s', floop body 0 n s = Some s' /\ I n s'.
Proof.
  intros S I body n s H0 HS. destruct (floop_gen S I body n 0 s H0) as (s' & E & I'); [intros; apply HS; [lia|assumption]|].
  exists s'. split; assumption.
Qed.

Section Arr.
Variable W : nat.

Definition dg (l : list N) : Prop := forall i, deg_lt (at_ l i) W.
(* l[o] + l[o+1] x^W + ... *)
Fixpoint reg (l : list N) (o n : nat) : N :=
  match n with O => 0%N | S k => reg l o k (+) X (W * k) (x) at_ l (o + k) end.

Lemma reg_ext : forall l l' o o' n, (forall i, i < n -> at_ l (o + i) = at_ l' (o' + i)) -> reg l o n = reg l' o' n.
Proof. intros l l' o o' n. induction n as [|n IH]; intro H; [reflexivity|]. cbn [reg]. rewrite IH, H by (intros; try apply H; lia). reflexivity. Qed.
Lemma reg_split : forall l o a b, reg l o (a + b) = reg l o a (+) X (W * a) (x) reg l (o + a) b.
Proof.
  intros l o a b. induction b as [|b IH].
  - rewrite Nat.add_0_r. cbn [reg]. rewrite gm_0_r. symmetry. apply xor_0_r.
  - rewrite Nat.add_succ_r. cbn [reg]. rewrite IH. replace (W * (a + b)) with (W * a + W * b) by lia. rewrite X_add.
    replace (o + (a + b)) with (o + a + b) by lia. ring.
Qed.
Lemma reg_deg : forall l o n, dg l -> deg_lt (reg l o n) (W * n).
Proof.
  intros l o n H. induction n as [|n IH]; [apply deg_0|]. cbn [reg]. apply deg_xor.
  - apply (deg_mono _ _ _ IH). lia.
  - apply (deg_mono _ (W * n + W)); [apply deg_Xm; apply H|lia].
Qed.
Lemma reg_0 : forall l o n, (forall i, o <= i < o + n -> at_ l i = 0%N) -> reg l o n = 0%N.
Proof. intros l o n. induction n as [|n IH]; intro H; [reflexivity|]. cbn [reg]. rewrite IH, H by (intros; try apply H; lia). rewrite gm_0_r. reflexivity. Qed.
Lemma reg_beyond : forall l o n, length l <= o -> reg l o n = 0%N.
Proof. intros. apply reg_0. intros. apply at_out. lia. Qed.
Lemma reg_first : forall l o, reg l o 1 = at_ l o.
Proof. intros. cbn [reg]. rewrite Nat.mul_0_r, X0, gm_1_l, xor_0_l, Nat.add_0_r. reflexivity. Qed.

(* only l[o..o+n) changes *)
Definition frame (l l' : list N) (o n : nat) : Prop :=
  length l' = length l /\ (forall i, i < o \/ o + n <= i -> at_ l' i = at_ l i) /\ (dg l -> dg l').

Lemma frame_refl : forall l o n, frame l l o n.
Proof. intros. repeat split; auto. Qed.
Lemma frame_trans : forall l l' l'' o n, frame l l' o n -> frame l' l'' o n -> frame l l'' o n.
Proof. intros l l' l'' o n (A1 & A2 & A3) (B1 & B2 & B3). repeat split; [congruence| |auto]. intros i Hi. rewrite B2, A2 by exact Hi. reflexivity. Qed.
Lemma frame_sub : forall l l' o n o' n', frame l l' o n -> o' <= o -> o + n <= o' + n' -> frame l l' o' n'.
Proof. intros l l' o n o' n' (A1 & A2 & A3) H1 H2. repeat split; auto. intros i Hi. apply A2. lia. Qed.
Lemma frame_reg : forall l l' o n o' n', frame l l' o n -> o' + n' <= o \/ o + n <= o' -> reg l' o' n' = reg l o' n'.
Proof. intros l l' o n o' n' (A1 & A2 & A3) H. apply reg_ext. intros i Hi. apply A2. lia. Qed.
(* adding into a part *)
Lemma reg_sub : forall l l' o n i k v, frame l l' (o + i) k -> i + k <= n ->
  reg l' (o + i) k = reg l (o + i) k (+) v -> reg l' o n = reg l o n (+) X (W * i) (x) v.
Proof.
  intros l l' o n i k v F L E. replace n with (i + (k + (n - i - k))) by lia. rewrite !reg_split.
  rewrite (frame_reg _ _ _ _ o i F) by lia. rewrite (frame_reg _ _ _ _ (o + i + k) (n - i - k) F) by lia. rewrite E. ring.
Qed.
Lemma wr_frame : forall l i v, i < length l -> deg_lt v W ->
  exists l', wr l i v = Some l' /\ frame l l' i 1 /\ at_ l' i = v.
Proof.
  intros l i v H Hv. destruct (wr_at l i v H) as (l' & E & EL & EV & EO). exists l'. split; [exact E|]. split; [|exact EV].
  split; [exact EL|]. split; [intros j Hj; apply EO; lia|]. intros Hd j. destruct (Nat.eq_dec j i) as [->|NE]; [rewrite EV; exact Hv|].
  rewrite EO by exact NE. apply Hd.
Qed.

(* the array as a whole *)
Lemma reg_cons : forall h t o n, reg (h :: t) (S o) n = reg t o n.
Proof. intros. apply reg_ext. intros. reflexivity. Qed.
Lemma pval_reg : forall l, pval W l = reg l 0 (length l).
Proof.
  induction l as [|h t IH]; [reflexivity|]. cbn [pval length]. change (S (length t)) with (1 + length t). rewrite reg_split, reg_first. cbn [plus].
  rewrite reg_cons, IH, shl_X, Nat.mul_1_r. reflexivity.
Qed.
Lemma at_part : forall l o n i, i < n -> at_ (part l o n) i = at_ l (o + i).
Proof.
  intros l o n i H. unfold part, at_. 
  assert (E: forall m (x : list N), i < m -> nth i (firstn m x) 0%N = nth i x 0%N).
  { clear. intros m x. revert m i. induction x as [|h t IH]; intros m i H; [rewrite firstn_nil; reflexivity|]. destruct m; [lia|]. destruct i; [reflexivity|]. cbn. apply IH. lia. }
  rewrite E by exact H. clear. revert l. induction o as [|o IH]; intro l; [reflexivity|]. destruct l as [|h t]; [destruct i, o; reflexivity|]. cbn. apply IH.
Qed.
Lemma part_length : forall l o n, o + n <= length l -> length (part l o n) = n.
Proof. intros. unfold part. rewrite firstn_length, skipn_length. lia. Qed.
Lemma pval_part : forall l o n, o + n <= length l -> pval W (part l o n) = reg l o n.
Proof.
  intros l o n H. rewrite pval_reg, part_length by exact H. apply reg_ext. intros i Hi. cbn [plus]. apply at_part. exact Hi.
Qed.
Lemma dg_digits : forall l, digits W l <-> dg l.
Proof.
  intros l. unfold digits, dg. rewrite Forall_forall. split.
  - intros H i. destruct (Nat.lt_ge_cases i (length l)) as [L|L]; [|rewrite at_out by exact L; apply deg_0].
    apply deg_iff. apply H. apply nth_In. exact L.
  - intros H d Hd. destruct (In_nth l d 0%N Hd) as (i & _ & <-). apply deg_iff. apply H.
Qed.

(* ---- digits ---- *)
Lemma dshl_ok : forall x s, s < W -> dshl W x s = Some (trunc W (N.shiftl x (N.of_nat s))).
Proof. intros. unfold dshl. destruct (Nat.ltb_spec s W); [reflexivity|lia]. Qed.
Lemma dshr_ok : forall x s, s < W -> dshr W x s = Some (N.shiftr x (N.of_nat s)).
Proof. intros. unfold dshr. destruct (Nat.ltb_spec s W); [reflexivity|lia]. Qed.
Lemma trunc_deg : forall x, deg_lt (trunc W x) W.
Proof. intros. apply deg_mod. Qed.
Lemma shr_deg : forall x s d, deg_lt x (s + d) -> deg_lt (N.shiftr x (N.of_nat s)) d.
Proof. intros x s d H k Hk. rewrite coef_shr. apply H. lia. Qed.
(* carry *)
Lemma shl_carry : forall x s, s <= W -> deg_lt x W ->
  X s (x) x = trunc W (N.shiftl x (N.of_nat s)) (+) X W (x) N.shiftr x (N.of_nat (W - s)).
Proof.
  intros x s Hs Hx. apply coef_ext. intro k. rewrite coef_xor, !coef_Xm. unfold trunc. rewrite coef_mod, coef_shl, coef_shr.
  destruct (Nat.ltb_spec k W), (Nat.ltb_spec k s); try lia; rewrite ?xorb_false_r, ?xorb_false_l; try reflexivity. f_equal. lia.
Qed.
Lemma or_xor : forall a b, (forall k, coef a k && coef b k = false) -> N.lor a b = a (+) b.
Proof. intros a b H. apply coef_ext. intro k. rewrite coef_or, coef_xor. specialize (H k). destruct (coef a k), (coef b k); try discriminate; reflexivity. Qed.
Lemma carry_or : forall x y s, s <= W -> deg_lt y W ->
  N.lor (trunc W (N.shiftl x (N.of_nat s))) (N.shiftr y (N.of_nat (W - s))) =
  trunc W (N.shiftl x (N.of_nat s)) (+) N.shiftr y (N.of_nat (W - s)).
Proof.
  intros x y s Hs Hy. apply or_xor. intro k. unfold trunc. rewrite coef_mod, coef_shl, coef_shr.
  destruct (Nat.ltb_spec k s) as [L|L]; [destruct (k <? W); reflexivity|]. rewrite (Hy (k + (W - s))) by lia. apply andb_false_r.
Qed.
Lemma and_deg_l : forall a b d, deg_lt a d -> deg_lt (N.land a b) d.
Proof. intros a b d H k Hk. rewrite coef_and, H by exact Hk. reflexivity. Qed.
Lemma bit_test : forall d j, j < W -> (N.land d (trunc W (N.shiftl 1 (N.of_nat j))) =? 0)%N = negb (coef d j).
Proof.
  intros d j Hj. assert (E: trunc W (N.shiftl 1 (N.of_nat j)) = X j). { unfold trunc. apply mod_deg. apply deg_X. exact Hj. } rewrite E.
  destruct (N.eqb_spec (N.land d (X j)) 0) as [Z|NZ].
  - assert (C: coef (N.land d (X j)) j = false) by (rewrite Z; apply coef_0). rewrite coef_and, coef_X, Nat.eqb_refl, andb_true_r in C. rewrite C. reflexivity.
  - destruct (coef d j) eqn:C; [reflexivity|]. exfalso. apply NZ. apply coef_ext. intro k. rewrite coef_0, coef_and, coef_X.
    destruct (Nat.eqb_spec k j) as [->|]; [rewrite C; reflexivity|apply andb_false_r].
Qed.
Lemma bit_mask : forall j, j < W -> trunc W (N.shiftl 1 (N.of_nat j)) = X j.
Proof. intros j Hj. unfold trunc. apply mod_deg. apply deg_X. exact Hj. Qed.

(* ---- add ---- *)
Lemma add_to_ok : forall size src so out oo, so + size <= length src -> oo + size <= length out -> dg src -> dg out ->
  exists out', add_to size src so out oo = Some out' /\ frame out out' oo size /\
    reg out' oo size = reg out oo size (+) reg src so size.
Proof.
  intros size src so out oo Hs Ho Ds Do. unfold add_to.
  destruct (floop_inv (list N) (fun i o => frame out o oo i /\ reg o oo i = reg out oo i (+) reg src so i)
    (fun i out => a <- rd src (so + i);; b <- rd out (oo + i);; wr out (oo + i) (N.lxor a b)) size out) as (o & E & F & R).
  - split; [apply frame_refl|reflexivity].
  - intros k o Hk (F & R). destruct F as (F1 & F2 & F3).
    rewrite rd_at by lia. cbn [bind]. rewrite rd_at by lia. cbn [bind].
    destruct (wr_frame o (oo + k) (at_ src (so + k) (+) at_ o (oo + k)) ltac:(lia)) as (o' & E & G & V).
    { apply deg_xor; [apply Ds|apply F3; exact Do]. }
    exists o'. split; [exact E|]. split.
    + apply (frame_trans _ o); [apply (frame_sub _ _ oo k); [repeat split; assumption|lia|lia]|]. apply (frame_sub _ _ (oo + k) 1); [exact G|lia|lia].
    + cbn [reg]. rewrite (frame_reg _ _ _ _ oo k G) by lia. rewrite V, R, (F2 (oo + k)) by lia. ring.
  - exists o. auto.
Qed.
Lemma add3_ok : forall size lhs lo rhs ro out oo, lo + size <= length lhs -> ro + size <= length rhs -> oo + size <= length out -> dg lhs -> dg rhs ->
  exists out', add3 size lhs lo rhs ro out oo = Some out' /\ frame out out' oo size /\
    reg out' oo size = reg lhs lo size (+) reg rhs ro size.
Proof.
  intros size lhs lo rhs ro out oo Hl Hr Ho Dl Dr. unfold add3.
  destruct (floop_inv (list N) (fun i o => frame out o oo i /\ reg o oo i = reg lhs lo i (+) reg rhs ro i)
    (fun i out => a <- rd lhs (lo + i);; b <- rd rhs (ro + i);; wr out (oo + i) (N.lxor a b)) size out) as (o & E & F & R).
  - split; [apply frame_refl|reflexivity].
  - intros k o Hk (F & R). destruct F as (F1 & F2 & F3).
    rewrite rd_at by lia. cbn [bind]. rewrite rd_at by lia. cbn [bind].
    destruct (wr_frame o (oo + k) (at_ lhs (lo + k) (+) at_ rhs (ro + k)) ltac:(lia)) as (o' & E & G & V).
    { apply deg_xor; [apply Dl|apply Dr]. }
    exists o'. split; [exact E|]. split.
    + apply (frame_trans _ o); [apply (frame_sub _ _ oo k); [repeat split; assumption|lia|lia]|]. apply (frame_sub _ _ (oo + k) 1); [exact G|lia|lia].
    + cbn [reg]. rewrite (frame_reg _ _ _ _ oo k G) by lia. rewrite V, R. ring.
  - exists o. auto.
Qed.
Lemma fill0_ok : forall n out oo, oo + n <= length out ->
  exists out', fill0 n out oo = Some out' /\ frame out out' oo n /\ (forall i, oo <= i < oo + n -> at_ out' i = 0%N).
Proof.
  intros n out oo Ho. unfold fill0.
  destruct (floop_inv (list N) (fun i o => frame out o oo i /\ (forall j, oo <= j < oo + i -> at_ o j = 0%N))
    (fun i out => wr out (oo + i) 0%N) n out) as (o & E & F & R).
  - split; [apply frame_refl|intros; lia].
  - intros k o Hk (F & R). destruct F as (F1 & F2 & F3).
    destruct (wr_frame o (oo + k) 0%N ltac:(lia) (deg_0 _)) as (o' & E & G & V).
    exists o'. split; [exact E|]. split.
    + apply (frame_trans _ o); [apply (frame_sub _ _ oo k); [repeat split; assumption|lia|lia]|]. apply (frame_sub _ _ (oo + k) 1); [exact G|lia|lia].
    + intros j Hj. destruct (Nat.eq_dec j (oo + k)) as [->|NE]; [exact V|]. destruct G as (_ & G & _). rewrite G by lia. apply R. lia.
  - exists o. auto.
Qed.

(* ---- add_shifted_inplace ---- *)
Lemma add_shifted_ok : forall size lhs lo out oo s, s < W -> lo + size <= length lhs ->
  oo + size + (if s =? 0 then 0 else 1) <= length out -> dg lhs -> dg out ->
  exists out', add_shifted W size lhs lo out oo s = Some out' /\ frame out out' oo (size + 1) /\
    reg out' oo (size + 1) = reg out oo (size + 1) (+) X s (x) reg lhs lo size.
Proof.
  intros size lhs lo out oo s Hs Hl Ho Dl Do. unfold add_shifted. destruct (Nat.eqb_spec s 0) as [->|NZ].
  - destruct (add_to_ok size lhs lo out oo Hl ltac:(lia) Dl Do) as (o & E & F & R). exists o. split; [exact E|]. split; [apply (frame_sub _ _ oo size); [exact F|lia|lia]|].
    rewrite !reg_split, R. rewrite (frame_reg _ _ _ _ (oo + size) 1 F) by lia. rewrite X0. ring.
  - destruct (floop_inv (list N * N) (fun i st => frame out (fst st) oo i /\ deg_lt (snd st) W /\
        reg (fst st) oo i (+) X (W * i) (x) N.shiftr (snd st) (N.of_nat (W - s)) = reg out oo i (+) X s (x) reg lhs lo i)
      (fun i s0 => tmp <- rd lhs (lo + i);; h <- dshl W tmp s;; l <- dshr W (snd s0) (W - s);; b <- rd (fst s0) (oo + i);;
         out <- wr (fst s0) (oo + i) (N.lxor b (N.lor h l));; Some (out, tmp)) size (out, 0%N)) as ((o & pv) & E & F & P & R).
    + cbn [fst snd reg]. split; [apply frame_refl|]. split; [apply deg_0|]. rewrite N.shiftr_0_l, !gm_0_r. reflexivity.
    + intros k (o & pv) Hk (F & P & R). cbn [fst snd] in *. destruct F as (F1 & F2 & F3).
      rewrite rd_at by lia. cbn [bind]. rewrite dshl_ok by lia. cbn [bind]. rewrite dshr_ok by lia. cbn [bind]. rewrite rd_at by lia. cbn [bind].
      rewrite carry_or by (try exact P; lia).
      destruct (wr_frame o (oo + k) (at_ o (oo + k) (+) (trunc W (N.shiftl (at_ lhs (lo + k)) (N.of_nat s)) (+) N.shiftr pv (N.of_nat (W - s)))) ltac:(lia)) as (o' & E & G & V).
      { apply deg_xor; [apply F3; exact Do|]. apply deg_xor; [apply trunc_deg|]. apply shr_deg. apply (deg_mono _ _ _ P). lia. }
      rewrite E. cbn [bind]. exists (o', at_ lhs (lo + k)). split; [reflexivity|]. cbn [fst snd]. split; [|split].
      * apply (frame_trans _ o); [apply (frame_sub _ _ oo k); [repeat split; assumption|lia|lia]|]. apply (frame_sub _ _ (oo + k) 1); [exact G|lia|lia].
      * apply Dl.
      * cbn [reg]. rewrite (frame_reg _ _ _ _ oo k G) by lia. rewrite V, (F2 (oo + k)) by lia.
        replace (W * S k) with (W * k + W) by lia. rewrite X_add. 
        pose proof (shl_carry (at_ lhs (lo + k)) s ltac:(lia) (Dl _)) as C. 
        transitivity ((reg o oo k (+) X (W * k) (x) N.shiftr pv (N.of_nat (W - s))) (+) X (W * k) (x) at_ out (oo + k) (+)
          X (W * k) (x) (trunc W (N.shiftl (at_ lhs (lo + k)) (N.of_nat s)) (+) X W (x) N.shiftr (at_ lhs (lo + k)) (N.of_nat (W - s)))); [ring|].
        rewrite <- C, R. ring.
    + rewrite E. cbn [bind fst snd] in *. rewrite dshr_ok by lia. cbn [bind]. destruct F as (F1 & F2 & F3). rewrite rd_at by lia. cbn [bind].
      destruct (wr_frame o (oo + size) (at_ o (oo + size) (+) N.shiftr pv (N.of_nat (W - s))) ltac:(lia)) as (o' & E' & G & V).
      { apply deg_xor; [apply F3; exact Do|]. apply shr_deg. apply (deg_mono _ _ _ P). lia. }
      exists o'. split; [exact E'|]. split.
      * apply (frame_trans _ o); [apply (frame_sub _ _ oo size); [repeat split; assumption|lia|lia]|]. apply (frame_sub _ _ (oo + size) 1); [exact G|lia|lia].
      * rewrite !reg_split, !reg_first, (frame_reg _ _ _ _ oo size G), V, (F2 (oo + size)) by lia.
        transitivity ((reg o oo size (+) X (W * size) (x) N.shiftr pv (N.of_nat (W - s))) (+) X (W * size) (x) at_ out (oo + size)); [ring|].
        rewrite R. ring.
Qed.
End Arr.
