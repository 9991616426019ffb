(* qrng_base.hpp: positions *)
From Verif Require Import Base NumProofs UIntProofs QrngSpec QrngModel.
Ltac Zify.zify_post_hook ::= idtac.

(* call as seen from outside *)
Definition vcall {L V} Ws (d : dops L V) (e : qeng L V) : option (qeng L V * V) :=
  match q_call Ws d e with Ret e' v => Some (e', v) | _ => None end.

(* the engine at point n, element c, when the lattice and state vector of point n are pt n *)
Definition at_ {L V} (pt : Z -> L * list V) (n c : Z) : qeng L V := Qe c n (fst (pt n)) (snd (pt n)).

(* the functions of the derived class implement the sequence pt of points 0..last *)
Definition derived_ok {L V} (Ws : Z) (d : dops L V) (D last : Z) (pt : Z -> L * list V) : Prop :=
  1 <= D < 2 ^ 63 /\ 0 < Ws <= 64 /\ 0 <= last < 2 ^ Ws /\
  (forall n, 0 <= n <= last -> Z.of_nat (length (snd (pt n))) = D) /\
  (forall n c, 0 <= n -> n + 1 <= last ->
     d_comp d (at_ pt n c) (n + 1) = Ret (Qe c n (fst (pt (n + 1))) (snd (pt (n + 1)))) tt) /\
  (forall c, last + 1 < 2 ^ Ws -> d_comp d (at_ pt last c) (last + 1) = Thr (at_ pt last c)) /\
  (forall n m c, 0 <= n <= last -> 0 <= m <= last -> d_seed d (at_ pt n c) m = Ret (at_ pt m 0) tt) /\
  (forall n m c, 0 <= n <= last -> last < m < 2 ^ Ws -> d_seed d (at_ pt n c) m = Thr (at_ pt n c)).

Lemma load_ok : forall L V (pt : Z -> L * list V) n c v, 0 <= c < Z.of_nat (length (snd (pt n))) ->
  load_cached (at_ pt n c) = Ret (at_ pt n (c + 1)) (nth (Z.to_nat c) (snd (pt n)) v).
Proof.
  intros L V pt n c v Hc. unfold load_cached, at_. cbn [q_curr q_seq q_lat q_st].
  destruct (Z.ltb_spec c 0); [lia|]. rewrite (nth_error_nth' (snd (pt n)) v) by lia. reflexivity.
Qed.

Lemma blk : forall D a b r, 0 < r <= D -> (a <=? b) = (a * D + r <=? (b + 1) * D).
Proof.
  intros D a b r Hr. destruct (Z.leb_spec a b), (Z.leb_spec (a * D + r) ((b + 1) * D)); try reflexivity; exfalso.
  - assert (a * D <= b * D) by (apply Z.mul_le_mono_nonneg_r; lia). lia.
  - assert ((b + 1) * D <= a * D) by (apply Z.mul_le_mono_nonneg_r; lia). lia.
Qed.

Section Base.
Context {L V : Type} (Ws : Z) (d : dops L V) (D last : Z) (pt : Z -> L * list V) (v0 : V).
Hypothesis HD : derived_ok Ws d D last pt.

(* the value at position p of the stream *)
Definition value (p : Z) : V := nth (Z.to_nat (p mod D)) (snd (pt (p / D))) v0.

Lemma q_dim_at : forall n c, 0 <= n <= last -> q_dim (at_ pt n c) = D.
Proof using HD. intros n c Hn. destruct HD as (_ & _ & _ & H & _). unfold q_dim, at_. cbn [q_st]. apply H. exact Hn. Qed.

Lemma call_in : forall n c, 0 <= n <= last -> 0 <= c < D ->
  q_call Ws d (at_ pt n c) = Ret (at_ pt n (c + 1)) (value (n * D + c)).
Proof using HD.
  intros n c Hn Hc. unfold q_call. rewrite q_dim_at by exact Hn. cbn [at_ q_curr]. destruct (Z.eqb_spec c D); [lia|].
  fold (at_ pt n c). destruct HD as (_ & _ & _ & H & _).
  rewrite (load_ok _ _ pt n c v0) by (rewrite H; assumption). f_equal. unfold value.
  replace (n * D + c) with (c + n * D) by ring. rewrite Z.mod_add, Z.div_add by lia. rewrite Z.mod_small, Z.div_small by lia. reflexivity.
Qed.

Lemma call_next : forall n, 0 <= n < last -> q_call Ws d (at_ pt n D) = Ret (at_ pt (n + 1) 1) (value (n * D + D)).
Proof using HD.
  intros n Hn. unfold q_call. rewrite q_dim_at by lia. cbn [at_ q_curr]. rewrite Z.eqb_refl.
  fold (at_ pt n D). unfold next_state. cbn [at_ q_seq]. fold (at_ pt n D).
  destruct HD as (D0 & D1 & D2 & D3 & D4 & _).
  rewrite wrap_small by lia. destruct (Z.ltb_spec n (n + 1)); [|lia]. rewrite D4 by lia.
  unfold reset_seq. cbn [q_lat q_st]. fold (at_ pt (n + 1) 0).
  rewrite (load_ok _ _ pt (n + 1) 0 v0) by (rewrite D3; lia). f_equal. unfold value.
  replace (n * D + D) with (0 + (n + 1) * D) by ring. rewrite Z.mod_add, Z.div_add by lia. rewrite Z.mod_small, Z.div_small by lia. reflexivity.
Qed.

Lemma call_end : q_call Ws d (at_ pt last D) = Thr (at_ pt last D).
Proof using HD.
  destruct HD as (D0 & D1 & D2 & D3 & D4 & D5 & _).
  unfold q_call. rewrite q_dim_at by lia. cbn [at_ q_curr]. rewrite Z.eqb_refl.
  fold (at_ pt last D). unfold next_state. cbn [at_ q_seq]. fold (at_ pt last D).
  destruct (Z.eq_dec (last + 1) (2 ^ Ws)) as [E|E].
  - unfold wrap. rewrite E, Z.mod_same by lia. destruct (Z.ltb_spec last 0); [lia|reflexivity].
  - rewrite wrap_small by lia. destruct (Z.ltb_spec last (last + 1)); [|lia]. rewrite D5 by lia. reflexivity.
Qed.

(* positions: p = n D + c *)
Definition ends : Z := (last + 1) * D.
Lemma pos_pred : forall n c, 0 <= n -> 1 <= c <= D -> (n * D + c - 1) / D = n /\ (n * D + c - 1) mod D + 1 = c.
Proof using HD.
  intros n c Hn Hc. destruct HD as (D0 & _). replace (n * D + c - 1) with ((c - 1) + n * D) by ring.
  rewrite Z.div_add, Z.mod_add by lia. rewrite Z.div_small, Z.mod_small by lia. lia.
Qed.

(* the state after at least one call, at position p *)
Definition after (p : Z) : qeng L V := at_ pt ((p - 1) / D) ((p - 1) mod D + 1).

Lemma vcall_ok : forall n c, 0 <= n <= last -> 0 <= c <= D -> n * D + c < ends ->
  vcall Ws d (at_ pt n c) = Some (after (n * D + c + 1), value (n * D + c)).
Proof using HD.
  intros n c Hn Hc Hp. destruct HD as (D0 & _). unfold vcall, after. replace (n * D + c + 1 - 1) with (n * D + c) by ring.
  destruct (Z.eq_dec c D) as [->|Nc].
  - assert (n < last) by (unfold ends in Hp; nia). rewrite call_next by lia. f_equal. f_equal.
    replace (n * D + D) with (0 + (n + 1) * D) by ring. rewrite Z.div_add, Z.mod_add by lia. rewrite Z.div_small, Z.mod_small by lia. reflexivity.
  - rewrite call_in by lia. f_equal. f_equal. replace (n * D + c) with (c + n * D) by ring.
    rewrite Z.div_add, Z.mod_add by lia. rewrite Z.div_small, Z.mod_small by lia. reflexivity.
Qed.

Lemma vcall_end : vcall Ws d (at_ pt last D) = None.
Proof using HD. unfold vcall. rewrite call_end. reflexivity. Qed.

Lemma after_pos : forall p, 1 <= p <= ends -> exists n c, after p = at_ pt n c /\ 0 <= n <= last /\ 1 <= c <= D /\ n * D + c = p.
Proof using HD.
  intros p Hp. destruct HD as (D0 & _ & D2 & _). exists ((p - 1) / D), ((p - 1) mod D + 1). split; [reflexivity|].
  pose proof (Z.mod_pos_bound (p - 1) D ltac:(lia)). pose proof (Z.div_mod (p - 1) D ltac:(lia)).
  split; [|split; lia]. split; [apply Z.div_pos; lia|]. assert ((p - 1) / D < last + 1) by (apply Z.div_lt_upper_bound; unfold ends in Hp; lia). lia.
Qed.

Lemma calls_ok : forall z n c, 0 <= n <= last -> 0 <= c <= D ->
  calls (vcall Ws d) z (at_ pt n c) =
  if n * D + c + Z.of_nat z <=? ends
  then Some (if (z =? 0)%nat then at_ pt n c else after (n * D + c + Z.of_nat z), map (fun i => value (n * D + c + Z.of_nat i)) (seq 0 z))
  else None.
Proof using HD.
  induction z as [|z IH]; intros n c Hn Hc.
  - cbn [calls Nat.eqb seq map]. destruct (Z.leb_spec (n * D + c + Z.of_nat 0) ends); [reflexivity|]. unfold ends in *. nia.
  - cbn [calls Nat.eqb]. destruct (Z.eq_dec (n * D + c) ends) as [E|E].
    + assert (n = last /\ c = D) as [-> ->] by (destruct HD as (D0 & _); unfold ends in E; nia). rewrite vcall_end.
      destruct (Z.leb_spec (last * D + D + Z.of_nat (S z)) ends); [lia|reflexivity].
    + assert (n * D + c < ends) by (destruct HD as (D0 & _); unfold ends in *; nia). rewrite vcall_ok by assumption.
      destruct (after_pos (n * D + c + 1)) as (n1 & c1 & E1 & Hn1 & Hc1 & P1); [destruct HD as (D0 & _); nia|].
      rewrite E1. rewrite IH by lia. rewrite P1. replace (n * D + c + 1 + Z.of_nat z) with (n * D + c + Z.of_nat (S z)) by lia.
      destruct (Z.leb_spec (n * D + c + Z.of_nat (S z)) ends); [|reflexivity]. f_equal. f_equal.
      * destruct (Nat.eqb_spec z 0) as [Ez|]; [|reflexivity]. replace (n * D + c + Z.of_nat (S z)) with (n * D + c + 1) by lia. symmetry. exact E1.
      * cbn [seq map]. rewrite Z.add_0_r. f_equal. rewrite <- seq_shift, map_map. apply map_ext. intros i. f_equal. lia.
Qed.

(* ---- discard ---- *)
Lemma discard_vector_ok : forall n c z, 0 <= n <= last -> 0 <= z < 2 ^ 64 ->
  discard_vector Ws d (at_ pt n c) z = if n + z <=? last then Ret (at_ pt (n + z) c) tt else Thr (at_ pt n c).
Proof using HD.
  intros n c z Hn Hz. destruct HD as (D0 & D1 & D2 & _ & _ & _ & D6 & D7). unfold discard_vector. cbn [at_ q_seq q_curr]. fold (at_ pt n c).
  assert (2 ^ Ws <= 2 ^ 64) by (apply Z.pow_le_mono_r; lia).
  rewrite wrap_small by lia. destruct (Z.ltb_spec (2 ^ Ws - 1 - n) z) as [H1|H1].
  - destruct (Z.leb_spec (n + z) last); [lia|reflexivity].
  - rewrite (wrap_small 64) by lia. rewrite wrap_small by lia. destruct (Z.leb_spec (n + z) last) as [H2|H2].
    + rewrite D6 by lia. reflexivity.
    + rewrite D7 by lia. reflexivity.
Qed.

Lemma discard_ok : forall n c z, 0 <= n <= last -> 0 <= c <= D -> 0 <= z < 2 ^ 64 -> ~ (D = 1 /\ c = 1 /\ z = 2 ^ 64 - 1) ->
  q_discard Ws d (at_ pt n c) z =
  if n * D + c + z <=? ends
  then Ret (if z =? 0 then at_ pt n c else after (n * D + c + z)) tt
  else Thr (at_ pt n c).
Proof using HD.
  intros n c z Hn Hc Hz HX. pose proof HD as (D0 & D1 & D2 & _). unfold q_discard. rewrite q_dim_at by exact Hn. cbn zeta.
  change (q_curr (at_ pt n c)) with c.
  pose proof (Z.mod_pos_bound z D ltac:(lia)) as Bm. pose proof (Z.div_mod z D ltac:(lia)) as Ez.
  assert (Bq : 0 <= z / D) by (apply Z.div_pos; lia).
  rewrite (wrap_small 64 (c + z mod D)) by (change (2 ^ 64) with (2 * 2 ^ 63); lia).
  set (q := z / D) in *. set (r := z mod D) in *.
  pose proof (Z.div_mod (c + r) D ltac:(lia)) as E2. pose proof (Z.mod_pos_bound (c + r) D ltac:(lia)) as B2.
  assert (Bq2 : 0 <= (c + r) / D <= 1).
  { split; [apply Z.div_pos; lia|]. assert ((c + r) / D < 2) by (apply Z.div_lt_upper_bound; lia). lia. }
  set (q2 := (c + r) / D) in *. set (r2 := (c + r) mod D) in *.
  assert (HO : q + q2 < 2 ^ 64).
  { destruct (Z.eq_dec D 1) as [ED|ED].
    - rewrite ED in *. assert (r = 0) by lia. assert (r2 = 0) by lia. lia.
    - assert (2 * q <= z) by nia. change (2 ^ 64) with (2 * 2 ^ 63) in *. lia. }
  rewrite (wrap_small 64 (q + q2)) by lia. set (vn := q + q2) in *.
  assert (EP : c + z = vn * D + r2) by (unfold vn; lia).
  assert (Hvn : 0 <= vn) by (unfold vn; lia).
  destruct (Z.eqb_spec r2 0) as [R0|R0]; cbn [andb].
  - destruct (Z.eqb_spec vn 0) as [V0|V0]; cbn [negb].
    + assert (z = 0 /\ c = 0) as [-> ->] by lia. rewrite (wrap_small 64) by lia.
      rewrite discard_vector_ok by lia. replace (vn - 0) with 0 by lia. rewrite Z.add_0_r.
      destruct (Z.leb_spec n last); [|lia]. destruct (Z.leb_spec (n * D + 0 + 0) ends); [|unfold ends in *; nia].
      rewrite Z.eqb_refl. cbn [at_ q_seq q_lat q_st]. rewrite R0. reflexivity.
    + rewrite (wrap_small 64 (vn - 1)) by lia. rewrite discard_vector_ok by lia.
      assert (EI : (n + (vn - 1) <=? last) = (n * D + c + z <=? ends)).
      { unfold ends. rewrite (blk D _ _ D) by lia. f_equal. lia. }
      rewrite EI. destruct (n * D + c + z <=? ends); [|reflexivity].
      assert (EC : Z.lxor r2 (Z.land (wrap 64 (- (1))) D) = D).
      { rewrite R0, Z.lxor_0_l. change (wrap 64 (- (1))) with (Z.ones 64). rewrite Z.land_comm, Z.land_ones by lia.
        apply Z.mod_small. change (2 ^ 64) with (2 * 2 ^ 63). lia. }
      rewrite EC. cbn [at_ q_seq q_lat q_st]. f_equal. destruct (Z.eqb_spec z 0) as [Z0|Z0].
      * assert (vn = 1) by (assert (c = D) by nia; nia). subst vn. replace (n + (q + q2 - 1)) with n by lia. assert (c = D) by lia. subst c. reflexivity.
      * unfold after. destruct (pos_pred (n + (vn - 1)) D ltac:(lia) ltac:(lia)) as (G1 & G2).
        replace (n * D + c + z - 1) with ((n + (vn - 1)) * D + D - 1) by nia. rewrite G1, G2. reflexivity.
  - rewrite (wrap_small 64 (vn - 0)) by lia. rewrite Z.sub_0_r. rewrite discard_vector_ok by lia.
    assert (EI : (n + vn <=? last) = (n * D + c + z <=? ends)).
    { unfold ends. rewrite (blk D _ _ r2) by lia. f_equal. lia. }
    rewrite EI. destruct (n * D + c + z <=? ends); [|reflexivity].
    change (wrap 64 (- 0)) with 0. rewrite Z.land_0_l, Z.lxor_0_r. cbn [at_ q_seq q_lat q_st]. f_equal.
    destruct (Z.eqb_spec z 0) as [Z0|Z0].
    + assert (vn = 0 \/ vn = 1) as [V0|V0] by nia.
      * rewrite V0. replace (n + 0) with n by lia. assert (Er : r2 = c) by lia. rewrite Er. reflexivity.
      * assert (c = D + r2) by nia. lia.
    + unfold after. destruct (pos_pred (n + vn) r2 ltac:(lia) ltac:(lia)) as (G1 & G2).
      replace (n * D + c + z - 1) with ((n + vn) * D + r2 - 1) by nia. rewrite G1, G2. reflexivity.
Qed.

(* ---- equality ---- *)
Lemma q_eq_ok : forall n1 c1 n2 c2, 0 <= n1 <= last -> 0 <= n2 <= last -> 0 <= c1 <= D -> 0 <= c2 <= D ->
  q_eq (at_ pt n1 c1) (at_ pt n2 c2) = true <-> n1 * D + c1 = n2 * D + c2.
Proof using HD.
  intros n1 c1 n2 c2 H1 H2 H3 H4. pose proof HD as (D0 & D1 & D2 & _). unfold q_eq. rewrite !q_dim_at by assumption.
  change (q_curr (at_ pt n1 c1)) with c1. change (q_curr (at_ pt n2 c2)) with c2.
  change (q_seq (at_ pt n1 c1)) with n1. change (q_seq (at_ pt n2 c2)) with n2. cbn zeta.
  assert (2 ^ Ws <= 2 ^ 64) by (apply Z.pow_le_mono_r; lia).
  rewrite Z.eqb_refl. cbn [andb].
  assert (Q : forall c, 0 <= c <= D -> (c / D = 0 /\ c mod D = c /\ c < D) \/ (c / D = 1 /\ c mod D = 0 /\ c = D)).
  { intros c Hc. destruct (Z.eq_dec c D) as [->|N]; [right; rewrite Z.div_same, Z.mod_same by lia; lia|left].
    rewrite Z.div_small, Z.mod_small by lia. lia. }
  split.
  - intros H0. apply andb_prop in H0. destruct H0 as [H0 E3]. apply andb_prop in H0. destruct H0 as [E1 E2].
    apply Z.eqb_eq in E3. apply Z.eqb_eq in E2. unfold wrap in E2.
    destruct (Z.ltb_spec 1 (if n1 <? n2 then n2 - n1 else n1 - n2)) as [|E1']; [discriminate|].
    assert (A : -1 <= n1 - n2 <= 1) by (destruct (Z.ltb_spec n1 n2); lia).
    assert (S : n1 + c1 / D = n2 + c2 / D).
    { destruct (Q c1 H3) as [(Q1 & _)|(Q1 & _)], (Q c2 H4) as [(Q2 & _)|(Q2 & _)]; rewrite Q1, Q2 in *.
      - rewrite !Z.mod_small in E2 by lia. lia.
      - destruct (Z.eq_dec (n2 + 1) (2 ^ 64)) as [X|X]; [rewrite X, Z.mod_same in E2 by lia; rewrite Z.mod_small in E2 by lia; lia|rewrite !Z.mod_small in E2 by lia; lia].
      - destruct (Z.eq_dec (n1 + 1) (2 ^ 64)) as [X|X]; [rewrite X, Z.mod_same in E2 by lia; rewrite Z.mod_small in E2 by lia; lia|rewrite !Z.mod_small in E2 by lia; lia].
      - destruct (Z.eq_dec n1 n2) as [X|X]; [lia|]. 
        destruct (Z.eq_dec (n1 + 1) (2 ^ 64)) as [X1|X1], (Z.eq_dec (n2 + 1) (2 ^ 64)) as [X2|X2]; try lia;
        [rewrite X1, Z.mod_same in E2 by lia; rewrite Z.mod_small in E2 by lia; lia|rewrite X2, Z.mod_same in E2 by lia; rewrite Z.mod_small in E2 by lia; lia|rewrite !Z.mod_small in E2 by lia; lia]. }
    pose proof (Z.div_mod c1 D ltac:(lia)). pose proof (Z.div_mod c2 D ltac:(lia)). nia.
  - intros E. pose proof (Q c1 H3) as Q1. pose proof (Q c2 H4) as Q2.
    assert (S : n1 + c1 / D = n2 + c2 / D /\ c1 mod D = c2 mod D /\ -1 <= n1 - n2 <= 1).
    { assert (T1 : n1 + c1 / D = n2 + c2 / D).
      { rewrite (Z.add_comm n1), (Z.add_comm n2), <- !Z.div_add by lia. f_equal. lia. }
      assert (T2 : c1 mod D = c2 mod D).
      { rewrite <- (Z.mod_add c1 n1), <- (Z.mod_add c2 n2) by lia. f_equal. lia. }
      split; [exact T1|]. split; [exact T2|].
      assert (0 <= c1 / D <= 1) by (destruct Q1 as [(-> & _)|(-> & _)]; lia).
      assert (0 <= c2 / D <= 1) by (destruct Q2 as [(-> & _)|(-> & _)]; lia). lia. }
    destruct S as (S1 & S2 & S3). rewrite S1, S2, !Z.eqb_refl. rewrite !andb_true_r.
    destruct (Z.ltb_spec 1 (if n1 <? n2 then n2 - n1 else n1 - n2)); [|reflexivity]. destruct (Z.ltb_spec n1 n2); lia.
Qed.
End Base.
