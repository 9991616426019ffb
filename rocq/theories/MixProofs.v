(* Arithmetic of mixmax modulo 2^61-1 *)
From Verif Require Import Base BitsProofs MixSpec MixSkipModel MixModel.
From Coq Require Import Setoid Morphisms Znumtheory.
Ltac Zify.zify_post_hook ::= idtac.

Definition U : Z := 2305843009213693952.
Lemma U_pow : U = 2 ^ 61. Proof. reflexivity. Qed.
Lemma p61_U : p61 = U - 1. Proof. reflexivity. Qed.
Lemma M61_ones : M61 = Z.ones 61. Proof. reflexivity. Qed.

(* congruence *)
Definition cg (a b : Z) : Prop := exists k, a = b + k * p61.
Lemma cg_mod : forall a b, cg a b <-> a mod p61 = b mod p61.
Proof.
  intros a b. split.
  - intros [k ->]. apply Z_mod_plus_full.
  - intros H. exists (a / p61 - b / p61). pose proof (Z.div_mod a p61 ltac:(discriminate)) as A.
    pose proof (Z.div_mod b p61 ltac:(discriminate)) as B. rewrite A at 1. rewrite B at 1. rewrite H. ring.
Qed.
Global Instance cg_equiv : Equivalence cg.
Proof.
  split.
  - intros a. exists 0. ring.
  - intros a b [k ->]. exists (-k). ring.
  - intros a b c [k ->] [l ->]. exists (k + l). ring.
Qed.
Global Instance cg_add : Proper (cg ==> cg ==> cg) Z.add.
Proof. intros a b [k ->] c d [l ->]. exists (k + l). ring. Qed.
Global Instance cg_mul : Proper (cg ==> cg ==> cg) Z.mul.
Proof. intros a b [k ->] c d [l ->]. exists (k * d + b * l + k * l * p61). ring. Qed.
Global Instance cg_sub : Proper (cg ==> cg ==> cg) Z.sub.
Proof. intros a b [k ->] c d [l ->]. exists (k - l). ring. Qed.
Lemma cg_mod_l : forall a, cg (a mod p61) a.
Proof. intros a. apply cg_mod. apply Zmod_mod. Qed.
Lemma cg_U : forall a, cg (a * U) a.
Proof. intros a. exists a. rewrite p61_U. ring. Qed.

(* MOD_MERSENNE *)
Lemma mod_spec : forall k, 0 <= k < 2 ^ 64 ->
  exists q r, k = q * U + r /\ 0 <= r < U /\ 0 <= q < 8 /\ mx_mod k = r + q.
Proof.
  intros k Hk. exists (k / U), (k mod U).
  pose proof (Z.div_mod k U ltac:(discriminate)) as D. pose proof (Z.mod_pos_bound k U ltac:(reflexivity)) as B.
  assert (Q: 0 <= k / U < 8).
  { split; [apply Z.div_pos; [lia|reflexivity]|apply Z.div_lt_upper_bound; [reflexivity|exact (proj2 Hk)]]. }
  split; [lia|]. split; [exact B|]. split; [exact Q|].
  unfold mx_mod, wrap. rewrite M61_ones, Z.land_ones, Z.shiftr_div_pow2 by lia. change (2 ^ 61) with U.
  apply Z.mod_small. change (2 ^ 64) with (8 * U). lia.
Qed.
Lemma modadd_spec : forall a b, 0 <= a -> 0 <= b -> a + b < 2 ^ 64 ->
  exists q r, a + b = q * U + r /\ 0 <= r < U /\ 0 <= q < 8 /\ mx_modadd a b = r + q.
Proof.
  intros a b Ha Hb H. unfold mx_modadd. unfold wrap at 1. rewrite Z.mod_small by lia. apply mod_spec. lia.
Qed.
Lemma mod_cg : forall k, 0 <= k < 2 ^ 64 -> cg (mx_mod k) k.
Proof. intros k Hk. destruct (mod_spec k Hk) as (q & r & E & _ & _ & ->). rewrite E, cg_U, Z.add_comm. reflexivity. Qed.
Lemma modadd_cg : forall a b, 0 <= a -> 0 <= b -> a + b < 2 ^ 64 -> cg (mx_modadd a b) (a + b).
Proof. intros a b Ha Hb H. unfold mx_modadd. unfold wrap at 1. rewrite Z.mod_small by lia. apply mod_cg. lia. Qed.
Lemma modadd_U : forall a b, 0 <= a <= U -> 0 <= b <= U + 1 -> 0 <= mx_modadd a b <= U.
Proof.
  intros a b Ha Hb. destruct (modadd_spec a b) as (q & r & E & R & Q & ->); try lia.
  { change (2 ^ 64) with (8 * U). unfold U in *. lia. }
  unfold U in *. lia.
Qed.
Lemma modadd_M : forall a b, 0 <= a <= U - 1 -> 0 <= b <= U - 1 -> 0 <= mx_modadd a b <= U - 1.
Proof.
  intros a b Ha Hb. destruct (modadd_spec a b) as (q & r & E & R & Q & ->); try lia.
  { change (2 ^ 64) with (8 * U). unfold U in *. lia. }
  unfold U in *. lia.
Qed.

(* MULWU *)
Lemma mulwu_spec : forall s k, 0 <= s <= 60 -> 0 <= k <= U ->
  exists h l, k = h * 2 ^ (61 - s) + l /\ 0 <= l < 2 ^ (61 - s) /\ 0 <= h <= 2 ^ s /\ mx_mulwu s k = l * 2 ^ s + h.
Proof.
  intros s k Hs Hk. exists (k / 2 ^ (61 - s)), (k mod 2 ^ (61 - s)).
  assert (P1: 0 < 2 ^ (61 - s)) by (apply Z.pow_pos_nonneg; lia).
  assert (P2: 0 < 2 ^ s) by (apply Z.pow_pos_nonneg; lia).
  assert (EU: U = 2 ^ (61 - s) * 2 ^ s) by (rewrite U_pow, <- Z.pow_add_r by lia; f_equal; lia).
  pose proof (Z.div_mod k (2 ^ (61 - s)) ltac:(lia)) as D.
  pose proof (Z.mod_pos_bound k (2 ^ (61 - s)) P1) as B.
  assert (Q: 0 <= k / 2 ^ (61 - s) <= 2 ^ s).
  { split; [apply Z.div_pos; lia|]. apply Z.div_le_upper_bound; [lia|]. rewrite <- EU. lia. }
  split; [lia|]. split; [exact B|]. split; [exact Q|].
  unfold mx_mulwu, wrap. rewrite M61_ones, Z.land_ones, Z.shiftr_div_pow2, Z.shiftl_mul_pow2 by lia.
  rewrite <- (Zmod_div_mod (2 ^ 61) (2 ^ 64)) by (try reflexivity; exists 8; reflexivity).
  assert (E: (k * 2 ^ s) mod 2 ^ 61 = k mod 2 ^ (61 - s) * 2 ^ s).
  { change (2 ^ 61) with U. rewrite EU, Z.mul_mod_distr_r by lia. reflexivity. }
  rewrite E. set (h := k / 2 ^ (61 - s)) in *. set (l := k mod 2 ^ (61 - s)) in *.
  destruct (Z.eq_dec h (2 ^ s)) as [->|Nh].
  - assert (l = 0). { rewrite EU in Hk. nia. }
    subst l. rewrite H, Z.mul_0_l, Z.lxor_0_l. reflexivity.
  - symmetry. apply Z.add_nocarry_lxor. apply Z.bits_inj'. intros i Hi.
    rewrite Z.land_spec, Z.testbit_0_l. destruct (Z.lt_ge_cases i s) as [L|L].
    + rewrite Z.mul_pow2_bits_low by lia. reflexivity.
    + rewrite (bits_above h s) by lia. apply andb_false_r.
Qed.
Lemma mulwu_cg : forall s k, 0 <= s <= 60 -> 0 <= k <= U -> cg (mx_mulwu s k) (2 ^ s * k).
Proof.
  intros s k Hs Hk. destruct (mulwu_spec s k Hs Hk) as (h & l & -> & _ & _ & ->).
  rewrite Z.mul_add_distr_l, Z.mul_assoc, (Z.mul_comm (2 ^ s) h), <- Z.mul_assoc, <- Z.pow_add_r by lia.
  replace (s + (61 - s)) with 61 by lia. change (2 ^ 61) with U. rewrite cg_U, (Z.mul_comm l), Z.add_comm. reflexivity.
Qed.
Lemma mulwu_M : forall s k, 0 <= s <= 60 -> 0 <= k <= U ->
  0 <= mx_mulwu s k <= U - 1.
Proof.
  intros s k Hs Hk. destruct (mulwu_spec s k Hs Hk) as (h & l & E & L & H & ->).
  assert (P1: 2 <= 2 ^ (61 - s)) by (change 2 with (2 ^ 1) at 1; apply Z.pow_le_mono_r; lia).
  assert (P2: 0 < 2 ^ s) by (apply Z.pow_pos_nonneg; lia).
  assert (P3: 2 ^ s <= 2 ^ 60) by (apply Z.pow_le_mono_r; lia). change (2 ^ 60) with 1152921504606846976 in P3.
  assert (EU: U = 2 ^ (61 - s) * 2 ^ s) by (rewrite U_pow, <- Z.pow_add_r by lia; f_equal; lia).
  assert (L1: l * 2 ^ s <= (2 ^ (61 - s) - 1) * 2 ^ s) by (apply Z.mul_le_mono_nonneg_r; lia).
  rewrite Z.mul_sub_distr_r, <- EU in L1.
  assert (L0: 0 <= l * 2 ^ s) by (apply Z.mul_nonneg_nonneg; lia).
  destruct (Z.eq_dec h (2 ^ s)) as [Eh|Nh].
  - assert (EE: h * 2 ^ (61 - s) = U) by (rewrite Eh, EU; ring).
    assert (l = 0) by lia. subst l. rewrite Z.mul_0_l in *. unfold U in *. lia.
  - assert (k <= U - 1 \/ k = U) as [K|K] by lia; [unfold U in *; lia|]. exfalso.
    assert (h * 2 ^ (61 - s) <= (2 ^ s - 1) * 2 ^ (61 - s)) by (apply Z.mul_le_mono_nonneg_r; lia).
    rewrite Z.mul_sub_distr_r, (Z.mul_comm (2 ^ s)), <- EU in H0. lia.
Qed.

(* exact form of the loop of iterate_raw_vec *)
Fixpoint al (s : Z) (ys : list Z) (P V : Z) : list Z :=
  match ys with
  | [] => []
  | y :: r => let P' := P + y in let V' := V + 2 ^ s * P + P' in V' :: al s r P' V'
  end.

Definition inU (v : list Z) : Prop := Forall (fun a => 0 <= a <= U + 1) v.

Lemma vsum_cons : forall a r, vsum (a :: r) = a + vsum r.
Proof. intros. unfold vsum. cbn [dot]. lia. Qed.

Lemma red_cons : forall a b x y, cg a b -> red x = red y -> red (a :: x) = red (b :: y).
Proof. intros a b x y H E. unfold red in *. cbn [map]. f_equal; [apply cg_mod, H|exact E]. Qed.

Lemma loop_spec : forall s ys P V P1 V1 sumtot ov, 0 <= s <= 60 -> inU ys ->
  0 <= P <= U -> 0 <= V <= U + 1 -> cg P P1 -> cg V V1 ->
  0 <= sumtot < 2 ^ 64 -> 0 <= ov -> ov + Z.of_nat (length ys) < 2 ^ 32 ->
  let '(l, st, ov') := mx_iter_loop s ys P V sumtot ov in
  inU l /\ red l = red (al s ys P1 V1) /\ 0 <= st < 2 ^ 64 /\ ov <= ov' <= ov + Z.of_nat (length ys) /\
  st + ov' * 2 ^ 64 = sumtot + ov * 2 ^ 64 + vsum l.
Proof.
  intros s ys. induction ys as [|y r IH]; intros P V P1 V1 sumtot ov Hs Hy HP HV CP CV Hst Hov Hlen.
  - cbn. repeat split; try lia. constructor.
  - inversion Hy as [|? ? Hy0 Hr]; subst. cbn [mx_iter_loop].
    pose proof (mulwu_M s P Hs HP) as HM. pose proof (mulwu_cg s P Hs HP) as CM.
    assert (W64: 2 ^ 64 = 8 * U) by reflexivity.
    assert (UP: 1000 < U) by reflexivity.
    assert (EW: wrap 64 (V + mx_mulwu s P) = V + mx_mulwu s P) by (unfold wrap; apply Z.mod_small; lia).
    cbn zeta. rewrite !EW.
    set (P' := mx_modadd P y) in *. assert (HP': 0 <= P' <= U) by (apply modadd_U; lia).
    assert (CP': cg P' (P1 + y)). { unfold P'. rewrite modadd_cg by lia. rewrite CP. reflexivity. }
    set (V' := mx_modadd (V + mx_mulwu s P) P').
    assert (CV': cg V' (V1 + 2 ^ s * P1 + (P1 + y))).
    { unfold V'. rewrite modadd_cg by lia. rewrite CV, CM, CP', CP. reflexivity. }
    assert (HV': 0 <= V' <= U + 1).
    { unfold V'. destruct (modadd_spec (V + mx_mulwu s P) P') as (q & t & E & R & Q & ->); unfold U in *; lia. }
    set (st1 := wrap 64 (sumtot + V')).
    assert (HV64: V' < 2 ^ 64) by lia.
    assert (Hst1: 0 <= st1 < 2 ^ 64) by (apply Z.mod_pos_bound; reflexivity).
    assert (Est: exists c, (c = 0 \/ c = 1) /\ st1 + c * 2 ^ 64 = sumtot + V' /\ (if st1 <? V' then wrap 64 (ov + 1) else ov) = ov + c).
    { unfold st1, wrap. destruct (Z.lt_ge_cases (sumtot + V') (2 ^ 64)) as [L|L].
      - exists 0. rewrite Z.mod_small by lia. destruct (Z.ltb_spec (sumtot + V') V'); [lia|]. repeat split; try lia.
      - exists 1. replace ((sumtot + V') mod 2 ^ 64) with (sumtot + V' - 2 ^ 64).
        + destruct (Z.ltb_spec (sumtot + V' - 2 ^ 64) V'); [|lia]. rewrite Z.mod_small; [repeat split; lia|].
          cbn [length] in Hlen. change (2 ^ 64) with 18446744073709551616. change (2 ^ 32) with 4294967296 in Hlen. lia.
        + apply Z.mod_unique_pos with 1; lia. }
    destruct Est as (c & Hc & E1 & E2). fold V'. fold st1. rewrite E2.
    specialize (IH P' V' (P1 + y) (V1 + 2 ^ s * P1 + (P1 + y)) st1 (ov + c) Hs Hr HP' HV' CP' CV' Hst1).
    cbn [length] in Hlen. specialize (IH ltac:(lia) ltac:(lia)).
    destruct (mx_iter_loop s r P' V' st1 (ov + c)) as [[l st] ov'].
    destruct IH as (I1 & I2 & I3 & I4 & I5). split; [constructor; assumption|].
    split; [cbn [al]; apply red_cons; assumption|]. split; [exact I3|]. cbn [length]. split; [lia|].
    rewrite vsum_cons. lia.
Qed.

Lemma iterate_spec : forall s Y st, 0 <= s <= 60 -> inU Y -> (1 <= length Y)%nat -> Z.of_nat (length Y) < 2 ^ 32 ->
  0 <= st <= U + 1 -> cg st (vsum Y) ->
  inU (fst (mx_iterate s Y st)) /\ red (fst (mx_iterate s Y st)) = red (vsum Y :: al s (tl Y) 0 (vsum Y)) /\
  0 <= snd (mx_iterate s Y st) <= U - 1 /\ cg (snd (mx_iterate s Y st)) (vsum (fst (mx_iterate s Y st))).
Proof.
  intros s Y st Hs HY HL HN Hst C. destruct Y as [|y0 ys]; [cbn in HL; lia|]. cbn [tl]. cbn [length] in HN.
  inversion HY as [|? ? H0 Hys]; subst. unfold mx_iterate. cbn [tl].
  assert (W64: 2 ^ 64 = 8 * U) by reflexivity. assert (UP: 1000 * 2 ^ 32 < U) by reflexivity.
  change (2 ^ 32) with 4294967296 in *.
  pose proof (loop_spec s ys 0 st 0 (vsum (y0 :: ys)) st 0 Hs Hys ltac:(lia) ltac:(lia) ltac:(reflexivity) C ltac:(lia) ltac:(lia)) as L.
  change (2 ^ 32) with 4294967296 in L. specialize (L ltac:(lia)).
  destruct (mx_iter_loop s ys 0 st st 0) as [[l st1] ov]. destruct L as (L1 & L2 & L3 & L4 & L5). cbn [fst snd].
  split; [constructor; [lia|assumption]|]. split; [apply red_cons; assumption|].
  rewrite Z.shiftl_mul_pow2 by lia. change (2 ^ 3) with 8.
  assert (E1: wrap 64 (ov * 8) = ov * 8) by (unfold wrap; apply Z.mod_small; lia). rewrite E1.
  destruct (mod_spec st1 L3) as (q & r & A1 & A2 & A3 & A4).
  assert (E2: wrap 64 (mx_mod st1 + ov * 8) = mx_mod st1 + ov * 8) by (unfold wrap; apply Z.mod_small; lia). rewrite E2.
  split.
  - rewrite A4. destruct (mod_spec (r + q + ov * 8) ltac:(lia)) as (q2 & r2 & B1 & B2 & B3 & ->). unfold U in *. lia.
  - rewrite mod_cg by lia. rewrite mod_cg by lia. rewrite vsum_cons.
    replace (st + vsum l) with (st1 + ov * 8 * U) by lia. rewrite cg_U. reflexivity.
Qed.

(* closed form of the loop *)
Definition cf (m : Z) (K j : nat) : Z := if (j <? K)%nat then 1 + Z.of_nat (K - 1 - j) * m else 0.

Lemma dot_ext : forall v c d, (forall j, (j < length v)%nat -> c j = d j) -> dot c v = dot d v.
Proof.
  induction v as [|a r IH]; intros c d H; [reflexivity|]. cbn [dot]. rewrite (H O) by (cbn; lia).
  rewrite (IH (fun j => c (S j)) (fun j => d (S j))); [reflexivity|]. intros j Hj. apply H. cbn. lia.
Qed.
Lemma dot_add : forall v c d, dot (fun j => c j + d j) v = dot c v + dot d v.
Proof.
  induction v as [|a r IH]; intros c d; [reflexivity|]. cbn [dot]. rewrite (IH (fun j => c (S j)) (fun j => d (S j))). ring.
Qed.
Lemma al_length : forall s ys P V, length (al s ys P V) = length ys.
Proof. induction ys as [|y r IH]; intros P V; [reflexivity|]. cbn [al length]. f_equal. apply IH. Qed.
Lemma al_nth : forall s ys P V k, (k < length ys)%nat ->
  nth k (al s ys P V) 0 = V + Z.of_nat (S k) * (2 ^ s + 1) * P + dot (cf (2 ^ s + 1) (S k)) ys.
Proof.
  intros s ys. induction ys as [|y r IH]; intros P V k Hk; [cbn in Hk; lia|]. cbn [al]. destruct k as [|k].
  - cbn [nth dot]. rewrite (dot_ext r _ (fun _ => 0)).
    + assert (E0: forall v, dot (fun _ => 0) v = 0) by (induction v as [|b v' IHv]; [reflexivity|cbn [dot]; rewrite IHv; ring]).
      rewrite E0. unfold cf. change (0 <? 1)%nat with true. change (Z.of_nat (1 - 1 - 0)) with 0. change (Z.of_nat 1) with 1. cbn iota. ring.
    + intros j Hj. unfold cf. destruct (Nat.ltb_spec (S j) 1); [lia|reflexivity].
  - cbn [nth]. rewrite IH by (cbn in Hk; lia). cbn [dot].
    rewrite (dot_ext r (fun j => cf (2 ^ s + 1) (S (S k)) (S j)) (cf (2 ^ s + 1) (S k))).
    + unfold cf at 2. change (0 <? S (S k))%nat with true. cbn [andb].
      replace (S (S k) - 1 - 0)%nat with (S k) by lia. rewrite !Nat2Z.inj_succ. ring_simplify. ring.
    + intros j Hj. unfold cf. change (S j <? S (S k))%nat with (j <? S k)%nat.
      replace (S (S k) - 1 - S j)%nat with (S k - 1 - j)%nat by lia. reflexivity.
Qed.

Lemma apply_al : forall s v, (1 <= length v)%nat -> red (vsum v :: al s (tl v) 0 (vsum v)) = mm_apply s v.
Proof.
  intros s [|y0 ys] H; [cbn in H; lia|]. cbn [tl]. unfold red, mm_apply.
  apply nth_ext with (d := 0 mod p61) (d' := 0).
  - rewrite !map_length, seq_length. cbn [length]. rewrite al_length. reflexivity.
  - intros k Hk. rewrite map_length in Hk. cbn [length] in Hk. rewrite al_length in Hk.
    rewrite (map_nth (fun a => a mod p61)).
    set (f := fun i => dot (mm_coef s i) (y0 :: ys) mod p61).
    rewrite (nth_indep (map f (seq 0 (length (y0 :: ys)))) 0 (f O)) by (rewrite map_length, seq_length; cbn [length]; lia).
    rewrite (map_nth f), seq_nth by (cbn [length]; lia). unfold f. f_equal. cbn [Nat.add].
    destruct k as [|k].
    + cbn [nth]. unfold vsum. apply dot_ext. intros j Hj. unfold mm_coef. destruct j; reflexivity.
    + cbn [nth]. rewrite al_nth by lia. rewrite Z.mul_0_r, Z.add_0_r. cbn [dot]. unfold vsum. cbn [dot].
      rewrite <- Z.add_assoc, <- dot_add. f_equal. apply dot_ext. intros j Hj. unfold mm_coef, cf.
      change (S j =? 0)%nat with false. cbn [orb]. change (S k <? S j)%nat with (k <? j)%nat.
      destruct (Nat.ltb_spec j (S k)), (Nat.ltb_spec k j); try lia.
Qed.

(* vectors *)
Lemma red_length : forall v, length (red v) = length v.
Proof. intros. apply map_length. Qed.
Lemma red_eq_length : forall u v, red u = red v -> length u = length v.
Proof. intros u v H. rewrite <- (red_length u), H. apply red_length. Qed.
Lemma red_red : forall v, red (red v) = red v.
Proof. intros v. unfold red. rewrite map_map. apply map_ext. intros a. apply Zmod_mod. Qed.
Lemma red_cons_inv : forall a b u v, red (a :: u) = red (b :: v) -> cg a b /\ red u = red v.
Proof. intros a b u v H. unfold red in *. cbn [map] in H. split; [apply cg_mod|]; congruence. Qed.
Lemma dot_red : forall u v c, red u = red v -> cg (dot c u) (dot c v).
Proof.
  induction u as [|a u IH]; intros [|b v] c H; try discriminate; [reflexivity|].
  apply red_cons_inv in H. destruct H as [H1 H2]. cbn [dot]. rewrite H1, (IH v _ H2). reflexivity.
Qed.
Lemma apply_red : forall s u v, red u = red v -> mm_apply s u = mm_apply s v.
Proof.
  intros s u v H. unfold mm_apply. rewrite (red_eq_length u v H). apply map_ext. intros i. apply cg_mod, dot_red, H.
Qed.
Lemma apply_is_red : forall s v, red (mm_apply s v) = mm_apply s v.
Proof. intros s v. unfold mm_apply, red. rewrite map_map. apply map_ext. intros i. apply Zmod_mod. Qed.
Lemma apply_length : forall s v, length (mm_apply s v) = length v.
Proof. intros s v. unfold mm_apply. rewrite map_length. apply seq_length. Qed.
Lemma iter_red : forall s k u v, red u = red v -> red (iter k (mm_apply s) u) = red (iter k (mm_apply s) v).
Proof. induction k as [|k IH]; intros u v H; [exact H|]. cbn [iter]. rewrite (apply_red s u v H). reflexivity. Qed.
Lemma iter_length : forall s k v, length (iter k (mm_apply s) v) = length v.
Proof. induction k as [|k IH]; intros v; [reflexivity|]. cbn [iter]. rewrite IH. apply apply_length. Qed.

(* states *)
Definition good (n : nat) (Y : list Z) (st : Z) : Prop :=
  length Y = n /\ inU Y /\ 0 <= st <= U + 1 /\ cg st (vsum Y).
Lemma iterate_good : forall n s Y st, 0 <= s <= 60 -> (1 <= n)%nat -> Z.of_nat n < 2 ^ 32 -> good n Y st ->
  good n (fst (mx_iterate s Y st)) (snd (mx_iterate s Y st)) /\
  red (fst (mx_iterate s Y st)) = mm_apply s Y /\ snd (mx_iterate s Y st) <= U - 1.
Proof.
  intros n s Y st Hs Hn HN (H1 & H2 & H3 & H4).
  destruct (iterate_spec s Y st Hs H2 ltac:(lia) ltac:(rewrite H1; exact HN) H3 H4) as (A & B & C & D).
  rewrite apply_al in B by lia. split; [|split; [exact B|lia]].
  split; [|split; [exact A|split; [lia|exact D]]].
  rewrite <- red_length, B, apply_length. exact H1.
Qed.

Lemma sumtot_gen : forall Y a b, inU Y -> 0 <= a <= U -> cg a b ->
  0 <= fold_left mx_modadd Y a <= U /\ cg (fold_left mx_modadd Y a) (b + vsum Y).
Proof.
  induction Y as [|y r IH]; intros a b HY Ha C.
  - cbn [fold_left]. split; [exact Ha|]. rewrite C. unfold vsum. cbn [dot]. rewrite Z.add_0_r. reflexivity.
  - inversion HY as [|? ? Hy Hr]; subst. cbn [fold_left]. rewrite vsum_cons, Z.add_assoc. apply IH; [exact Hr|apply modadd_U; lia|].
    rewrite modadd_cg; [rewrite C; reflexivity|lia|lia|]. change (2 ^ 64) with (8 * U). unfold U in *. lia.
Qed.
Lemma sumtot_good : forall n Y, length Y = n -> inU Y -> good n Y (mx_sumtot Y).
Proof.
  intros n Y HL HY. destruct (sumtot_gen Y 0 0 HY) as [A B]; [unfold U; lia|reflexivity|].
  split; [exact HL|]. split; [exact HY|]. split; [unfold mx_sumtot, U in *; lia|]. exact B.
Qed.

(* fmodmulM61 *)
Lemma split32 : forall a, 0 <= a -> a = Z.shiftr a 32 * 2 ^ 32 + Z.land a 0xFFFFFFFF /\ 0 <= Z.land a 0xFFFFFFFF < 2 ^ 32 /\ 0 <= Z.shiftr a 32.
Proof.
  intros a Ha. change 0xFFFFFFFF with (Z.ones 32). rewrite Z.land_ones, Z.shiftr_div_pow2 by lia.
  pose proof (Z.div_mod a (2 ^ 32) ltac:(discriminate)). pose proof (Z.mod_pos_bound a (2 ^ 32) ltac:(reflexivity)).
  split; [lia|]. split; [lia|]. apply Z.div_pos; [lia|reflexivity].
Qed.
Lemma wrap64 : forall z, 0 <= z < 2 ^ 64 -> wrap 64 z = z.
Proof. intros. unfold wrap. apply Z.mod_small. lia. Qed.
Lemma mul_bound : forall a b A B, 0 <= a <= A -> 0 <= b <= B -> 0 <= a * b <= A * B.
Proof. intros. split; [apply Z.mul_nonneg_nonneg; lia|apply Z.mul_le_mono_nonneg; lia]. Qed.
Lemma fmodmul_spec : forall cum s a, 0 <= cum <= U + 1 -> 0 <= s <= U - 1 -> 0 <= a <= U + 1 ->
  0 <= mx_fmodmul cum s a <= U + 1 /\ cg (mx_fmodmul cum s a) (cum + s * a).
Proof.
  intros cum s a Hc Hs Ha. unfold mx_fmodmul. cbn zeta.
  destruct (split32 s ltac:(lia)) as (Es & Hpl & Hph). destruct (split32 a ltac:(lia)) as (Ea & Hal & Hah).
  set (ph := Z.shiftr s 32) in *. set (pl := Z.land s 0xFFFFFFFF) in *.
  set (ah := Z.shiftr a 32) in *. set (al := Z.land a 0xFFFFFFFF) in *.
  change (2 ^ 32) with 4294967296 in *.
  assert (Bph: 0 <= ph <= 536870912) by (unfold U in *; lia).
  assert (Bah: 0 <= ah <= 536870912) by (unfold U in *; lia).
  pose proof (mul_bound ph ah 536870912 536870912 Bph Bah) as B1.
  pose proof (mul_bound ah pl 536870912 4294967295 Bah ltac:(lia)) as B2.
  pose proof (mul_bound al ph 4294967295 536870912 ltac:(lia) Bph) as B3.
  pose proof (mul_bound al pl 4294967295 4294967295 ltac:(lia) ltac:(lia)) as B4.
  assert (W64: 2 ^ 64 = 8 * U) by reflexivity.
  assert (EX: s * a = ph * ah * (8 * U) + (ah * pl + al * ph) * 4294967296 + al * pl).
  { rewrite Es, Ea. unfold U. ring. }
  set (X1 := ph * ah) in *. set (X2 := ah * pl) in *. set (X3 := al * ph) in *. set (X4 := al * pl) in *.
  rewrite (wrap64 X1), (wrap64 X2), (wrap64 X3), (wrap64 X4) by (unfold U in *; lia).
  rewrite (wrap64 (X2 + X3)) by (unfold U in *; lia).
  rewrite (Z.shiftr_div_pow2 X4), Z.shiftl_mul_pow2 by lia. change (2 ^ 3) with 8. change (2 ^ 32) with 4294967296.
  assert (B5: 0 <= X4 / 4294967296 <= 4294967296).
  { split; [apply Z.div_pos; lia|]. apply Z.div_le_upper_bound; lia. }
  rewrite (wrap64 (X2 + X3 + X4 / 4294967296)) by (unfold U in *; lia).
  rewrite (wrap64 (X1 * 8)) by (unfold U in *; lia).
  rewrite (Z.shiftr_div_pow2 (X2 + X3 + X4 / 4294967296)) by lia.
  assert (EO: Z.land (wrap 64 (s * a)) M61 = (s * a) mod U).
  { rewrite M61_ones, Z.land_ones by lia. unfold wrap.
    rewrite <- (Zmod_div_mod (2 ^ 61) (2 ^ 64)) by (try reflexivity; exists 8; reflexivity). reflexivity. }
  rewrite EO. change (2 ^ 29) with 536870912.
  assert (EQ: X1 * 8 + (X2 + X3 + X4 / 4294967296) / 536870912 = s * a / U).
  { rewrite EX. replace (X1 * (8 * U) + (X2 + X3) * 4294967296 + X4) with ((X2 + X3) * 4294967296 + X4 + (X1 * 8) * U) by ring.
    rewrite Z.div_add by discriminate. rewrite Z.add_comm. f_equal.
    replace U with (4294967296 * 536870912) by reflexivity. rewrite <- Z.div_div by lia. f_equal.
    rewrite Z.div_add_l by lia. lia. }
  pose proof (Z.div_mod (s * a) U ltac:(discriminate)) as DM.
  pose proof (Z.mod_pos_bound (s * a) U ltac:(reflexivity)) as MB.
  assert (QB: 0 <= s * a / U <= U - 1).
  { pose proof (mul_bound s a (U - 1) (U + 1) Hs Ha) as BB. split; [apply Z.div_pos; [lia|reflexivity]|].
    assert (s * a / U < U); [|lia]. apply Z.div_lt_upper_bound; [reflexivity|].
    replace ((U - 1) * (U + 1)) with (U * U - 1) in BB by ring. lia. }
  assert (B6: 0 <= (X2 + X3 + X4 / 4294967296) / 536870912) by (apply Z.div_pos; lia).
  set (R := (s * a) mod U) in *. set (Q := s * a / U) in *.
  rewrite (wrap64 (R + X1 * 8)) by (unfold U in *; lia).
  replace (R + X1 * 8 + (X2 + X3 + X4 / 4294967296) / 536870912) with (R + Q) by lia.
  rewrite (wrap64 (R + Q)) by (unfold U in *; lia).
  rewrite (wrap64 (R + Q + cum)) by (unfold U in *; lia).
  assert (HB: 0 <= R + Q + cum < 2 ^ 64) by (rewrite W64; unfold U in *; lia).
  fold (mx_mod (R + Q + cum)).
  split.
  - destruct (mod_spec _ HB) as (q & r & A1 & A2 & A3 & ->). unfold U in *. lia.
  - rewrite mod_cg by exact HB. rewrite DM. rewrite (Z.mul_comm U), cg_U. replace (R + Q + cum) with (cum + (Q + R)) by ring. reflexivity.
Qed.
