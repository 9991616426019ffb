From Verif Require Import Base StreamModel RingModel RingProofs WinProofs BitsProofs UIntModel UIntProofs ArithModel
  LfsModel LfsSpec LfsProofs AdaptModel AdaptSpec.
Ltac Zify.zify_post_hook ::= idtac.

(* ================= xor_combine ================= *)
Lemma cast_id : forall t z, 1 <= bits t -> inT t z -> cast t z = z.
Proof.
  intros [b sg] z Hb H. unfold cast, inT, imin, imax in *. cbn [bits sgn] in *.
  assert (HP: 0 < 2 ^ (b - 1)) by (apply Z.pow_pos_nonneg; lia).
  assert (HD: 2 ^ b = 2 * 2 ^ (b - 1)) by (rewrite <- Z.pow_succ_r by lia; f_equal; lia).
  destruct sg.
  - destruct (Z.lt_ge_cases z 0) as [L|L].
    + replace (z mod 2 ^ b) with (z + 2 ^ b).
      * destruct (Z.ltb_spec (z + 2 ^ b) (2 ^ (b - 1))); lia.
      * symmetry. rewrite <- (Z.mod_small (z + 2 ^ b) (2 ^ b)) by lia. rewrite <- (Z.mul_1_l (2 ^ b)) at 2.
        rewrite Z.mod_add by lia. reflexivity.
    + rewrite Z.mod_small by lia. destruct (Z.ltb_spec z (2 ^ (b - 1))); lia.
  - apply Z.mod_small. lia.
Qed.

Lemma imax_pos : forall t, 1 <= bits t -> 0 <= imax t.
Proof.
  intros [b sg] H. unfold imax. cbn [bits sgn] in *. destruct sg.
  - assert (0 < 2 ^ (b - 1)) by (apply Z.pow_pos_nonneg; lia). lia.
  - assert (0 < 2 ^ b) by (apply Z.pow_pos_nonneg; lia). lia.
Qed.
Lemma imin_np : forall t, 1 <= bits t -> imin t <= 0.
Proof.
  intros [b sg] H. unfold imin. cbn [bits sgn] in *. destruct sg; [|lia].
  assert (0 < 2 ^ (b - 1)) by (apply Z.pow_pos_nonneg; lia). lia.
Qed.
Lemma common_le : forall t1 t2, 1 <= bits t1 -> 1 <= bits t2 ->
  1 <= bits (common t1 t2) /\ imax t1 <= imax (common t1 t2) /\ imax t2 <= imax (common t1 t2).
Proof.
  intros [b1 g1] [b2 g2] H1 H2. unfold common. cbn [bits sgn] in *.
  assert (M: forall a b ga gb, 1 <= a -> a < b -> imax (Ity a ga) <= imax (Ity b gb)).
  { intros a b ga gb Ha Hb. unfold imax. cbn [bits sgn].
    assert (2 ^ a <= 2 ^ (b - 1)) by (apply Z.pow_le_mono_r; lia).
    assert (2 ^ (b - 1) <= 2 ^ b) by (apply Z.pow_le_mono_r; lia).
    assert (2 ^ (a - 1) <= 2 ^ a) by (apply Z.pow_le_mono_r; lia). destruct ga, gb; lia. }
  destruct (Z.ltb_spec b1 b2); [repeat split; [exact H2|apply M; lia|lia]|].
  destruct (Z.ltb_spec b2 b1); [repeat split; [exact H1|lia|apply M; lia]|].
  assert (b1 = b2) by lia. subst b2. cbn [bits].
  assert (N: forall g h, imax (Ity b1 g) <= imax (Ity b1 (g && h)) /\ imax (Ity b1 g) <= imax (Ity b1 (h && g))).
  { intros g h. unfold imax. cbn [bits sgn].
    assert (2 ^ (b1 - 1) <= 2 ^ b1) by (apply Z.pow_le_mono_r; lia).
    destruct g, h; cbn [andb]; lia. }
  repeat split; [lia|apply N|apply N].
Qed.

Lemma shl_id : forall t x s, 1 <= bits t -> 0 <= s < bits t -> 0 <= x -> x * 2 ^ s <= imax t ->
  shlT t x s = Some (x * 2 ^ s).
Proof.
  intros t x s Hb Hs Hx Hm. unfold shlT. destruct (Z.ltb_spec s 0); [lia|]. destruct (Z.leb_spec (bits t) s); [lia|]. cbn [orb].
  destruct (sgn t) eqn:Eg.
  - destruct (Z.leb_spec 0 x); [|lia]. destruct (Z.leb_spec (x * 2 ^ s) (imax t)); [|lia]. reflexivity.
  - unfold wrap. rewrite Z.shiftl_mul_pow2 by lia. f_equal. apply Z.mod_small. unfold imax in Hm. rewrite Eg in Hm.
    assert (0 <= 2 ^ s) by (apply Z.pow_nonneg; lia). nia.
Qed.

Lemma imax_pow : forall t, 1 <= bits t -> exists b, 0 <= b /\ imax t = 2 ^ b - 1.
Proof. intros [b []] H; unfold imax; cbn [bits sgn] in *; eexists; (split; [|reflexivity]); lia. Qed.

Lemma lxor_max : forall t a b, 1 <= bits t -> 0 <= a <= imax t -> 0 <= b <= imax t -> 0 <= Z.lxor a b <= imax t.
Proof.
  intros t a b H Ha Hb. destruct (imax_pow t H) as (k & Hk & E). rewrite E in *.
  pose proof (lxor_range a b k Hk ltac:(lia) ltac:(lia)). lia.
Qed.

(* nothing is shifted out *)
Lemma xc_val_ok : forall t1 s1 t2 s2 x1 x2, 1 <= bits t1 -> 1 <= bits t2 ->
  0 <= s1 < bits t1 -> 0 <= s2 < bits t2 -> 0 <= x1 -> 0 <= x2 ->
  x1 * 2 ^ s1 <= imax t1 -> x2 * 2 ^ s2 <= imax t2 -> x2 * 2 ^ s2 <= imax t1 ->
  xc_val t1 s1 t2 s2 x1 x2 = Some (Z.lxor (x1 * 2 ^ s1) (x2 * 2 ^ s2)).
Proof.
  intros t1 s1 t2 s2 x1 x2 Hb1 Hb2 Hs1 Hs2 H1 H2 M1 M2 M3. unfold xc_val.
  rewrite !shl_id by assumption. cbn [bind].
  destruct (common_le t1 t2 Hb1 Hb2) as (Hc & C1 & C2).
  assert (P1: 0 <= x1 * 2 ^ s1) by (apply Z.mul_nonneg_nonneg; [lia|apply Z.pow_nonneg; lia]).
  assert (P2: 0 <= x2 * 2 ^ s2) by (apply Z.mul_nonneg_nonneg; [lia|apply Z.pow_nonneg; lia]).
  pose proof (imin_np _ Hc). pose proof (imin_np _ Hb1).
  rewrite !(cast_id (common t1 t2)); [|exact Hc|unfold inT; lia|exact Hc|unfold inT; lia].
  pose proof (lxor_max t1 _ _ Hb1 (conj P1 M1) (conj P2 M3)).
  rewrite cast_id; [reflexivity|exact Hb1|unfold inT; lia].
Qed.

(* one unsigned type: bits shifted out are lost *)
Lemma xc_val_unsigned : forall W s1 s2 x1 x2, 1 <= W -> 0 <= s1 < W -> 0 <= s2 < W -> 
  xc_val (Ity W false) s1 (Ity W false) s2 x1 x2 = Some (Z.lxor ((x1 * 2 ^ s1) mod 2 ^ W) ((x2 * 2 ^ s2) mod 2 ^ W)).
Proof.
  intros W s1 s2 x1 x2 HW H1 H2. unfold xc_val, shlT. cbn [bits sgn].
  destruct (Z.ltb_spec s1 0); [lia|]. destruct (Z.leb_spec W s1); [lia|].
  destruct (Z.ltb_spec s2 0); [lia|]. destruct (Z.leb_spec W s2); [lia|]. cbn [orb bind].
  unfold common. cbn [bits sgn]. rewrite Z.ltb_irrefl. cbn [andb]. unfold wrap, cast. cbn [bits sgn].
  rewrite !Z.mod_mod by (apply Z.pow_nonzero; lia). rewrite !Z.shiftl_mul_pow2 by lia. f_equal. apply Z.mod_small.
  apply lxor_range; [lia|apply Z.mod_pos_bound, Z.pow_pos_nonneg; lia|apply Z.mod_pos_bound, Z.pow_pos_nonneg; lia].
Qed.

Lemma mod_range_pow : forall x W b, 0 <= x -> 0 <= b <= W -> (x < 2 ^ b \/ b = W) -> 0 <= x mod 2 ^ W < 2 ^ b.
Proof.
  intros x W b Hx Hb [H|H].
  - assert (2 ^ b <= 2 ^ W) by (apply Z.pow_le_mono_r; lia). rewrite Z.mod_small by lia. lia.
  - subst W. apply Z.mod_pos_bound, Z.pow_pos_nonneg; lia.
Qed.

Lemma xc_range : forall W s1 s2 max1 max2 b x1 x2,
  1 <= W -> 0 <= s1 < W -> 0 <= s2 < W -> 0 <= b <= W ->
  Z.max max1 max2 = 2 ^ b - 1 ->
  (max1 * 2 ^ s1 < 2 ^ b \/ b = W) -> (max2 * 2 ^ s2 < 2 ^ b \/ b = W) ->
  0 <= x1 <= max1 -> 0 <= x2 <= max2 ->
  exists v, xc_val (Ity W false) s1 (Ity W false) s2 x1 x2 = Some v /\
    xc_min (Ity W false) (Ity W false) 0 0 <= v <= xc_max (Ity W false) (Ity W false) max1 max2.
Proof.
  intros W s1 s2 max1 max2 b x1 x2 HW H1 H2 Hb Hm F1 F2 R1 R2. eexists. split; [apply xc_val_unsigned; lia|].
  assert (HbW: 2 ^ b <= 2 ^ W) by (apply Z.pow_le_mono_r; lia).
  assert (P1: 0 <= 2 ^ s1) by (apply Z.pow_nonneg; lia). assert (P2: 0 <= 2 ^ s2) by (apply Z.pow_nonneg; lia).
  assert (EM: xc_max (Ity W false) (Ity W false) max1 max2 = 2 ^ b - 1).
  { unfold xc_max, common. cbn [bits sgn]. rewrite (Z.ltb_irrefl W). unfold cast. cbn [andb bits sgn].
    rewrite (Z.mod_small max1), (Z.mod_small max2) by lia.
    destruct (Z.ltb_spec max2 max1); rewrite Z.mod_small; lia. }
  assert (Em: xc_min (Ity W false) (Ity W false) 0 0 = 0).
  { unfold xc_min, common. cbn [bits sgn]. rewrite (Z.ltb_irrefl W). unfold cast. cbn [andb bits sgn].
    assert (Z0: 0 mod 2 ^ W = 0) by (apply Z.mod_0_l, Z.pow_nonzero; lia).
    cbn zeta. rewrite !Z0. rewrite Z.ltb_irrefl. exact Z0. }
  rewrite EM, Em.
  pose proof (mod_range_pow (x1 * 2 ^ s1) W b ltac:(nia) Hb ltac:(destruct F1; [left; nia|right; assumption])) as A1.
  pose proof (mod_range_pow (x2 * 2 ^ s2) W b ltac:(nia) Hb ltac:(destruct F2; [left; nia|right; assumption])) as A2.
  pose proof (lxor_range _ _ b ltac:(lia) A1 A2). lia.
Qed.

Lemma xc_max_wrong : exists x1 x2 v, 0 <= x1 <= 4 /\ 0 <= x2 <= 3 /\
  xc_val u32 0 u32 0 x1 x2 = Some v /\ xc_max u32 u32 4 3 < v.
Proof. exists 4, 3, 7. repeat split; vm_compute; congruence. Qed.
Lemma xc_shift_wrong : exists x1 x2 v, 0 <= x1 <= 2 ^ 8 - 1 /\ 0 <= x2 <= 2 ^ 8 - 1 /\
  xc_val u32 8 u32 0 x1 x2 = Some v /\ xc_max u32 u32 (2 ^ 8 - 1) (2 ^ 8 - 1) < v.
Proof. exists 1, 0, 256. repeat split; vm_compute; congruence. Qed.
Lemma xc_min_wrong : exists x1 x2 v, 1 <= x1 <= 2147483646 /\ 1 <= x2 <= 2147483646 /\
  xc_val u32 0 u32 0 x1 x2 = Some v /\ v < xc_min u32 u32 1 1.
Proof. exists 5, 5, 0. repeat split; vm_compute; congruence. Qed.
Lemma xc_old_max_wrong : exists x1 x2 v, 0 <= x1 <= 3 /\ 0 <= x2 <= 1 /\
  xc_val u32 0 u32 0 x1 x2 = Some v /\ v <= xc_max u32 u32 3 1 /\ xc_old_max 0 1 < v.
Proof. exists 2, 1, 3. repeat split; vm_compute; congruence. Qed.

(* discard *)
Lemma run_iterM : forall S (f : S -> option (Z * S)) n s,
  iterM n (fun x => r <- f x;; Some (snd r)) s = (q <- run f n s;; Some (snd q)).
Proof.
  intros S f. induction n as [|n IH]; intro s; cbn [iterM run bind]; [reflexivity|].
  destruct (f s) as [[x s1]|]; cbn [bind fst snd]; [|reflexivity]. rewrite IH.
  destruct (run f n s1) as [[l s2]|]; reflexivity.
Qed.

Lemma xc_discard_ok : forall S1 S2 t1 h1 t2 h2 (f1 : S1 -> option (Z * S1)) (f2 : S2 -> option (Z * S2)) d1 d2 z s l s',
  (forall n a l a', run f1 n a = Some (l, a') -> d1 n a = a') ->
  (forall n a l a', run f2 n a = Some (l, a') -> d2 n a = a') ->
  run (xc_next t1 h1 t2 h2 f1 f2) z s = Some (l, s') -> xc_discard d1 d2 z s = s'.
Proof.
  intros S1 S2 t1 h1 t2 h2 f1 f2 d1 d2 z s l s' D1 D2 HR.
  assert (G: forall n s l s', run (xc_next t1 h1 t2 h2 f1 f2) n s = Some (l, s') ->
     exists l1 l2, run f1 n (fst s) = Some (l1, fst s') /\ run f2 n (snd s) = Some (l2, snd s')).
  { clear -f1. induction n as [|n IH]; intros s l s' H; cbn [run bind] in *.
    - apply Some_eq_inj in H. inversion H; subst. exists [], []. split; reflexivity.
    - unfold xc_next at 1 in H.
      destruct (f1 (fst s)) as [[x1 a]|] eqn:E1; cbn [bind] in *; [|discriminate].
      destruct (f2 (snd s)) as [[x2 b]|] eqn:E2; cbn [bind] in *; [|discriminate].
      destruct (xc_val t1 h1 t2 h2 (fst (x1, a)) (fst (x2, b))) as [v|]; cbn [bind fst snd] in *; [|discriminate].
      destruct (run (xc_next t1 h1 t2 h2 f1 f2) n (a, b)) as [[l0 s0]|] eqn:ER; cbn [bind fst snd] in *; [|discriminate].
      apply Some_eq_inj in H. inversion H; subst. destruct (IH _ _ _ ER) as (l1 & l2 & R1 & R2). cbn [fst snd] in *.
      rewrite R1, R2. cbn [bind fst snd]. eexists. eexists. split; reflexivity. }
  destruct (G _ _ _ _ HR) as (l1 & l2 & R1 & R2). unfold xc_discard.
  rewrite (D1 _ _ _ _ R1), (D2 _ _ _ _ R2). destruct s'; reflexivity.
Qed.

(* taus88 *)
Lemma xc_val_u32 : forall x1 x2, 0 <= x1 < 2 ^ 32 -> 0 <= x2 < 2 ^ 32 -> xc_val u32 0 u32 0 x1 x2 = Some (Z.lxor x1 x2).
Proof.
  intros x1 x2 H1 H2. unfold u32. rewrite xc_val_unsigned by lia. change (2 ^ 0) with 1. rewrite !Z.mul_1_r.
  rewrite !Z.mod_small by lia. reflexivity.
Qed.
Definition t88_ok (s : (Z * Z) * Z) : Prop :=
  0 <= fst (fst s) < 2 ^ 32 /\ 0 <= snd (fst s) < 2 ^ 32 /\ 0 <= snd s < 2 ^ 32.
Lemma t88_params : lfs_params t88_a /\ lfs_params t88_b /\ lfs_params t88_c.
Proof. unfold lfs_params, t88_a, t88_b, t88_c; cbn [lW lw lk lq ls]; lia. Qed.
Lemma taus88_ok : forall s, t88_ok s ->
  exists v s', taus88_next s = Some (v, s') /\ t88_ok s' /\ taus88_min <= v <= taus88_max /\
    s' = ((lfs_next t88_a (fst (fst s)), lfs_next t88_b (snd (fst s))), lfs_next t88_c (snd s)) /\
    v = Z.lxor (Z.lxor (fst (fst s')) (snd (fst s'))) (snd s').
Proof.
  intros [[a b] c] (Ha & Hb & Hc). cbn [fst snd] in *. destruct t88_params as (Pa & Pb & Pc).
  pose proof (next_range t88_a a Pa Ha) as Na. pose proof (next_range t88_b b Pb Hb) as Nb. pose proof (next_range t88_c c Pc Hc) as Nc.
  unfold t88_a, t88_b, t88_c in Na, Nb, Nc. cbn [lW] in Na, Nb, Nc.
  fold t88_a in Na. fold t88_b in Nb. fold t88_c in Nc.
  assert (I: imax u32 = 2 ^ 32 - 1) by reflexivity.
  unfold taus88_next, xc_next, lfs_eng, lfs_step. cbn [fst snd bind].
  pose proof (lxor_range _ _ 32 ltac:(lia) Na Nb) as Nab.
  rewrite (xc_val_u32 _ _ Na Nb). cbn [bind fst snd]. rewrite (xc_val_u32 _ _ Nab Nc). cbn [bind fst snd].
  eexists. eexists. split; [reflexivity|]. split; [split; [exact Na|split; [exact Nb|exact Nc]]|].
  pose proof (lxor_range _ _ 32 ltac:(lia) Nab Nc).
  split; [|split; reflexivity].
  change taus88_min with 0. change taus88_max with (2 ^ 32 - 1). lia.
Qed.
Lemma taus88_run : forall n s, t88_ok s -> exists l s', run taus88_next n s = Some (l, s') /\ t88_ok s' /\
  Forall (fun v => taus88_min <= v <= taus88_max) l.
Proof.
  induction n as [|n IH]; intros s Hs; cbn [run].
  - eexists. eexists. split; [reflexivity|]. split; [exact Hs|constructor].
  - destruct (taus88_ok s Hs) as (v & s1 & E & H1 & HV & _). rewrite E. cbn [bind snd fst].
    destruct (IH s1 H1) as (l & s2 & E2 & H2 & HF). rewrite E2. cbn [bind fst snd].
    eexists. eexists. split; [reflexivity|]. split; [exact H2|]. constructor; assumption.
Qed.
Lemma taus88_seed_ok : forall v, exists s, taus88_seed v = Some s /\ t88_ok s /\
  ~ lfs_dead t88_a (fst (fst s)) /\ ~ lfs_dead t88_b (snd (fst s)) /\ ~ lfs_dead t88_c (snd s).
Proof.
  intro v. destruct t88_params as (Pa & Pb & Pc).
  destruct (seed_ok t88_a v Pa) as (a & Ea & Ha & Da & _); [cbn; lia|].
  destruct (seed_ok t88_b v Pb) as (b & Eb & Hb & Db & _); [cbn; lia|].
  destruct (seed_ok t88_c v Pc) as (c & Ec & Hc & Dc & _); [cbn; lia|].
  exists ((a, b), c). unfold taus88_seed. rewrite Ea, Eb, Ec. split; [reflexivity|].
  split; [split; [exact Ha|split; [exact Hb|exact Hc]]|]. cbn [fst snd]. auto.
Qed.

(* ================= discard_block ================= *)
Section Db.
Variable S : Type.
Variable f : S -> Z * S.
Notation adv := (fun x => snd (f x)).

(* base outputs consumed and counter after n+1 calls *)
Lemma db_state : forall p r s n, 1 <= r <= p -> p < 2 ^ 64 ->
  iter (Datatypes.S n) (fun d => snd (db_next p r f d)) (db_init s) =
    Dbs (iter (Z.to_nat (p * (Z.of_nat n / r) + Z.of_nat n mod r + 1)) adv s) (Z.of_nat n mod r + 1) /\
  eng_out (db_next p r f) (db_init s) n = eng_out f s (Z.to_nat (p * (Z.of_nat n / r) + Z.of_nat n mod r)).
Proof.
  intros p r s n Hr Hp. unfold eng_out. induction n as [|n [IH1 IH2]].
  - cbn [iter]. rewrite Z.div_0_l, Z.mod_0_l by lia. rewrite Z.mul_0_r. change (Z.to_nat (0 + 0 + 1)) with 1%nat.
    change (Z.to_nat (0 + 0)) with 0%nat. unfold db_next, db_init. cbn [db_n db_base].
    destruct (Z.leb_spec r 0); [lia|]. cbn [db_n db_base iter]. destruct (f s) as [x s1]. cbn [fst snd]. split; [|reflexivity].
    f_equal.
  - assert (Hm: 0 <= Z.of_nat n mod r < r) by (apply Z.mod_pos_bound; lia).
    assert (Hd: 0 <= Z.of_nat n / r) by (apply Z.div_pos; lia).
    pose proof (Z.div_mod (Z.of_nat n) r ltac:(lia)) as HDM.
    assert (H: exists base, (if r <=? Z.of_nat n mod r + 1 then base = Z.to_nat (p - (Z.of_nat n mod r + 1)) else base = 0%nat) /\
      Z.to_nat (p * (Z.of_nat (Datatypes.S n) / r) + Z.of_nat (Datatypes.S n) mod r) =
        (Z.to_nat (p * (Z.of_nat n / r) + Z.of_nat n mod r + 1) + base)%nat /\
      Z.of_nat (Datatypes.S n) mod r = (if r <=? Z.of_nat n mod r + 1 then 0 else Z.of_nat n mod r + 1)).
    { destruct (Z.leb_spec r (Z.of_nat n mod r + 1)) as [L|L].
      - assert (E: Z.of_nat (Datatypes.S n) = r * (Z.of_nat n / r + 1) + 0) by lia.
        pose proof (Z.div_unique (Z.of_nat (Datatypes.S n)) r _ 0 ltac:(lia) E) as E1.
        pose proof (Z.mod_unique (Z.of_nat (Datatypes.S n)) r _ 0 ltac:(lia) E) as E2.
        rewrite <- E1, <- E2. eexists. split; [reflexivity|]. split; [|reflexivity].
        rewrite <- Z2Nat.inj_add by nia. f_equal. nia.
      - assert (E: Z.of_nat (Datatypes.S n) = r * (Z.of_nat n / r) + (Z.of_nat n mod r + 1)) by lia.
        pose proof (Z.div_unique (Z.of_nat (Datatypes.S n)) r _ (Z.of_nat n mod r + 1) ltac:(lia) E) as E1.
        pose proof (Z.mod_unique (Z.of_nat (Datatypes.S n)) r _ (Z.of_nat n mod r + 1) ltac:(lia) E) as E2.
        rewrite <- E1, <- E2. exists 0%nat. split; [reflexivity|]. split; [|reflexivity].
        rewrite Nat.add_0_r. f_equal. lia. }
    destruct H as (base & HB & HI & HM).
    assert (HN: db_next p r f (Dbs (iter (Z.to_nat (p * (Z.of_nat n / r) + Z.of_nat n mod r + 1)) adv s) (Z.of_nat n mod r + 1)) =
      let st := iter (Z.to_nat (p * (Z.of_nat (Datatypes.S n) / r) + Z.of_nat (Datatypes.S n) mod r)) adv s in
      (fst (f st), Dbs (adv st) (Z.of_nat (Datatypes.S n) mod r + 1))).
    { unfold db_next. cbn [db_n db_base]. rewrite HI, iter_plus. cbn zeta. rewrite HM.
      destruct (Z.leb_spec r (Z.of_nat n mod r + 1)) as [L|L].
      - subst base. cbn [db_n db_base]. unfold w64. rewrite (Z.mod_small (p - _)) by lia.
        cbn beta. match goal with |- (let '(_, _) := ?e in _) = _ => destruct e as [x s1] end. cbn [fst snd]. reflexivity.
      - subst base. cbn [db_n db_base iter]. unfold w64.
        cbn beta. match goal with |- (let '(_, _) := ?e in _) = _ => destruct e as [x s1] end. cbn [fst snd]. f_equal. f_equal. apply Z.mod_small. lia. }
    rewrite iter_succ, IH1. rewrite HN. cbn [fst snd]. cbn zeta. split; [|reflexivity]. f_equal.
    assert (0 <= p * (Z.of_nat (Datatypes.S n) / r) + Z.of_nat (Datatypes.S n) mod r).
    { pose proof (Z.mod_pos_bound (Z.of_nat (Datatypes.S n)) r ltac:(lia)).
      assert (0 <= Z.of_nat (Datatypes.S n) / r) by (apply Z.div_pos; lia). nia. }
    rewrite (Z2Nat.inj_add _ 1) by lia. change (Z.to_nat 1) with 1%nat. rewrite Nat.add_comm. cbn [Nat.add].
    rewrite iter_succ. reflexivity.
Qed.

Lemma eng_out_range : forall (P : S -> Prop) bmin bmax, ranged f P bmin bmax -> forall s n, P s -> bmin <= eng_out f s n <= bmax.
Proof.
  intros P bmin bmax HR s n. revert s. unfold eng_out. induction n as [|n IH]; intros s Hs; cbn [iter].
  - apply HR. exact Hs.
  - apply IH. apply HR. exact Hs.
Qed.

Lemma db_output : forall p r s n, 1 <= r <= p -> p < 2 ^ 64 ->
  eng_out (db_next p r f) (db_init s) n = eng_out f s (Z.to_nat (p * (Z.of_nat n / r) + Z.of_nat n mod r)).
Proof. intros p r s n H1 H2. apply (db_state p r s n H1 H2). Qed.

Lemma db_range : forall (P : S -> Prop) bmin bmax p r s n, 1 <= r <= p -> p < 2 ^ 64 -> ranged f P bmin bmax -> P s ->
  db_min bmin <= eng_out (db_next p r f) (db_init s) n <= db_max bmax.
Proof. intros P bmin bmax p r s n H1 H2 HR HP. rewrite db_output by assumption. apply (eng_out_range P); assumption. Qed.

Lemma db_discard_ok : forall p r z d n, eng_out (db_next p r f) (db_discard p r f z d) n = eng_out (db_next p r f) d (z + n).
Proof. intros. unfold eng_out, db_discard. rewrite iter_plus. reflexivity. Qed.
End Db.

Lemma lfs_discard_ok : forall p z v n, eng_out (lfs_step p) (lfs_discard p z v) n = eng_out (lfs_step p) v (z + n).
Proof.
  intros p z v n. unfold eng_out, lfs_discard. do 2 f_equal. revert v. induction z as [|z IH]; intro v; [reflexivity|].
  cbn [iter Nat.add]. apply IH.
Qed.

Lemma so_discard_ok : forall S tb bmin bmax k (f : S -> Z * S) z o o',
  so_discard tb bmin bmax k f z o = Some o' <-> exists outs, run (so_next tb bmin bmax k f) z o = Some (outs, o').
Proof.
  intros S tb bmin bmax k f z. unfold so_discard. induction z as [|z IH]; intros o o'.
  - cbn [iterM run]. split; [intro H; exists []; congruence|]. intros (outs & H). congruence.
  - cbn [iterM run]. destruct (so_next tb bmin bmax k f o) as [[y o1]|]; cbn [bind].
    + rewrite IH. cbn [snd fst]. split.
      * intros (outs & H). rewrite H. cbn [bind]. eexists. reflexivity.
      * intros (outs & H). destruct (run (so_next tb bmin bmax k f) z o1) as [[l o2]|]; cbn [bind] in H; [|discriminate].
        exists l. cbn [fst snd] in H. congruence.
    + split; [discriminate|]. intros (outs & H). discriminate.
Qed.
