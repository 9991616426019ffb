From Verif Require Import Base RingModel RingProofs SeqModel SeqSpec.

Definition rep (n : nat) (x : list Z) (f : Z -> Z) : Prop :=
  length x = n /\ forall i, nth_error x (Z.to_nat (i mod Z.of_nat n)) = Some (f i) /\ 0 <= f i < 2 ^ 32.

Lemma at_mod_rep : forall n x f i, (1 <= n)%nat -> rep n x f -> at_mod (Z.of_nat n) x i = Some (f i).
Proof.
  intros n x f i Hn [_ H]. unfold at_mod, get. destruct (Z.eqb_spec (Z.of_nat n) 0); [lia|]. apply H.
Qed.

Lemma upd_nth : forall (x : list Z) j v k, (j < length x)%nat ->
  nth_error (firstn j x ++ v :: skipn (S j) x) k = if (k =? j)%nat then Some v else nth_error x k.
Proof.
  induction x as [|a x IH]; intros j v k H; [cbn in H; lia|].
  destruct j; destruct k; try reflexivity. cbn. apply IH. cbn in H. lia.
Qed.

Lemma put_mod_rep : forall n x f i v, (1 <= n)%nat -> rep n x f -> 0 <= v < 2 ^ 32 ->
  exists y, put_mod (Z.of_nat n) x i v = Some y /\ rep n y (std_set (Z.of_nat n) f i v).
Proof.
  intros n x f i v Hn [HL H] Hv. unfold put_mod. destruct (Z.eqb_spec (Z.of_nat n) 0); [lia|].
  pose proof (Z.mod_pos_bound i (Z.of_nat n) ltac:(lia)) as B.
  rewrite upd_some by lia. eexists. split; [reflexivity|]. split.
  - rewrite app_length, firstn_length. cbn [length]. rewrite skipn_length. lia.
  - intros j. rewrite upd_nth by lia. unfold std_set.
    pose proof (Z.mod_pos_bound j (Z.of_nat n) ltac:(lia)) as B'.
    destruct (Nat.eqb_spec (Z.to_nat (j mod Z.of_nat n)) (Z.to_nat (i mod Z.of_nat n)));
      destruct (Z.eqb_spec (j mod Z.of_nat n) (i mod Z.of_nat n)); try lia.
    + split; [reflexivity|exact Hv].
    + apply H.
Qed.

Lemma rep_period : forall n x f i j, rep n x f -> i mod Z.of_nat n = j mod Z.of_nat n -> f i = f j.
Proof.
  intros n x f i j [_ H] E. pose proof (proj1 (H i)) as A. rewrite E, (proj1 (H j)) in A. congruence.
Qed.

Lemma land_mask : forall a, Z.land a sq_mask = a mod 2 ^ 32.
Proof. intros. change sq_mask with (Z.ones 32). apply Z.land_ones. lia. Qed.

Lemma lxor_range : forall a b, 0 <= a < 2 ^ 32 -> 0 <= b < 2 ^ 32 -> 0 <= Z.lxor a b < 2 ^ 32.
Proof.
  intros a b Ha Hb.
  assert (E : Z.lxor a b = Z.lxor a b mod 2 ^ 32).
  { rewrite <- Z.land_ones by lia.
    apply Z.bits_inj'. intros i Hi. rewrite Z.land_spec, Z.lxor_spec.
    destruct (Z.ltb_spec i 32).
    - rewrite Z.ones_spec_low by lia. now rewrite andb_true_r.
    - rewrite (Z.bits_above_log2 a), (Z.bits_above_log2 b); try lia; try reflexivity.
      + destruct (Z.eq_dec b 0) as [->|]; [cbn; lia|].
        assert (Z.log2 b < 32) by (apply Z.log2_lt_pow2; lia). lia.
      + destruct (Z.eq_dec a 0) as [->|]; [cbn; lia|].
        assert (Z.log2 a < 32) by (apply Z.log2_lt_pow2; lia). lia. }
  rewrite E. apply Z.mod_pos_bound. reflexivity.
Qed.

Lemma std_t_ok : forall n, (1 <= n)%nat -> sq_t (Z.of_nat n) = std_t (Z.of_nat n) \/ 2 ^ 64 <= Z.of_nat n.
Proof.
  intros n Hn. unfold sq_t, std_t.
  assert (forall a, (a <=? Z.of_nat n) = (Z.of_nat n >=? a)) as G by (intros; now rewrite Z.geb_leb).
  rewrite !G. destruct (Z.of_nat n >=? 623); [now left|]. destruct (Z.of_nat n >=? 68); [now left|].
  destruct (Z.of_nat n >=? 39); [now left|]. destruct (Z.geb_spec (Z.of_nat n) 7); [now left|].
  left. unfold wrap. rewrite Z.mod_small; [reflexivity|]. assert (7 < 2 ^ 64) by reflexivity. lia.
Qed.

Lemma std_t_lt : forall n, 1 <= n -> 0 <= std_t n <= n - 1.
Proof.
  intros n Hn. unfold std_t.
  destruct (Z.geb_spec n 623); [lia|]. destruct (Z.geb_spec n 68); [lia|].
  destruct (Z.geb_spec n 39); [lia|]. destruct (Z.geb_spec n 7); [lia|].
  pose proof (Z.mul_div_le (n - 1) 2 ltac:(lia)). pose proof (Z.div_pos (n - 1) 2). lia.
Qed.

Section Steps.
Variables (n : nat) (v : list Z).
Hypothesis Hn : (1 <= n)%nat.

Definition sp_p : Z := (Z.of_nat n - std_t (Z.of_nat n)) / 2.
Definition sp_q : Z := sp_p + std_t (Z.of_nat n).

Lemma mod_wrap64 : forall a, (a mod 2 ^ 64) mod 2 ^ 32 = a mod 2 ^ 32.
Proof.
  intros. change (2 ^ 64) with (2 ^ 32 * 2 ^ 32). rewrite Z.rem_mul_r by (cbn; lia).
  rewrite (Z.mul_comm (2 ^ 32) ((a / 2 ^ 32) mod 2 ^ 32)), Z.mod_add by (cbn; lia). apply Zmod_mod.
Qed.

Lemma km1 : forall x f k, rep n x f -> f (k + Z.of_nat n - 1) = f (k - 1).
Proof.
  intros x f k R. apply (rep_period n x f _ _ R).
  replace (k + Z.of_nat n - 1) with (k - 1 + 1 * Z.of_nat n) by ring. apply Z.mod_add. lia.
Qed.

Lemma body1_ok : forall k x f, 0 <= k -> rep n x f ->
  exists y, sq_body1 32 v (Z.of_nat n) sp_p sp_q k x = Some y /\ rep n y (std_first v (Z.of_nat n) k f).
Proof.
  intros k x f Hk R. unfold sq_body1.
  rewrite !(at_mod_rep n x f) by assumption. cbn [bind]. cbv zeta. rewrite (km1 x f k R).
  set (r0 := Z.lxor (Z.lxor (f k) (f (k + sp_p))) (f (k - 1))).
  assert (E1 : Z.land (wrap 32 (Z.lxor r0 (Z.shiftr r0 27) * 1664525)) sq_mask
               = 1664525 * std_T r0 mod 2 ^ 32).
  { rewrite land_mask. unfold wrap, std_T. rewrite Zmod_mod, Z.shiftr_div_pow2 by lia.
    now rewrite Z.mul_comm. }
  rewrite E1. set (r1 := 1664525 * std_T r0 mod 2 ^ 32).
  set (d := if k =? 0 then Z.of_nat (length v) else
            if k <=? Z.of_nat (length v) then k mod Z.of_nat n + nth (Z.to_nat (k - 1)) v 0 else k mod Z.of_nat n).
  assert (E2 : exists d', sq_add v (Z.of_nat n) k = Some d' /\ (r1 + d') mod 2 ^ 32 = (r1 + d) mod 2 ^ 32).
  { unfold sq_add, d. destruct (Z.eqb_spec k 0); [eexists; split; reflexivity|].
    destruct (Z.leb_spec k (Z.of_nat (length v))); [|eexists; split; reflexivity].
    unfold get. rewrite (nth_error_nth' v 0) by lia. cbn [bind]. eexists; split; [reflexivity|].
    unfold wrap. rewrite Z.add_mod, mod_wrap64, <- Z.add_mod by (cbn; lia). reflexivity. }
  destruct E2 as (d' & E2 & E3). rewrite E2. cbn [bind].
  assert (E4 : wrap 32 (wrap 64 (r1 + d')) = (r1 + d) mod 2 ^ 32).
  { unfold wrap. rewrite mod_wrap64. exact E3. }
  rewrite E4. set (r2 := (r1 + d) mod 2 ^ 32).
  assert (B : forall a, 0 <= a mod 2 ^ 32 < 2 ^ 32) by (intros; apply Z.mod_pos_bound; reflexivity).
  rewrite !land_mask. unfold wrap at 1. rewrite Zmod_mod.
  destruct (put_mod_rep n x f (k + sp_p) ((f (k + sp_p) + r1) mod 2 ^ 32) Hn R (B _)) as (x1 & P1 & R1).
  rewrite P1. cbn [bind].
  rewrite (at_mod_rep n x1 _ (k + sp_q) Hn R1). cbn [bind]. rewrite land_mask. unfold wrap. rewrite Zmod_mod.
  match goal with |- context [put_mod _ x1 _ ?val] =>
    destruct (put_mod_rep n x1 _ (k + sp_q) val Hn R1 (B _)) as (x2 & P2 & R2) end.
  rewrite P2. cbn [bind].
  destruct (put_mod_rep n x2 _ k r2 Hn R2 (B _)) as (x3 & P3 & R3).
  exists x3. split; [exact P3|]. exact R3.
Qed.

Lemma body2_ok : forall k x f, 0 <= k -> rep n x f ->
  exists y, sq_body2 32 (Z.of_nat n) sp_p sp_q k x = Some y /\ rep n y (std_second (Z.of_nat n) k f).
Proof.
  intros k x f Hk R. unfold sq_body2.
  rewrite !(at_mod_rep n x f) by assumption. cbn [bind]. cbv zeta. rewrite (km1 x f k R).
  rewrite !land_mask.
  assert (E0 : wrap 32 (wrap 32 (f k + f (k + sp_p)) + f (k - 1)) mod 2 ^ 32
    = (f k + f (k + sp_p) + f (k - 1)) mod 2 ^ 32).
  { unfold wrap. rewrite Zmod_mod, Zplus_mod_idemp_l. reflexivity. }
  rewrite E0. set (r0 := (f k + f (k + sp_p) + f (k - 1)) mod 2 ^ 32).
  assert (E1 : wrap 32 (Z.lxor r0 (Z.shiftr r0 27) * 1566083941) mod 2 ^ 32 = 1566083941 * std_T r0 mod 2 ^ 32).
  { unfold wrap, std_T. rewrite Zmod_mod, Z.shiftr_div_pow2 by lia. now rewrite Z.mul_comm. }
  rewrite E1. set (r3 := 1566083941 * std_T r0 mod 2 ^ 32).
  assert (E4 : wrap 32 (wrap 64 (r3 - k mod Z.of_nat n)) = (r3 - k mod Z.of_nat n) mod 2 ^ 32).
  { unfold wrap. apply mod_wrap64. }
  rewrite E4. set (r4 := (r3 - k mod Z.of_nat n) mod 2 ^ 32).
  assert (B : forall a, 0 <= a mod 2 ^ 32 < 2 ^ 32) by (intros; apply Z.mod_pos_bound; reflexivity).
  assert (B1 : 0 <= Z.lxor (f (k + sp_p)) r3 < 2 ^ 32) by (apply lxor_range; [apply R | apply B]).
  destruct (put_mod_rep n x f (k + sp_p) _ Hn R B1) as (x1 & P1 & R1).
  rewrite P1. cbn [bind].
  rewrite (at_mod_rep n x1 _ (k + sp_q) Hn R1). cbn [bind].
  match goal with |- context [put_mod _ x1 _ ?val] =>
    assert (B2 : 0 <= val < 2 ^ 32) by (apply lxor_range; [apply R1 | apply B]);
    destruct (put_mod_rep n x1 _ (k + sp_q) val Hn R1 B2) as (x2 & P2 & R2) end.
  rewrite P2. cbn [bind].
  destruct (put_mod_rep n x2 _ k r4 Hn R2 (B _)) as (x3 & P3 & R3).
  exists x3. split; [exact P3|]. exact R3.
Qed.

Lemma loop_ok : forall body step, (forall k x f, 0 <= k -> rep n x f ->
    exists y, body k x = Some y /\ rep n y (step k f)) ->
  forall cnt k x f, 0 <= k -> rep n x f ->
  exists y, sq_for cnt k body x = Some y /\ rep n y (std_loop cnt k step f).
Proof.
  intros body step H. induction cnt as [|c IH]; intros k x f Hk R; cbn [sq_for std_loop].
  - exists x. split; [reflexivity|exact R].
  - destruct (H k x f Hk R) as (y & E & R'). rewrite E. cbn [bind]. apply IH; [lia|exact R'].
Qed.
End Steps.

Lemma nth_error_repeat : forall (a : Z) n i, (i < n)%nat -> nth_error (repeat a n) i = Some a.
Proof. induction n; intros i H; [lia|]. destruct i; [reflexivity|]. cbn. apply IHn. lia. Qed.

Lemma rep_list : forall n x f, (1 <= n)%nat -> rep n x f -> x = map (fun i => f (Z.of_nat i)) (seq 0 n).
Proof.
  intros n x f Hn [HL H].
  apply (nth_ext _ _ 0 0).
  - rewrite map_length, seq_length. exact HL.
  - intros i Hi. rewrite HL in Hi.
    destruct (H (Z.of_nat i)) as [E _]. rewrite Z.mod_small, Nat2Z.id in E by lia.
    rewrite (nth_error_nth _ _ _ E).
    rewrite (nth_indep _ 0 (f (Z.of_nat 0))) by (rewrite map_length, seq_length; lia).
    rewrite (map_nth (fun i => f (Z.of_nat i)) (seq 0 n) 0%nat i), seq_nth by lia. reflexivity.
Qed.

Lemma sq_generate_ok : forall v n, (1 <= n)%nat -> Z.of_nat n < 2 ^ 64 ->
  sq_generate 32 v n = Some (std_seed_seq v n).
Proof.
  intros v n Hn Hs. unfold sq_generate. cbv zeta.
  destruct (std_t_ok n Hn) as [Et|]; [|lia]. rewrite Et.
  pose proof (std_t_lt (Z.of_nat n) ltac:(lia)) as Ht.
  assert (Ep : wrap 64 (Z.of_nat n - std_t (Z.of_nat n)) = Z.of_nat n - std_t (Z.of_nat n)).
  { unfold wrap. apply Z.mod_small. lia. }
  rewrite Ep. fold (sp_p n). fold (sp_q n).
  assert (R0 : rep n (repeat (wrap 32 0x8b8b8b8b) n) (fun _ => 0x8b8b8b8b)).
  { split; [apply repeat_length|]. intros i. pose proof (Z.mod_pos_bound i (Z.of_nat n) ltac:(lia)).
    rewrite nth_error_repeat by lia. split; [reflexivity|]. cbn; lia. }
  set (m := Z.max (Z.of_nat (length v) + 1) (Z.of_nat n)).
  assert (Em : m = Z.of_nat (Nat.max (length v + 1) n)) by (unfold m; lia).
  destruct (loop_ok n Hn (sq_body1 32 v (Z.of_nat n) (sp_p n) (sp_q n)) (std_first v (Z.of_nat n))
    (body1_ok n v Hn) (Z.to_nat m) 0 _ _ ltac:(lia) R0) as (y & E & R1).
  rewrite E. cbn [bind].
  destruct (loop_ok n Hn (sq_body2 32 (Z.of_nat n) (sp_p n) (sp_q n)) (std_second (Z.of_nat n))
    (body2_ok n Hn) n m _ _ ltac:(lia) R1) as (z & E' & R2).
  rewrite E'. f_equal. rewrite (rep_list n z _ Hn R2). unfold std_seed_seq. cbv zeta.
  rewrite Em, Nat2Z.id. reflexivity.
Qed.

Lemma std_range : forall v n, (1 <= n)%nat -> Z.of_nat n < 2 ^ 64 ->
  length (std_seed_seq v n) = n /\ Forall (fun w => 0 <= w < 2 ^ 32) (std_seed_seq v n).
Proof.
  intros v n Hn Hs. split; [unfold std_seed_seq; cbv zeta; now rewrite map_length, seq_length|].
  assert (R0 : rep n (repeat 0x8b8b8b8b n) (fun _ => 0x8b8b8b8b)).
  { split; [apply repeat_length|]. intros i. pose proof (Z.mod_pos_bound i (Z.of_nat n) ltac:(lia)).
    rewrite nth_error_repeat by lia. split; [reflexivity|]. cbn; lia. }
  destruct (loop_ok n Hn (sq_body1 32 v (Z.of_nat n) (sp_p n) (sp_q n)) (std_first v (Z.of_nat n))
    (body1_ok n v Hn) (Nat.max (length v + 1) n) 0 _ _ ltac:(lia) R0) as (y & E & R1).
  destruct (loop_ok n Hn (sq_body2 32 (Z.of_nat n) (sp_p n) (sp_q n)) (std_second (Z.of_nat n))
    (body2_ok n Hn) n (Z.of_nat (Nat.max (length v + 1) n)) _ _ ltac:(lia) R1) as (z & E' & R2).
  apply Forall_forall. intros w Hw. unfold std_seed_seq in Hw. cbv zeta in Hw.
  apply in_map_iff in Hw. destruct Hw as (i & <- & _). apply R2.
Qed.
