(* text save/restore and equality of LFSR and of the adaptors *)
From Verif Require Import Base StreamModel RingModel RingProofs WinProofs BitsProofs UIntModel LfsModel LfsSpec LfsProofs AdaptModel AdaptSpec AdaptProofs.

Lemma rd_int_ok : forall t old v ts, inT t v -> rd_int t old (good_in (TInt v :: ts)) = (v, good_in ts).
Proof.
  intros t old v ts [H1 H2]. unfold rd_int, get_int, good_in. cbn [failb toks].
  destruct (Z.leb_spec (imin t) v); [|lia]. destruct (Z.leb_spec v (imax t)); [|lia]. reflexivity.
Qed.

Lemma lfs_restores : forall p, restores lfs_write (lfs_read p) lfs_eq (fun v => 0 <= v < 2 ^ lW p).
Proof.
  intros p s old ts H. exists s. split; [|apply Z.eqb_refl].
  unfold lfs_read, lfs_write, get_int, good_in. cbn [app failb toks]. unfold imin, imax. cbn [sgn bits].
  destruct (Z.leb_spec 0 s); [|lia]. destruct (Z.leb_spec s (2 ^ lW p - 1)); [|lia]. reflexivity.
Qed.
Lemma lfs_eq_sound : forall p, eq_sound lfs_eq (lfs_step p) (fun _ => True).
Proof. intros p s1 s2 _ _ H n. apply Z.eqb_eq in H. subst s2. reflexivity. Qed.

Lemma xc_restores : forall S1 S2 wr1 wr2 rd1 rd2 eq1 eq2 (P1 : S1 -> Prop) (P2 : S2 -> Prop),
  restores wr1 rd1 eq1 P1 -> restores wr2 rd2 eq2 P2 ->
  restores (xc_write wr1 wr2) (xc_read rd1 rd2) (xc_eq eq1 eq2) (fun s => P1 (fst s) /\ P2 (snd s)).
Proof.
  intros S1 S2 wr1 wr2 rd1 rd2 eq1 eq2 P1 P2 R1 R2 s old ts [H1 H2].
  destruct (R1 (fst s) (fst old) (wr2 (snd s) ++ ts) H1) as (a & Ea & Qa).
  destruct (R2 (snd s) (snd old) ts H2) as (b & Eb & Qb).
  exists (a, b). unfold xc_read, xc_write. rewrite <- app_assoc, Ea, Eb. split; [reflexivity|].
  unfold xc_eq. cbn [fst snd]. rewrite Qa, Qb. reflexivity.
Qed.

Lemma db_restores : forall S wr rd eq (P : S -> Prop), restores wr rd eq P ->
  restores (db_write wr) (db_read rd) (db_eq eq) (fun d => P (db_base d) /\ 0 <= db_n d < 2 ^ 64).
Proof.
  intros S wr rd eq P R d old ts [H1 H2].
  destruct (R (db_base d) (db_base old) (TInt (db_n d) :: ts) H1) as (a & Ea & Qa).
  exists (Dbs a (db_n d)). unfold db_read, db_write. rewrite <- app_assoc. cbn [app]. rewrite Ea.
  rewrite rd_int_ok by (unfold inT, imin, imax, u64; cbn [sgn bits]; lia). split; [reflexivity|].
  unfold db_eq. cbn [db_base db_n]. rewrite Qa, Z.eqb_refl. reflexivity.
Qed.

Lemma combine_refl : forall v : list Z, forallb (fun q => fst q =? snd q) (combine v v) = true.
Proof. induction v as [|a v IH]; [reflexivity|]. cbn [combine forallb fst snd]. rewrite Z.eqb_refl. exact IH. Qed.
Lemma combine_eq : forall v w : list Z, length v = length w -> forallb (fun q => fst q =? snd q) (combine v w) = true -> v = w.
Proof.
  induction v as [|a v IH]; intros [|b w] HL H; try discriminate; [reflexivity|].
  cbn [combine forallb fst snd] in H. apply andb_true_iff in H. destruct H as [H1 H2]. apply Z.eqb_eq in H1. subst b.
  f_equal. apply IH; [cbn [length] in HL; lia|exact H2].
Qed.

Lemma so_restores : forall S tb wr rd eq (P : S -> Prop) s old ts, restores wr rd eq P ->
  P (so_base s) -> inT tb (so_y s) -> (forall u, In u (so_v s) -> inT tb u) -> length (so_v old) = length (so_v s) ->
  exists s', so_read tb rd old (good_in (so_write wr s ++ ts)) = (s', good_in ts) /\ so_eq eq s' s = true /\
    so_v s' = so_v s /\ so_y s' = so_y s.
Proof.
  intros S tb wr rd eq P s old ts R H1 H2 H3 HL.
  destruct (R (so_base s) (so_base old) ((map TInt (so_v s) ++ [TInt (so_y s)]) ++ ts) H1) as (a & Ea & Qa).
  exists (Sho a (so_v s) (so_y s)). unfold so_read, so_write. rewrite <- app_assoc, Ea.
  rewrite <- app_assoc. rewrite HL. rewrite read_arr_ok; [|exact H3|lia]. cbn [firstn app].
  rewrite rd_int_ok by exact H2. split; [reflexivity|].
  unfold so_eq. cbn [so_base so_v so_y]. rewrite Qa, Z.eqb_refl, combine_refl. repeat split.
Qed.

(* equal engines produce the same outputs *)
Lemma db_eq_sound : forall S (f : S -> Z * S) eq p r,
  eq_sound eq f (fun _ => True) -> eq_sound (db_eq eq) (db_next p r f) (fun _ => True).
Proof.
  intros S f eq p r HE d1 d2 _ _ H n.
  unfold db_eq in H. apply andb_true_iff in H. destruct H as [Hb Hn]. apply Z.eqb_eq in Hn.
  pose proof (HE _ _ I I Hb) as HO.
  assert (HI: forall m s1 s2, (forall i, eng_out f s1 i = eng_out f s2 i) -> forall i,
     eng_out f (iter m (fun x => snd (f x)) s1) i = eng_out f (iter m (fun x => snd (f x)) s2) i).
  { intros m s1 s2 H i. specialize (H (m + i)%nat). unfold eng_out in *. rewrite !iter_plus in H. exact H. }
  assert (G: forall n d1 d2, db_n d1 = db_n d2 -> (forall i, eng_out f (db_base d1) i = eng_out f (db_base d2) i) ->
     eng_out (db_next p r f) d1 n = eng_out (db_next p r f) d2 n).
  { clear n d1 d2 Hb Hn HO.
    assert (ST: forall d1 d2, db_n d1 = db_n d2 -> (forall i, eng_out f (db_base d1) i = eng_out f (db_base d2) i) ->
      fst (db_next p r f d1) = fst (db_next p r f d2) /\ db_n (snd (db_next p r f d1)) = db_n (snd (db_next p r f d2)) /\
      forall i, eng_out f (db_base (snd (db_next p r f d1))) i = eng_out f (db_base (snd (db_next p r f d2))) i).
    { intros d1 d2 E1 E2. unfold db_next. rewrite E1.
      assert (Q: forall b1 b2 nn, (forall i, eng_out f b1 i = eng_out f b2 i) ->
        fst (let '(x, s) := f b1 in (x, Dbs s nn)) = fst (let '(x, s) := f b2 in (x, Dbs s nn)) /\
        db_n (snd (let '(x, s) := f b1 in (x, Dbs s nn))) = db_n (snd (let '(x, s) := f b2 in (x, Dbs s nn))) /\
        forall i, eng_out f (db_base (snd (let '(x, s) := f b1 in (x, Dbs s nn)))) i =
                  eng_out f (db_base (snd (let '(x, s) := f b2 in (x, Dbs s nn)))) i).
      { intros b1 b2 nn HH. pose proof (HH 0%nat) as H0. unfold eng_out in H0. cbn [iter] in H0.
        assert (H1: forall i, eng_out f (snd (f b1)) i = eng_out f (snd (f b2)) i).
        { intro i. exact (HI 1%nat b1 b2 HH i). }
        destruct (f b1) as [x1 t1], (f b2) as [x2 t2]. cbn [fst snd db_n db_base] in *. auto. }
      destruct (r <=? db_n d2); cbn [db_n db_base]; [apply Q, HI, E2|rewrite E1; apply Q, E2]. }
    induction n as [|n IH]; intros d1 d2 E1 E2; destruct (ST d1 d2 E1 E2) as (A & B & C).
    - exact A.
    - unfold eng_out. cbn [iter]. apply (IH _ _ B C). }
  apply G; assumption.
Qed.

Lemma so_eq_outputs : forall S (f : S -> Z * S) eq tb bmin bmax k n x y,
  eq_sound eq f (fun _ => True) -> length (so_v x) = length (so_v y) -> so_eq eq x y = true ->
  option_map fst (run (so_next tb bmin bmax k f) n x) = option_map fst (run (so_next tb bmin bmax k f) n y).
Proof.
  intros S f eq tb bmin bmax k n x y HE HL H. unfold so_eq in H. apply andb_true_iff in H. destruct H as [H Hv].
  apply andb_true_iff in H. destruct H as [Hb Hy]. apply Z.eqb_eq in Hy. apply (combine_eq _ _ HL) in Hv.
  pose proof (HE _ _ I I Hb) as HO. clear Hb HL.
  revert x y Hy Hv HO. induction n as [|n IH]; intros x y Hy Hv HO; [reflexivity|].
  cbn [run]. unfold so_next at 1 3. rewrite Hy, Hv.
  destruct (so_index tb bmin bmax k (so_y y)) as [j|]; [|reflexivity]. cbn [bind].
  destruct (so_get (so_v y) j) as [v|]; [|reflexivity]. cbn [bind].
  pose proof (HO 0%nat) as H0. unfold eng_out in H0. cbn [iter] in H0.
  assert (H1: forall i, eng_out f (snd (f (so_base x))) i = eng_out f (snd (f (so_base y))) i).
  { intro i. exact (HO (Datatypes.S i)). }
  destruct (f (so_base x)) as [x1 s1], (f (so_base y)) as [x2 s2]. cbn [fst snd bind] in *. subst x2.
  specialize (IH (Sho s1 (so_set (so_v y) (Z.to_nat j) x1) v) (Sho s2 (so_set (so_v y) (Z.to_nat j) x1) v) eq_refl eq_refl H1).
  destruct (run (so_next tb bmin bmax k f) n _) as [[l1 q1]|]; destruct (run (so_next tb bmin bmax k f) n _) as [[l2 q2]|];
    cbn [option_map bind fst snd] in *; congruence.
Qed.

Lemma tw_c : forall p q r mask t s, lW p = 32 -> lw p = 32 -> lq p = q -> lk p - ls p = r -> ls p = t ->
  0 <= q -> 0 <= r -> 0 <= t ->
  Z.land (wrap 32 (Z.shiftl (Z.ones 32) (32 - lk p))) (Z.ones 32) = mask -> 0 <= s < 2 ^ 32 ->
  lfs_next p s = tausworthe_c q r mask t s.
Proof.
  intros p q r mask t s H1 H2 H3 H4 H5 Hq Hr Ht H6 Hs. unfold lfs_next, lfs_mask, tausworthe_c.
  rewrite H1, H2, H3, H4, H5, H6. rewrite !Z.shiftl_mul_pow2 by lia. rewrite Z.shiftr_div_pow2 by lia.
  unfold wrap. do 2 f_equal. rewrite Z.land_ones by lia. apply Z.mod_small.
  apply BitsProofs.lxor_range; [lia| |exact Hs]. apply Z.mod_pos_bound. reflexivity.
Qed.

Lemma taus88_published_ok : forall s, t88_ok s -> taus88_next s = Some (taus88_published s).
Proof.
  intros s Hs. destruct (taus88_ok s Hs) as (v & s' & E & _ & _ & E1 & E2). rewrite E, E2, E1. f_equal.
  destruct s as [[a b] c]. destruct Hs as (Ha & Hb & Hc). cbn [fst snd] in *. unfold taus88_published.
  rewrite <- (tw_c t88_a 13 19 4294967294 12 a); try reflexivity; try (cbn; lia).
  rewrite <- (tw_c t88_b 2 25 4294967288 4 b); try reflexivity; try (cbn; lia).
  rewrite <- (tw_c t88_c 3 11 4294967280 17 c); try reflexivity; try (cbn; lia).
Qed.

Lemma xc_eq_outputs : forall S1 S2 t1 h1 t2 h2 (f1 : S1 -> option (Z * S1)) (f2 : S2 -> option (Z * S2)) eq1 eq2,
  eq_sound_opt eq1 f1 -> eq_sound_opt eq2 f2 ->
  eq_sound_opt (xc_eq eq1 eq2) (xc_next t1 h1 t2 h2 f1 f2).
Proof.
  intros S1 S2 t1 h1 t2 h2 f1 f2 eq1 eq2 H1 H2 x y E n. unfold xc_eq in E. apply andb_true_iff in E.
  destruct E as [E1 E2]. pose proof (H1 _ _ E1) as K1. pose proof (H2 _ _ E2) as K2.
  destruct x as [x1 x2], y as [y1 y2]. cbn [fst snd] in *. clear E1 E2 H1 H2.
  revert x1 x2 y1 y2 K1 K2. induction n as [|n IH]; intros x1 x2 y1 y2 K1 K2; [reflexivity|].
  assert (G: forall S (f : S -> option (Z * S)) x y, (forall m, option_map fst (run f m x) = option_map fst (run f m y)) ->
    match f x, f y with
    | Some (a, x'), Some (b, y') => a = b /\ forall m, option_map fst (run f m x') = option_map fst (run f m y')
    | None, None => True
    | _, _ => False
    end).
  { clear. intros S f x y K. pose proof (K 1%nat) as K1. cbn [run] in K1.
    destruct (f x) as [[a x']|] eqn:Ex, (f y) as [[b y']|] eqn:Ey; cbn [bind option_map fst snd] in K1; try discriminate; [|exact I].
    split; [congruence|]. intro m. specialize (K (Datatypes.S m)). cbn [run] in K. rewrite Ex, Ey in K. cbn [bind fst snd] in K.
    destruct (run f m x') as [[l1 q1]|], (run f m y') as [[l2 q2]|]; cbn [bind option_map fst snd] in *; congruence. }
  pose proof (G _ f1 x1 y1 K1) as G1. pose proof (G _ f2 x2 y2 K2) as G2.
  cbn [run]. unfold xc_next at 1 3. cbn [fst snd].
  destruct (f1 x1) as [[a x1']|], (f1 y1) as [[b y1']|]; try contradiction; cbn [bind]; [|reflexivity].
  destruct (f2 x2) as [[c x2']|], (f2 y2) as [[d y2']|]; try contradiction; cbn [bind]; [|reflexivity].
  destruct G1 as [-> G1], G2 as [-> G2]. cbn [fst snd].
  destruct (xc_val t1 h1 t2 h2 b d) as [v|]; cbn [bind fst snd]; [|reflexivity].
  specialize (IH x1' x2' y1' y2' G1 G2).
  destruct (run (xc_next t1 h1 t2 h2 f1 f2) n (x1', x2')) as [[l1 q1]|], (run (xc_next t1 h1 t2 h2 f1 f2) n (y1', y2')) as [[l2 q2]|];
    cbn [bind option_map fst snd] in *; congruence.
Qed.

Lemma lfs_eq_opt : forall p, eq_sound_opt lfs_eq (lfs_eng p).
Proof. intros p x y E n. apply Z.eqb_eq in E. subst y. reflexivity. Qed.
