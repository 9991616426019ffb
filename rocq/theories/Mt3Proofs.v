(* Proofs about the Mersenne twister: final forms and seeding. *)
From Verif Require Import Base StreamModel RingModel RingProofs SwcProofs Swc2Proofs WinProofs BitsProofs MtModel MtSpec MtProofs TemperProofs Mt2Proofs.
Ltac Zify.zify_post_hook ::= idtac.

Notation inm p := (inw (mn p) (mV p)).
Notation mst p := (wst (mG p)).
Notation msq p := (sqn (mG p)).

Lemma wf_inm : forall p st, mt_wf p st <-> inm p (mx st) /\ (mi st <= mn p)%nat.
Proof. intros. reflexivity. Qed.

Lemma mt_all : forall p st, mt_params p -> mt_temper_params p -> mt_wf p st ->
  exists X, mt_sequence p (mx st) X /\
  forall n, exists st', run (mt_next p) n st = Some (map (fun k => tempered p (X k)) (seq (mi st) n), st') /\ mt_wf p st' /\
    (forall v, In v (map (fun k => tempered p (X k)) (seq (mi st) n)) -> 0 <= v <= 2 ^ mw p - 1).
Proof.
  intros p st HP HT [Hx Hi]. exists (msq p (mx st)). split; [apply msq_sequence; assumption|].
  intro n. destruct (mt_run_sq p HP n st Hx Hi) as [st' [E [F1 [F2 _]]]]. exists st'. split; [|split].
  - rewrite E. do 2 f_equal. apply map_ext. intro k. apply mt_temper_spec. exact HT.
  - split; assumption.
  - intros v Hv. apply in_map_iff in Hv. destruct Hv as [k [<- _]].
    destruct (tempered_bij p HT) as [B _].
    assert (word (mw p) (tempered p (msq p (mx st) k))).
    { apply B. apply (sqn_val (mn p) (mG p) (mV p) (mn1 p HP) (mG_V p HP) (mx st) k Hx). }
    unfold word in *. lia.
Qed.

(* the sequence is determined by the words *)
Lemma mt_sequence_unique : forall p x X Y, mt_params p -> mt_sequence p x X -> mt_sequence p x Y -> forall k, X k = Y k.
Proof.
  intros p x X Y HP [X1 X2] [Y1 Y2]. pose proof (mn_pos p HP) as Hn2. destruct HP as [_ [_ [Hm _]]].
  intro k. induction k as [k IH] using lt_wf_ind.
  destruct (Nat.lt_ge_cases k (mn p)) as [L|L]; [rewrite X1, Y1 by exact L; reflexivity|].
  replace k with (k - mn p + mn p)%nat by lia. rewrite X2, Y2. rewrite !IH by lia. reflexivity.
Qed.

Lemma outputs_sq : forall p st n, mt_params p -> mt_temper_params p -> inm p (mx st) -> (mi st <= mn p)%nat ->
  mt_outputs p n st = Some (map (fun k => tempered p (msq p (mx st) k)) (seq (mi st) n)).
Proof.
  intros p st n HP HT Hx Hi. unfold mt_outputs. destruct (mt_run_sq p HP n st Hx Hi) as [st' [E _]]. rewrite E. cbn [bind fst].
  f_equal. apply map_ext. intro k. apply mt_temper_spec. exact HT.
Qed.

Lemma map_seq_inj : forall (f g : nat -> Z) a b n j, map f (seq a n) = map g (seq b n) -> (j < n)%nat -> f (a + j)%nat = g (b + j)%nat.
Proof.
  intros f g a b n j H Hj. apply (f_equal (fun l => nth j l 0)) in H.
  rewrite (nth_indep _ 0 (f O)) in H by (rewrite map_length, seq_length; lia). rewrite map_nth, seq_nth in H by lia.
  rewrite (nth_indep _ 0 (g O)) in H by (rewrite map_length, seq_length; lia). rewrite map_nth, seq_nth in H by lia. exact H.
Qed.

Lemma same_future_sq : forall p a b, mt_params p -> mt_temper_params p -> mt_wf p a -> mt_wf p b ->
  (mt_same_future p a b <-> forall k, msq p (mx a) (mi a + k) = msq p (mx b) (mi b + k)).
Proof.
  intros p a b HP HT [Hxa Hia] [Hxb Hib]. unfold mt_same_future. split.
  - intros H k. specialize (H (S k)). rewrite !outputs_sq in H by assumption. apply Some_eq_inj in H.
    apply (map_seq_inj _ _ _ _ _ k) in H; [|lia]. destruct (tempered_bij p HT) as [_ [B _]]. apply B; [| |exact H].
    + apply (sqn_val (mn p) (mG p) (mV p) (mn1 p HP) (mG_V p HP) (mx a) _ Hxa).
    + apply (sqn_val (mn p) (mG p) (mV p) (mn1 p HP) (mG_V p HP) (mx b) _ Hxb).
  - intros H n. rewrite !outputs_sq by assumption. f_equal. apply seq_map_ext. intro j. f_equal. apply H.
Qed.

Lemma window_eq : forall p x y i, mt_params p -> inm p x -> inm p y -> (forall k, msq p x (i + k) = msq p y (i + k)) ->
  iter i (mst p) x = iter i (mst p) y.
Proof.
  intros p x y i HP Hx Hy H.
  pose proof (iter_inw (mn p) (mG p) (mV p) (mn1 p HP) (mG_V p HP) i x Hx) as [L1 _].
  pose proof (iter_inw (mn p) (mG p) (mV p) (mn1 p HP) (mG_V p HP) i y Hy) as [L2 _].
  apply list_ext; [lia|]. intros j Hj.
  rewrite (sqn_window (mn p) (mG p) (mV p) (mn1 p HP) (mG_V p HP) x i j Hx) by lia.
  rewrite (sqn_window (mn p) (mG p) (mV p) (mn1 p HP) (mG_V p HP) y i j Hy) by lia. apply H.
Qed.

Lemma equal_imp_future : forall p a b, mt_params p -> mt_temper_params p -> mt_reversible p ->
  mt_wf p a -> mt_wf p b -> mt_normal p (mx a) -> mt_normal p (mx b) -> (mi a <= mi b)%nat ->
  exists e, equal_imp p a b = Some e /\ (e = true <-> mt_same_future p a b).
Proof.
  intros p a b HP HT HR Ha Hb Na Nb Hi. pose proof Ha as [Hxa Hia]. pose proof Hb as [Hxb Hib].
  apply (normal_Nm p HP HR _ Hxa) in Na. apply (normal_Nm p HP HR _ Hxb) in Nb.
  destruct (equal_imp_ok p HP HR a b Hxa Hxb ltac:(lia)) as [e [E1 E2]].
  exists e. split; [exact E1|]. rewrite E2. rewrite same_future_sq by assumption.
  set (off := (mi b - mi a)%nat) in *. split.
  - intros E k. rewrite <- E. rewrite <- (iter_mst_back p HP HR off (mx a) Hxa Na) at 1. rewrite sqn_iter. f_equal. lia.
  - intro H.
    assert (HW: iter (mi a) (mst p) (mx a) = iter (mi a) (mst p) (iter off (mst p) (mx b))).
    { apply window_eq; [exact HP|exact Hxa|apply iter_mst_inm; assumption|].
      intro k. rewrite sqn_iter. rewrite H. f_equal. lia. }
    apply (f_equal (iter (mi a) (mback p))) in HW. rewrite !iter_back_mst in HW; auto using iter_mst_inm, iter_mst_Nm.
    rewrite HW. apply iter_back_mst; assumption.
Qed.

Lemma mt_eq_iff : forall p a b, mt_params p -> mt_temper_params p -> mt_reversible p ->
  mt_wf p a -> mt_wf p b -> mt_normal p (mx a) -> mt_normal p (mx b) ->
  exists e, mt_eq p a b = Some e /\ (e = true <-> mt_same_future p a b).
Proof.
  intros p a b HP HT HR Ha Hb Na Nb. unfold mt_eq. destruct (Nat.ltb_spec (mi a) (mi b)).
  - apply equal_imp_future; auto. lia.
  - destruct (equal_imp_future p b a HP HT HR Hb Ha Nb Na ltac:(lia)) as [e [E1 E2]]. exists e. split; [exact E1|].
    rewrite E2. split; intros H' n; symmetry; apply H'.
Qed.

Lemma mt_step_normal : forall p st n outs st', mt_params p -> mt_reversible p -> mt_wf p st -> mt_normal p (mx st) ->
  run (mt_next p) n st = Some (outs, st') -> mt_wf p st' /\ mt_normal p (mx st').
Proof.
  intros p st n outs st' HP HR [Hx Hi] HN E. destruct (mt_run_sq p HP n st Hx Hi) as [s [E1 [F1 [F2 [_ [q [_ F3]]]]]]].
  rewrite E in E1. apply Some_eq_inj in E1. apply (f_equal snd) in E1. cbn [snd] in E1. subst s.
  split; [split; assumption|]. apply (normal_Nm p HP HR _ F1). rewrite F3. apply iter_mst_Nm; auto.
  apply (normal_Nm p HP HR _ Hx). exact HN.
Qed.

Lemma mt_round_trip : forall p a b rest, mt_params p -> mt_temper_params p -> mt_reversible p ->
  mt_wf p a -> mt_normal p (mx a) -> length (mx b) = mn p ->
  exists text c, mt_write p a = Some text /\ mt_read p b (good_in (text ++ rest)) = (c, good_in rest) /\
    mt_wf p c /\ mt_normal p (mx c) /\ mt_eq p a c = Some true /\ mt_eq p c a = Some true /\ mt_same_future p a c.
Proof.
  intros p a b rest HP HT HR Ha Na Hb. pose proof Ha as [Hxa Hia].
  pose proof (proj1 (normal_Nm p HP HR _ Hxa) Na) as Na'.
  set (d := iter (mn p - mi a) (mback p) (mx a)).
  assert (Hd: inm p d) by (apply iter_back_inm; assumption).
  exists (map TInt d), (Mt d (mn p)).
  assert (Hc: mt_wf p (Mt d (mn p))) by (split; [exact Hd|cbn [mi]; lia]).
  assert (Nc: mt_normal p d) by (apply (normal_Nm p HP HR _ Hd); apply iter_back_Nm; assumption).
  assert (HF: mt_same_future p a (Mt d (mn p))).
  { apply same_future_sq; auto. intro k. cbn [mx mi].
    rewrite <- (iter_mst_back p HP HR (mn p - mi a) (mx a) Hxa Na') at 1. fold d. rewrite sqn_iter. f_equal. lia. }
  split; [|split; [|split; [|split; [|split; [|split]]]]].
  - unfold mt_write. rewrite print_ok by assumption. reflexivity.
  - unfold mt_read. destruct Hd as [Hd1 Hd2]. rewrite <- Hd1 at 1. rewrite read_arr_ok; [reflexivity| |lia].
    intros v Hv. specialize (Hd2 v Hv). unfold mV in Hd2. pose proof (w_le_W p HP). unfold inT, imin, imax. cbn [bits sgn]. lia.
  - exact Hc.
  - exact Nc.
  - destruct (mt_eq_iff p a (Mt d (mn p)) HP HT HR Ha Hc Na Nc) as [e [E1 E2]]. rewrite E1. f_equal. apply E2. exact HF.
  - destruct (mt_eq_iff p (Mt d (mn p)) a HP HT HR Hc Ha Nc Na) as [e [E1 E2]]. rewrite E1. f_equal. apply E2.
    intro n. symmetry. apply HF.
  - exact HF.
Qed.

(* ---- seeding ---- *)

(* words that differ only in the low r bits of the first one have the same successors *)
Lemma mst_low : forall p x0 l t, mt_params p -> mst p (yy (mr p) x0 l :: t) = mst p (x0 :: t).
Proof.
  intros p x0 l t HP. unfold wst. cbn [tl]. do 2 f_equal. unfold mG.
  destruct HP as [_ [_ [Hm [Hr _]]]].
  change (nth 0 (yy (mr p) x0 l :: t) 0) with (yy (mr p) x0 l). change (nth 0 (x0 :: t) 0) with x0.
  destruct (mm p) as [|k] eqn:E; [lia|]. change (nth 1 (yy (mr p) x0 l :: t) 0) with (nth 0 t 0).
  change (nth 1 (x0 :: t) 0) with (nth 0 t 0). change (nth (S k) (yy (mr p) x0 l :: t) 0) with (nth k t 0).
  change (nth (S k) (x0 :: t) 0) with (nth k t 0). rewrite yy_up by lia. reflexivity.
Qed.

Lemma all_zero_spec : forall x, all_zero x = true <-> forall v, In v x -> v = 0.
Proof.
  intro x. unfold all_zero. rewrite forallb_forall. split; intros H v Hv; [apply Z.eqb_eq|apply Z.eqb_eq]; apply H; exact Hv.
Qed.

Lemma untwist_nn : forall p v, 0 <= mW p -> 0 <= untwist p v.
Proof.
  intros p v H. unfold untwist, wrap. assert (0 < 2 ^ mW p) by (apply Z.pow_pos_nonneg; lia).
  destruct (Z.land v (Z.shiftl 1 (mw p - 1)) =? 0).
  - apply Z.mod_pos_bound. lia.
  - apply Z.lor_nonneg. split; [|lia]. apply Z.mod_pos_bound. lia.
Qed.

(* normalize_state *)
Lemma normalize_ok : forall p x0 t, mt_params p -> inm p (x0 :: t) ->
  exists l, 0 <= l /\ l = untwist p (Z.lxor (nth (mm p - 1) (x0 :: t) 0) (nth (mn p - 1) (x0 :: t) 0)) /\
    let x1 := yy (mr p) x0 l :: t in inm p x1 /\
    mt_normalize p (x0 :: t) = Some (if all_zero x1 then 2 ^ (mw p - 1) :: t else x1).
Proof.
  intros p x0 t HP Hx. pose proof HP as [HW [Hw [Hm [Hr Ha]]]].
  assert (EL: length (x0 :: t) = mn p) by (destruct Hx; assumption). pose proof (w_le_W p HP) as HWw.
  set (l := untwist p (Z.lxor (nth (mm p - 1) (x0 :: t) 0) (nth (mn p - 1) (x0 :: t) 0))).
  exists l. assert (Hl: 0 <= l) by (apply untwist_nn; lia). split; [exact Hl|]. split; [reflexivity|].
  assert (H0: 0 <= x0 < 2 ^ mw p) by (apply (proj2 Hx); left; reflexivity).
  assert (Hy: 0 <= yy (mr p) x0 l < 2 ^ mw p).
  { rewrite (yy_mod_r (mr p) x0 l (l mod 2 ^ mr p)).
    - apply yy_range; [lia|exact H0|]. assert (2 ^ mr p <= 2 ^ mw p) by (apply Z.pow_le_mono_r; lia).
      pose proof (Z.mod_pos_bound l (2 ^ mr p) ltac:(apply Z.pow_pos_nonneg; lia)). lia.
    - lia.
    - symmetry. apply Z.mod_mod. apply Z.pow_nonzero; lia. }
  cbv zeta. split.
  - split; [exact EL|]. intros v [<-|Hv]; [exact Hy|apply (proj2 Hx); right; exact Hv].
  - unfold mt_normalize. rewrite !get_nth by lia. cbn [bind].
    fold l. change (nth 0 (x0 :: t) 0) with x0. rewrite mask_yy by lia.
    rewrite upd_some by (rewrite EL; lia). cbn [bind firstn app].
    change (skipn 1 (x0 :: t)) with t.
    destruct (all_zero (yy (mr p) x0 l :: t)) eqn:Z; [|reflexivity].
    rewrite upd_some by (cbn [length]; lia). cbn [firstn app]. change (skipn 1 (yy (mr p) x0 l :: t)) with t.
    rewrite Z.shiftl_1_l. reflexivity.
Qed.

Lemma init_cons : forall p v S, mt_params p -> mt_init p v S -> forall k i, S i = S i ->
  seed_words p k (Z.of_nat (i + 1)) (S i) = map S (seq (i + 1) k).
Proof.
  intros p v S HP [S0 SS] k. pose proof HP as [HW [Hw [Hm [Hr Ha]]]].
  induction k as [|k IH]; intros i _; [reflexivity|]. cbn [seed_words seq map]. cbv zeta.
  assert (E: Z.land (wrap 64 (wrap (mW p) (mf p * Z.lxor (S i) (Z.shiftr (S i) (mw p - 2))) + Z.of_nat (i + 1))) (2 ^ mw p - 1) = S (i + 1)%nat).
  { rewrite SS. replace (2 ^ mw p - 1) with (Z.ones (mw p)) by (rewrite Z.ones_equiv; lia). rewrite Z.land_ones by lia.
    rewrite Z.shiftr_div_pow2 by lia. unfold wrap.
    assert (M: forall z W, mw p <= W -> (z mod 2 ^ W) mod 2 ^ mw p = z mod 2 ^ mw p).
    { intros z W L. apply Z.bits_inj'. intros i' Hi'. rewrite !lower_bits by lia.
      destruct (Z.ltb_spec i' (mw p)), (Z.ltb_spec i' W); simpl; try reflexivity; lia. }
    rewrite M by lia. rewrite <- Z.add_mod_idemp_l by (apply Z.pow_nonzero; lia). rewrite M by lia.
    apply Z.add_mod_idemp_l. apply Z.pow_nonzero; lia. }
  rewrite E. f_equal. replace (Z.of_nat (i + 1) + 1) with (Z.of_nat ((i + 1) + 1)) by lia. rewrite IH by reflexivity.
  f_equal. f_equal. lia.
Qed.

Lemma init_range : forall p v S, mt_params p -> mt_init p v S -> forall i, 0 <= S i < 2 ^ mw p.
Proof.
  intros p v S HP [S0 SS] i. pose proof HP as [HW [Hw _]]. assert (0 < 2 ^ mw p) by (apply Z.pow_pos_nonneg; lia).
  destruct i as [|i]; [rewrite S0; apply Z.mod_pos_bound; lia|]. replace (Datatypes.S i) with (i + 1)%nat by lia.
  rewrite SS. apply Z.mod_pos_bound. lia.
Qed.

Lemma mt_seed_ok : forall p v S, mt_params p -> mt_temper_params p -> (3 <= mn p)%nat -> mt_init p v S ->
  exists st X, mt_seed p v = Some st /\ mt_wf p st /\ mt_sequence p (map S (seq 0 (mn p))) X /\
    forall k, mt_outputs p k st = Some (map (fun j => tempered p (X j)) (seq (mn p) k)).
Proof.
  intros p v S HP HT Hn3 HS. pose proof HP as [HW [Hw [Hm [Hr Ha]]]].
  assert (Hx: inm p (map S (seq 0 (mn p)))).
  { split; [rewrite map_length, seq_length; reflexivity|]. intros z Hz. apply in_map_iff in Hz. destruct Hz as [i [<- _]].
    apply (init_range p v S HP HS). }
  assert (EX: map S (seq 0 (mn p)) = S O :: map S (seq 1 (mn p - 1))).
  { replace (mn p) with (Datatypes.S (mn p - 1)) at 1 by lia. reflexivity. }
  assert (Es: Z.land (wrap (mW p) v) (2 ^ mw p - 1) = S O).
  { destruct HS as [-> _]. replace (2 ^ mw p - 1) with (Z.ones (mw p)) by (rewrite Z.ones_equiv; lia). rewrite Z.land_ones by lia.
    unfold wrap. apply Z.bits_inj'. intros i' Hi'. rewrite !lower_bits by lia.
    destruct (Z.ltb_spec i' (mw p)), (Z.ltb_spec i' (mW p)); simpl; try reflexivity; lia. }
  unfold mt_seed. cbv zeta. rewrite Es.
  pose proof (init_cons p v S HP HS (mn p - 1) 0 eq_refl) as EI. change (Z.of_nat (0 + 1)) with 1 in EI.
  change (0 + 1)%nat with 1%nat in EI. rewrite EI. rewrite EX in Hx.
  destruct (normalize_ok p _ _ HP Hx) as [l [Hl [_ [HX1 EN]]]]. rewrite EN. cbn [bind].
  set (t := map S (seq 1 (mn p - 1))) in *.
  assert (NZ: all_zero (yy (mr p) (S O) l :: t) = false).
  { destruct (all_zero (yy (mr p) (S O) l :: t)) eqn:Z; [|reflexivity]. exfalso.
    rewrite all_zero_spec in Z.
    assert (I: forall i, (1 <= i < mn p)%nat -> S i = 0).
    { intros i Hi. apply Z. right. apply in_map. apply in_seq. lia. }
    pose proof (I 1%nat ltac:(lia)) as I1. pose proof (I 2%nat ltac:(lia)) as I2.
    destruct HS as [_ SS]. specialize (SS 1%nat). change (1 + 1)%nat with 2%nat in SS. rewrite I1, I2 in SS.
    rewrite Zdiv_0_l, Z.lxor_nilpotent, Z.mul_0_r, Z.add_0_l in SS. change (Z.of_nat 2) with 2 in SS.
    assert (4 <= 2 ^ mw p) by (change 4 with (2 ^ 2); apply Z.pow_le_mono_r; lia). rewrite Z.mod_small in SS by lia. discriminate. }
  rewrite NZ. set (st := Mt (yy (mr p) (S O) l :: t) (mn p)).
  exists st, (msq p (S O :: t)). split; [reflexivity|]. split; [split; [exact HX1|cbn [mi st]; unfold st; cbn [mi]; lia]|].
  split.
  - rewrite EX. apply msq_sequence; assumption.
  - intro k. rewrite outputs_sq by (try assumption; unfold st; cbn [mi]; lia). f_equal. apply map_ext_in. intros j Hj.
    apply in_seq in Hj. unfold st in *. cbn [mx mi] in *. f_equal. unfold sqn.
    replace j with (1 + (j - 1))%nat by lia. rewrite !iter_plus. cbn [iter]. rewrite mst_low by exact HP. reflexivity.
Qed.

Lemma zeros_fix : forall p, mt_params p -> mst p (repeat 0 (mn p)) = repeat 0 (mn p).
Proof.
  intros p HP. pose proof HP as [HW [Hw [Hm [Hr Ha]]]]. unfold wst. unfold mG.
  assert (E: forall j, nth j (repeat 0 (mn p)) 0 = 0) by (intro j; apply nth_repeat). rewrite !E.
  rewrite yy_same. unfold tw. change (Z.odd 0) with false. cbv iota. rewrite Zdiv_0_l. change (Z.lxor 0 (Z.lxor 0 0)) with 0.
  destruct (mn p) as [|k] eqn:En; [lia|]. cbn [repeat tl]. clear. induction k as [|k IH]; [reflexivity|]. cbn [repeat app]. f_equal. exact IH.
Qed.
Lemma zeros_iter : forall p k, mt_params p -> iter k (mst p) (repeat 0 (mn p)) = repeat 0 (mn p).
Proof. intros p k HP. induction k as [|k IH]; [reflexivity|]. cbn [iter]. rewrite zeros_fix by exact HP. exact IH. Qed.

Lemma seed_array_ok : forall p arr, mt_params p -> mt_temper_params p -> mt_reversible p -> mt_words p arr ->
  exists st, mt_seed_array p arr = Some st /\ mt_wf p st /\ mt_normal p (mx st) /\
    (exists v, In v (mx st) /\ v <> 0) /\
    (exists outs st' v, run (mt_next p) (mn p) st = Some (outs, st') /\ In v outs /\ v <> 0) /\
    ((exists v, In v (tl arr) /\ v <> 0) \/ nth 0 arr 0 / 2 ^ mr p <> 0 ->
     exists X, mt_sequence p arr X /\ forall k, mt_outputs p k st = Some (map (fun j => tempered p (X j)) (seq (mn p) k))).
Proof.
  intros p arr HP HT HR Hx. pose proof HP as [HW [Hw [Hm [Hr Ha]]]]. change (inm p arr) in Hx.
  destruct arr as [|x0 t]; [destruct Hx as [Hx _]; simpl in Hx; lia|].
  destruct (normalize_ok p x0 t HP Hx) as [l [Hl [El [HX1 EN]]]].
  unfold mt_seed_array. rewrite EN. cbn [bind].
  assert (EL: length (x0 :: t) = mn p) by (destruct Hx; assumption).
  assert (Hm2: (2 <= mm p)%nat) by (destruct HR; assumption).
  remember (mm p - 2)%nat as k eqn:Ek. remember (mn p - 2)%nat as n' eqn:En.
  assert (Elt: l = ut (mw p) (ma p) (Z.lxor (nth k t 0) (nth n' t 0))).
  { rewrite El. replace (mm p - 1)%nat with (S k) by lia. replace (mn p - 1)%nat with (S n') by lia.
    change (nth (S k) (x0 :: t) 0) with (nth k t 0). change (nth (S n') (x0 :: t) 0) with (nth n' t 0).
    apply untwist_ut; [exact HP|exact HR|].
    apply lxor_range; [lia| |]; apply (proj2 Hx); right; apply nth_In; simpl in EL; lia. }
  set (x2 := if all_zero (yy (mr p) x0 l :: t) then 2 ^ (mw p - 1) :: t else yy (mr p) x0 l :: t).
  assert (PW: 0 < 2 ^ (mw p - 1) < 2 ^ mw p) by (split; [apply Z.pow_pos_nonneg; lia|apply Z.pow_lt_mono_r; lia]).
  assert (Hx2: inm p x2).
  { unfold x2. destruct (all_zero (yy (mr p) x0 l :: t)); [|exact HX1]. split; [exact EL|].
    intros v [<-|Hv]; [unfold mV; lia|apply (proj2 Hx); right; exact Hv]. }
  assert (HN: Nm p x2).
  { unfold Nm. replace (mm p - 1)%nat with (S k) by lia. replace (mn p - 1)%nat with (S n') by lia.
    unfold x2. destruct (all_zero (yy (mr p) x0 l :: t)) eqn:Z.
    - rewrite all_zero_spec in Z. change (nth 0 (2 ^ (mw p - 1) :: t) 0) with (2 ^ (mw p - 1)).
      change (nth (S k) (2 ^ (mw p - 1) :: t) 0) with (nth k t 0). change (nth (S n') (2 ^ (mw p - 1) :: t) 0) with (nth n' t 0).
      simpl in EL.
      rewrite (Z (nth k t 0)) by (right; apply nth_In; lia). rewrite (Z (nth n' t 0)) by (right; apply nth_In; lia).
      change (Z.lxor 0 0) with 0. unfold ut. rewrite Z.testbit_0_l. rewrite Z.mul_0_r, Zmod_0_l.
      replace (mw p - 1) with (mw p - 1 - mr p + mr p) by lia. rewrite Z.pow_add_r by lia. apply Z.mod_mul. apply Z.pow_nonzero; lia.
    - change (nth 0 (yy (mr p) x0 l :: t) 0) with (yy (mr p) x0 l).
      change (nth (S k) (yy (mr p) x0 l :: t) 0) with (nth k t 0). change (nth (S n') (yy (mr p) x0 l :: t) 0) with (nth n' t 0).
      rewrite <- Elt. apply yy_low_mod. lia. }
  assert (NZ: exists v, In v x2 /\ v <> 0).
  { unfold x2. destruct (all_zero (yy (mr p) x0 l :: t)) eqn:Z.
    - exists (2 ^ (mw p - 1)). split; [left; reflexivity|lia].
    - destruct (existsb (fun v => negb (v =? 0)) (yy (mr p) x0 l :: t)) eqn:X.
      + apply existsb_exists in X. destruct X as [v [Hv Hv']]. exists v. split; [exact Hv|].
        apply negb_true_iff, Z.eqb_neq in Hv'. exact Hv'.
      + exfalso. assert (all_zero (yy (mr p) x0 l :: t) = true); [|congruence]. apply all_zero_spec. intros v Hv.
        destruct (Z.eq_dec v 0) as [E|E]; [exact E|]. exfalso.
        assert (existsb (fun v => negb (v =? 0)) (yy (mr p) x0 l :: t) = true); [|congruence].
        apply existsb_exists. exists v. split; [exact Hv|]. apply negb_true_iff, Z.eqb_neq. exact E. }
  exists (Mt x2 (mn p)). split; [reflexivity|]. split; [split; [exact Hx2|cbn [mi]; lia]|].
  split; [apply (normal_Nm p HP HR _ Hx2); exact HN|]. cbn [mx]. split; [exact NZ|]. split.
  - destruct (mt_run_sq p HP (mn p) (Mt x2 (mn p)) Hx2 ltac:(cbn [mi]; lia)) as [st' [E1 [F1 _]]]. cbn [mx mi] in *.
    rewrite E1. eexists. exists st'.
    destruct (existsb (fun v => negb (v =? 0)) (iter (mn p) (mst p) x2)) eqn:X.
    + apply existsb_exists in X. destruct X as [v [Hv Hv']]. apply negb_true_iff, Z.eqb_neq in Hv'.
      apply (In_nth _ _ 0) in Hv. destruct Hv as [j [Hj Ej]].
      pose proof (iter_mst_inm p HP (mn p) x2 Hx2) as [L1 _]. rewrite L1 in Hj.
      rewrite (sqn_window (mn p) (mG p) (mV p) (mn1 p HP) (mG_V p HP) x2 (mn p) j Hx2 Hj) in Ej.
      exists (mt_temper p (msq p x2 (mn p + j))). split; [reflexivity|]. split.
      * apply in_map_iff. exists (mn p + j)%nat. split; [reflexivity|]. apply in_seq. lia.
      * rewrite mt_temper_spec by exact HT. rewrite Ej. intro E. apply Hv'.
        destruct (tempered_bij p HT) as [_ [B _]]. apply B; [|split; [lia|apply Z.pow_pos_nonneg; lia]|rewrite tempered_0; exact E].
        rewrite <- Ej. apply (sqn_val (mn p) (mG p) (mV p) (mn1 p HP) (mG_V p HP) x2 _ Hx2).
    + exfalso.
      assert (EZ: iter (mn p) (mst p) x2 = repeat 0 (mn p)).
      { pose proof (iter_mst_inm p HP (mn p) x2 Hx2) as [L1 _].
        apply list_ext; [rewrite repeat_length; exact L1|]. intros j Hj. rewrite nth_repeat.
        destruct (Z.eq_dec (nth j (iter (mn p) (mst p) x2) 0) 0) as [E|E]; [exact E|]. exfalso.
        assert (existsb (fun v => negb (v =? 0)) (iter (mn p) (mst p) x2) = true); [|congruence].
        apply existsb_exists. exists (nth j (iter (mn p) (mst p) x2) 0). split; [apply nth_In; exact Hj|].
        apply negb_true_iff, Z.eqb_neq. exact E. }
      rewrite <- (zeros_iter p (mn p) HP) in EZ. apply (f_equal (iter (mn p) (mback p))) in EZ.
      assert (Hz: inm p (repeat 0 (mn p))).
      { split; [apply repeat_length|]. intros v Hv. apply repeat_spec in Hv. subst v. unfold mV. lia. }
      assert (Nz: Nm p (repeat 0 (mn p))).
      { rewrite <- (zeros_fix p HP). apply mst_Nm; assumption. }
      rewrite !iter_back_mst in EZ by assumption. destruct NZ as [v [Hv Hv']]. rewrite EZ in Hv. apply repeat_spec in Hv. contradiction.
  - intro HZ. exists (msq p (x0 :: t)). split; [apply msq_sequence; assumption|]. intro j0.
    rewrite outputs_sq by (try assumption; cbn [mi]; lia). f_equal. apply map_ext_in. intros j Hj.
    apply in_seq in Hj. cbn [mx mi] in *. f_equal. unfold sqn.
    replace j with (1 + (j - 1))%nat by lia. rewrite !iter_plus. cbn [iter]. do 2 f_equal.
    assert (Z: all_zero (yy (mr p) x0 l :: t) = false).
    { destruct (all_zero (yy (mr p) x0 l :: t)) eqn:Z; [|reflexivity]. exfalso. rewrite all_zero_spec in Z.
      destruct HZ as [[v [Hv Hv']]|H0].
      - apply Hv'. apply Z. right. exact Hv.
      - apply H0. change (nth 0 (x0 :: t) 0) with x0.
        assert (Y: yy (mr p) x0 l = 0) by (apply Z; left; reflexivity).
        rewrite <- Z.shiftr_div_pow2 by lia. apply Z.bits_inj'. intros i Hi. rewrite Z.shiftr_spec, Z.testbit_0_l by lia.
        apply (f_equal (fun z => Z.testbit z (i + mr p))) in Y. rewrite yy_bits, Z.testbit_0_l in Y by lia.
        destruct (Z.ltb_spec (i + mr p) (mr p)); [lia|exact Y]. }
    unfold x2. rewrite Z. apply mst_low. exact HP.
Qed.

Lemma mt_discard_run : forall p z st, mt_discard_short p z st = (r <- run (mt_next p) (Z.to_nat z) st;; Some (snd r)).
Proof.
  intros p z st. unfold mt_discard_short. generalize (Z.to_nat z). intro n. revert st.
  induction n as [|n IH]; intro st; [reflexivity|]. cbn [iterM run].
  rewrite !bind_assoc. apply bind_ext. intros r _. cbn [bind]. rewrite IH. rewrite !bind_assoc. apply bind_ext.
  intros; reflexivity.
Qed.
