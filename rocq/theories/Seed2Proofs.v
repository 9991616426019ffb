(* seeding of the engines *)
From Verif Require Import Base ArithSpec ArithModel ArithProofs ConstModProofs LcgModel LcgProofs Lcg2Proofs RingModel
  SwcSpec SwcModel LfSpec LfModel MtSpec MtModel Mt3Proofs LfsSpec LfsModel LfsProofs AdaptModel MixModel SeedSpec SeedModel SeedProofs.
Ltac Zify.zify_post_hook ::= idtac.

Lemma wn_per : forall w c, words_per w c -> wn w = c.
Proof.
  intros w c [H1 H2]. unfold wn, wpw. assert (E : (w + 31) / 32 = Z.of_nat c); [|lia].
  symmetry. apply Z.div_unique with (w + 31 - 32 * Z.of_nat c); lia.
Qed.
Lemma words_for_pow2 : forall w k, 0 < w -> words_for (2 ^ w) k -> words_per w k.
Proof.
  intros w k Hw (K1 & K2 & K3). unfold words_per.
  apply Z.pow_lt_mono_r_iff in K2; [|lia|lia].
  apply Z.pow_le_mono_r_iff in K3; lia.
Qed.

Lemma residue_inT : forall t m v, cm_wf t m -> 0 <= v < cmod t m -> inT t v.
Proof.
  intros t m v H Hv. pose proof (cmod_le t m H). unfold inT, imin. destruct (sgn t); [|lia].
  assert (0 < 2 ^ (bits t - 1)) by (apply Z.pow_pos_nonneg; destruct H as [[? ?] _]; lia). lia.
Qed.

Lemma seed_spec_mod : forall c M v, 0 < M -> lcg_seed_spec c M (v mod M) = lcg_seed_spec c M v.
Proof. intros. unfold lcg_seed_spec. rewrite Zmod_mod. reflexivity. Qed.

Theorem lcg_range_ok : forall t a c m l, width_ok t -> lcg_wf t a c m ->
  Forall (fun e => word e /\ e <= imax t) l ->
  exists k, words_for (cmod t m) k /\
  ((k <= length l)%nat ->
     lcg_seed_range t a c m l = Some (Some (lcg_seed_spec c (cmod t m) (le_value (firstn k l))), skipn k l)) /\
  ((length l < k)%nat -> lcg_seed_range t a c m l = Some (None, [])).
Proof.
  intros t a c m l Hwd HL HF. pose proof HL as (H & HM & _).
  destruct (get_one_int_ok t m l Hwd H HM HF) as (k & K & K1 & K2). exists k. split; [exact K|].
  unfold lcg_seed_range. split; intros Hl.
  - rewrite (K1 Hl). cbn [bind]. rewrite (lcg_seed_ok t a c m); [|exact HL|apply (residue_inT t m); [exact H|apply Z.mod_pos_bound; lia]].
    cbn [bind]. rewrite seed_spec_mod by lia. reflexivity.
  - rewrite (K2 Hl). reflexivity.
Qed.

Theorem lcg_seq_ok : forall t a c m gen, width_ok t -> lcg_wf t a c m ->
  (forall n, length (gen n) = n /\ Forall (fun e => word e /\ e <= imax t) (gen n)) ->
  exists k, words_for (cmod t m) k /\
    lcg_seed_seq t a c m gen = Some (lcg_seed_spec c (cmod t m) (le_value (firstn k (skipn 3 (gen (k + 3)%nat))))).
Proof.
  intros t a c m gen Hwd HL Hg. pose proof HL as (H & HM & _).
  destruct (seed_one_int_ok t m gen Hwd H HM Hg) as (k & K & K1). exists k. split; [exact K|].
  unfold lcg_seed_seq. rewrite K1. cbn [bind]. rewrite (lcg_seed_ok t a c m); [|exact HL|apply (residue_inT t m); [exact H|apply Z.mod_pos_bound; lia]].
  rewrite seed_spec_mod by lia. reflexivity.
Qed.

Lemma icg_is_lcg : forall t a b p x0, icg_seed t a b p x0 = lcg_seed t a b p x0.
Proof. reflexivity. Qed.

Theorem icg_range_ok : forall t a b p l, width_ok t -> lcg_wf t a b p ->
  Forall (fun e => word e /\ e <= imax t) l ->
  exists k, words_for (cmod t p) k /\
  ((k <= length l)%nat ->
     icg_seed_range t a b p l = Some (Some (lcg_seed_spec b (cmod t p) (le_value (firstn k l))), skipn k l)) /\
  ((length l < k)%nat -> icg_seed_range t a b p l = Some (None, [])).
Proof. intros t a b p l. exact (lcg_range_ok t a b p l). Qed.

Lemma lfs_modulus : forall p, lfs_params p -> width_ok (Ity (lW p) false) ->
  cm_wf (Ity (lW p) false) (wrap (lW p) (Z.shiftl 2 (lw p - 1))) /\
  cmod (Ity (lW p) false) (wrap (lW p) (Z.shiftl 2 (lw p - 1))) = 2 ^ lw p.
Proof.
  intros p HP Hwd. pose proof HP as (H1 & H2 & H3 & H4 & H5).
  rewrite Z.shiftl_mul_pow2 by lia. replace (2 * 2 ^ (lw p - 1)) with (2 ^ lw p).
  2:{ replace (lw p) with (Z.succ (lw p - 1)) at 1 by lia. rewrite Z.pow_succ_r by lia. reflexivity. }
  assert (P0 : 0 < 2 ^ lw p) by (apply Z.pow_pos_nonneg; lia).
  pose proof (width_wf _ Hwd) as Wf. unfold cm_wf, cmod, wrap.
  destruct (Z.eq_dec (lw p) (lW p)) as [E|E].
  - rewrite E, Z.mod_same by (rewrite <- E; lia). split; [|reflexivity]. split; [exact Wf|]. left. split; reflexivity.
  - assert (2 ^ lw p < 2 ^ lW p) by (apply Z.pow_lt_mono_r; lia).
    rewrite Z.mod_small by lia. destruct (Z.eqb_spec (2 ^ lw p) 0); [lia|]. split; [|reflexivity].
    split; [exact Wf|]. right. unfold imax. cbn [sgn bits]. lia.
Qed.

Theorem lfs_range_ok : forall p l, lfs_params p -> lW p = 32 \/ lW p = 64 -> lw p - lk p <= 30 -> Forall word l ->
  forall c, words_per (lw p) c ->
  ((c <= length l)%nat -> exists v, lfs_seed_range p l = Some (Some v, skipn c l) /\ ~ lfs_dead p v /\
     (v = le_value (firstn c l) mod 2 ^ lw p \/ v = le_value (firstn c l) mod 2 ^ lw p + 2 ^ (lw p - lk p))) /\
  ((length l < c)%nat -> lfs_seed_range p l = Some (None, [])).
Proof.
  intros p l HP HW H30 HF c Hc. pose proof HP as (H1 & H2 & H3 & H4 & H5).
  assert (Hwd : width_ok (Ity (lW p) false)) by exact HW.
  destruct (lfs_modulus p HP Hwd) as [M1 M2].
  assert (HM : 1 < 2 ^ lw p) by (apply Z.pow_gt_1; lia).
  destruct (get_one_int_ok _ _ l Hwd M1 ltac:(rewrite M2; exact HM)) as (k & K & K1 & K2).
  { rewrite Forall_forall in *. intros e He. specialize (HF e He). split; [exact HF|].
    unfold word in HF. unfold imax. cbn [sgn bits].
    assert (2 ^ 32 <= 2 ^ lW p) by (destruct HW as [-> | ->]; lia). lia. }
  rewrite M2 in K, K1. apply words_for_pow2 in K; [|lia].
  assert (k = c) by (rewrite <- (wn_per _ _ K); apply wn_per, Hc). subst k.
  unfold lfs_seed_range. split; intros Hl.
  - rewrite (K1 Hl). cbn [bind].
    destruct (seed_ok p (le_value (firstn c l) mod 2 ^ lw p) HP H30) as (v & E & _ & D & V).
    exists v. rewrite E. split; [reflexivity|]. split; [exact D|]. rewrite Zmod_mod in V. exact V.
  - rewrite (K2 Hl). reflexivity.
Qed.

(* arrays *)
Theorem array_ok : forall W w c x l, 0 < w <= W -> words_per w c ->
  ((c * length x <= length l)%nat ->
     fill_array_int W w x l = (chunks c w (length x) l, Some (skipn (c * length x) l))) /\
  ((length l < c * length x)%nat ->
     fill_array_int W w x l = (chunks c w (length l / c) l ++ skipn (length l / c) x, None)).
Proof.
  intros W w c x l Hw Hc. rewrite <- (wn_per w c Hc). split; intros Hl.
  - apply fill_array_ok; [lia|exact Hl].
  - apply fill_array_short; assumption.
Qed.
Theorem array_real_ok : forall w c x l, 0 < w -> words_per w c -> Forall word l ->
  ((c * length x <= length l)%nat ->
     fill_array_real w x l = (chunks c w (length x) l, Some (skipn (c * length x) l))) /\
  ((length l < c * length x)%nat ->
     fill_array_real w x l = (chunks c w (length l / c) l ++ skipn (length l / c) x, None)).
Proof.
  intros w c x l Hw Hc HF. rewrite <- (wn_per w c Hc). split; intros Hl.
  - apply fill_real_ok; assumption.
  - apply fill_real_short; assumption.
Qed.
Theorem array_seq_ok : forall W w n gen c, 0 < w <= W -> words_per w c -> length (gen (c * n)%nat) = (c * n)%nat ->
  seed_array_int W w n gen = Some (chunks c w n (gen (c * n)%nat)).
Proof. intros W w n gen c Hw Hc HG. rewrite <- (wn_per w c Hc) in *. apply seed_array_int_ok; [lia|exact HG]. Qed.

Lemma chunks_below : forall c w n l, 0 <= w -> below w n (chunks c w n l).
Proof. intros. apply chunks_range. assumption. Qed.

Lemma get_last : forall x r, length x = r -> (1 <= r)%nat -> get x (r - 1) = Some (nth (r - 1) x 0).
Proof. intros x r Hx Hr. unfold get. apply nth_error_nth'. lia. Qed.

(* the state of a subtract-with-carry engine made of the words y *)
Definition swc_of (r : nat) (y : list Z) : swc := Swc y 0 (if nth (r - 1) y 0 =? 0 then 1 else 0).
Lemma swc_of_wf : forall w r y, (1 <= r)%nat -> below w r y -> swc_wf w r (swc_of r y).
Proof.
  intros w r y Hr [L R]. unfold swc_of. split; [exact L|]. split; [cbn [kk]; lia|]. split; [exact R|].
  cbn [cy]. destruct (_ =? 0); auto.
Qed.
Lemma swc_after_ok : forall w r st y l, (1 <= r)%nat -> below w r y ->
  swc_after r st (y, Some l) = Some (swc_of r y, Some l).
Proof.
  intros w r st y l Hr [L R]. unfold swc_after. cbn [fst snd]. rewrite (get_last y r L Hr). reflexivity.
Qed.

Theorem swc_range_ok : forall W w c r st l, 0 < w <= W -> words_per w c -> (1 <= r)%nat -> length (xs st) = r ->
  ((c * r <= length l)%nat -> exists st',
     swc_seed_range W w r st l = Some (st', Some (skipn (c * r) l)) /\ swc_wf w r st' /\
     xs st' = chunks c w r l /\ kk st' = 0%nat /\ (cy st' = 1 <-> nth (r - 1) (chunks c w r l) 0 = 0)) /\
  ((length l < c * r)%nat -> exists st', swc_seed_range W w r st l = Some (st', None)).
Proof.
  intros W w c r st l Hw Hc Hr Hx. destruct (array_ok W w c (xs st) l Hw Hc) as [A B]. rewrite Hx in *.
  unfold swc_seed_range. split; intros Hl.
  - rewrite (A Hl). pose proof (chunks_below c w r l ltac:(lia)) as CB.
    rewrite (swc_after_ok w r st _ _ Hr CB). exists (swc_of r (chunks c w r l)). split; [reflexivity|].
    split; [apply swc_of_wf; assumption|]. split; [reflexivity|]. split; [reflexivity|]. cbn [cy swc_of].
    destruct (Z.eqb_spec (nth (r - 1) (chunks c w r l) 0) 0); split; intros; try lia; congruence.
  - rewrite (B Hl). eexists. reflexivity.
Qed.
Theorem swc01_range_ok : forall w c r st l, 0 < w -> words_per w c -> (1 <= r)%nat -> length (xs st) = r -> Forall word l ->
  ((c * r <= length l)%nat -> exists st',
     swc01_seed_range w r st l = Some (st', Some (skipn (c * r) l)) /\ swc_wf w r st' /\
     xs st' = chunks c w r l /\ kk st' = 0%nat /\ (cy st' = 1 <-> nth (r - 1) (chunks c w r l) 0 = 0)) /\
  ((length l < c * r)%nat -> exists st', swc01_seed_range w r st l = Some (st', None)).
Proof.
  intros w c r st l Hw Hc Hr Hx HF. destruct (array_real_ok w c (xs st) l Hw Hc HF) as [A B]. rewrite Hx in *.
  unfold swc01_seed_range. split; intros Hl.
  - rewrite (A Hl). pose proof (chunks_below c w r l ltac:(lia)) as CB.
    rewrite (swc_after_ok w r st _ _ Hr CB). exists (swc_of r (chunks c w r l)). split; [reflexivity|].
    split; [apply swc_of_wf; assumption|]. split; [reflexivity|]. split; [reflexivity|]. cbn [cy swc_of].
    destruct (Z.eqb_spec (nth (r - 1) (chunks c w r l) 0) 0); split; intros; try lia; congruence.
  - rewrite (B Hl). eexists. reflexivity.
Qed.

Theorem lf_range_ok : forall W w c p st l, 0 < w <= W -> words_per w c -> Z.of_nat p < 2 ^ 32 -> length (lx st) = p ->
  ((c * p <= length l)%nat ->
     lf_seed_range W w p st l = (Lf (Z.of_nat p) (chunks c w p l), Some (skipn (c * p) l)) /\
     lf_wf w p (Lf (Z.of_nat p) (chunks c w p l))) /\
  ((length l < c * p)%nat -> snd (lf_seed_range W w p st l) = None).
Proof.
  intros W w c p st l Hw Hc Hp Hx. destruct (array_ok W w c (lx st) l Hw Hc) as [A B]. rewrite Hx in *.
  unfold lf_seed_range, lf_after. split; intros Hl.
  - rewrite (A Hl). split; [reflexivity|]. destruct (chunks_below c w p l ltac:(lia)) as [C1 C2].
    split; [exact C1|]. split; [cbn [li]; lia|exact C2].
  - rewrite (B Hl). reflexivity.
Qed.
Theorem lf01_range_ok : forall w c p st l, 0 < w -> words_per w c -> Z.of_nat p < 2 ^ 32 -> length (lx st) = p -> Forall word l ->
  ((c * p <= length l)%nat ->
     lf01_seed_range w p st l = (Lf (Z.of_nat p) (chunks c w p l), Some (skipn (c * p) l)) /\
     lf_wf w p (Lf (Z.of_nat p) (chunks c w p l))) /\
  ((length l < c * p)%nat -> snd (lf01_seed_range w p st l) = None).
Proof.
  intros w c p st l Hw Hc Hp Hx HF. destruct (array_real_ok w c (lx st) l Hw Hc HF) as [A B]. rewrite Hx in *.
  unfold lf01_seed_range, lf_after. split; intros Hl.
  - rewrite (A Hl). split; [reflexivity|]. destruct (chunks_below c w p l ltac:(lia)) as [C1 C2].
    split; [exact C1|]. split; [cbn [li]; lia|exact C2].
  - rewrite (B Hl). reflexivity.
Qed.

(* Mersenne twister: the words become the history of the generator *)
Theorem mt_range_ok : forall p c st l, mt_params p -> mt_temper_params p -> mt_reversible p -> words_per (mw p) c ->
  length (mx st) = mn p ->
  let y := chunks c (mw p) (mn p) l in
  ((c * mn p <= length l)%nat -> exists st', mt_seed_range p st l = Some (Some st', skipn (c * mn p) l) /\
     mt_wf p st' /\ (exists v, In v (mx st') /\ v <> 0) /\
     ((exists v, In v (tl y) /\ v <> 0) \/ nth 0 y 0 / 2 ^ mr p <> 0 ->
      exists X, mt_sequence p y X /\ forall k, mt_outputs p k st' = Some (map (fun j => tempered p (X j)) (seq (mn p) k)))) /\
  ((length l < c * mn p)%nat -> mt_seed_range p st l = Some (None, [])).
Proof.
  intros p c st l HP HT HR Hc Hx y. pose proof HP as (H1 & H2 & _).
  destruct (array_ok (mW p) (mw p) c (mx st) l ltac:(lia) Hc) as [A B]. rewrite Hx in *.
  unfold mt_seed_range. split; intros Hl.
  - rewrite (A Hl). fold y. destruct (seed_array_ok p y HP HT HR) as (s & E & S1 & S2 & S3 & S4 & S5).
    { apply chunks_below. lia. }
    exists s. rewrite E. split; [reflexivity|]. split; [exact S1|]. split; [exact S3|exact S5].
  - rewrite (B Hl). reflexivity.
Qed.
Theorem mt_seq_ok : forall p c gen, mt_params p -> mt_temper_params p -> mt_reversible p -> words_per (mw p) c ->
  length (gen (c * mn p)%nat) = (c * mn p)%nat ->
  let y := chunks c (mw p) (mn p) (gen (c * mn p)%nat) in
  exists st', mt_seed_seq p gen = Some st' /\ mt_wf p st' /\ (exists v, In v (mx st') /\ v <> 0) /\
     ((exists v, In v (tl y) /\ v <> 0) \/ nth 0 y 0 / 2 ^ mr p <> 0 ->
      exists X, mt_sequence p y X /\ forall k, mt_outputs p k st' = Some (map (fun j => tempered p (X j)) (seq (mn p) k))).
Proof.
  intros p c gen HP HT HR Hc HG y. pose proof HP as (H1 & H2 & _).
  unfold mt_seed_seq. rewrite (array_seq_ok (mW p) (mw p) (mn p) gen c) by (try assumption; lia). cbn [bind]. fold y.
  destruct (seed_array_ok p y HP HT HR) as (s & E & S1 & S2 & S3 & S4 & S5); [apply chunks_below; lia|].
  exists s. split; [exact E|]. split; [exact S1|]. split; [exact S3|exact S5].
Qed.

Theorem mx_range_ok : forall l, Forall word l ->
  match l with
  | a :: b :: c :: d :: rest => mx_seed_range l = (Some (mx_seed4 a b c d), rest)
  | _ => mx_seed_range l = (None, [])
  end.
Proof.
  intros l HF. destruct (array_ok 32 32 1 [0; 0; 0; 0] l ltac:(lia) ltac:(unfold words_per; lia)) as [A B].
  cbn [length] in A, B. change (1 * 4)%nat with 4%nat in *. unfold mx_seed_range.
  destruct l as [|a [|b [|c [|d rest]]]].
  1-4: rewrite B by (cbn [length]; lia); cbn [length]; repeat (first [rewrite Nat.div_small by lia|rewrite Nat.div_1_r]); reflexivity.
  rewrite A by (cbn [length]; lia). cbn [length chunks firstn skipn le_value].
  rewrite !Z.mul_0_r, !Z.add_0_r. inversion HF as [|? ? Wa HF1]; subst. inversion HF1 as [|? ? Wb HF2]; subst.
  inversion HF2 as [|? ? Wc HF3]; subst. inversion HF3 as [|? ? Wd HF4]; subst. unfold word in *.
  rewrite !Z.mod_small by assumption. reflexivity.
Qed.

(* two engines one after the other *)
Theorem pair_range_ok : forall A B (f : list Z -> option (option A * list Z)) (g : list Z -> option (option B * list Z)) (F : list Z -> A) (G : list Z -> B) i j l,
  (forall l, (i <= length l)%nat -> f l = Some (Some (F (firstn i l)), skipn i l)) ->
  (forall l, (length l < i)%nat -> f l = Some (None, [])) ->
  (forall l, (j <= length l)%nat -> g l = Some (Some (G (firstn j l)), skipn j l)) ->
  (forall l, (length l < j)%nat -> g l = Some (None, [])) ->
  ((i + j <= length l)%nat ->
     pair_seed_range f g l = Some (Some (F (firstn i l), G (firstn j (skipn i l))), skipn (i + j) l)) /\
  ((length l < i + j)%nat -> pair_seed_range f g l = Some (None, [])).
Proof.
  intros A B f g F G i j l F1 F2 G1 G2. unfold pair_seed_range. split; intros Hl.
  - rewrite F1 by lia. cbn [bind]. rewrite G1 by (rewrite skipn_length; lia). cbn [bind].
    rewrite skipn_skipn. rewrite (Nat.add_comm j i). reflexivity.
  - destruct (Nat.lt_ge_cases (length l) i) as [H|H].
    + rewrite F2 by exact H. reflexivity.
    + rewrite F1 by exact H. cbn [bind]. rewrite G2 by (rewrite skipn_length; lia). reflexivity.
Qed.

(* seed(value): the words come from a multiplicative congruential generator *)
Lemma gen_lcg_ok : forall a M, 2 <= a < M -> 1 < M < 2 ^ 32 ->
  forall n x, 0 <= x < M -> exists ws y, gen_seq_generate (lcg_gen a M) n x = Some (ws, y) /\ length ws = n /\
    (forall i, (i < n)%nat -> nth i ws 0 = a ^ Z.of_nat (S i) * x mod M).
Proof.
  intros a M Ha HM.
  assert (EM : cmod u32 M = M) by (unfold cmod; destruct (Z.eqb_spec M 0); lia).
  assert (Hwf : lcg_wf u32 a 0 M).
  { unfold lcg_wf. rewrite EM. split; [|lia]. split; [unfold wf_ity; cbn; lia|]. right. unfold imax. cbn [sgn bits u32]. lia. }
  induction n as [|n IH]; intros x Hx.
  - exists [], x. split; [reflexivity|]. split; [reflexivity|]. intros i Hi. lia.
  - cbn [gen_seq_generate]. unfold lcg_gen at 1.
    pose proof (lcg_next_spec u32 a 0 M x Hwf) as NS. rewrite EM in NS. rewrite NS; [|left; right; left; nia|exact Hx].
    unfold lcg_spec. rewrite Z.add_0_r. cbn [bind fst snd].
    destruct (IH (a * x mod M)) as (ws & y & E & L & N); [apply Z.mod_pos_bound; lia|].
    rewrite E. cbn [bind fst snd]. exists (a * x mod M :: ws), y. split; [reflexivity|]. split; [cbn [length]; lia|].
    intros i Hi. destruct i as [|i].
    + change (nth 0 (a * x mod M :: ws) 0) with (a * x mod M). change (Z.of_nat 1) with 1. rewrite Z.pow_1_r. reflexivity.
    + change (nth (S i) (a * x mod M :: ws) 0) with (nth i ws 0). rewrite N by lia.
      rewrite Zmult_mod_idemp_r. f_equal. rewrite (Nat2Z.inj_succ (S i)), Z.pow_succ_r by lia. ring.
Qed.

Lemma gen_lcg_words : forall a M n x, 2 <= a < M -> 1 < M < 2 ^ 32 -> 0 <= x < M ->
  exists y, gen_seq_generate (lcg_gen a M) n x = Some (mlcg_words a M x n, y).
Proof.
  intros a M n x Ha HM Hx. destruct (gen_lcg_ok a M Ha HM n x Hx) as (ws & y & E & L & N). exists y. rewrite E.
  do 2 f_equal. unfold mlcg_words. apply nth_ext with (d := 0) (d' := a ^ Z.of_nat (S 0) * x mod M).
  - rewrite map_length, seq_length. exact L.
  - intros i Hi. rewrite N by lia.
    rewrite (map_nth (fun i => a ^ Z.of_nat (S i) * x mod M)). rewrite seq_nth by lia. reflexivity.
Qed.
Lemma mlcg_words_length : forall a M x n, length (mlcg_words a M x n) = n.
Proof. intros. unfold mlcg_words. rewrite map_length, seq_length. reflexivity. Qed.

Lemma lcg_seed_mult : forall a M v, 2 <= a < M -> 1 < M < 2 ^ 32 -> 0 <= v < 2 ^ 32 ->
  lcg_seed u32 a 0 M v = Some (lcg_seed_spec 0 M v) /\ 0 <= lcg_seed_spec 0 M v < M.
Proof.
  intros a M v Ha HM Hv.
  assert (EM : cmod u32 M = M) by (unfold cmod; destruct (Z.eqb_spec M 0); lia).
  assert (Hwf : lcg_wf u32 a 0 M).
  { unfold lcg_wf. rewrite EM. split; [|lia]. split; [unfold wf_ity; cbn; lia|]. right. unfold imax. cbn [sgn bits u32]. lia. }
  split.
  - pose proof (lcg_seed_ok u32 a 0 M v Hwf) as S. rewrite EM in S. apply S. unfold inT, imin, imax. cbn [sgn bits u32]. lia.
  - unfold lcg_seed_spec. pose proof (Z.mod_pos_bound v M ltac:(lia)). destruct (_ && _); lia.
Qed.

Theorem swc_value_ok : forall W w c r value, 0 < w <= W -> words_per w c -> (1 <= r)%nat ->
  let x := lcg_seed_spec 0 2147483563 ((if value =? 0 then 19780503 else value) mod 2 ^ 32) in
  let y := chunks c w r (mlcg_words 40014 2147483563 x (c * r)) in
  exists st, swc_seed_value W w r value = Some st /\ swc_wf w r st /\
    xs st = y /\ kk st = 0%nat /\ (cy st = 1 <-> nth (r - 1) y 0 = 0).
Proof.
  intros W w c r value Hw Hc Hr x y. unfold swc_seed_value. pose proof (wn_per w c Hc) as Ew. unfold wn in Ew. rewrite Ew.
  destruct (lcg_seed_mult 40014 2147483563 (wrap 32 (if value =? 0 then 19780503 else value))) as [S1 S2];
    [lia|lia|apply Z.mod_pos_bound; lia|].
  rewrite S1. cbn [bind]. unfold wrap in *. fold x in S2 |- *.
  destruct (gen_lcg_words 40014 2147483563 (c * r) x ltac:(lia) ltac:(lia) S2) as [g E]. rewrite E. cbn [bind fst].
  unfold swc_seed_seq. rewrite (array_seq_ok W w r _ c) by (try assumption; apply mlcg_words_length).
  cbn [bind]. fold y. pose proof (chunks_below c w r (mlcg_words 40014 2147483563 x (c * r)) ltac:(lia)) as CB. fold y in CB.
  rewrite (get_last y r (proj1 CB) Hr). cbn [bind]. exists (swc_of r y). split; [reflexivity|].
  split; [apply swc_of_wf; assumption|]. split; [reflexivity|]. split; [reflexivity|]. cbn [cy swc_of].
  destruct (Z.eqb_spec (nth (r - 1) y 0) 0); split; intros; try lia; congruence.
Qed.

Theorem lf_value_ok : forall W w c p value, 0 < w <= W -> words_per w c -> Z.of_nat p < 2 ^ 32 ->
  let x := lcg_seed_spec 0 2147483647 (value mod 2 ^ 32) in
  let y := chunks c w p (mlcg_words 16807 2147483647 x (c * p)) in
  lf_seed_value W w p value = Some (Lf (Z.of_nat p) y) /\ lf_wf w p (Lf (Z.of_nat p) y).
Proof.
  intros W w c p value Hw Hc Hp x y. unfold lf_seed_value. pose proof (wn_per w c Hc) as Ew. unfold wn in Ew. rewrite Ew.
  destruct (lcg_seed_mult 16807 2147483647 (wrap 32 value)) as [S1 S2]; [lia|lia|apply Z.mod_pos_bound; lia|].
  rewrite S1. cbn [bind]. unfold wrap in *. fold x in S2 |- *.
  destruct (gen_lcg_words 16807 2147483647 (c * p) x ltac:(lia) ltac:(lia) S2) as [g E]. rewrite E. cbn [bind fst].
  unfold lf_seed_seq. rewrite (array_seq_ok W w p _ c) by (try assumption; apply mlcg_words_length).
  cbn [bind]. fold y. split; [reflexivity|].
  destruct (chunks_below c w p (mlcg_words 16807 2147483647 x (c * p)) ltac:(lia)) as [C1 C2].
  split; [exact C1|]. split; [cbn [li]; lia|exact C2].
Qed.
