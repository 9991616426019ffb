(* Independence of sequences killed by powers of coprime polynomials, and the net
   property that follows from it. *)
From Coq Require Import NArith Ring FinFun.
From Verif Require Import Base QrngSpec BitsProofs Qrng2Proofs PolySpec PolyProofs MtJumpProofs NetSpec Gf2Proofs NetProofs.
Open Scope nat_scope.
Open Scope gf_scope.
Ltac Zify.zify_post_hook ::= idtac.

Definition ann (q : N) (s : nat -> bool) : Prop := forall j, act q s j = false.

Lemma act_cxor : forall q s t j, act q (cxor s t) j = xorb (act q s j) (act q t j).
Proof.
  intros q s t j. destruct (deg_exists q) as [d D]. rewrite !(act_sum d _ _ _ D), <- xsum_xor. apply xsum_ext. intros i _. unfold cxor. destruct (coef q i), (s (j + i)), (t (j + i)); reflexivity.
Qed.
Lemma act_1 : forall s j, act 1 s j = s j.
Proof. reflexivity. Qed.
Lemma ann_ext : forall q s t, (forall j, s j = t j) -> ann q s -> ann q t.
Proof. intros q s t E H j. rewrite <- (act_ext q s t j E). apply H. Qed.
Lemma ann_zero : forall q s, (forall j, s j = false) -> ann q s.
Proof. intros q s H j. apply act_zero. exact H. Qed.
Lemma ann_l : forall q c s, ann q s -> ann (c (x) q) s.
Proof. intros q c s H j. rewrite act_gm. apply act_zero. exact H. Qed.
Lemma ann_r : forall q c s, ann q s -> ann (q (x) c) s.
Proof. intros. rewrite gm_comm. apply ann_l. assumption. Qed.
Lemma ann_cxor : forall q s t, ann q s -> ann q t -> ann q (cxor s t).
Proof. intros q s t H K j. rewrite act_cxor, H, K. reflexivity. Qed.
Lemma ann_pow : forall p a b s, a <= b -> ann (gpow p a) s -> ann (gpow p b) s.
Proof. intros p a b s L H. replace b with ((b - a) + a) by lia. rewrite gpow_add. apply ann_l. exact H. Qed.
Lemma ann_xsum : forall n q (s : nat -> nat -> bool), (forall i, i < n -> ann q (s i)) -> ann q (fun j => xsum n (fun i => s i j)).
Proof.
  induction n as [|n IH]; intros q s H; [apply ann_zero; reflexivity|].
  apply (ann_ext q (cxor (fun j => xsum n (fun i => s i j)) (s n))); [reflexivity|]. apply ann_cxor; [apply IH; intros; apply H; lia|apply H; lia].
Qed.
Lemma ann_prefix : forall P M s, has_deg P M -> ann P s -> (forall j, j < M -> s j = false) -> forall j, s j = false.
Proof.
  intros P M s [C D] H Z j. induction j as [j IH] using lt_wf_ind. destruct (Nat.lt_ge_cases j M) as [L|G]; [apply Z; exact L|].
  specialize (H (j - M)). rewrite (act_sum (S M) _ _ _ D) in H. rewrite (xsum_single (S M) _ M) in H.
  - rewrite C in H. replace (j - M + M) with j in H by lia. exact H.
  - lia.
  - intros k Hk N. rewrite IH by lia. apply andb_false_r.
Qed.
Lemma coprime_ann : forall a b s, coprime a b -> ann a s -> ann b s -> forall j, s j = false.
Proof.
  intros a b s (u & v & E) HA HB j. rewrite <- (act_1 s j), <- E, act_xor. rewrite (ann_l a u s HA j), (ann_l b v s HB j). reflexivity.
Qed.

Fixpoint gprod (n : nat) (A : nat -> N) : N := match n with O => 1%N | S k => gprod k A (x) A k end.
Lemma gprod_ann : forall n A i s, i < n -> ann (A i) s -> ann (gprod n A) s.
Proof.
  induction n as [|n IH]; intros A i s Hi H; [lia|]. cbn [gprod]. destruct (Nat.eq_dec i n) as [->|N]; [apply ann_l; exact H|apply ann_r, (IH A i); [lia|exact H]].
Qed.
Lemma gprod_coprime : forall n A c, (forall i, i < n -> coprime (A i) c) -> coprime (gprod n A) c.
Proof. induction n as [|n IH]; intros A c H; [apply coprime_1|]. cbn [gprod]. apply coprime_mul; [apply IH; intros; apply H; lia|apply H; lia]. Qed.
Lemma has_deg_1 : has_deg 1 0.
Proof. split; [reflexivity|]. intros [|k] Hk; [lia|apply coef_1]. Qed.
Lemma total_S : forall n d, total (S n) d = total n d + d n.
Proof. intros. unfold total. rewrite seq_S, map_app, list_sum_app. cbn [map list_sum fold_right]. cbn. lia. Qed.
Lemma gprod_deg : forall n A D, (forall i, i < n -> has_deg (A i) (D i)) -> has_deg (gprod n A) (total n D).
Proof.
  induction n as [|n IH]; intros A D H; [apply has_deg_1|]. cbn [gprod]. rewrite total_S. apply has_deg_gm; [apply IH; intros; apply H; lia|apply H; lia].
Qed.
Lemma split_sum : forall n (A : nat -> N) (S : nat -> nat -> bool), (forall i k, i < k -> k < n -> coprime (A i) (A k)) -> (forall i, i < n -> ann (A i) (S i)) ->
  (forall j, xsum n (fun i => S i j) = false) -> forall i, i < n -> forall j, S i j = false.
Proof.
  induction n as [|n IH]; intros A S C H Z i Hi; [lia|]. cbn [xsum] in Z.
  assert (E : forall j, xsum n (fun i => S i j) = S n j). { intro j. specialize (Z j). destruct (xsum n _), (S n j); try reflexivity; discriminate Z. }
  assert (SN : forall j, S n j = false).
  { apply (coprime_ann (gprod n A) (A n)).
    - apply gprod_coprime. intros k Hk. apply C; lia.
    - apply (ann_ext _ (fun j => xsum n (fun i => S i j))); [exact E|]. apply ann_xsum. intros k Hk. apply (gprod_ann n A k); [exact Hk|apply H; lia].
    - apply H. lia. }
  destruct (Nat.eq_dec i n) as [->|N]; [exact SN|]. apply (IH A); try lia.
  - intros; apply C; lia.
  - intros; apply H; lia.
  - intro j. rewrite E. apply SN.
Qed.

(* the sum over b < n of f b R b *)
Definition lin (n : nat) (f : nat -> bool) (R : nat -> nat -> bool) (j : nat) : bool := xsum n (fun b => f b && R b j).
Lemma ann_scale : forall q c s, ann q s -> ann q (fun j => c && s j).
Proof. intros q [] s H; [exact H|apply ann_zero; reflexivity]. Qed.
Lemma xsum_plus : forall a b f, xsum (a + b) f = xorb (xsum a f) (xsum b (fun i => f (a + i))).
Proof.
  intros a b f. induction b as [|b IH]; [rewrite Nat.add_0_r; symmetry; apply xorb_false_r|]. rewrite Nat.add_succ_r. cbn [xsum]. rewrite IH. apply xorb_assoc.
Qed.

(* rows of one coordinate *)
Definition rows_ok (p : N) (e : nat) (R : nat -> nat -> bool) : Prop :=
  has_deg p e /\ 1 <= e /\
  (forall b, ann (gpow p (S (b / e))) (R b)) /\
  (forall q f, ann (gpow p q) (lin e f (fun u => R (q * e + u))) -> forall u, u < e -> f u = false).

Lemma rows_free : forall p e R, rows_ok p e R -> forall Q f, (forall j, lin (Q * e) f R j = false) -> forall b, b < Q * e -> f b = false.
Proof.
  intros p e R (D & E & H1 & H2). induction Q as [|Q IH]; intros f Z b Hb; [lia|].
  assert (Sp : forall j, lin (S Q * e) f R j = xorb (lin (Q * e) f R j) (lin e (fun u => f (Q * e + u)) (fun u => R (Q * e + u)) j)).
  { intro j. unfold lin. replace (S Q * e) with (Q * e + e) by lia. rewrite xsum_plus. reflexivity. }
  assert (K : forall u, u < e -> f (Q * e + u) = false).
  { apply (H2 Q (fun u => f (Q * e + u))). apply (ann_ext _ (lin (Q * e) f R)).
    - intro j. specialize (Z j). rewrite Sp in Z. destruct (lin (Q * e) f R j), (lin e _ _ j); try reflexivity; discriminate Z.
    - apply (ann_xsum _ _ (fun b j => f b && R b j)). intros i Hi. apply ann_scale. apply (ann_pow p (S (i / e))); [|apply H1].
      apply Nat.div_lt_upper_bound; lia. }
  destruct (Nat.lt_ge_cases b (Q * e)) as [L|G].
  - apply IH; [|exact L]. intro j. specialize (Z j). rewrite Sp in Z. rewrite <- Z. assert (X : lin e (fun u => f (Q * e + u)) (fun u => R (Q * e + u)) j = false).
    { unfold lin. apply xsum_false. intros u Hu. rewrite K by exact Hu. reflexivity. } rewrite X. symmetry. apply xorb_false_r.
  - replace b with (Q * e + (b - Q * e)) by lia. apply K. lia.
Qed.

Lemma total_le : forall n a b, (forall i, i < n -> a i <= b i) -> total n a <= total n b.
Proof. induction n as [|n IH]; intros a b H; [apply le_n|]. rewrite !total_S. specialize (IH a b ltac:(intros; apply H; lia)). specialize (H n ltac:(lia)). lia. Qed.
Lemma total_add : forall n a b, total n (fun i => a i + b i) = total n a + total n b.
Proof. induction n as [|n IH]; intros a b; [reflexivity|]. rewrite !total_S, IH. lia. Qed.

Lemma forallb_flat : forall (A B : Type) (g : A -> list B) f l, forallb f (flat_map g l) = forallb (fun a => forallb f (g a)) l.
Proof. intros A B g f l. induction l as [|a l IH]; [reflexivity|]. cbn [flat_map forallb]. rewrite forallb_app, IH. reflexivity. Qed.
Lemma forallb_map' : forall (A B : Type) (g : A -> B) f l, forallb f (map g l) = forallb (fun a => f (g a)) l.
Proof. intros A B g f l. induction l as [|a l IH]; [reflexivity|]. cbn [map forallb]. rewrite IH. reflexivity. Qed.
Lemma forallb_ext' : forall (A : Type) (f g : A -> bool) l, (forall a, In a l -> f a = g a) -> forallb f l = forallb g l.
Proof. intros A f g l H. induction l as [|a l IH]; [reflexivity|]. cbn [forallb]. rewrite (H a) by (left; reflexivity). rewrite IH; [reflexivity|intros; apply H; right; assumption]. Qed.
Lemma total_in : forall n a i, i < n -> a i <= total n a.
Proof. induction n as [|n IH]; intros a i Hi; [lia|]. rewrite total_S. destruct (Nat.eq_dec i n) as [->|N]; [lia|]. specialize (IH a i ltac:(lia)). lia. Qed.

Section Net.
Variables (s : nat) (p : nat -> N) (e : nat -> nat) (R : nat -> nat -> nat -> bool).
Hypothesis RO : forall i, i < s -> rows_ok (p i) (e i) (R i).
Hypothesis CP : forall i k, i < k -> k < s -> coprime (p i) (p k).
Definition tdef : nat := total s (fun i => e i - 1).

Section Free.
Variables (m : nat) (d : nat -> nat).
Hypothesis Hm : total s d + tdef <= m.
Definition QQ (i : nat) : nat := (d i + e i - 1) / e i.
Lemma free_rows : forall f : nat -> nat -> bool, (forall j, j < m -> xsum s (fun i => lin (d i) (f i) (R i) j) = false) ->
  forall i b, i < s -> b < d i -> f i b = false.
Proof using RO CP Hm.
  intros f Z.
  assert (QB : forall i, i < s -> d i <= QQ i * e i <= d i + (e i - 1)).
  { intros i Hi. destruct (RO i Hi) as (_ & E & _). unfold QQ. pose proof (Nat.div_mod (d i + e i - 1) (e i) ltac:(lia)). pose proof (Nat.mod_upper_bound (d i + e i - 1) (e i) ltac:(lia)). nia. }
  assert (AN : forall i, i < s -> ann (gpow (p i) (QQ i)) (lin (d i) (f i) (R i))).
  { intros i Hi. destruct (RO i Hi) as (D & E & H1 & _). apply (ann_xsum _ _ (fun b j => f i b && R i b j)). intros b Hb. apply ann_scale. apply (ann_pow _ (S (b / e i))); [|apply H1].
    apply Nat.div_lt_upper_bound; [lia|]. specialize (QB i Hi). lia. }
  assert (ZA : forall j, xsum s (fun i => lin (d i) (f i) (R i) j) = false).
  { apply (ann_prefix (gprod s (fun i => gpow (p i) (QQ i))) (total s (fun i => QQ i * e i))).
    - apply gprod_deg. intros i Hi. apply gpow_deg. destruct (RO i Hi) as [D _]. exact D.
    - apply ann_xsum. intros i Hi. apply (gprod_ann s (fun i => gpow (p i) (QQ i)) i); [exact Hi|apply AN; exact Hi].
    - intros j Hj. apply Z. eapply Nat.lt_le_trans; [exact Hj|]. eapply Nat.le_trans; [|exact Hm]. unfold tdef. rewrite <- total_add. apply total_le. intros i Hi. apply QB. exact Hi. }
  assert (SZ : forall i, i < s -> forall j, lin (d i) (f i) (R i) j = false).
  { apply (split_sum s (fun i => gpow (p i) (QQ i)) (fun i j => lin (d i) (f i) (R i) j)); [|exact AN|exact ZA].
    intros i k L K. apply coprime_pow. apply coprime_sym, coprime_pow, coprime_sym. apply CP; assumption. }
  intros i b Hi Hb. set (g := fun b => if b <? d i then f i b else false).
  assert (G : g b = false).
  { apply (rows_free (p i) (e i) (R i) (RO i Hi) (QQ i) g); [|specialize (QB i Hi); lia].
    intro j. rewrite <- (SZ i Hi j). unfold lin. specialize (QB i Hi). replace (QQ i * e i) with (d i + (QQ i * e i - d i)) by lia. rewrite xsum_plus.
    rewrite (xsum_false (QQ i * e i - d i)); [rewrite xorb_false_r|]; [apply xsum_ext|]; intros k Hk; unfold g.
    - destruct (Nat.ltb_spec k (d i)); [reflexivity|lia].
    - destruct (Nat.ltb_spec (d i + k) (d i)); [lia|reflexivity]. }
  unfold g in G. destruct (Nat.ltb_spec b (d i)); [exact G|lia].
Qed.
End Free.

(* ---- the points ---- *)
Definition idx (d : nat -> nat) : list (nat * nat) := flat_map (fun i => map (pair i) (seq 0 (d i))) (seq 0 s).

Lemma comb_app : forall (row : nat * nat -> nat -> bool) a b f j, comb _ row (a ++ b) f j = xorb (comb _ row a f j) (comb _ row b f j).
Proof. intros row a b f j. induction a as [|x a IH]; cbn [app comb]; [symmetry; apply xorb_false_l|]. rewrite IH. symmetry. apply xorb_assoc. Qed.
Lemma comb_seq : forall (row : nat * nat -> nat -> bool) f i n j, comb _ row (map (pair i) (seq 0 n)) f j = xsum n (fun b => f (i, b) && row (i, b) j).
Proof.
  intros row f i n j. induction n as [|n IH]; [reflexivity|]. rewrite seq_S, map_app, comb_app, IH. cbn [map comb xsum Nat.add]. rewrite xorb_false_r. reflexivity.
Qed.
Lemma comb_idx : forall (row : nat * nat -> nat -> bool) f d n j, comb _ row (flat_map (fun i => map (pair i) (seq 0 (d i))) (seq 0 n)) f j = xsum n (fun i => lin (d i) (fun b => f (i, b)) (fun b => row (i, b)) j).
Proof.
  intros row f d n j. induction n as [|n IH]; [reflexivity|]. rewrite seq_S, flat_map_app, comb_app, IH. cbn [flat_map xsum Nat.add]. rewrite app_nil_r, comb_seq. reflexivity.
Qed.
Lemma in_idx : forall d i b, In (i, b) (idx d) <-> i < s /\ b < d i.
Proof.
  intros d i b. unfold idx. rewrite in_flat_map. split.
  - intros (k & K & H). apply in_seq in K. apply in_map_iff in H. destruct H as (c & E & H). apply in_seq in H. inversion E; subst. lia.
  - intros [A B]. exists i. split; [apply in_seq; lia|]. apply in_map. apply in_seq. lia.
Qed.
Lemma idx_len : forall d n, length (flat_map (fun i => map (pair i) (seq 0 (d i))) (seq 0 n)) = total n d.
Proof. intros d n. induction n as [|n IH]; [reflexivity|]. rewrite seq_S, flat_map_app, app_length, IH, total_S. cbn [flat_map Nat.add]. rewrite app_nil_r, map_length, seq_length. reflexivity. Qed.
Lemma idx_nodup : forall d n, NoDup (flat_map (fun i => map (pair i) (seq 0 (d i))) (seq 0 n)).
Proof.
  intros d n. induction n as [|n IH]; [constructor|]. rewrite seq_S, flat_map_app. cbn [flat_map Nat.add]. rewrite app_nil_r.
  assert (ND : NoDup (map (pair n) (seq 0 (d n)))). { apply FinFun.Injective_map_NoDup; [intros x y E; inversion E; reflexivity|apply seq_NoDup]. }
  assert (DJ : forall x, In x (flat_map (fun i => map (pair i) (seq 0 (d i))) (seq 0 n)) -> ~ In x (map (pair n) (seq 0 (d n)))).
  { intros [i b] A B. apply in_flat_map in A. destruct A as (k & K & A). apply in_seq in K. apply in_map_iff in A. destruct A as (c & E & _). apply in_map_iff in B. destruct B as (c' & E' & _). inversion E; inversion E'; lia. }
  revert IH DJ. generalize (flat_map (fun i => map (pair i) (seq 0 (d i))) (seq 0 n)) as L. induction L as [|x L IH]; intros N DJ; [exact ND|].
  inversion_clear N as [|? ? NI NL]. cbn [app]. constructor; [|apply IH; [exact NL|intros y Hy; apply DJ; right; exact Hy]].
  intro H. apply in_app_or in H. destruct H as [H|H]; [contradiction|]. apply (DJ x); [left; reflexivity|exact H].
Qed.

Variables (w : nat) (dirs : nat -> Z -> Z).
Hypothesis DB : forall i k, i < s -> k < w -> (0 <= dirs i (Z.of_nat k) < 2 ^ Z.of_nat w)%Z.
Hypothesis DR : forall i b k, i < s -> b < e i * (w / e i) -> k < w -> Z.testbit (dirs i (Z.of_nat k)) (Z.of_nat (w - 1 - b)) = R i b k.

Lemma xs_bound : forall i n g, i < s -> n <= w -> (0 <= QrngSpec.xsum (dirs i) n g < 2 ^ Z.of_nat w)%Z.
Proof using DB.
  intros i n g Hi. induction n as [|n IH]; intros L; cbn [QrngSpec.xsum]; [split; [lia|apply Z.pow_pos_nonneg; lia]|].
  apply lxor_range; [lia|apply IH; lia|]. destruct (Z.testbit g _); [apply DB; lia|split; [lia|apply Z.pow_pos_nonneg; lia]].
Qed.
Lemma xs_bit : forall i b n g, i < s -> b < e i * (w / e i) -> n <= w -> Z.testbit (QrngSpec.xsum (dirs i) n g) (Z.of_nat (w - 1 - b)) = psi (R i b) n g.
Proof using DR.
  intros i b n g Hi Hb. unfold psi. induction n as [|n IH]; intros L; cbn [QrngSpec.xsum xsum]; [apply Z.testbit_0_l|].
  rewrite Z.lxor_spec, IH by lia. f_equal. destruct (Z.testbit g _); [apply DR; lia|apply Z.testbit_0_l].
Qed.
Lemma box_bits : forall dd A v, dd <= w -> (0 <= A < 2 ^ Z.of_nat dd)%Z -> (0 <= v < 2 ^ Z.of_nat w)%Z ->
  in_box w dd A v = forallb (fun b => eqb (Z.testbit v (Z.of_nat (w - 1 - b))) (Z.testbit A (Z.of_nat (dd - 1 - b)))) (seq 0 dd).
Proof.
  intros dd A v L HA HV. unfold in_box. apply Bool.eq_true_iff_eq. rewrite Z.eqb_eq, forallb_forall.
  assert (SB : forall i, (0 <= i)%Z -> Z.testbit (v / 2 ^ Z.of_nat (w - dd)) i = Z.testbit v (i + Z.of_nat (w - dd))) by (intros i Hi; rewrite <- Z.shiftr_div_pow2 by lia; apply Z.shiftr_spec; exact Hi).
  split.
  - intros E b Hb. apply in_seq in Hb. rewrite <- E, SB by lia. apply eqb_true_iff. f_equal. lia.
  - intros H. apply Z.bits_inj'. intros i Hi. destruct (Z.lt_ge_cases i (Z.of_nat dd)) as [I|I].
    + specialize (H (dd - 1 - Z.to_nat i)). rewrite in_seq in H. specialize (H ltac:(lia)). apply Bool.eqb_prop in H. rewrite SB by lia.
      replace (i + Z.of_nat (w - dd))%Z with (Z.of_nat (w - 1 - (dd - 1 - Z.to_nat i))) by lia. rewrite H. f_equal. lia.
    + rewrite SB by lia. rewrite (bits_above v (Z.of_nat w)) by lia. symmetry. apply (bits_above A (Z.of_nat dd)); lia.
Qed.
Theorem net_abs : ts_sequence w tdef s (fun n i => QrngSpec.xsum (dirs i) w (gray n)).
Proof using RO CP DB DR.
  intros m d l A Hm Ht Hl HA.
  set (row := fun ib : nat * nat => R (fst ib) (snd ib)). set (tg := fun ib : nat * nat => Z.testbit (A (fst ib)) (Z.of_nat (d (fst ib) - 1 - snd ib))).
  assert (Ieq : forall x y : nat * nat, {x = y} + {x <> y}) by (decide equality; apply Nat.eq_dec).
  assert (DL : forall i, i < s -> d i <= w /\ d i <= e i * (w / e i)).
  { intros i Hi. assert (T : d i + (e i - 1) <= w). { eapply Nat.le_trans; [|exact Hm]. eapply Nat.le_trans; [|exact Ht]. unfold tdef. rewrite <- total_add. apply (total_in s (fun i => d i + (e i - 1)) i Hi). }
    destruct (RO i Hi) as (_ & E & _). pose proof (Nat.div_mod w (e i) ltac:(lia)). pose proof (Nat.mod_upper_bound w (e i) ltac:(lia)). split; lia. }
  assert (FR : free m (map (fun ib => (row ib, tg ib)) (idx d))).
  { apply (free_intro m _ Ieq row tg); [apply idx_nodup|]. intros f Z [i b] Hin. apply in_idx in Hin. destruct Hin as [Hi Hb].
    apply (free_rows m d Ht (fun i b => f (i, b))); [|exact Hi|exact Hb]. intros j Hj. exact (eq_trans (eq_sym (comb_idx row f d s j)) (Z j Hj)). }
  pose proof (free_count w m l Hm Hl _ FR) as K. rewrite map_length in K. unfold idx in K at 1. rewrite idx_len in K. rewrite zcount_ssum.
  replace (ssum _ m (l * 2 ^ Z.of_nat m)) with (scnt w m l (map (fun ib => (row ib, tg ib)) (idx d))).
  - assert (P : (2 ^ Z.of_nat m = 2 ^ Z.of_nat (total s d) * 2 ^ Z.of_nat (m - total s d))%Z) by (rewrite <- Z.pow_add_r by lia; f_equal; lia).
    rewrite P in K. apply Z.mul_reg_l in K; [exact K|]. apply Z.pow_nonzero; lia.
  - unfold scnt. apply ssum_ext. intros n _. replace (conds w (map (fun ib => (row ib, tg ib)) (idx d)) n) with (forallb (fun j => in_box w (d j) (A j) (QrngSpec.xsum (dirs j) w (gray n))) (seq 0 s)); [reflexivity|].
    unfold conds, idx. rewrite forallb_map', forallb_flat. apply forallb_ext'. intros i Hi. apply in_seq in Hi. cbn [Nat.add] in Hi. rewrite forallb_map'. cbn [fst snd].
    rewrite box_bits; [|apply DL; lia|apply HA; lia|apply xs_bound; lia]. apply forallb_ext'. intros b Hb. apply in_seq in Hb. unfold row, tg. cbn [fst snd]. unfold phi.
    specialize (DL i ltac:(lia)). rewrite xs_bit by lia. reflexivity.
Qed.
End Net.
