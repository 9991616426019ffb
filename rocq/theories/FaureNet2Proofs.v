(* the points of a block and the elementary intervals *)
From Coq Require Import ZArith Znumtheory Lia List QArith Qround.
From Verif Require Import Base FaureSpec FaureNetProofs Qrng3Proofs.
Ltac Zify.zify_post_hook ::= idtac.
Open Scope Z_scope.

(* ---- digits ---- *)
Lemma bpow_pos : forall b i, 2 <= b -> 0 < b ^ Z.of_nat i.
Proof. intros. apply Z.pow_pos_nonneg; lia. Qed.
Lemma bpow_S : forall b i, b ^ Z.of_nat (S i) = b * b ^ Z.of_nat i.
Proof. intros. rewrite Nat2Z.inj_succ, Z.pow_succ_r by lia. reflexivity. Qed.
Lemma digit_range : forall b n j, 2 <= b -> 0 <= digit b n j < b.
Proof. intros. apply Z.mod_pos_bound. lia. Qed.
Lemma len_bound : forall b n, 2 <= b -> 0 <= n -> n < b ^ Z.of_nat (len n).
Proof.
  intros b n Hb Hn. unfold len. pose proof (Z.log2_nonneg n). rewrite Z2Nat.id by lia.
  destruct (Z.eq_dec n 0) as [->|]; [apply Z.pow_pos_nonneg; cbn; lia|].
  pose proof (Z.log2_spec n ltac:(lia)) as [_ L]. apply Z.lt_le_trans with (2 ^ (Z.log2 n + 1)); [exact L|]. apply Z.pow_le_mono_l. lia.
Qed.
Lemma digit_high : forall b n j h, 2 <= b -> 0 <= n < b ^ Z.of_nat h -> (h <= j)%nat -> digit b n j = 0.
Proof.
  intros b n j h Hb Hn Hj. unfold digit. rewrite Z.div_small; [apply Z.mod_0_l; lia|]. split; [lia|].
  apply Z.lt_le_trans with (b ^ Z.of_nat h); [lia|]. apply Z.pow_le_mono_r; lia.
Qed.
Lemma digit_0 : forall b n, digit b n 0 = n mod b.
Proof. intros. unfold digit. change (b ^ Z.of_nat 0) with 1. rewrite Z.div_1_r. reflexivity. Qed.
Lemma digit_S : forall b n j, 2 <= b -> digit b n (S j) = digit b (n / b) j.
Proof. intros. unfold digit. rewrite bpow_S, Z.div_div by (try apply bpow_pos; lia). reflexivity. Qed.
Lemma digits_eq : forall b m n n', 2 <= b -> 0 <= n < b ^ Z.of_nat m -> 0 <= n' < b ^ Z.of_nat m ->
  (forall j, (j < m)%nat -> digit b n j = digit b n' j) -> n = n'.
Proof.
  intros b. induction m as [|m IH]; intros n n' Hb Hn Hn' H; [change (b ^ Z.of_nat 0) with 1 in *; lia|].
  rewrite bpow_S in Hn, Hn'. pose proof (H 0%nat ltac:(lia)) as H0. rewrite !digit_0 in H0.
  assert (n / b = n' / b).
  { apply (IH (n / b) (n' / b) Hb); [split; [apply Z.div_pos; lia|apply Z.div_lt_upper_bound; lia]|split; [apply Z.div_pos; lia|apply Z.div_lt_upper_bound; lia]|].
    intros j Hj. rewrite <- !digit_S by exact Hb. apply H. lia. }
  rewrite (Z.div_mod n b), (Z.div_mod n' b) by lia. congruence.
Qed.
Lemma digit_low : forall b l m a j, 2 <= b -> (j < m)%nat -> digit b (l * b ^ Z.of_nat m + a) j = digit b a j.
Proof.
  intros b l m a j Hb Hj. unfold digit. replace m with (j + S (m - j - 1))%nat by lia. rewrite Nat2Z.inj_add, Z.pow_add_r by lia.
  rewrite bpow_S. pose proof (bpow_pos b j Hb).
  replace (l * (b ^ Z.of_nat j * (b * b ^ Z.of_nat (m - j - 1))) + a) with (a + (l * b ^ Z.of_nat (m - j - 1) * b) * b ^ Z.of_nat j) by ring.
  rewrite Z.div_add by lia. apply Z.mod_add. lia.
Qed.
Lemma digit_up : forall b l m a j, 2 <= b -> 0 <= a < b ^ Z.of_nat m -> (m <= j)%nat -> digit b (l * b ^ Z.of_nat m + a) j = digit b l (j - m).
Proof.
  intros b l m a j Hb Ha Hj. unfold digit. replace (Z.of_nat j) with (Z.of_nat m + Z.of_nat (j - m)) by lia. rewrite Z.pow_add_r by lia.
  pose proof (bpow_pos b m Hb). pose proof (bpow_pos b (j - m) Hb). rewrite <- Z.div_div by lia. f_equal. f_equal. rewrite Z.add_comm, Z.div_add by lia.
  rewrite Z.div_small by lia. lia.
Qed.

(* fdigit with any sufficiently large number of terms *)
Lemma fdigit_TD : forall b n c i h, 2 <= b -> 0 <= n < b ^ Z.of_nat h -> fdigit b n c i = TD (Z.of_nat c) (digit b n) h i mod b.
Proof.
  intros b n c i h Hb Hn. unfold fdigit, TD, B. f_equal. pose proof (len_bound b n Hb ltac:(lia)) as HL.
  rewrite <- (zsum_more (len n) (Nat.max (len n) h)), <- (zsum_more h (Nat.max (len n) h)); [reflexivity|lia| |lia|].
  - intros j Hj. rewrite (digit_high b n j h) by (try split; lia). ring.
  - intros j Hj. rewrite (digit_high b n j (len n)) by (try split; lia). ring.
Qed.
Lemma fdigit_range : forall b n c i, 2 <= b -> 0 <= fdigit b n c i < b.
Proof. intros. apply Z.mod_pos_bound. lia. Qed.
Lemma fdigit_high : forall b n c i h, 2 <= b -> 0 <= n < b ^ Z.of_nat h -> (h <= i)%nat -> fdigit b n c i = 0.
Proof. intros b n c i h Hb Hn Hi. rewrite (fdigit_TD b n c i h Hb Hn), TD_high by exact Hi. apply Z.mod_0_l. lia. Qed.

Lemma TD_sub : forall c g g' h i, TD c g h i - TD c g' h i = TD c (fun j => g j - g' j) h i.
Proof.
  intros. unfold TD. rewrite (zsum_ext h (fun j => B c j i * (g j - g' j)) (fun j => B c j i * g j + -1 * (B c j i * g' j))) by (intros; ring).
  rewrite zsum_add, zsum_scal. ring.
Qed.

(* two points of a block with the same leading digits are equal *)
Lemma net_inj : forall b s d m l a a', prime b -> (s <= Z.to_nat b)%nat -> dsum s d = m -> 0 <= l ->
  0 <= a < b ^ Z.of_nat m -> 0 <= a' < b ^ Z.of_nat m ->
  (forall c i, (c < s)%nat -> (i < d c)%nat -> fdigit b (l * b ^ Z.of_nat m + a) c i = fdigit b (l * b ^ Z.of_nat m + a') c i) -> a = a'.
Proof.
  intros b s d m l a a' Hp Hs Hd Hl Ha Ha' HE. pose proof (prime_ge_2 b Hp) as Hb. pose proof (bpow_pos b m Hb).
  set (n := l * b ^ Z.of_nat m + a) in *. set (n' := l * b ^ Z.of_nat m + a') in *.
  assert (0 <= l * b ^ Z.of_nat m) by (apply Z.mul_nonneg_nonneg; lia).
  set (h := (m + (len n + len n'))%nat).
  assert (Hn : 0 <= n < b ^ Z.of_nat h). { split; [lia|]. apply Z.lt_le_trans with (b ^ Z.of_nat (len n)); [apply len_bound; lia|apply Z.pow_le_mono_r; lia]. }
  assert (Hn' : 0 <= n' < b ^ Z.of_nat h). { split; [lia|]. apply Z.lt_le_trans with (b ^ Z.of_nat (len n')); [apply len_bound; lia|apply Z.pow_le_mono_r; lia]. }
  set (g := fun j => digit b n j - digit b n' j).
  assert (G0 : forall j, (m <= j)%nat -> g j = 0). { intros j Hj. unfold g, n, n'. rewrite !digit_up by lia. lia. }
  assert (HZ : forall c i, (c < s)%nat -> (i < d c)%nat -> (b | TD (Z.of_nat c) g m i)).
  { intros c i Hc Hi. pose proof (HE c i Hc Hi) as E. rewrite (fdigit_TD b n c i h), (fdigit_TD b n' c i h) in E by lia.
    apply Z.mod_divide; [lia|]. replace (TD (Z.of_nat c) g m i) with (TD (Z.of_nat c) (digit b n) h i - TD (Z.of_nat c) (digit b n') h i).
    - rewrite Zminus_mod, E, Z.sub_diag. apply Z.mod_0_l. lia.
    - rewrite TD_sub. unfold TD. apply zsum_more; [lia|]. intros j Hj. fold g. rewrite (G0 j) by lia. ring. }
  pose proof (net_zero b s Hp Hs m d g Hd HZ) as HG.
  apply (digits_eq b m a a' Hb Ha Ha'). intros j Hj. destruct (HG j Hj) as [k Ek]. unfold g, n, n' in Ek. rewrite !digit_low in Ek by lia.
  pose proof (digit_range b a j Hb). pose proof (digit_range b a' j Hb). assert (k = 0) by nia. nia.
Qed.

(* ---- lists of digits as numbers ---- *)
Fixpoint enc (b : Z) (l : list Z) : Z := match l with [] => 0 | x :: r => x * b ^ Z.of_nat (length r) + enc b r end.
Definition dig_ok (b : Z) (l : list Z) : Prop := Forall (fun x => 0 <= x < b) l.
Lemma enc_range : forall b l, 2 <= b -> dig_ok b l -> 0 <= enc b l < b ^ Z.of_nat (length l).
Proof.
  intros b l Hb H. induction H as [|x l Hx H IH]; [cbn [enc length]; change (b ^ Z.of_nat 0) with 1; lia|]. cbn [enc length]. rewrite bpow_S. pose proof (bpow_pos b (length l) Hb). nia.
Qed.
Lemma enc_inj : forall b l l', 2 <= b -> dig_ok b l -> dig_ok b l' -> length l = length l' -> enc b l = enc b l' -> l = l'.
Proof.
  intros b l l' Hb H. revert l'. induction H as [|x l Hx H IH]; intros [|x' l'] H' HL E; try discriminate; [reflexivity|].
  inversion H' as [|? ? Hx' H'']; subst. cbn [enc length] in *. assert (HL' : length l = length l') by lia. rewrite HL' in E.
  pose proof (enc_range b l Hb H) as R1. pose proof (enc_range b l' Hb H'') as R2. rewrite HL' in R1.
  assert (x = x') by nia. subst x'. f_equal. apply IH; [assumption|assumption|lia].
Qed.
Lemma enc_app : forall b l l', 2 <= b -> enc b (l ++ l') = enc b l * b ^ Z.of_nat (length l') + enc b l'.
Proof.
  intros b l l' Hb. induction l as [|x l IH]; [cbn [app enc]; ring|]. cbn [app enc]. rewrite IH, app_length, Nat2Z.inj_add, Z.pow_add_r by lia. ring.
Qed.
(* the d digits of A, the leading one first *)
Definition todig (b : Z) (d : nat) (A : Z) : list Z := map (fun i => digit b A (d - 1 - i)) (seq 0 d).
Lemma todig_S : forall b d A, todig b (S d) A = digit b A d :: todig b d A.
Proof.
  intros. unfold todig. cbn [seq map]. f_equal; [f_equal; lia|]. rewrite <- seq_shift, map_map. apply map_ext. intros. f_equal. lia.
Qed.
Lemma enc_todig : forall b d A, 2 <= b -> enc b (todig b d A) = A mod b ^ Z.of_nat d.
Proof.
  intros b d A Hb. induction d as [|d IH]; [cbn [todig seq map enc]; change (b ^ Z.of_nat 0) with 1; rewrite Z.mod_1_r; reflexivity|].
  rewrite todig_S. cbn [enc]. rewrite IH. unfold todig at 1. rewrite map_length, seq_length. unfold digit. pose proof (bpow_pos b d Hb).
  rewrite bpow_S, (Z.mul_comm b), Z.rem_mul_r by lia. ring.
Qed.
Lemma todig_ok : forall b d A, 2 <= b -> dig_ok b (todig b d A).
Proof. intros. unfold todig, dig_ok. apply Forall_map, Forall_forall. intros. apply digit_range. assumption. Qed.

(* ---- the leading digits of the coordinates, as one list ---- *)
Definition lead (b n : Z) (c d : nat) : list Z := map (fdigit b n c) (seq 0 d).
Definition lead_all (b n : Z) (s : nat) (d : nat -> nat) : list Z := flat_map (fun c => lead b n c (d c)) (seq 0 s).
Definition targ_all (b : Z) (A : nat -> Z) (s : nat) (d : nat -> nat) : list Z := flat_map (fun c => todig b (d c) (A c)) (seq 0 s).

Lemma flat_len : forall (f : nat -> list Z) s d, (forall c, length (f c) = d c) -> length (flat_map f (seq 0 s)) = dsum s d.
Proof.
  intros f s d H. induction s as [|s IH]; [reflexivity|]. rewrite dsum_S, seq_S, flat_map_app, app_length, IH. cbn [flat_map Nat.add]. rewrite app_nil_r, H. reflexivity.
Qed.
Lemma flat_eq : forall (f g : nat -> list Z) d s, (forall c, length (f c) = d c) -> (forall c, length (g c) = d c) ->
  flat_map f (seq 0 s) = flat_map g (seq 0 s) <-> (forall c, (c < s)%nat -> f c = g c).
Proof.
  intros f g d s Hf Hg. induction s as [|s IH]; [split; [intros; lia|reflexivity]|]. rewrite seq_S, !flat_map_app. cbn [flat_map Nat.add]. rewrite !app_nil_r. split.
  - intros E. assert (L : length (flat_map f (seq 0 s)) = length (flat_map g (seq 0 s))) by (rewrite (flat_len f s d Hf), (flat_len g s d Hg); reflexivity).
    assert (E1 : flat_map f (seq 0 s) = flat_map g (seq 0 s) /\ f s = g s).
    { revert E L. generalize (flat_map f (seq 0 s)) (flat_map g (seq 0 s)). induction l as [|x l IHl]; intros [|y l'] E L; try discriminate; [split; [reflexivity|exact E]|].
      cbn [app] in E. assert (x = y /\ l ++ f s = l' ++ g s) as [-> E'] by (split; congruence). destruct (IHl l' E') as [-> ->]; [cbn [length] in L; lia|]. split; reflexivity. }
    destruct E1 as [E1 E2]. intros c Hc. destruct (Nat.eq_dec c s) as [->|]; [exact E2|]. apply IH; [exact E1|lia].
  - intros H. rewrite (proj2 IH) by (intros; apply H; lia). rewrite H by lia. reflexivity.
Qed.
Lemma flat_eq1 : forall (f g : nat -> list Z) d s, flat_map f (seq 0 s) = flat_map g (seq 0 s) -> (forall c, length (f c) = d c) -> (forall c, length (g c) = d c) ->
  forall c, (c < s)%nat -> f c = g c.
Proof. intros f g d s E Hf Hg. apply (flat_eq f g d s Hf Hg). exact E. Qed.
Lemma lead_len : forall b n c d, length (lead b n c d) = d.
Proof. intros. unfold lead. rewrite map_length, seq_length. reflexivity. Qed.
Lemma todig_len : forall b d A, length (todig b d A) = d.
Proof. intros. unfold todig. rewrite map_length, seq_length. reflexivity. Qed.
Lemma lead_eq : forall b n n' c d, lead b n c d = lead b n' c d <-> forall i, (i < d)%nat -> fdigit b n c i = fdigit b n' c i.
Proof.
  intros. unfold lead. split.
  - intros E i Hi. assert (N : forall m, nth i (map (fdigit b m c) (seq 0 d)) 0 = fdigit b m c i).
    { intros m. rewrite (nth_indep _ 0 (fdigit b m c 0)) by (rewrite map_length, seq_length; exact Hi). rewrite (map_nth (fdigit b m c)), seq_nth by exact Hi. reflexivity. }
    rewrite <- (N n), <- (N n'), E. reflexivity.
  - intros H. apply map_ext_in. intros i Hi. apply in_seq in Hi. apply H. lia.
Qed.
Lemma flat_ok : forall b (f : nat -> list Z) l, (forall c, dig_ok b (f c)) -> dig_ok b (flat_map f l).
Proof. intros b f l H. induction l as [|x l IH]; [constructor|]. cbn [flat_map]. apply Forall_app. split; [apply H|exact IH]. Qed.
Lemma lead_ok : forall b n c d, 2 <= b -> dig_ok b (lead b n c d).
Proof. intros. unfold lead, dig_ok. apply Forall_map, Forall_forall. intros. apply fdigit_range. assumption. Qed.

(* exactly one point of every block has given leading digits *)
Lemma net_digits : forall b s d m l A, prime b -> (s <= Z.to_nat b)%nat -> dsum s d = m -> 0 <= l ->
  exists! n, l * b ^ Z.of_nat m <= n < (l + 1) * b ^ Z.of_nat m /\ forall c, (c < s)%nat -> lead b n c (d c) = todig b (d c) (A c).
Proof.
  intros b s d m l A Hp Hs Hd Hl. pose proof (prime_ge_2 b Hp) as Hb. pose proof (bpow_pos b m Hb) as HP.
  set (code := fun a => enc b (lead_all b (l * b ^ Z.of_nat m + a) s d)).
  assert (LL : forall n, length (lead_all b n s d) = m). { intros. unfold lead_all. rewrite (flat_len _ s d); [exact Hd|]. intros; apply lead_len. }
  assert (LT : length (targ_all b A s d) = m). { intros. unfold targ_all. rewrite (flat_len _ s d); [exact Hd|]. intros; apply todig_len. }
  assert (OL : forall n, dig_ok b (lead_all b n s d)) by (intros; apply flat_ok; intros; apply lead_ok; exact Hb).
  assert (OT : dig_ok b (targ_all b A s d)) by (apply flat_ok; intros; apply todig_ok; exact Hb).
  assert (U : forall a a', 0 <= a < b ^ Z.of_nat m -> 0 <= a' < b ^ Z.of_nat m -> code a = code a' -> a = a').
  { intros a a' Ha Ha' E. unfold code in E. apply enc_inj in E; [|exact Hb|apply OL|apply OL|rewrite !LL; reflexivity].
    unfold lead_all in E. pose proof (flat_eq1 _ _ d _ E ltac:(intros; apply lead_len) ltac:(intros; apply lead_len)) as E1. cbv beta in E1.
    apply (net_inj b s d m l a a'); try assumption. intros c i Hc Hi. apply (proj1 (lead_eq b _ _ c (d c)) (E1 c Hc) i Hi). }
  destruct (inj_surj code (b ^ Z.of_nat m) ltac:(lia)) with (t := enc b (targ_all b A s d)) as (a & Ha & Ea).
  - intros a _. unfold code. pose proof (enc_range b _ Hb (OL (l * b ^ Z.of_nat m + a))) as R. rewrite LL in R. exact R.
  - exact U.
  - pose proof (enc_range b _ Hb OT) as R. rewrite LT in R. exact R.
  - assert (K : forall n, (forall c, (c < s)%nat -> lead b n c (d c) = todig b (d c) (A c)) <-> enc b (lead_all b n s d) = enc b (targ_all b A s d)).
    { intros n. split.
      - intros H. f_equal. unfold lead_all, targ_all. apply (flat_eq _ _ d); [intros; apply lead_len|intros; apply todig_len|exact H].
      - intros E. apply enc_inj in E; [|exact Hb|apply OL|exact OT|rewrite LL, LT; reflexivity].
        unfold lead_all, targ_all in E. exact (flat_eq1 _ _ d _ E ltac:(intros; apply lead_len) ltac:(intros; apply todig_len)). }
    exists (l * b ^ Z.of_nat m + a). split.
    + split; [lia|]. apply K. exact Ea.
    + intros n [Hn H]. apply K in H. enough (a = n - l * b ^ Z.of_nat m) by lia. apply U; [exact Ha|lia|]. unfold code at 2.
      replace (l * b ^ Z.of_nat m + (n - l * b ^ Z.of_nat m)) with n by ring. rewrite H. exact Ea.
Qed.

(* ---- the elementary interval of a coordinate is given by its leading digits ---- *)
Lemma lead_enc_S : forall b n c h, enc b (lead b n c (S h)) = enc b (lead b n c h) * b + fdigit b n c h.
Proof.
  intros. unfold lead. rewrite seq_S, map_app. cbn [map Nat.add].
  enough (E : forall l x, enc b (l ++ [x]) = enc b l * b + x) by apply E.
  intros l x. induction l as [|y l IH]; [cbn [app enc length]; change (b ^ Z.of_nat 0) with 1; ring|]. cbn [app enc]. rewrite IH, app_length. cbn [length].
  rewrite Nat.add_1_r, bpow_S. ring.
Qed.
Lemma inject_nz : forall z, z <> 0 -> ~ (inject_Z z == 0)%Q.
Proof. intros z Hz E. apply (inject_Z_injective z 0) in E. contradiction. Qed.
Lemma qsum_enc : forall b n c h, 2 <= b -> (qsum h (fun i => inject_Z (fdigit b n c i) / inject_Z (b ^ Z.of_nat (S i))) == inject_Z (enc b (lead b n c h)) / inject_Z (b ^ Z.of_nat h))%Q.
Proof.
  intros b n c h Hb. induction h as [|h IH]; [reflexivity|]. cbn [qsum]. rewrite IH, lead_enc_S, bpow_S.
  pose proof (bpow_pos b h Hb). rewrite inject_Z_plus, !inject_Z_mult. field. split; apply inject_nz; lia.
Qed.
Lemma enc_grow : forall b n c h k, 2 <= b -> 0 <= n < b ^ Z.of_nat h -> enc b (lead b n c (h + k)) = enc b (lead b n c h) * b ^ Z.of_nat k.
Proof.
  intros b n c h k Hb Hn. induction k as [|k IH]; [rewrite Nat.add_0_r; change (b ^ Z.of_nat 0) with 1; ring|].
  rewrite Nat.add_succ_r, lead_enc_S, IH, bpow_S, (fdigit_high b n c _ h) by lia. ring.
Qed.
Lemma enc_split : forall b n c h k, 2 <= b -> enc b (lead b n c (h + k)) / b ^ Z.of_nat k = enc b (lead b n c h).
Proof.
  intros b n c h k Hb. pose proof (bpow_pos b k Hb).
  assert (E : exists r, enc b (lead b n c (h + k)) = enc b (lead b n c h) * b ^ Z.of_nat k + r /\ 0 <= r < b ^ Z.of_nat k).
  { clear H. induction k as [|k IH]; [exists 0; rewrite Nat.add_0_r; change (b ^ Z.of_nat 0) with 1; lia|].
    destruct IH as (r & E & Hr). exists (r * b + fdigit b n c (h + k)). rewrite Nat.add_succ_r, lead_enc_S, E, bpow_S. pose proof (fdigit_range b n c (h + k) Hb). split; [ring|nia]. }
  destruct E as (r & -> & Hr). rewrite Z.add_comm, Z.div_add by lia. rewrite Z.div_small by lia. ring.
Qed.
Lemma interval_lead : forall b n c d A, 2 <= b -> 0 <= n -> 0 <= A < b ^ Z.of_nat d ->
  in_interval b d A (fvalue b n c) <-> lead b n c d = todig b d A.
Proof.
  intros b n c d A Hb Hn HA. set (h := len n). pose proof (len_bound b n Hb Hn) as HL. fold h in HL.
  pose proof (bpow_pos b d Hb). pose proof (bpow_pos b h Hb).
  assert (EV : (fvalue b n c == inject_Z (enc b (lead b n c (d + h))) / inject_Z (b ^ Z.of_nat (d + h)))%Q).
  { unfold fvalue. rewrite qsum_enc by exact Hb. fold h. rewrite (Nat.add_comm d h), enc_grow by lia. rewrite Nat2Z.inj_add, Z.pow_add_r by lia.
    rewrite !inject_Z_mult. field. split; apply inject_nz; lia. }
  set (N := enc b (lead b n c (d + h))) in EV.
  assert (EN : N / b ^ Z.of_nat h = enc b (lead b n c d)) by (apply enc_split; exact Hb).
  assert (K : in_interval b d A (fvalue b n c) <-> A * b ^ Z.of_nat h <= N < (A + 1) * b ^ Z.of_nat h).
  { unfold in_interval. rewrite EV. rewrite Nat2Z.inj_add, Z.pow_add_r by lia.
    assert (P : forall x y, 0 < y -> (inject_Z x / inject_Z y == Qmake x (Z.to_pos y))%Q).
    { intros x y Hy. rewrite Qmake_Qdiv, Z2Pos.id by exact Hy. reflexivity. }
    assert (0 < b ^ Z.of_nat d * b ^ Z.of_nat h) by (apply Z.mul_pos_pos; lia).
    rewrite !P by assumption. unfold Qle, Qlt. cbn [Qnum Qden]. rewrite !Z2Pos.id by assumption. 
    set (p := b ^ Z.of_nat d) in *. set (q := b ^ Z.of_nat h) in *.
    replace (A * (p * q)) with (A * q * p) by ring. replace ((A + 1) * (p * q)) with ((A + 1) * q * p) by ring.
    rewrite <- Z.mul_le_mono_pos_r, <- Z.mul_lt_mono_pos_r by lia. reflexivity. }
  rewrite K. 
  assert (ED : enc b (todig b d A) = A) by (rewrite enc_todig by exact Hb; apply Z.mod_small; lia).
  split.
  - intros H1. apply (enc_inj b); [exact Hb|apply lead_ok; exact Hb|apply todig_ok; exact Hb|rewrite lead_len, todig_len; reflexivity|].
    rewrite ED, <- EN. symmetry. apply Z.div_unique with (N - A * b ^ Z.of_nat h); lia.
  - intros E. rewrite E, ED in EN. pose proof (Z.mod_pos_bound N (b ^ Z.of_nat h) ltac:(lia)). pose proof (Z.div_mod N (b ^ Z.of_nat h) ltac:(lia)). rewrite EN in *. nia.
Qed.

Theorem faure_net : forall b s d m l A, prime b -> (s <= Z.to_nat b)%nat -> list_sum (map d (seq 0 s)) = m -> 0 <= l ->
  (forall c, (c < s)%nat -> 0 <= A c < b ^ Z.of_nat (d c)) ->
  exists! n, l * b ^ Z.of_nat m <= n < (l + 1) * b ^ Z.of_nat m /\ forall c, (c < s)%nat -> in_interval b (d c) (A c) (fvalue b n c).
Proof.
  intros b s d m l A Hp Hs Hd Hl HA. pose proof (prime_ge_2 b Hp) as Hb. pose proof (bpow_pos b m Hb).
  assert (0 <= l * b ^ Z.of_nat m) by (apply Z.mul_nonneg_nonneg; lia).
  destruct (net_digits b s d m l A Hp Hs Hd Hl) as (n & [Hn H1] & U). exists n. split.
  - split; [exact Hn|]. intros c Hc. apply interval_lead; [exact Hb|lia|apply HA; exact Hc|apply H1; exact Hc].
  - intros n' [Hn' H2]. apply U. split; [exact Hn'|]. intros c Hc. apply interval_lead; [exact Hb|lia|apply HA; exact Hc|apply H2; exact Hc].
Qed.
