(* faure.hpp: the table of binomial coefficients, integer_log, integer_pow *)
From Coq Require Import ZArith Znumtheory Zpow_facts Arith Lia List QArith Qround.
From Verif Require Import Base NumProofs UIntProofs PolyModel QrngModel FloatModel FloatSpec FaureModel FaureSpec FaureNetProofs FaureNet2Proofs.
Ltac Zify.zify_post_hook ::= idtac.
Open Scope Z_scope.

(* ---- arrays ---- *)
Lemma wr_ok : forall A (l : list A) i v, (i < length l)%nat ->
  exists l', wr l i v = Some l' /\ length l' = length l /\ forall j, rd l' j = if (j =? i)%nat then Some v else rd l j.
Proof.
  induction l as [|h t IH]; intros i v H; [cbn in H; lia|]. destruct i as [|i].
  - exists (v :: t). cbn. split; [reflexivity|]. split; [reflexivity|]. intros [|j]; reflexivity.
  - cbn in H. destruct (IH i v ltac:(lia)) as (t' & E & EL & EO). exists (h :: t'). cbn [wr]. rewrite E. cbn [bind].
    split; [reflexivity|]. split; [cbn; lia|]. intros [|j]; [reflexivity|]. cbn. apply EO.
Qed.
Lemma list_of_rd : forall A (l : list A) n f, length l = n -> (forall i, (i < n)%nat -> rd l i = Some (f i)) -> l = map f (seq 0 n).
Proof.
  induction l as [|x l IH]; intros n f HL H; cbn in HL; subst n; [reflexivity|]. cbn [seq map]. f_equal.
  - specialize (H 0%nat ltac:(lia)). cbn in H. congruence.
  - rewrite <- seq_shift, map_map. apply IH; [reflexivity|]. intros i Hi. apply (H (S i)). lia.
Qed.
Lemma rd_map : forall A (f : nat -> A) n i, (i < n)%nat -> rd (map f (seq 0 n)) i = Some (f i).
Proof.
  intros. unfold rd. rewrite (nth_error_nth' _ (f 0%nat)) by (rewrite map_length, seq_length; assumption).
  rewrite (map_nth f), seq_nth by assumption. reflexivity.
Qed.
Lemma nfor_inv : forall A (I : nat -> A -> Prop) body cnt from a, I from a ->
  (forall i a, (from <= i < from + cnt)%nat -> I i a -> exists a', body i a = Some a' /\ I (S i) a') ->
  exists a', nfor from cnt body a = Some a' /\ I (from + cnt)%nat a'.
Proof.
  intros A I body. induction cnt as [|k IH]; intros from a H0 H.
  - exists a. rewrite Nat.add_0_r. split; [reflexivity|exact H0].
  - cbn [nfor]. destruct (H from a ltac:(lia) H0) as (a1 & -> & H1). cbn [bind].
    destruct (IH (S from) a1 H1) as (a' & E & H2); [intros; apply H; [lia|assumption]|]. exists a'. split; [exact E|]. replace (from + S k)%nat with (S from + k)%nat by lia. exact H2.
Qed.

(* ---- upper_index ---- *)
Definition off (i n : nat) : nat := (i * (2 * n - i + 1) / 2)%nat.
Lemma off_0 : forall n, off 0 n = 0%nat. Proof. intros. unfold off. reflexivity. Qed.
Lemma off_S : forall i n, (i < n)%nat -> off (S i) n = (off i n + (n - i))%nat.
Proof.
  intros i n H. unfold off. replace (S i * (2 * n - S i + 1))%nat with (i * (2 * n - i + 1) + (n - i) * 2)%nat.
  - apply Nat.div_add. lia.
  - remember (n - i)%nat as k. replace n with (i + k)%nat by lia. replace (2 * (i + k) - S i + 1)%nat with (i + 2 * k)%nat by lia.
    replace (2 * (i + k) - i + 1)%nat with (i + 2 * k + 1)%nat by lia. ring.
Qed.
Lemma off_mono : forall i i' n, (i <= i' <= n)%nat -> (off i n <= off i' n)%nat.
Proof.
  intros i i' n H. induction i' as [|k IH]; [replace i with 0%nat by lia; lia|]. destruct (Nat.eq_dec i (S k)) as [->|]; [lia|].
  rewrite off_S by lia. specialize (IH ltac:(lia)). lia.
Qed.
Lemma off_n : forall n, off n n = size_hint n.
Proof. intros. unfold off, size_hint. f_equal. f_equal. lia. Qed.
Lemma ui_off : forall i j n, (i <= j)%nat -> upper_index i j n = (off i n + (j - i))%nat.
Proof. intros. unfold upper_index, off. lia. Qed.
Lemma ui_bound : forall i j n, (i <= j < n)%nat -> (upper_index i j n < size_hint n)%nat.
Proof.
  intros i j n H. rewrite ui_off by lia. rewrite <- off_n. pose proof (off_S i n ltac:(lia)). pose proof (off_mono (S i) n n ltac:(lia)). lia.
Qed.
Lemma ui_inj : forall i j i' j' n, (i <= j < n)%nat -> (i' <= j' < n)%nat -> upper_index i j n = upper_index i' j' n -> i = i' /\ j = j'.
Proof.
  intros i j i' j' n H H' E. rewrite !ui_off in E by lia. destruct (lt_eq_lt_dec i i') as [[L|L]|L].
  - pose proof (off_S i n ltac:(lia)). pose proof (off_mono (S i) i' n ltac:(lia)). lia.
  - subst i'. lia.
  - pose proof (off_S i' n ltac:(lia)). pose proof (off_mono (S i') i n ltac:(lia)). lia.
Qed.
Lemma size_hint_2 : forall n, (2 * size_hint n = n * (n + 1))%nat.
Proof.
  intros n. unfold size_hint. induction n as [|n IH]; [reflexivity|]. replace (S n * (S n + 1))%nat with (n * (n + 1) + (n + 1) * 2)%nat by ring.
  rewrite Nat.div_add by lia. lia.
Qed.
Lemma size_hint_inj : forall n m, size_hint n = size_hint m -> n = m.
Proof.
  intros n m E. pose proof (size_hint_2 n). pose proof (size_hint_2 m). rewrite E in *. assert (n * (n + 1) = m * (m + 1))%nat by lia. nia.
Qed.
Lemma size_hint_pos : forall n, (1 <= n)%nat -> (1 <= size_hint n)%nat.
Proof. intros n H. pose proof (size_hint_2 n). nia. Qed.

(* ---- compute_coefficients ---- *)
Definition table_ok (b : Z) (n : nat) (c : list Z) : Prop :=
  length c = size_hint n /\ forall i j, (i <= j < n)%nat -> rd c (upper_index i j n) = Some (binom j i mod b).

Lemma cc_step_ok : forall b n i j c x y, 2 <= b < 2 ^ 16 -> length c = size_hint n -> (1 <= i < j)%nat -> (j < n)%nat ->
  rd c (upper_index i (j - 1) n) = Some (x mod b) -> rd c (upper_index (i - 1) (j - 1) n) = Some (y mod b) ->
  exists c', cc_step b n i j c = Some c' /\ length c' = length c /\ forall k, rd c' k = if (k =? upper_index i j n)%nat then Some ((x + y) mod b) else rd c k.
Proof.
  intros b n i j c x y Hb HL Hi Hj H1 H2. unfold cc_step. rewrite H1, H2. cbn [bind]. destruct (Z.eqb_spec b 0); [lia|].
  rewrite <- Zplus_mod. pose proof (Z.mod_pos_bound (x + y) b ltac:(lia)). unfold wrap. rewrite (Z.mod_small (_ mod b)) by lia.
  apply wr_ok. rewrite HL. apply ui_bound. lia.
Qed.

Lemma coefficients_ok : forall b n, 2 <= b < 2 ^ 16 -> (1 <= n)%nat -> exists c, compute_coefficients b n = Some c /\ table_ok b n c.
Proof.
  intros b n Hb Hn. unfold compute_coefficients.
  assert (M1 : 1 mod b = 1) by (apply Z.mod_small; lia).
  destruct (wr_ok Z (repeat 0 (size_hint n)) (upper_index 0 0 n) 1) as (c0 & -> & L0 & R0).
  { rewrite repeat_length. apply ui_bound. lia. }
  rewrite repeat_length in L0. cbn [bind].
  destruct (nfor_inv (list Z) (fun k c => length c = size_hint n /\ forall i, (i < k)%nat -> rd c (upper_index 0 i n) = Some 1 /\ rd c (upper_index i i n) = Some 1)
    (fun i c => c <- wr c (upper_index 0 i n) 1;; wr c (upper_index i i n) 1) (n - 1) 1 c0) as (c1 & -> & L1 & R1).
  { split; [exact L0|]. intros i Hi. replace i with 0%nat by lia. rewrite R0, Nat.eqb_refl. split; reflexivity. }
  { intros i c Hi [L R]. destruct (wr_ok Z c (upper_index 0 i n) 1) as (d & -> & Ld & Rd); [rewrite L; apply ui_bound; lia|]. cbn [bind].
    destruct (wr_ok Z d (upper_index i i n) 1) as (e & -> & Le & Re); [rewrite Ld, L; apply ui_bound; lia|].
    exists e. split; [reflexivity|]. split; [congruence|]. intros k Hk. rewrite !Re, !Rd.
    destruct (Nat.eqb_spec (upper_index 0 k n) (upper_index i i n)), (Nat.eqb_spec (upper_index k k n) (upper_index i i n)),
      (Nat.eqb_spec (upper_index 0 k n) (upper_index 0 i n)), (Nat.eqb_spec (upper_index k k n) (upper_index 0 i n)); try (split; reflexivity);
      (destruct (Nat.eq_dec k i) as [->|]; [congruence|]; destruct (R k ltac:(lia)); split; (reflexivity || assumption)). }
  cbn [bind]. replace (1 + (n - 1))%nat with n in R1 by lia.
  (* rows below i are right *)
  destruct (nfor_inv (list Z) (fun k c => length c = size_hint n /\ (forall i j, (i < k)%nat -> (i <= j < n)%nat -> rd c (upper_index i j n) = Some (binom j i mod b)) /\
      forall i, (i < n)%nat -> rd c (upper_index i i n) = Some 1)
    (fun i c => nfor (i + 1) (n - (i + 1)) (cc_step b n i) c) (n - 1) 1 c1) as (c2 & -> & L2 & R2 & _).
  { split; [exact L1|]. split.
    - intros i j Hi Hj. replace i with 0%nat by lia. replace (binom j 0) with 1 by (destruct j; reflexivity). rewrite M1. apply R1. lia.
    - intros i Hi. apply R1. exact Hi. }
  { intros i c Hi (L & R & RD).
    destruct (nfor_inv (list Z) (fun k c => length c = size_hint n /\ (forall i' j, (i' < i)%nat -> (i' <= j < n)%nat -> rd c (upper_index i' j n) = Some (binom j i' mod b)) /\
        (forall i, (i < n)%nat -> rd c (upper_index i i n) = Some 1) /\ forall j, (i <= j < k)%nat -> rd c (upper_index i j n) = Some (binom j i mod b))
      (cc_step b n i) (n - (i + 1)) (i + 1) c) as (d & E & Ld & Rd & RDd & Rid).
    - split; [exact L|]. split; [exact R|]. split; [exact RD|]. intros j Hj. replace j with i by lia. rewrite binom_diag, M1. apply RD. lia.
    - intros j d Hj (Ld & Rd & RDd & Rid).
      destruct (cc_step_ok b n i j d (binom (j - 1) i) (binom (j - 1) (i - 1)) Hb Ld ltac:(lia) ltac:(lia)) as (e & Ee & Le & Re).
      + apply Rid. lia.
      + apply Rd; lia.
      + exists e. split; [exact Ee|]. split; [congruence|]. split; [|split].
        * intros i' j' Hi' Hj'. rewrite Re. destruct (Nat.eqb_spec (upper_index i' j' n) (upper_index i j n)) as [EE|]; [apply ui_inj in EE; lia|]. apply Rd; assumption.
        * intros i' Hi'. rewrite Re. destruct (Nat.eqb_spec (upper_index i' i' n) (upper_index i j n)) as [EE|]; [apply ui_inj in EE; lia|]. apply RDd. assumption.
        * intros j' Hj'. rewrite Re. destruct (Nat.eqb_spec (upper_index i j' n) (upper_index i j n)) as [EE|NE].
          -- apply ui_inj in EE; [|lia|lia]. destruct EE as [_ ->]. f_equal. f_equal. replace j with (S (j - 1)) at 3 by lia. replace i with (S (i - 1)) at 3 by lia. cbn [binom].
             replace (S (i - 1)) with i by lia. lia.
          -- apply Rid. assert (j' <> j) by congruence. lia.
    - exists d. split; [exact E|]. split; [exact Ld|]. split; [|exact RDd]. intros i' j Hi' Hj. destruct (Nat.eq_dec i' i) as [->|]; [apply Rid; lia|apply Rd; lia]. }
  exists c2. split; [reflexivity|]. split; [exact L2|]. intros i j Hij. apply R2; lia.
Qed.

(* ---- integer_log, integer_pow ---- *)
Lemma log_ok : forall b fuel arg ilog, 2 <= b -> 0 <= arg < 2 ^ Z.of_nat fuel ->
  exists L : nat, integer_log fuel b arg ilog = Some (ilog + Z.of_nat L) /\ (L = 0%nat \/ b ^ Z.of_nat L <= arg) /\ arg < b ^ Z.of_nat (S L).
Proof.
  intros b. induction fuel as [|k IH]; intros arg ilog Hb Ha; cbn [integer_log].
  - change (2 ^ Z.of_nat 0) with 1 in Ha. destruct (Z.leb_spec b arg); [lia|]. exists 0%nat. rewrite Z.add_0_r. rewrite bpow_S. change (b ^ Z.of_nat 0) with 1.
    split; [reflexivity|]. split; [left; reflexivity|lia].
  - destruct (Z.leb_spec b arg) as [H|H].
    + destruct (Z.eqb_spec b 0); [lia|]. rewrite bpow_S in Ha.
      assert (HD : 0 <= arg / b < 2 ^ Z.of_nat k). { split; [apply Z.div_pos; lia|]. apply Z.div_lt_upper_bound; [lia|]. pose proof (Z.pow_pos_nonneg 2 (Z.of_nat k)). nia. }
      destruct (IH (arg / b) (ilog + 1) Hb HD) as (L & -> & HL & HU). exists (S L). split; [f_equal; lia|].
      pose proof (Z.div_mod arg b ltac:(lia)) as DM. pose proof (Z.mod_pos_bound arg b ltac:(lia)) as MB. split.
      * right. rewrite bpow_S. destruct HL as [->|HL]; [change (b ^ Z.of_nat 0) with 1; lia|nia].
      * rewrite bpow_S. nia.
    + exists 0%nat. rewrite Z.add_0_r. rewrite bpow_S. change (b ^ Z.of_nat 0) with 1. split; [reflexivity|]. split; [left; reflexivity|lia].
Qed.

Lemma pow_ok : forall Ws fuel base e result, 0 < Ws -> 0 <= e < 2 ^ Z.of_nat fuel -> 0 <= result < 2 ^ Ws ->
  integer_pow fuel Ws base e result = wrap Ws (result * base ^ e).
Proof.
  intros Ws fuel. induction fuel as [|k IH]; intros base e result HW He Hr; cbn [integer_pow].
  - change (2 ^ Z.of_nat 0) with 1 in He. assert (e = 0) by lia. subst e. cbn [Z.eqb]. change (base ^ 0) with 1. rewrite Z.mul_1_r, wrap_small by lia. reflexivity.
  - destruct (Z.eqb_spec e 0) as [->|Ne]; [change (base ^ 0) with 1; rewrite Z.mul_1_r, wrap_small by lia; reflexivity|].
    rewrite bpow_S in He. assert (PW : 0 < 2 ^ Ws) by (apply Z.pow_pos_nonneg; lia).
    assert (EL : Z.land e 1 = e mod 2) by (change 1 with (Z.ones 1); rewrite Z.land_ones by lia; reflexivity). rewrite EL, Z.shiftr_div_pow2 by lia. change (2 ^ 1) with 2.
    pose proof (Z.div_mod e 2 ltac:(lia)) as DM. pose proof (Z.mod_pos_bound e 2 ltac:(lia)) as MB.
    rewrite IH; [|exact HW|lia|destruct (e mod 2 =? 0); [exact Hr|apply Z.mod_pos_bound; exact PW]].
    unfold wrap. set (M := 2 ^ Ws) in *. set (q := e / 2) in *.
    assert (E2 : forall x, (x * ((base * base) mod M) ^ q) mod M = (x * (base * base) ^ q) mod M).
    { intros x. rewrite Zmult_mod, (Zmult_mod x ((base * base) ^ q)). f_equal. f_equal. symmetry; apply Zpower_mod; lia. }
    rewrite E2. assert (EB : (base * base) ^ q = base ^ (2 * q)) by (rewrite Z.pow_mul_r, Z.pow_2_r by lia; reflexivity). rewrite EB.
    destruct (Z.eqb_spec (e mod 2) 0) as [E0|E0].
    + replace (2 * q) with e by lia. reflexivity.
    + rewrite Zmult_mod, Z.mod_mod, <- Zmult_mod by lia. f_equal. assert (EP : base ^ e = base * base ^ (2 * q)) by (replace e with (1 + 2 * q) by lia; rewrite Z.pow_add_r, Z.pow_1_r by lia; reflexivity). rewrite EP. ring.
Qed.
