(* mixmax: the rows of the skip table represent powers of the matrix.  The 640
   squarings of polynomials modulo 2^61-1 are carried out with the 63-bit
   machine integers of the standard library. *)
From Verif Require Import Base MixSpec MixSkipModel MixModel MixProofs Mix2Proofs Mix3Proofs WinProofs.
From Coq Require Import Setoid Morphisms Znumtheory Uint63.
Ltac Zify.zify_post_hook ::= idtac.

Notation "'[!' x ]" := (Uint63.to_Z x) (format "[! x ]").

Definition iM : int := 2305843009213693951%uint63.
Definition i2p : int := 4611686018427387902%uint63.
Definition BI : Z := 2305843009213693954.

(* partial reduction *)
Definition ifold (x : int) : int := ((x land iM) + (x >> 61))%uint63.
Definition imul (x y : int) : int :=
  let '(h, l) := mulc x y in ifold ((h << 2) + ((l land iM) + (l >> 61)))%uint63.

Lemma wB_val : wB = 9223372036854775808. Proof. reflexivity. Qed.
Lemma to_Z_range : forall x, 0 <= [! x] < 9223372036854775808.
Proof. intros x. pose proof (to_Z_bounded x) as H. rewrite wB_val in H. exact H. Qed.
Lemma iland_M : forall x, [! x land iM] = [! x] mod U.
Proof.
  intros x. rewrite land_spec'. change [! iM] with (Z.ones 61). rewrite Z.land_ones by lia. reflexivity.
Qed.
Lemma ishr61 : forall x, [! x >> 61] = [! x] / U.
Proof. intros x. rewrite lsr_spec. reflexivity. Qed.
Lemma ifold_parts : forall x, exists q r, [! x] = q * U + r /\ 0 <= r < U /\ 0 <= q <= 3 /\ [! ((x land iM) + (x >> 61))%uint63] = r + q.
Proof.
  intros x. exists ([! x] / U), ([! x] mod U). pose proof (to_Z_range x) as R.
  pose proof (Z.div_mod [! x] U ltac:(discriminate)) as D. pose proof (Z.mod_pos_bound [! x] U ltac:(reflexivity)) as B.
  assert (Q: 0 <= [! x] / U <= 3) by (unfold U in *; lia).
  split; [lia|]. split; [exact B|]. split; [exact Q|].
  rewrite add_spec, iland_M, ishr61, wB_val. apply Z.mod_small. unfold U in *. lia.
Qed.
Lemma ifold_spec : forall x, 0 <= [! ifold x] <= BI /\ cg [! ifold x] [! x].
Proof.
  intros x. destruct (ifold_parts x) as (q & r & E & R & Q & F). unfold ifold. rewrite F. split; [unfold BI, U in *; lia|].
  rewrite E, cg_U, Z.add_comm. reflexivity.
Qed.
Lemma imul_spec : forall x y, [! x] <= BI -> [! y] <= BI -> 0 <= [! imul x y] <= BI /\ cg [! imul x y] ([! x] * [! y]).
Proof.
  intros x y Hx Hy. unfold imul. pose proof (mulc_spec x y) as M. destruct (mulc x y) as [h l]. cbn [fst snd] in M.
  rewrite wB_val in M. pose proof (to_Z_range x) as Rx. pose proof (to_Z_range y) as Ry. pose proof (to_Z_range h) as Rh.
  pose proof (to_Z_range l) as Rl. pose proof (mul_bound [! x] [! y] BI BI ltac:(lia) ltac:(lia)) as MB.
  assert (Hh: [! h] <= 576460752303423490) by (unfold BI in *; lia).
  destruct (ifold_parts l) as (q & r & E & R & Q & F).
  assert (S2: [! h << 2] = [! h] * 4) by (rewrite lsl_spec, wB_val; change ([! 2%uint63]) with 2; rewrite Z.mod_small; lia).
  set (t := ((l land iM) + (l >> 61))%uint63) in *.
  assert (ES: [! ((h << 2) + t)%uint63] = [! h] * 4 + (r + q)).
  { rewrite add_spec, S2, F, wB_val. apply Z.mod_small. unfold U in *. lia. }
  destruct (ifold_spec ((h << 2) + t)%uint63) as [I1 I2]. split; [exact I1|]. rewrite I2, ES, M, E.
  replace ([! h] * 9223372036854775808) with ([! h] * 4 * U) by (unfold U; ring). rewrite !cg_U, (Z.add_comm q). reflexivity.
Qed.

(* lists *)
Definition ol (u : list int) : list Z := map Uint63.to_Z u.
Definition small (u : list int) : Prop := Forall (fun x => [! x] <= BI) u.
Fixpoint iaxpy (c : int) (u v : list int) : list int :=
  match u, v with a :: u', b :: v' => ifold (a + imul c b)%uint63 :: iaxpy c u' v' | _, _ => [] end.
Lemma iaxpy_spec : forall c u v, [! c] <= BI -> small u -> small v -> length u = length v ->
  small (iaxpy c u v) /\ red (ol (iaxpy c u v)) = red (axpy [! c] (ol u) (ol v)) /\ length (iaxpy c u v) = length u.
Proof.
  intros c u. induction u as [|a u IH]; intros [|b v] Hc Hu Hv HL; try discriminate; [repeat split; constructor|].
  inversion Hu; subst. inversion Hv; subst. cbn [iaxpy ol map axpy]. cbn [length] in HL.
  destruct (imul_spec c b Hc ltac:(assumption)) as [M1 M2].
  destruct (ifold_spec (a + imul c b)%uint63) as [F1 F2].
  destruct (IH v Hc ltac:(assumption) ltac:(assumption) ltac:(lia)) as (I1 & I2 & I3).
  split; [constructor; [lia|exact I1]|]. split; [|cbn [length]; lia].
  apply red_cons; [|exact I2]. rewrite F2, add_spec, wB_val. pose proof (to_Z_range a).
  rewrite Z.mod_small by (unfold BI in *; lia). rewrite M2. reflexivity.
Qed.
Definition ineg (x : int) : int := ifold (i2p - x)%uint63.
Lemma ineg_spec : forall x, [! x] <= BI -> 0 <= [! ineg x] <= BI /\ cg [! ineg x] (- [! x]).
Proof.
  intros x Hx. unfold ineg. destruct (ifold_spec (i2p - x)%uint63) as [F1 F2]. split; [exact F1|]. rewrite F2, sub_spec, wB_val.
  pose proof (to_Z_range x). change [! i2p] with 4611686018427387902. rewrite Z.mod_small by (unfold BI in *; lia).
  exists 2. rewrite p61_U. unfold U. ring.
Qed.

(* the characteristic polynomial of the matrix for n = 17, without the leading
   coefficient 1; only used as a certificate *)
Definition chI : list int :=
  [2305843009213693950; 2301339409586323472; 2305812222886150007; 2304950122020066599; 432341041511554329;
   218546466595982445; 2288774021294666627; 1327872805097898761; 1780609199527208287; 1649816982904334450;
   870691130730945933; 845235595464045280; 1023515427770432269; 2127882104260287640; 2304992536952056903;
   2305796279969513047; 2305843009213693918]%uint63.
Definition chp : list Z := ol chI.
Definition e0 : list Z := unit0 17.
Lemma chp_ok : red (iter (length chp) (mm_apply 36) e0) = red (axpy (-1) (zv (length e0)) (pa 36 chp e0)).
Proof. vm_compute. reflexivity. Qed.
Lemma small_forallb : forall u, forallb (fun x => (x <=? 2305843009213693951)%uint63) u = true -> small u.
Proof.
  intros u H. rewrite forallb_forall in H. apply Forall_forall. intros x Hx. specialize (H x Hx).
  apply leb_spec in H. change [! 2305843009213693951%uint63] with 2305843009213693951 in H. unfold BI. lia.
Qed.
Lemma chI_small : small chI.
Proof. apply small_forallb. vm_compute. reflexivity. Qed.

Definition ishift (r : list int) : list int := iaxpy (ineg (last r 0%uint63)) (0%uint63 :: removelast r) chI.
Fixpoint ipmul (q r : list int) : list int :=
  match q with
  | [] => repeat 0%uint63 17
  | c :: q' => iaxpy c (ishift (ipmul q' r)) r
  end.

Lemma ol_length : forall u, length (ol u) = length u.
Proof. intros. apply map_length. Qed.
Lemma ol_removelast : forall u, ol (removelast u) = removelast (ol u).
Proof. induction u as [|a [|b u] IH]; [reflexivity|reflexivity|]. cbn [removelast ol map] in *. f_equal. exact IH. Qed.
Lemma ol_last : forall u, last (ol u) 0 = [! last u 0%uint63].
Proof. induction u as [|a [|b u] IH]; [reflexivity|reflexivity|]. exact IH. Qed.
Lemma small_removelast : forall u, small u -> small (removelast u).
Proof. induction u as [|a [|b u] IH]; intros H; [exact H|constructor|]. inversion H; subst. constructor; [assumption|]. apply IH. assumption. Qed.
Lemma small_last : forall u, small u -> [! last u 0%uint63] <= BI.
Proof.
  induction u as [|a [|b u] IH]; intros H.
  - change [! last [] 0%uint63] with 0. unfold BI. lia.
  - inversion H; subst. assumption.
  - inversion H; subst. apply IH. assumption.
Qed.
Lemma rem_len : forall u : list int, length u = 17%nat -> length (0%uint63 :: removelast u) = 17%nat.
Proof.
  intros u H. cbn [length]. rewrite <- (ol_length (removelast u)), ol_removelast. rewrite removelast_length.
  - rewrite ol_length. exact H.
  - apply nonnil. rewrite ol_length. lia.
Qed.
Lemma ishift_spec : forall r, small r -> length r = 17%nat ->
  small (ishift r) /\ red (ol (ishift r)) = red (pshift chp (ol r)) /\ length (ishift r) = 17%nat.
Proof.
  intros r Hs HL. destruct (ineg_spec _ (small_last r Hs)) as [N1 N2]. pose proof (rem_len r HL) as RL.
  destruct (iaxpy_spec (ineg (last r 0%uint63)) (0%uint63 :: removelast r) chI) as (A1 & A2 & A3).
  - lia.
  - constructor; [change [! 0%uint63] with 0; unfold BI; lia|apply small_removelast; exact Hs].
  - apply chI_small.
  - rewrite RL. reflexivity.
  - unfold ishift. split; [exact A1|]. split; [|rewrite A3; exact RL]. rewrite A2. unfold pshift. rewrite ol_last.
    apply axpy_red; [exact N2| |reflexivity]. cbn [ol map]. fold (ol (removelast r)). rewrite ol_removelast. reflexivity.
Qed.
Lemma ipmul_spec : forall q r, small q -> small r -> length r = 17%nat ->
  small (ipmul q r) /\ length (ipmul q r) = 17%nat /\
  red (pa 36 (ol (ipmul q r)) e0) = red (pa 36 (ol q) (pa 36 (ol r) e0)).
Proof.
  induction q as [|c q IH]; intros r Hq Hr HL.
  - cbn [ipmul]. split; [apply small_forallb; reflexivity|]. split; [reflexivity|].
    change (ol (repeat 0%uint63 17)) with (zv 17). rewrite pa_zv. unfold pa at 1. cbn [ol map pact]. rewrite pa_length. reflexivity.
  - inversion Hq; subst. destruct (IH r ltac:(assumption) Hr HL) as (I1 & I2 & I3). cbn [ipmul].
    destruct (ishift_spec _ I1 I2) as (S1 & S2 & S3).
    destruct (iaxpy_spec c (ishift (ipmul q r)) r ltac:(assumption) S1 Hr ltac:(lia)) as (A1 & A2 & A3).
    split; [exact A1|]. split; [lia|].
    rewrite (pa_redq 36 _ _ e0 A2). rewrite (pa_redq 36 _ (axpy [! c] (pshift chp (ol (ipmul q r))) (ol r)) e0).
    2: { apply axpy_red; [reflexivity|exact S2|reflexivity]. }
    assert (NN: ol (ipmul q r) <> []) by (apply nonnil; rewrite ol_length; lia).
    assert (LL: length (ol (ipmul q r)) = length chp) by (rewrite ol_length, I2; reflexivity).
    rewrite pa_lin by (rewrite pshift_length; [rewrite ol_length, HL; reflexivity|exact LL|exact NN]).
    cbn [ol map]. fold (ol q). rewrite pa_cons. apply axpy_red; [reflexivity| |reflexivity].
    rewrite (pshift_ok 36 e0 chp chp_ok) by assumption. apply red_apply. exact I3.
Qed.

Definition sq (q : list int) : list int := ipmul q q.
Definition x1 : list int := (0 :: 1 :: repeat 0 15)%uint63.

Definition reps (q : list Z) (k : Z) : Prop :=
  red (pa 36 q e0) = red (iter (Z.to_nat (2 ^ k)) (mm_apply 36) e0).
Lemma reps_sq : forall q k, 0 <= k -> small q -> length q = 17%nat -> reps (ol q) k ->
  small (sq q) /\ length (sq q) = 17%nat /\ reps (ol (sq q)) (k + 1).
Proof.
  intros q k Hk Hs HL H. destruct (ipmul_spec q q Hs Hs HL) as (A1 & A2 & A3). split; [exact A1|]. split; [exact A2|].
  unfold reps in *. unfold sq. rewrite A3. rewrite (pa_red 36 _ _ _ H), pa_iter, (iter_red 36 _ _ _ H).
  rewrite Z.pow_add_r by lia. change (2 ^ 1) with 2. rewrite Z.mul_comm, <- Z.add_diag.
  rewrite Z2Nat.inj_add by (apply Z.pow_nonneg; lia). rewrite iter_plus. reflexivity.
Qed.
Lemma reps_iter : forall n q k, 0 <= k -> small q -> length q = 17%nat -> reps (ol q) k ->
  small (iter n sq q) /\ length (iter n sq q) = 17%nat /\ reps (ol (iter n sq q)) (k + Z.of_nat n).
Proof.
  induction n as [|n IH]; intros q k Hk Hs HL H; [rewrite Z.add_0_r; cbn [iter]; repeat split; assumption|]. cbn [iter].
  rewrite Nat2Z.inj_succ. replace (k + Z.succ (Z.of_nat n)) with (k + 1 + Z.of_nat n) by lia.
  destruct (reps_sq q k Hk Hs HL H) as (A & B & C). apply IH; try assumption. lia.
Qed.
Lemma reps_x1 : reps (ol x1) 0.
Proof. unfold reps. change (Z.to_nat (2 ^ 0)) with 1%nat. vm_compute. reflexivity. Qed.

Fixpoint leq (u v : list Z) : bool :=
  match u, v with [], [] => true | a :: u', b :: v' => (a =? b) && leq u' v' | _, _ => false end.
Lemma leq_eq : forall u v, leq u v = true -> u = v.
Proof.
  induction u as [|a u IH]; intros [|b v] H; try discriminate; [reflexivity|]. cbn [leq] in H.
  apply andb_true_iff in H. destruct H as [H1 H2]. apply Z.eqb_eq in H1. rewrite H1, (IH v H2). reflexivity.
Qed.
(* the rows are the successive squares of q *)
Fixpoint chk (q : list int) (rows : list (list Z)) : bool :=
  match rows with
  | [] => true
  | row :: rest => leq (red (ol q)) row && chk (sq q) rest
  end.
Lemma table_chk : chk (iter 512 sq x1) mx_skipMat = true.
Proof. vm_compute. reflexivity. Qed.
Lemma rows_small : forallb (fun row => forallb (fun c => (0 <=? c) && (c <=? U - 1)) row) mx_skipMat = true.
Proof. vm_compute. reflexivity. Qed.

Lemma chk_nth : forall rows q k r, 0 <= k -> small q -> length q = 17%nat -> reps (ol q) k -> chk q rows = true ->
  (r < length rows)%nat -> reps (nth r rows []) (k + Z.of_nat r).
Proof.
  induction rows as [|row rest IH]; intros q k r Hk Hs HL H HC Hr; [cbn in Hr; lia|]. cbn [chk] in HC.
  apply andb_true_iff in HC. destruct HC as [C1 C2]. apply leq_eq in C1. destruct r as [|r].
  - cbn [nth]. rewrite Z.add_0_r, <- C1. unfold reps. rewrite pa_mod. exact H.
  - cbn [nth]. rewrite Nat2Z.inj_succ. replace (k + Z.succ (Z.of_nat r)) with (k + 1 + Z.of_nat r) by lia.
    destruct (reps_sq q k Hk Hs HL H) as (A & B & C). apply (IH (sq q)); try assumption; [lia|cbn in Hr; lia].
Qed.
Lemma row_reps : forall r, (r < 128)%nat -> reps (nth r mx_skipMat []) (512 + Z.of_nat r).
Proof.
  intros r Hr. destruct (reps_iter 512 x1 0 ltac:(lia) ltac:(apply small_forallb; reflexivity) eq_refl reps_x1) as (A & B & C).
  exact (chk_nth mx_skipMat _ 512 r ltac:(lia) A B C table_chk Hr).
Qed.
Lemma row_small : forall r, Forall (fun c => 0 <= c <= U - 1) (nth r mx_skipMat []).
Proof.
  intros r. destruct (Nat.lt_ge_cases r (length mx_skipMat)) as [L|L].
  - pose proof rows_small as R. rewrite forallb_forall in R. specialize (R _ (nth_In _ [] L)). rewrite forallb_forall in R.
    apply Forall_forall. intros c Hc. specialize (R c Hc). apply andb_true_iff in R.
    destruct R as [R1 R2]. apply Z.leb_le in R1, R2. lia.
  - rewrite nth_overflow by exact L. constructor.
Qed.
