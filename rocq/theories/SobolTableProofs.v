From Verif Require Import Base SobolModel SobolSpec SobolTable SobolProofs.
Ltac Zify.zify_post_hook ::= idtac.

Fixpoint row_check (bound : Z) (l : list Z) : bool :=
  match l with [] => true | x :: r => Z.odd x && (0 <=? x) && (x <? bound) && row_check (2 * bound) r end.
Definition table_check (t : list (Z * list Z)) : bool :=
  forallb (fun r => (2 <=? fst r) && (fst r <? 65536) && (Z.of_nat (length (snd r)) =? Z.log2 (fst r)) && row_check 2 (snd r)) t.

Lemma row_check_ok : forall l b, row_check b l = true -> forall k, (k < length l)%nat ->
  Z.odd (nth k l 0) = true /\ 0 <= nth k l 0 < b * 2 ^ Z.of_nat k.
Proof.
  induction l as [|x l IH]; intros b H k Hk; [cbn in Hk; lia|]. cbn [row_check] in H. apply Bool.andb_true_iff in H. destruct H as [H H1].
  apply Bool.andb_true_iff in H. destruct H as [H H2]. apply Bool.andb_true_iff in H. destruct H as [H H3].
  apply Z.leb_le in H3. apply Z.ltb_lt in H2. destruct k as [|k]; cbn [nth]; [change (2 ^ Z.of_nat 0) with 1; split; [exact H|lia]|].
  destruct (IH _ H1 k ltac:(cbn [length] in Hk; lia)) as [A B]. split; [exact A|]. rewrite Nat2Z.inj_succ, Z.pow_succ_r by lia. lia.
Qed.

Lemma sobol_rows_check : table_check sobol_rows = true.
Proof. vm_compute. reflexivity. Qed.
Lemma sobol_rows_length : Z.of_nat (length sobol_rows) = 3666.
Proof. vm_compute. reflexivity. Qed.

Lemma sobol_table_ok : forall W w D, Z.of_nat D <= 3667 ->
  (forall dim, (1 <= dim < D)%nat -> t_poly sobol_tables (dim - 1) < 2 ^ W /\ Z.log2 (t_poly sobol_tables (dim - 1)) <= Z.of_nat w) ->
  table_ok W w sobol_tables D.
Proof.
  intros W w D HD H dim Hd. destruct (H dim Hd) as [H1 H2]. pose proof sobol_rows_length as HL. pose proof sobol_rows_check as HC.
  unfold table_check in HC. rewrite forallb_forall in HC.
  specialize (HC (nth (dim - 1) sobol_rows (0, []))). unfold sobol_tables in *. cbn [t_poly t_minit] in *.
  assert (I : In (nth (dim - 1) sobol_rows (0, [])) sobol_rows) by (apply nth_In; lia). specialize (HC I).
  set (r := nth (dim - 1) sobol_rows (0, [])) in *. clearbody r.
  apply Bool.andb_true_iff in HC. destruct HC as [HC C4]. apply Bool.andb_true_iff in HC. destruct HC as [HC C3]. apply Bool.andb_true_iff in HC. destruct HC as [C1 C2].
  apply Z.leb_le in C1. apply Z.eqb_eq in C3. split; [lia|]. split; [lia|]. intros k Hk. destruct (row_check_ok _ _ C4 k ltac:(lia)) as [A B]. split; [exact A|].
  rewrite Z.add_1_r, Z.pow_succ_r by lia. lia.
Qed.

Lemma sobol_poly_16 : forall n, (n < 3666)%nat -> 2 <= t_poly sobol_tables n < 65536.
Proof.
  intros n Hn. pose proof sobol_rows_length as HL. pose proof sobol_rows_check as HC. unfold table_check in HC. rewrite forallb_forall in HC.
  assert (I : In (nth n sobol_rows (0, [])) sobol_rows) by (apply nth_In; lia). specialize (HC _ I). unfold sobol_tables. cbn [t_poly].
  set (r := nth n sobol_rows (0, [])) in *. clearbody r.
  apply Bool.andb_true_iff in HC. destruct HC as [HC _]. apply Bool.andb_true_iff in HC. destruct HC as [HC _]. apply Bool.andb_true_iff in HC. destruct HC as [C1 C2].
  apply Z.leb_le in C1. apply Z.ltb_lt in C2. lia.
Qed.

(* every dimension is usable with at least 16 bit types and 15 bits *)
Lemma sobol_table_16 : forall W w D, 16 <= W -> (15 <= w)%nat -> Z.of_nat D <= 3667 -> table_ok W w sobol_tables D.
Proof.
  intros W w D HW Hw HD. apply sobol_table_ok; [exact HD|]. intros dim Hd. pose proof (sobol_poly_16 (dim - 1) ltac:(lia)) as P. split.
  - apply Z.lt_le_trans with 65536; [lia|]. change 65536 with (2 ^ 16). apply Z.pow_le_mono_r; lia.
  - assert (Z.log2 (t_poly sobol_tables (dim - 1)) < 16) by (apply Z.log2_lt_pow2; [lia|]; change (2 ^ 16) with 65536; lia). lia.
Qed.
