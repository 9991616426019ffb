From Verif Require Import Base SeqModel SeqSpec SeqProofs.

(* C33, for 32-bit value types and a non-empty range: the words written are those
   of the standard algorithm, for every stored sequence and every length.
   Missing: wider value types and the empty range, which are refuted below. *)
Theorem C33_seed_seq_std_partial :
  forall v n, (1 <= n)%nat -> Z.of_nat n < 2 ^ 64 -> sq_generate 32 v n = Some (std_seed_seq v n).
Proof. exact sq_generate_ok. Qed.
Print Assumptions C33_seed_seq_std_partial.
Example C33_std_case : std_seed_seq [1; 2; 3] 4 = [2494033729; 3915881101; 1602617867; 764004082] /\
  std_seed_seq [] 5 = [505382999; 163489202; 3932644188; 763126080; 73937346] /\
  std_seed_seq [7; 8; 9; 0xffffffff] 1 = [587612657].
Proof. vm_compute. repeat split. Qed.

(* every word written is a 32-bit number, and exactly n are written *)
Theorem C33_seed_seq_words :
  forall v n, (1 <= n)%nat -> Z.of_nat n < 2 ^ 64 ->
  exists l, sq_generate 32 v n = Some l /\ length l = n /\ Forall (fun w => 0 <= w < 2 ^ 32) l.
Proof.
  exact (fun v n H1 H2 => ex_intro _ _ (conj (sq_generate_ok v n H1 H2) (std_range v n H1 H2))).
Qed.
Print Assumptions C33_seed_seq_words.

(* with a 64-bit value type r2 is stored without reduction and the words differ
   from those of the standard *)
Theorem C33_seed_seq_64bit_refuted :
  exists v n l, Forall (fun w => 0 <= w < 2 ^ 32) v /\ sq_generate 64 v n = Some l /\
  length l = n /\ Forall (fun w => 0 <= w < 2 ^ 32) l /\ l <> std_seed_seq v n.
Proof.
  exists [0xffffffff], 4%nat, [2003415673; 2088849450; 1086767648; 2544583149].
  split; [repeat constructor; discriminate|]. split; [vm_compute; reflexivity|].
  split; [reflexivity|]. split; [repeat constructor; discriminate|]. vm_compute. discriminate.
Qed.
Print Assumptions C33_seed_seq_64bit_refuted.

(* the standard makes generate on an empty range do nothing; here it divides by
   zero, whatever the stored sequence *)
Theorem C33_seed_seq_empty_refuted :
  (forall W v, sq_generate W v 0 = None) /\ exists v, sq_generate 32 v 0 <> Some (std_seed_seq v 0).
Proof.
  assert (H : forall W v, sq_generate W v 0 = None).
  { intros W v. unfold sq_generate. cbv zeta.
    destruct (Z.to_nat (Z.max (Z.of_nat (length v) + 1) (Z.of_nat 0))) eqn:E; [lia|]. reflexivity. }
  split; [exact H|]. exists [1]. rewrite H. discriminate.
Qed.
Print Assumptions C33_seed_seq_empty_refuted.

(* constructed from integers of any type: the standard stores them modulo 2^32.
   size() and param() give back what is stored, and a copy made from param()
   generates the same words *)
Theorem C33_seed_seq_construct : forall l n, (1 <= n)%nat -> Z.of_nat n < 2 ^ 64 ->
  sq_generate 32 (sq_init l) n = Some (std_seed_seq (map (fun x => x mod 2 ^ 32) l) n) /\
  sq_size (sq_init l) = Z.of_nat (length l) /\ sq_param (sq_init l) = map (fun x => x mod 2 ^ 32) l /\
  sq_generate 32 (sq_init (sq_param (sq_init l))) n = sq_generate 32 (sq_init l) n.
Proof.
  intros l n H1 H2. assert (E : sq_init l = map (fun x => x mod 2 ^ 32) l) by reflexivity.
  split; [rewrite E; apply sq_generate_ok; assumption|]. split; [unfold sq_size; rewrite E, map_length; reflexivity|].
  split; [exact E|]. f_equal. unfold sq_param. rewrite E. unfold sq_init, wrap. rewrite map_map. apply map_ext. intros x. apply Z.mod_mod. lia.
Qed.
Print Assumptions C33_seed_seq_construct.
Example C33_construct_case : sq_init [-1; 2 ^ 40 + 5] = [4294967295; 5] /\ sq_size (sq_init [-1; 2 ^ 40 + 5]) = 2 /\
  sq_generate 32 (sq_init [2 ^ 32 + 1; 2; 3]) 4 = Some [2494033729; 3915881101; 1602617867; 764004082].
Proof. vm_compute. repeat split. Qed.
