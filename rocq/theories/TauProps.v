(* C81: the period of taus88. *)
From Coq Require Import NArith ZArith List Lia Znumtheory.
From Verif Require Import Base StreamModel ArithModel LfsModel LfsSpec LfsProofs LfsProps AdaptModel AdaptProofs LcgProofs PerSpec PerProofs GfProofs TauProofs.
Import ListNotations. Open Scope Z_scope.

(* the three registers: from every word whose k leading digits are not all 0, the outputs
   repeat after P calls exactly if 2^k - 1 divides P *)
Theorem C81_registers : forall v P, 0 <= v < 2 ^ 32 ->
  (~ lfs_dead t88_a v -> (out_repeats (lfs_eng t88_a) v P <-> (2 ^ 31 - 1 | Z.of_nat P))) /\
  (~ lfs_dead t88_b v -> (out_repeats (lfs_eng t88_b) v P <-> (2 ^ 29 - 1 | Z.of_nat P))) /\
  (~ lfs_dead t88_c v -> (out_repeats (lfs_eng t88_c) v P <-> (2 ^ 28 - 1 | Z.of_nat P))).
Proof.
  intros v P Hv. split; [|split]; intros HD.
  - exact (lfs_eng_repeats t88_a pa v P full_a Hv HD).
  - exact (lfs_eng_repeats t88_b pb v P full_b Hv HD).
  - exact (lfs_eng_repeats t88_c pc v P full_c Hv HD).
Qed.
Print Assumptions C81_registers.

(* taus88 from three such words, and from every seed *)
Theorem C81_taus88 : forall a b c P, 0 <= a < 2 ^ 32 -> 0 <= b < 2 ^ 32 -> 0 <= c < 2 ^ 32 ->
  ~ lfs_dead t88_a a -> ~ lfs_dead t88_b b -> ~ lfs_dead t88_c c ->
  no_fail taus88_next ((a, b), c) /\
  (out_repeats taus88_next ((a, b), c) P <-> ((2 ^ 31 - 1) * (2 ^ 29 - 1) * (2 ^ 28 - 1) | Z.of_nat P)).
Proof.
  intros a b c P Ha Hb Hc LA LB LC. assert (HO: t88_ok ((a, b), c)) by (split; [exact Ha|split; [exact Hb|exact Hc]]). split.
  - intros n. rewrite (run_out taus88_next t88_o t88_g t88_ok t88_step n _ HO). discriminate.
  - exact (taus88_repeats ((a, b), c) P HO (conj LA (conj LB LC))).
Qed.
Print Assumptions C81_taus88.
Theorem C81_seeded : forall seed, exists s, taus88_seed seed = Some s /\ no_fail taus88_next s /\
  forall P, out_repeats taus88_next s P <-> ((2 ^ 31 - 1) * (2 ^ 29 - 1) * (2 ^ 28 - 1) | Z.of_nat P).
Proof.
  intros seed. destruct (taus88_seed_ok seed) as [[[a b] c] [E [(HA & HB & HC) (LA & LB & LC)]]]. cbn [fst snd] in *.
  exists ((a, b), c). split; [exact E|]. split; [exact (proj1 (C81_taus88 a b c 0 HA HB HC LA LB LC))|].
  intros P. exact (proj2 (C81_taus88 a b c P HA HB HC LA LB LC)).
Qed.
Print Assumptions C81_seeded.
Example C81_ex : taus88_seed 341 = Some ((341, 341), 341) /\ ~ lfs_dead t88_a 341 /\ nth_out taus88_next ((341, 341), 341) 0 45438212.
Proof.
  split; [reflexivity|]. split; [intros HD; specialize (HD 23 ltac:(cbn; lia)); vm_compute in HD; discriminate|].
  do 2 eexists. split; [vm_compute; reflexivity|vm_compute; reflexivity].
Qed.

(* A register in which all k leading digits are 0 repeats at once, which is why the hypotheses are
   needed; and the word given by the seed is in general not visited again, since its last
   w - k digits need not follow the recurrence. *)
Theorem C81_dead : forall p v n, lfs_params p -> lw p <= lk p + (lk p - lq p - ls p) -> lW p = lw p -> 0 <= v < 2 ^ lW p -> lfs_dead p v -> iter (S n) (lfs_next p) v = 0.
Proof.
  intros p v n HP HL HW Hv HD. pose proof HP as (H1 & H2 & H3 & H4 & H5).
  apply (word_eq (lw p)); [lia|rewrite <- HW; apply lfs_iter_range; assumption|split; [lia|apply Z.pow_pos_nonneg; lia]|].
  intros j Hj. rewrite Z.testbit_0_l. pose proof (dead_thm p v (S n) HP HD) as HZ. pose proof (word_after p v n HP HL) as HO.
  destruct (Z_lt_ge_dec j (lk p)) as [Hk|Hk]; [apply HZ; lia|].
  specialize (HO (j - lk p) ltac:(lia)). replace (j - lk p + lk p) with j in HO by lia. rewrite HO, !HZ by lia. reflexivity.
Qed.
Print Assumptions C81_dead.
Example C81_ex_dead : lfs_dead t88_b 5 /\ iter 1 (lfs_next t88_b) 5 = 0.
Proof. split; [|vm_compute; reflexivity]. intros j Hj. cbn [t88_b lw lk] in *. apply (BitsProofs.bits_above 5 3); lia. Qed.
Theorem C81_revisit_refuted : exists v, lfs_seed t88_c 341 = Some v /\ forall n, iter (S n) (lfs_next t88_c) v <> v.
Proof.
  exists 341. split; [reflexivity|]. intros n E.
  pose proof (word_after t88_c 341 n (proj2 (proj2 t88_params)) ltac:(cbn; lia)) as HO. rewrite E in HO.
  specialize (HO 1 ltac:(cbn; lia)). vm_compute in HO. discriminate.
Qed.
Print Assumptions C81_revisit_refuted.
