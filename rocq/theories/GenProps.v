(* C35: engine.generate *)
From Verif Require Import Base ProgModel ProgSpec ProgProofs UIntSpec UIntModel IbModel SeedSpec GenSpec GenModel Gen5Proofs Gen4Proofs.

(* The number of bits used per output exists, and it is unique: the largest
   number of bits for which the proportion of rejected outputs is small *)
Theorem C35_generate_bits : forall tb bmin bmax, eng_wf tb bmin bmax -> bits tb <= 64 ->
  exists B, used_bits (bmax - bmin + 1) B /\ 1 <= B /\ 2 ^ B <= bmax - bmin + 1 /\
  gi_bits (bits tb) (bmax - bmin) = Some B.
Proof.
  intros tb bmin bmax Hw Hb. destruct (eng_range tb bmin bmax Hw) as (HR & _). destruct Hw as (H1 & _).
  destruct (gi_bits_ok (bits tb) (bmax - bmin + 1) ltac:(lia) HR) as (B & EB & U & HB & HBR). exists B.
  replace (bmax - bmin + 1 - 1) with (bmax - bmin) in EB by lia. repeat split; try assumption; try lia; apply U.
Qed.
Print Assumptions C35_generate_bits.

Theorem C35_generate_bits_unique : forall R B1 B2, used_bits R B1 -> used_bits R B2 -> B1 = B2.
Proof. exact used_bits_unique. Qed.
Print Assumptions C35_generate_bits_unique.

(* What is written to the n >= 1 elements, and after which engine output *)
Theorem C35_generate_words : forall tb bmin bmax n B F ds,
  eng_wf tb bmin bmax -> bits tb <= 64 -> (1 <= n)%nat -> used_bits (bmax - bmin + 1) B ->
  valid_draws bmin bmax ds -> (length ds < F)%nat ->
  gen_spec bmin (bmax - bmin + 1) B n ds (exec (generate_from_int F tb bmin bmax n) ds).
Proof. exact gi_run. Qed.
Print Assumptions C35_generate_words.

(* Exactly n elements are written, with values below 2^32; nothing is undefined *)
Theorem C35_generate_range : forall tb bmin bmax n F ds,
  eng_wf tb bmin bmax -> bits tb <= 64 -> (1 <= n)%nat -> valid_draws bmin bmax ds -> (length ds < F)%nat ->
  exec (generate_from_int F tb bmin bmax n) ds = OMore \/
  exists ws rest, exec (generate_from_int F tb bmin bmax n) ds = ORet ws rest /\
    length ws = n /\ Forall (fun w => 0 <= w < 2 ^ 32) ws.
Proof.
  intros tb bmin bmax n F ds Hw Hb Hn Hv HL. destruct (C35_generate_bits tb bmin bmax Hw Hb) as (B & U & HB & _ & _).
  exact (gen_total _ _ B n ds _ HB Hn (gi_run tb bmin bmax n B F ds Hw Hb Hn U Hv HL)).
Qed.
Print Assumptions C35_generate_range.

(* All values of the n words are equally likely: among the m-tuples of engine
   outputs, each is produced by the same number of tuples *)
Theorem C35_generate_uniform : forall tb bmin bmax n F m v1 v2,
  eng_wf tb bmin bmax -> bits tb <= 64 -> (1 <= n)%nat ->
  0 <= v1 < 2 ^ (32 * Z.of_nat n) -> 0 <= v2 < 2 ^ (32 * Z.of_nat n) ->
  count bmin bmax (ws <~ generate_from_int F tb bmin bmax n;; PRet (le_value ws)) m v1 =
  count bmin bmax (ws <~ generate_from_int F tb bmin bmax n;; PRet (le_value ws)) m v2.
Proof. exact gi_uniform. Qed.
Print Assumptions C35_generate_uniform.

(* The same for an engine that returns multiples of 2^-bits *)
Theorem C35_generate_real_words : forall bits n F ds, 1 <= bits -> (1 <= n)%nat ->
  valid_draws 0 (2 ^ bits - 1) ds -> (length ds < F)%nat ->
  gen_spec 0 (2 ^ bits) bits n ds (exec (generate_from_real F bits n) ds).
Proof. exact gr_run. Qed.
Print Assumptions C35_generate_real_words.

Theorem C35_generate_real_range : forall bits n F ds, 1 <= bits -> (1 <= n)%nat ->
  valid_draws 0 (2 ^ bits - 1) ds -> (length ds < F)%nat ->
  exec (generate_from_real F bits n) ds = OMore \/
  exists ws rest, exec (generate_from_real F bits n) ds = ORet ws rest /\
    length ws = n /\ Forall (fun w => 0 <= w < 2 ^ 32) ws.
Proof.
  intros bits n F ds Hb Hn Hv HL. exact (gen_total _ _ bits n ds _ Hb Hn (gr_run bits n F ds Hb Hn Hv HL)).
Qed.
Print Assumptions C35_generate_real_range.

Theorem C35_generate_real_uniform : forall bits n F m v1 v2, 1 <= bits -> (1 <= n)%nat ->
  0 <= v1 < 2 ^ (32 * Z.of_nat n) -> 0 <= v2 < 2 ^ (32 * Z.of_nat n) ->
  count 0 (2 ^ bits - 1) (ws <~ generate_from_real F bits n;; PRet (le_value ws)) m v1 =
  count 0 (2 ^ bits - 1) (ws <~ generate_from_real F bits n;; PRet (le_value ws)) m v2.
Proof. exact gr_uniform. Qed.
Print Assumptions C35_generate_real_uniform.

(* pow2<T>(n) for a type with enough digits *)
Theorem C35_pow2 : forall digits n, 0 <= n -> n / 32 <= digits / 32 -> pow2 digits n = 2 ^ n.
Proof. exact pow2_ok. Qed.
Print Assumptions C35_pow2.

(* An empty range is not handled: generate(first, first) writes to *first *)
Theorem C35_generate_empty_refuted : exists tb bmin bmax ds, eng_wf tb bmin bmax /\ valid_draws bmin bmax ds /\
  exec (generate_from_int 5 tb bmin bmax 0) ds = OUB.
Proof.
  exists u32, 0, (2 ^ 32 - 1), [5]. split; [|split].
  - unfold eng_wf, inT, imin, imax. cbn [bits sgn u32]. lia.
  - constructor; [lia|constructor].
  - vm_compute. reflexivity.
Qed.
Print Assumptions C35_generate_empty_refuted.

(* rand48 and splitmix64 have their own generate, which copies the outputs *)
Theorem C35_plain_words : forall n ds, (n <= length ds)%nat -> exec (gen_plain n) ds = ORet (firstn n ds) (skipn n ds).
Proof. exact gen_plain_ok. Qed.
Print Assumptions C35_plain_words.

(* rand48 (31-bit outputs) never writes the words 2^31 and above: they are not
   equally likely *)
Theorem C35_rand48_uniform_refuted : exists v w, 0 <= v < 2 ^ 32 /\ 0 <= w < 2 ^ 32 /\
  (exists ds, valid_draws 0 (2 ^ 31 - 1) ds /\ exec (gen_plain 1) ds = ORet [v] []) /\
  forall n ds ws rest, valid_draws 0 (2 ^ 31 - 1) ds -> exec (gen_plain n) ds = ORet ws rest -> ~ In w ws.
Proof.
  exists 5, (2 ^ 31). split; [lia|]. split; [lia|]. split.
  - exists [5]. split; [constructor; [lia|constructor]|reflexivity].
  - intros n ds ws rest Hv. apply (gen_plain_never n 0 (2 ^ 31 - 1)); [exact Hv|lia].
Qed.
Print Assumptions C35_rand48_uniform_refuted.

(* splitmix64 writes values of 2^32 and above *)
Theorem C35_splitmix_range_refuted : exists ds ws rest, valid_draws 0 (2 ^ 64 - 1) ds /\
  exec (gen_plain 2) ds = ORet ws rest /\ ~ Forall (fun w => 0 <= w < 2 ^ 32) ws.
Proof.
  exists [1; 2 ^ 40], [1; 2 ^ 40], []. split; [|split; [reflexivity|]].
  - constructor; [lia|constructor; [lia|constructor]].
  - intro F. apply Forall_inv_tail, Forall_inv in F. lia.
Qed.
Print Assumptions C35_splitmix_range_refuted.

(* minstd_rand: 2^31 - 2 values, 26 bits used; 3 useful outputs fill 2 words *)
Example C35_minstd : eng_wf u32 1 2147483646 /\ used_bits 2147483646 26 /\
  exec (generate_from_int 9 u32 1 2147483646 2) [48271; 2147483645; 182605794; 1291394886; 1914720637; 7] =
    ORet (words 2 (48270 + 2 ^ 26 * (182605793 mod 2 ^ 26 + 2 ^ 26 * (1291394885 mod 2 ^ 26)))) [1914720637; 7].
Proof.
  split; [unfold eng_wf, inT, imin, imax; cbn [bits sgn u32]; lia|]. split; [|vm_compute; reflexivity].
  unfold used_bits. change (Z.log2 2147483646) with 30. change (Z.log2 30) with 4. split; [lia|]. split; [vm_compute; reflexivity|].
  intros B' HB'. assert (H : B' = 27 \/ B' = 28 \/ B' = 29 \/ B' = 30) by lia.
  destruct H as [-> | [-> | [-> | ->]]]; vm_compute; discriminate.
Qed.

(* a 48-bit engine: words straddle the outputs *)
Example C35_48 : exec (generate_from_int 9 u64 0 (2 ^ 48 - 1) 3) [0x0123456789ab; 0xcdef01234567; 0xba9876543210; 0x9] =
    ORet [0x456789ab; 0x45670123; 0xcdef0123] [0xba9876543210; 9].
Proof. vm_compute. reflexivity. Qed.

Example C35_real_48 : exec (generate_from_real 9 48 3) [0x0123456789ab; 0xcdef01234567; 9] =
    ORet [0x456789ab; 0x45670123; 0xcdef0123] [9].
Proof. vm_compute. reflexivity. Qed.
