(* C26: independent_bits_engine *)
From Verif Require Import Base ProgModel ProgSpec UIntModel UIntSpec IbModel IbProofs.

(* Partial: excludes engines with exactly three values when three or more bits
   are wanted; refuted there.  UIntType has WU >= w bits.  "length ds < F": the
   rejection loops of the model have fuel for as many iterations as there are
   engine outputs.  Not returning [OUB] includes that no shift is out of range. *)
Theorem C26_independent_bits_range_partial :
  forall tb bmin bmax F WU w ds,
  eng_wf tb bmin bmax -> bits tb <= 64 -> 1 <= w <= WU -> bmax - bmin + 1 <> 3 \/ w <= 2 ->
  valid_draws bmin bmax ds -> (length ds < F)%nat ->
  exec (ib_next F tb bmin bmax WU w) ds = OMore \/
  exists v rest, exec (ib_next F tb bmin bmax WU w) ds = ORet v rest /\ ib_min <= v <= ib_max w.
Proof. exact (fun tb bmin bmax F WU w ds H1 H2 => ib_range_thm tb bmin bmax H1 H2 F WU w ds). Qed.
Print Assumptions C26_independent_bits_range_partial.

(* equally many n-tuples of engine outputs for each of the 2^w values, all n *)
Theorem C26_independent_bits_uniform_partial :
  forall tb bmin bmax F WU w n v1 v2,
  eng_wf tb bmin bmax -> bits tb <= 64 -> 1 <= w <= WU -> bmax - bmin + 1 <> 3 \/ w <= 2 ->
  0 <= v1 < 2 ^ w -> 0 <= v2 < 2 ^ w ->
  count bmin bmax (ib_next F tb bmin bmax WU w) n v1 = count bmin bmax (ib_next F tb bmin bmax WU w) n v2.
Proof. exact (fun tb bmin bmax F WU w n v1 v2 H1 H2 => ib_uniform_thm tb bmin bmax H1 H2 F WU w n v1 v2). Qed.
Print Assumptions C26_independent_bits_uniform_partial.

(* each value has an accepted tuple, of at most w engine outputs *)
Theorem C26_independent_bits_onto_partial :
  forall tb bmin bmax F WU w v,
  eng_wf tb bmin bmax -> bits tb <= 64 -> 1 <= w <= WU -> bmax - bmin + 1 <> 3 \/ w <= 2 ->
  (0 < F)%nat -> ib_min <= v <= ib_max w ->
  exists ds, valid_draws bmin bmax ds /\ exec (ib_next F tb bmin bmax WU w) ds = ORet v [] /\ Z.of_nat (length ds) <= w.
Proof. exact (fun tb bmin bmax F WU w v H1 H2 Hw H3 HF => ib_onto_thm tb bmin bmax H1 H2 F WU w v HF Hw H3). Qed.
Print Assumptions C26_independent_bits_onto_partial.

Example C26_count_case : map (count 0 4 (ib_next 3 u32 0 4 8 3) 3) [0; 1; 5; 7; 8] = [4; 4; 4; 4; 0]%nat.
Proof. vm_compute. reflexivity. Qed.
Example C26_minstd_case : eng_wf u32 1 2147483646 /\ bits u32 <= 64 /\
  exec (ib_next 5 u32 1 2147483646 64 64) [5; 2147483646; 70000; 1000000000; 77] = ORet 35477970930175 [77].
Proof. split; [unfold eng_wf, inT; cbn; lia|]. split; [cbn; lia|]. vm_compute. reflexivity. Qed.
Example C26_full_case : exec (ib_next 5 u32 0 (2 ^ 32 - 1) 32 32) [4000000000] = ORet 4000000000 [].
Proof. vm_compute. reflexivity. Qed.

(* engines with three values, three or more bits: w0 becomes 0, and the shift
   amount w0-1 is out of range, whatever the engine outputs *)
Theorem C26_independent_bits_shift_refuted :
  exists tb bmin bmax WU w, eng_wf tb bmin bmax /\ bits tb <= 64 /\ 1 <= w <= WU /\
  forall F ds, exec (ib_next F tb bmin bmax WU w) ds = OUB.
Proof.
  exists u32, 0, 2, 32, 8. split; [unfold eng_wf, inT; cbn; lia|]. split; [cbn; lia|]. split; [lia|].
  intros F ds. pose proof (ib_three F u32 0 32 8) as H. change (0 + 2) with 2 in H.
  rewrite H; [reflexivity| |cbn; lia|lia]. unfold eng_wf, inT; cbn; lia.
Qed.
Print Assumptions C26_independent_bits_shift_refuted.
Theorem C26_independent_bits_three :
  forall F tb bmin WU w, eng_wf tb bmin (bmin + 2) -> bits tb <= 64 -> 3 <= w ->
  ib_next F tb bmin (bmin + 2) WU w = PUB.
Proof. exact ib_three. Qed.
Print Assumptions C26_independent_bits_three.
