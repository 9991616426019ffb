(* C80: the periods of the congruential engines. *)
From Coq Require Import ZArith List Lia Znumtheory.
From Verif Require Import Base StreamModel ArithModel ArithSpec ArithProofs NumProofs LcgModel LcgProofs LcgExtra Lcg3Proofs PerModel PerSpec PerProofs Per2Proofs Per3Proofs.
Import ListNotations. Open Scope Z_scope.

(* minstd_rand0 and minstd_rand run through 1 ... 2^31 - 2 *)
Theorem C80_minstd_rand0 : full_cycle minstd_rand0_next 1 2147483646.
Proof. exact minstd0_full. Qed.
Print Assumptions C80_minstd_rand0.
Theorem C80_minstd_rand : full_cycle minstd_rand_next 1 2147483646.
Proof. exact minstd_full. Qed.
Print Assumptions C80_minstd_rand.
Example C80_ex_minstd : iterM 3 minstd_rand0_next 1 = Some 1622650073 /\ iterM 2 minstd_rand_next 1 = Some 182605794.
Proof. split; vm_compute; reflexivity. Qed.

(* hellekalek1995 runs through 0 ... 2^31 - 2 *)
Theorem C80_hellekalek1995 : full_cycle hellekalek1995_next 0 2147483646.
Proof. exact hellekalek_full. Qed.
Print Assumptions C80_hellekalek1995.
Example C80_ex_hellekalek : iterM 1 hellekalek1995_next 0 = Some 2110599482 /\ iterM 1 hellekalek1995_next 1 = Some 2110608584 /\
  iterM 2 hellekalek1995_next 1 = Some 239248507.
Proof. repeat split; vm_compute; reflexivity. Qed.

(* The state of rand48 runs through 0 ... 2^48 - 1; its outputs, the upper 31 bits, have
   no shorter period *)
Theorem C80_rand48 : full_cycle rand48_state 0 (2 ^ 48 - 1).
Proof. exact rand48_full. Qed.
Print Assumptions C80_rand48.
Theorem C80_rand48_outputs : forall x p, 0 <= x < 2 ^ 48 -> no_fail r48_next x /\ (out_repeats r48_next x p <-> (2 ^ 48 | Z.of_nat p)).
Proof.
  intros x p Hx. split; [|apply rand48_out; exact Hx]. intros n.
  rewrite (run_out r48_next (fun s => posix_lrand48 (posix_step s)) posix_step (fun s => 0 <= s < 2 ^ 48)) by
    (first [exact Hx | intros s Hs; exact (r48_step_ok s Hs)]). discriminate.
Qed.
Print Assumptions C80_rand48_outputs.
Example C80_ex_rand48 : 0 <= 20017429951246 < 2 ^ 48 /\ nth_out r48_next 20017429951246 0 851401618 /\ nth_out r48_next 20017429951246 1 1804928587.
Proof. split; [lia|]. split; (do 2 eexists; split; [vm_compute; reflexivity|reflexivity]). Qed.

(* ecuyer1988: from every pair of states in range the pair returns after n calls, and
   the outputs repeat after n calls, exactly if (m1-1)(m2-1)/2 divides n *)
Theorem C80_ecuyer1988 : forall x1 x2 n, 1 <= x1 < 2147483563 -> 1 <= x2 < 2147483399 ->
  no_fail ecuyer1988_next (x1, x2) /\
  ((exists outs, run ecuyer1988_next n (x1, x2) = Some (outs, (x1, x2))) <-> (2147483562 * 2147483398 / 2 | Z.of_nat n)) /\
  (out_repeats ecuyer1988_next (x1, x2) n <-> (2147483562 * 2147483398 / 2 | Z.of_nat n)).
Proof.
  intros x1 x2 n H1 H2. assert (HD: ec_D (x1, x2)) by (unfold ec_D, ecA, ecB; cbn [fst snd]; lia).
  change (2147483562 * 2147483398 / 2) with ecL.
  pose proof (fun k => run_out ecuyer1988_next ec_o ec_g ec_D ec_step k (x1, x2) HD) as HR. split; [|split].
  - intros k. rewrite HR. discriminate.
  - rewrite <- (ec_state_return (x1, x2) n HD), HR. split.
    + intros [outs E]. congruence.
    + intros ->. eexists. reflexivity.
  - apply ec_out. exact HD.
Qed.
Print Assumptions C80_ecuyer1988.
Example C80_ex_ecuyer : 2147483562 * 2147483398 / 2 = 2305842648436451838 /\ nth_out ecuyer1988_next (1, 1) 0 2147482884 /\ nth_out ecuyer1988_next (1, 1) 1 2092764894.
Proof. split; [reflexivity|]. split; (do 2 eexists; split; [vm_compute; reflexivity|reflexivity]). Qed.
