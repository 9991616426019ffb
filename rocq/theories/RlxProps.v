(* C79: subtract with carry is a linear congruential generator; ranlux. *)
From Coq Require Import ZArith List Lia Znumtheory.
From Verif Require Import Base StreamModel RingModel SwcModel SwcSpec SwcProofs SeedModel SeedSpec SeedProps LagProps AdaptModel AdaptSpec AdaptProofs.
From Verif Require Import RlxModel RlxSpec NumProofs OrdProofs Ord2Proofs RlxProofs Rlx2Proofs.
Import ListNotations. Open Scope Z_scope.

(* one call: with b = 2^w and m = b^r - b^s + 1 the congruential state is divided
   by b modulo m, and the value returned is its negative modulo b *)
Theorem C79_step :
  forall t w s r st, swc_type t w -> swc_params s r -> swc_wf w r st ->
  exists v st', swc_next (swc_upd t w) s r st = Some (v, st') /\ swc_wf w r st' /\
    2 ^ w * swc_lcg w s r st' = swc_lcg w s r st + swc_modulus w s r * v /\
    v = (- swc_lcg w s r st) mod 2 ^ w /\ 0 <= swc_lcg w s r st <= swc_modulus w s r.
Proof.
  intros t w s r st [H1 [H2 H3]] Hs Hwf. pose proof (swc_up_ok t w r H1 H2 H3) as Hup.
  destruct (total_step w s r _ Hup Hs H2 st Hwf) as [E [E1 [E2 [E3 [E4 E5]]]]].
  exists (fst (swc_total (swc_upd t w) s r st)), (snd (swc_total (swc_upd t w) s r st)).
  rewrite <- surjective_pairing. split; [exact E|]. split; [exact E1|]. split; [exact E3|]. split; [exact E4|].
  exact (lcg_range w s r Hs H2 st Hwf).
Qed.
Print Assumptions C79_step.

Theorem C79_step_01 :
  forall w s r st, 0 <= w -> swc_params s r -> swc_wf w r st ->
  exists v st', swc_next (swc01_upd w) s r st = Some (v, st') /\ swc_wf w r st' /\
    2 ^ w * swc_lcg w s r st' = swc_lcg w s r st + swc_modulus w s r * v /\
    v = (- swc_lcg w s r st) mod 2 ^ w /\ 0 <= swc_lcg w s r st <= swc_modulus w s r.
Proof.
  intros w s r st H2 Hs Hwf. pose proof (swc01_up_ok w r H2) as Hup.
  destruct (total_step w s r _ Hup Hs H2 st Hwf) as [E [E1 [E2 [E3 [E4 E5]]]]].
  exists (fst (swc_total (swc01_upd w) s r st)), (snd (swc_total (swc01_upd w) s r st)).
  rewrite <- surjective_pairing. split; [exact E|]. split; [exact E1|]. split; [exact E3|]. split; [exact E4|].
  exact (lcg_range w s r Hs H2 st Hwf).
Qed.
Print Assumptions C79_step_01.

(* b = 4, s = 1, r = 2: m = 16 - 4 + 1 = 13; the state 9 is followed by 12, since
   4 * 12 = 48 = 9 mod 13, and gives -9 mod 4 = 3 *)
Example C79_step_case :
  swc_modulus 2 1 2 = 13 /\ swc_lcg 2 1 2 (Swc [3; 2] 0 0) = 9 /\
  swc_next (swc_upd u32 2) 1 2 (Swc [3; 2] 0 0) = Some (3, Swc [3; 2] 1 1) /\ swc_lcg 2 1 2 (Swc [3; 2] 1 1) = 12.
Proof. vm_compute. repeat split; reflexivity. Qed.

(* the two fixed points of the engine are the multiples of m *)
Theorem C79_fixed_points :
  forall t w s r st, swc_type t w -> 0 < w -> swc_params s r -> (s < r)%nat -> swc_wf w r st ->
  (swc_lcg w s r st = 0 <-> (forall v, In v (xs st) -> v = 0) /\ cy st = 0) /\
  (swc_lcg w s r st = swc_modulus w s r <-> (forall v, In v (xs st) -> v = 2 ^ w - 1) /\ cy st = 1) /\
  (swc_lcg w s r st = 0 -> forall n, eng_out (swc_total (swc_upd t w) s r) st n = 0) /\
  (swc_lcg w s r st = swc_modulus w s r -> forall n, eng_out (swc_total (swc_upd t w) s r) st n = 2 ^ w - 1) /\
  (0 < swc_lcg w s r st < swc_modulus w s r -> forall n,
     0 < swc_lcg w s r (eng_after (swc_total (swc_upd t w) s r) n st) < swc_modulus w s r).
Proof.
  intros t w s r st [H1 [H2 H3]] Hw Hs Hsr Hwf. pose proof (swc_up_ok t w r H1 H2 H3) as Hup.
  pose proof (wf_awf w r st Hwf) as Ha.
  assert (HX: forall v, In v (fst (abs st)) <-> In v (xs st)) by (intros v; unfold abs; cbn [fst]; apply In_rot).
  split; [|split; [|split; [|split]]].
  - rewrite lcg_xval by exact Hwf. rewrite (xval_zero w s r (abs st) Hw Hs Hsr Ha).
    split; intros [E1 E2]; (split; [intros v Hv; apply E1, HX, Hv|exact E2]).
  - rewrite lcg_xval by exact Hwf. rewrite (xval_max w s r (abs st) Hw Hs Hsr Ha).
    split; intros [E1 E2]; (split; [intros v Hv; apply E1, HX, Hv|exact E2]).
  - intros E n. exact (fixed_zero w s r _ Hup Hs H2 st n Hwf E).
  - intros E n. exact (fixed_max w s r _ Hup Hs H2 st n Hwf E).
  - intros HI n. exact (inner_after w s r _ Hup Hs H2 st n Hwf HI).
Qed.
Print Assumptions C79_fixed_points.
Example C79_fixed_case : swc_wf 2 2 (Swc [3; 3] 1 1) /\ swc_lcg 2 1 2 (Swc [3; 3] 1 1) = 13 /\
  eng_outs (swc_total (swc_upd u32 2) 1 2) (Swc [3; 3] 1 1) 3 = [3; 3; 3].
Proof.
  split; [|vm_compute; split; reflexivity].
  split; [reflexivity|]. split; [cbn; lia|]. split; [|right; reflexivity].
  intros v [<-|[<-|[]]]; lia.
Qed.

(* any other state: the n-th output is that of the congruential generator *)
Theorem C79_sequence :
  forall t w s r st n, swc_type t w -> swc_params s r -> swc_wf w r st ->
  0 < swc_lcg w s r st < swc_modulus w s r ->
  lcg_output (2 ^ w) (swc_modulus w s r) (swc_lcg w s r st) (Z.of_nat n) (eng_out (swc_total (swc_upd t w) s r) st n) /\
  lcg_output (2 ^ w) (swc_modulus w s r) (swc_lcg w s r st) (Z.of_nat n) (eng_out (swc_total (swc01_upd w) s r) st n).
Proof.
  intros t w s r st n [H1 [H2 H3]] Hs Hwf HI. split.
  - exact (engine_output w s r _ (swc_up_ok t w r H1 H2 H3) Hs H2 st n Hwf HI).
  - exact (engine_output w s r _ (swc01_up_ok w r H2) Hs H2 st n Hwf HI).
Qed.
Print Assumptions C79_sequence.

(* which has one n-th output only *)
Theorem C79_determined :
  forall w s r x k u v, 0 <= w -> swc_params s r ->
  lcg_output (2 ^ w) (swc_modulus w s r) x (Z.of_nat k) u -> lcg_output (2 ^ w) (swc_modulus w s r) x (Z.of_nat k) v -> u = v.
Proof. intros w s r x k u v Hw Hs. exact (output_unique w s r Hs Hw x k u v). Qed.
Print Assumptions C79_determined.
(* 4^5 * 3 = 3072 = 4 mod 13: the fifth output from state 4 is -3 mod 4 = 1 *)
Example C79_sequence_case : lcg_output 4 13 4 5 1 /\ swc_lcg 2 1 2 (Swc [0; 1] 0 1) = 4 /\
  eng_out (swc_total (swc_upd u32 2) 1 2) (Swc [0; 1] 0 1) 5 = 1.
Proof. split; [exists 3; vm_compute; repeat split; reflexivity|]. vm_compute. split; reflexivity. Qed.

(* seeding never gives a fixed point *)
Theorem C79_seed :
  forall W w c s r, 0 < w <= W -> words_per w c -> swc_params s r -> (s < r)%nat ->
  (forall value, exists st, swc_seed_value W w r value = Some st /\ swc_wf w r st /\
     0 < swc_lcg w s r st < swc_modulus w s r) /\
  (forall old l, length (xs old) = r -> (c * r <= length l)%nat ->
     exists st, swc_seed_range W w r old l = Some (st, Some (skipn (c * r) l)) /\ swc_wf w r st /\
     0 < swc_lcg w s r st < swc_modulus w s r) /\
  (forall old l, length (xs old) = r -> Forall word l -> (c * r <= length l)%nat ->
     exists st, swc01_seed_range w r old l = Some (st, Some (skipn (c * r) l)) /\ swc_wf w r st /\
     0 < swc_lcg w s r st < swc_modulus w s r).
Proof.
  intros W w c s r Hw Hc Hs Hsr. unfold swc_params in Hs. split; [|split].
  - intros value. destruct (C34_swc_value W w c r value Hw Hc ltac:(lia)) as [st [E [Hwf [Ex [Ek Ec]]]]].
    exists st. split; [exact E|]. split; [exact Hwf|]. apply seeded_inner; auto; try lia. rewrite Ex. exact Ec.
  - intros old l HL Hle. destruct (C34_swc_range W w c r old l Hw Hc ltac:(lia) HL) as [HR _].
    destruct (HR Hle) as [st [E [Hwf [Ex [Ek Ec]]]]].
    exists st. split; [exact E|]. split; [exact Hwf|]. apply seeded_inner; auto; try lia. rewrite Ex. exact Ec.
  - intros old l HL Hl Hle. destruct (C34_swc01_range w c r old l ltac:(lia) Hc ltac:(lia) HL Hl) as [HR _].
    destruct (HR Hle) as [st [E [Hwf [Ex [Ek Ec]]]]].
    exists st. split; [exact E|]. split; [exact Hwf|]. apply seeded_inner; auto; try lia. rewrite Ex. exact Ec.
Qed.
Print Assumptions C79_seed.
Example C79_seed_case : exists st, swc_seed_value 32 24 24 1 = Some st /\
  0 < swc_lcg 24 10 24 st < 2 ^ 576 - 2 ^ 240 + 1 /\ cy st = 0.
Proof. eexists. split; [vm_compute; reflexivity|]. vm_compute. repeat split; reflexivity. Qed.

(* a ranlux engine with luxury level p, of which u values are used: output n is
   output p (n / u) + n mod u of the congruential generator with multiplier 1/b *)
Definition rlx_ok (next : dbs swc -> Z * dbs swc) (w : Z) (s r : nat) (p u : Z) : Prop :=
  forall st n, swc_wf w r st -> 0 < swc_lcg w s r st < 2 ^ (w * Z.of_nat r) - 2 ^ (w * Z.of_nat s) + 1 ->
  lcg_output (2 ^ w) (2 ^ (w * Z.of_nat r) - 2 ^ (w * Z.of_nat s) + 1) (swc_lcg w s r st)
    (p * (Z.of_nat n / u) + Z.of_nat n mod u) (eng_out next (db_init st) n).

Lemma rlx_block w s r up p u : up_ok w r up -> swc_params s r -> 0 <= w -> 1 <= u <= p -> p < 2 ^ 64 ->
  rlx_ok (db_next p u (swc_total up s r)) w s r p u.
Proof.
  intros Hup Hs Hw Hu Hp st n Hwf HI. rewrite db_output by assumption.
  pose proof (Z.mod_pos_bound (Z.of_nat n) u ltac:(lia)). pose proof (Z.div_pos (Z.of_nat n) u ltac:(lia) ltac:(lia)).
  set (k := p * (Z.of_nat n / u) + Z.of_nat n mod u). assert (0 <= k) by (unfold k; nia).
  rewrite <- (Z2Nat.id k) at 1 by assumption. exact (engine_output w s r up Hup Hs Hw st (Z.to_nat k) Hwf HI).
Qed.

Lemma up24 : up_ok 24 24 (swc_upd u32 24).
Proof. apply swc_up_ok; [unfold wf_ity; cbn; lia|lia|vm_compute; discriminate]. Qed.
Lemma up48 r : up_ok 48 r (swc_upd u64 48).
Proof. apply swc_up_ok; [unfold wf_ity; cbn; lia|lia|vm_compute; discriminate]. Qed.

Theorem C79_ranlux :
  rlx_ok ranlux3 24 10 24 223 24 /\ rlx_ok ranlux4 24 10 24 389 24 /\
  rlx_ok ranlux3_01 24 10 24 223 24 /\ rlx_ok ranlux4_01 24 10 24 389 24 /\
  rlx_ok ranlux64_3_01 48 10 24 223 24 /\ rlx_ok ranlux64_4_01 48 10 24 389 24 /\
  rlx_ok ranlux64_3 48 10 24 223 24 /\ rlx_ok ranlux64_4 48 10 24 389 24 /\
  rlx_ok ranlux24 24 10 24 223 23 /\ rlx_ok ranlux48 48 5 12 389 11.
Proof.
  assert (P1: swc_params 10 24) by (unfold swc_params; lia). assert (P2: swc_params 5 12) by (unfold swc_params; lia).
  assert (U1: up_ok 24 24 (swc01_upd 24)) by (apply swc01_up_ok; lia).
  assert (U2: up_ok 48 24 (swc01_upd 48)) by (apply swc01_up_ok; lia).
  assert (Z64: 389 < 2 ^ 64) by lia. assert (Z64': 223 < 2 ^ 64) by lia.
  split; [exact (rlx_block 24 10 24 _ 223 24 up24 P1 ltac:(lia) ltac:(lia) Z64')|].
  split; [exact (rlx_block 24 10 24 _ 389 24 up24 P1 ltac:(lia) ltac:(lia) Z64)|].
  split; [exact (rlx_block 24 10 24 _ 223 24 U1 P1 ltac:(lia) ltac:(lia) Z64')|].
  split; [exact (rlx_block 24 10 24 _ 389 24 U1 P1 ltac:(lia) ltac:(lia) Z64)|].
  split; [exact (rlx_block 48 10 24 _ 223 24 U2 P1 ltac:(lia) ltac:(lia) Z64')|].
  split; [exact (rlx_block 48 10 24 _ 389 24 U2 P1 ltac:(lia) ltac:(lia) Z64)|].
  split; [exact (rlx_block 48 10 24 _ 223 24 (up48 24) P1 ltac:(lia) ltac:(lia) Z64')|].
  split; [exact (rlx_block 48 10 24 _ 389 24 (up48 24) P1 ltac:(lia) ltac:(lia) Z64)|].
  split; [exact (rlx_block 24 10 24 _ 223 23 up24 P1 ltac:(lia) ltac:(lia) Z64')|].
  exact (rlx_block 48 5 12 _ 389 11 (up48 12) P2 ltac:(lia) ltac:(lia) Z64).
Qed.
Print Assumptions C79_ranlux.

(* the period of any engine whose modulus is prime *)
Theorem C79_period :
  forall t w s r st P, swc_type t w -> 0 < w -> swc_params s r -> swc_wf w r st ->
  0 < swc_lcg w s r st < swc_modulus w s r -> prime (swc_modulus w s r) ->
  (repeats (swc_total (swc_upd t w) s r) st P <-> 2 ^ (w * Z.of_nat P) mod swc_modulus w s r = 1) /\
  (repeats (swc_total (swc01_upd w) s r) st P <-> 2 ^ (w * Z.of_nat P) mod swc_modulus w s r = 1).
Proof.
  intros t w s r st P [H1 [H2 H3]] Hw Hs Hwf HI Hp. pose proof (prime_ge_2 _ Hp) as Hm.
  assert (E1: 1 mod swc_modulus w s r = 1) by (apply Z.mod_small; lia).
  split; split.
  - exact (repeats_only_if w s r _ (swc_up_ok t w r H1 H2 H3) Hs Hw st P Hwf HI Hp).
  - intros E. apply (repeats_if w s r _ (swc_up_ok t w r H1 H2 H3) Hs Hw st P Hwf HI). rewrite E1. exact E.
  - exact (repeats_only_if w s r _ (swc01_up_ok w r H2) Hs Hw st P Hwf HI Hp).
  - intros E. apply (repeats_if w s r _ (swc01_up_ok w r H2) Hs Hw st P Hwf HI). rewrite E1. exact E.
Qed.
Print Assumptions C79_period.
(* 4 has order 6 modulo 13 *)
Example C79_period_case : swc_lcg 2 1 2 (Swc [0; 1] 0 1) = 4 /\ trial 10 2 13 = true /\ 2 ^ (2 * 6) mod 13 = 1 /\
  eng_outs (swc_total (swc_upd u32 2) 1 2) (Swc [0; 1] 0 1) 14 = [0; 3; 2; 3; 0; 1; 0; 3; 2; 3; 0; 1; 0; 3].
Proof. vm_compute. repeat split; reflexivity. Qed.

(* ranlux24 seeded with 1: outputs 22 and 23 are values 22 and 223 of the base
   engine, and value 223 is that of the congruential generator *)
Example C79_ranlux_case :
  let st := match swc_seed_value 32 24 24 1 with Some st => st | None => Swc [] 0 0 end in
  let y := swc_lcg 24 10 24 (eng_after ranlux24_base 223 st) in
  length (xs st) = 24%nat /\ 0 < swc_lcg 24 10 24 st < 2 ^ 576 - 2 ^ 240 + 1 /\
  ((2 ^ 24) ^ 223 * y) mod (2 ^ 576 - 2 ^ 240 + 1) = swc_lcg 24 10 24 st /\
  eng_out ranlux24 (db_init st) 23 = (- y) mod 2 ^ 24 /\
  eng_out ranlux24 (db_init st) 22 = eng_out ranlux24_base st 22.
Proof. vm_compute. repeat split; reflexivity. Qed.
