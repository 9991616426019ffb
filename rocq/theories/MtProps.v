(* C19-C22: mersenne_twister_engine *)
From Verif Require Import Base StreamModel MtModel MtSpec MtProofs TemperProofs Mt2Proofs Mt3Proofs MtWit.

(* ================= C19: recurrence, tempering, range ================= *)

(* Partial: r >= 1; for r = 0 the published recurrence is refuted below. *)
Theorem C19_mt_outputs_partial :
  forall p st, mt_params p -> mt_temper_params p -> mt_wf p st ->
  exists X, mt_sequence p (mx st) X /\
  forall n, exists st', run (mt_next p) n st = Some (map (fun k => tempered p (X k)) (seq (mi st) n), st') /\ mt_wf p st' /\
    (forall v, In v (map (fun k => tempered p (X k)) (seq (mi st) n)) -> 0 <= v <= 2 ^ mw p - 1).
Proof. exact mt_all. Qed.
Print Assumptions C19_mt_outputs_partial.

(* the sequence is the only one *)
Theorem C19_mt_sequence_unique :
  forall p x X Y, mt_params p -> mt_sequence p x X -> mt_sequence p x Y -> forall k, X k = Y k.
Proof. exact mt_sequence_unique. Qed.
Print Assumptions C19_mt_sequence_unique.

Theorem C19_mt_r0_refuted :
  exists p st v st', 32 <= mW p <= 64 /\ 2 <= mw p <= mW p /\ (1 <= mm p < mn p)%nat /\ mr p = 0 /\
  0 <= ma p < 2 ^ mw p /\ mt_temper_params p /\ mt_wf p st /\ mt_next p st = Some (v, st') /\
  forall X, mt_sequence p (mx st) X -> v <> tempered p (X (mi st)).
Proof. exact wit_r0. Qed.
Print Assumptions C19_mt_r0_refuted.

(* operator>> accepts words of more than w bits *)
Theorem C19_mt_range_after_read_refuted :
  exists p st ts st' i v st'', mt_params p /\ mt_temper_params p /\ mt_wf p st /\
  mt_read p st (good_in ts) = (st', i) /\ failb i = false /\ mt_next p st' = Some (v, st'') /\ ~ (0 <= v <= 2 ^ mw p - 1).
Proof. exact wit_read. Qed.
Print Assumptions C19_mt_range_after_read_refuted.

Example C19_case : (mt_params mt19937 /\ mt_temper_params mt19937) /\ (mt_params mt19937_64 /\ mt_temper_params mt19937_64) /\
  (r <- mt_seed mt19937 5489;; mt_outputs mt19937 5 r) = Some [3499211612; 581869302; 3890346734; 3586334585; 545404204].
Proof.
  split; [destruct (typedef_params mt19937) as [A [B _]]; [simpl; auto|auto]|].
  split; [destruct (typedef_params mt19937_64) as [A [B _]]; [simpl; auto|auto]|]. vm_compute. reflexivity.
Qed.

(* ================= C20: tempering ================= *)

Theorem C20_mt_tempering_bijection :
  forall p, In p [mt11213b; mt19937; mt19937_64] ->
  (forall z, 0 <= z < 2 ^ mw p -> 0 <= mt_temper p z < 2 ^ mw p) /\
  (forall y, 0 <= y < 2 ^ mw p -> exists z, 0 <= z < 2 ^ mw p /\ mt_temper p z = y /\
     forall z', 0 <= z' < 2 ^ mw p -> mt_temper p z' = y -> z' = z).
Proof. exact temper_typedefs. Qed.
Print Assumptions C20_mt_tempering_bijection.

(* for any parameters with positive shifts and masks of w bits *)
Theorem C20_mt_tempering_bijection_general :
  forall p, mt_temper_params p ->
  (forall z, 0 <= z < 2 ^ mw p -> 0 <= mt_temper p z < 2 ^ mw p) /\
  (forall y, 0 <= y < 2 ^ mw p -> exists z, 0 <= z < 2 ^ mw p /\ mt_temper p z = y /\
     forall z', 0 <= z' < 2 ^ mw p -> mt_temper p z' = y -> z' = z).
Proof. exact temper_general. Qed.
Print Assumptions C20_mt_tempering_bijection_general.

Example C20_case : mt_temper mt19937 1 = 4194449 /\ mt_temper mt19937_64 (2 ^ 63) = 9223372054035693568.
Proof. split; vm_compute; reflexivity. Qed.

(* ================= C21: seeding ================= *)

Theorem C21_mt_seed_value :
  forall p v S, mt_params p -> mt_temper_params p -> (3 <= mn p)%nat -> mt_init p v S ->
  exists st X, mt_seed p v = Some st /\ mt_wf p st /\ mt_sequence p (map S (seq 0 (mn p))) X /\
    forall k, mt_outputs p k st = Some (map (fun j => tempered p (X j)) (seq (mn p) k)).
Proof. exact mt_seed_ok. Qed.
Print Assumptions C21_mt_seed_value.

(* Partial: m >= 2 and the top bit of a set; refuted below for m = 1. *)
Theorem C21_mt_seed_array_partial :
  forall p arr, mt_params p -> mt_temper_params p -> mt_reversible p -> mt_words p arr ->
  exists st, mt_seed_array p arr = Some st /\ mt_wf p st /\ mt_normal p (mx st) /\
    (exists v, In v (mx st) /\ v <> 0) /\
    (exists outs st' v, run (mt_next p) (mn p) st = Some (outs, st') /\ In v outs /\ v <> 0) /\
    ((exists v, In v (tl arr) /\ v <> 0) \/ nth 0 arr 0 / 2 ^ mr p <> 0 ->
     exists X, mt_sequence p arr X /\ forall k, mt_outputs p k st = Some (map (fun j => tempered p (X j)) (seq (mn p) k))).
Proof. exact seed_array_ok. Qed.
Print Assumptions C21_mt_seed_array_partial.

Theorem C21_mt_all_zero_refuted :
  exists p arr st, mt_params p /\ mt_temper_params p /\ 2 ^ (mw p - 1) <= ma p /\ mt_words p arr /\
  mt_seed_array p arr = Some st /\ forall n, mt_outputs p n st = Some (repeat 0 n).
Proof. exact wit_zero. Qed.
Print Assumptions C21_mt_all_zero_refuted.

(* seed(value) goes through the same normalisation *)
Theorem C21_mt_seed_value_normal :
  forall p v, mt_params p -> mt_temper_params p -> mt_reversible p ->
  exists st, mt_seed p v = Some st /\ mt_wf p st /\ mt_normal p (mx st) /\
    exists outs st' u, run (mt_next p) (mn p) st = Some (outs, st') /\ In u outs /\ u <> 0.
Proof. exact seed_value_normal. Qed.
Print Assumptions C21_mt_seed_value_normal.

Example C21_case : (mt_params mt11213b /\ mt_temper_params mt11213b /\ mt_reversible mt11213b /\ (3 <= mn mt11213b)%nat) /\
  mt_words mt11213b (repeat 0 351) /\ (st <- mt_seed_array mt11213b (repeat 0 351);; Some (hd 0 (mx st))) = Some (2 ^ 31).
Proof.
  split; [apply typedef_params; simpl; auto|]. split; [|vm_compute; reflexivity].
  split; [reflexivity|]. intros v Hv. apply repeat_spec in Hv. subst v. cbn [mw mt11213b]. lia.
Qed.

(* ================= C22: equality and text form ================= *)

(* Partial: m >= 2 and the top bit of a set (refuted below otherwise), and
   states that the generator can reach: see the two theorems after it. *)
Theorem C22_mt_equality_partial :
  forall p a b, mt_params p -> mt_temper_params p -> mt_reversible p ->
  mt_wf p a -> mt_wf p b -> mt_normal p (mx a) -> mt_normal p (mx b) ->
  exists e, mt_eq p a b = Some e /\ (e = true <-> mt_same_future p a b).
Proof. exact mt_eq_iff. Qed.
Print Assumptions C22_mt_equality_partial.

Theorem C22_mt_save_restore_partial :
  forall p a b rest, mt_params p -> mt_temper_params p -> mt_reversible p ->
  mt_wf p a -> mt_normal p (mx a) -> length (mx b) = mn p ->
  exists text c, mt_write p a = Some text /\ mt_read p b (good_in (text ++ rest)) = (c, good_in rest) /\
    mt_wf p c /\ mt_normal p (mx c) /\ mt_eq p a c = Some true /\ mt_eq p c a = Some true /\ mt_same_future p a c.
Proof. exact mt_round_trip. Qed.
Print Assumptions C22_mt_save_restore_partial.

(* seeding (C21) gives such states and generating keeps them *)
Theorem C22_mt_normal_kept :
  forall p st n outs st', mt_params p -> mt_reversible p -> mt_wf p st -> mt_normal p (mx st) ->
  run (mt_next p) n st = Some (outs, st') -> mt_wf p st' /\ mt_normal p (mx st').
Proof. exact mt_step_normal. Qed.
Print Assumptions C22_mt_normal_kept.

(* even one output brings any state to that form *)
Theorem C22_mt_becomes_normal :
  forall p st n outs st', mt_params p -> mt_reversible p -> mt_wf p st -> mi st = mn p -> (1 <= n)%nat ->
  run (mt_next p) n st = Some (outs, st') -> mt_wf p st' /\ mt_normal p (mx st').
Proof. exact mt_becomes_normal. Qed.
Print Assumptions C22_mt_becomes_normal.

Theorem C22_mt_save_restore_refuted :
  exists p v st0 outs st text c i, mt_params p /\ mt_temper_params p /\ 2 ^ (mw p - 1) <= ma p /\ mm p = 1%nat /\
    mt_seed p v = Some st0 /\ run (mt_next p) 1 st0 = Some (outs, st) /\
    mt_write p st = Some text /\ mt_read p st (good_in text) = (c, i) /\ failb i = false /\
    mt_eq p st c = Some true /\ ~ mt_same_future p st c.
Proof. exact wit_save_m1. Qed.
Print Assumptions C22_mt_save_restore_refuted.

Theorem C22_mt_save_restore_top_bit_refuted :
  exists p v st0 outs st text c i, mt_params p /\ mt_temper_params p /\ (2 <= mm p)%nat /\ ma p < 2 ^ (mw p - 1) /\
    mt_seed p v = Some st0 /\ run (mt_next p) 1 st0 = Some (outs, st) /\
    mt_write p st = Some text /\ mt_read p st (good_in text) = (c, i) /\ failb i = false /\
    mt_eq p st c = Some true /\ ~ mt_same_future p st c.
Proof. exact wit_save_top. Qed.
Print Assumptions C22_mt_save_restore_top_bit_refuted.

(* operator>> does not normalise what it reads *)
Theorem C22_mt_equality_after_read_refuted :
  exists p st ts1 ts2 a b i1 i2, mt_params p /\ mt_temper_params p /\ mt_reversible p /\ mt_wf p st /\
  mt_read p st (good_in ts1) = (a, i1) /\ failb i1 = false /\ mt_read p st (good_in ts2) = (b, i2) /\ failb i2 = false /\
  mt_wf p a /\ mt_wf p b /\ mt_eq p a b = Some false /\ mt_same_future p a b.
Proof. exact wit_redundant. Qed.
Print Assumptions C22_mt_equality_after_read_refuted.

Example C22_case : mt_reversible mt19937 /\ mt_reversible mt11213b /\ mt_reversible mt19937_64 /\
  exists a, mt_seed mt19937 1 = Some a /\ mt_wf mt19937 a /\ mt_normal mt19937 (mx a).
Proof.
  split; [apply typedef_params; simpl; auto|]. split; [apply typedef_params; simpl; auto|]. split; [apply typedef_params; simpl; auto|].
  destruct (typedef_params mt19937) as [A [B [C _]]]; [simpl; auto|].
  destruct (seed_value_normal mt19937 1 A B C) as [st [E [F1 [F2 _]]]]. exists st. auto.
Qed.
