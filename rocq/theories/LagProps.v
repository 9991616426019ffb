(* C14-C18: subtract-with-carry and lagged Fibonacci engines *)
From Verif Require Import Base StreamModel RingModel SwcModel SwcSpec SwcProofs Swc2Proofs Swc3Proofs LfModel LfSpec LfProofs Lag2Proofs.

(* IntType t, modulus 1 << w representable in it *)
Definition swc_type (t : ity) (w : Z) : Prop := wf_ity t /\ 0 <= w /\ 2 ^ w <= imax t.

(* ================= C14: recurrence and range ================= *)

Theorem C14_swc_recurrence :
  forall t w s r st n, swc_type t w -> swc_params s r -> swc_wf w r st ->
  exists outs st' cs, run (swc_next (swc_upd t w) s r) n st = Some (outs, st') /\ length outs = n /\ swc_wf w r st' /\
    (forall v, In v outs -> 0 <= v <= 2 ^ w - 1) /\
    nth 0 cs 0 = cy st /\ nth n cs 0 = cy st' /\
    swc_recurrence w s r (swc_history st ++ outs) cs /\
    swc_history st' = skipn n (swc_history st ++ outs).
Proof.
  exact (fun t w s r st n HT Hs Hwf =>
    swc_recurrence_all (swc_upd t w) w s r st n (swc_up_ok t w r (proj1 HT) (proj1 (proj2 HT)) (proj2 (proj2 HT))) Hs (proj1 (proj2 HT)) Hwf).
Qed.
Print Assumptions C14_swc_recurrence.

(* subtract_with_carry_01_engine, values in units of 2^-w *)
Theorem C14_swc01_recurrence :
  forall w s r st n, 0 <= w -> swc_params s r -> swc_wf w r st ->
  exists outs st' cs, run (swc_next (swc01_upd w) s r) n st = Some (outs, st') /\ length outs = n /\ swc_wf w r st' /\
    (forall v, In v outs -> 0 <= v <= 2 ^ w - 1) /\
    nth 0 cs 0 = cy st /\ nth n cs 0 = cy st' /\
    swc_recurrence w s r (swc_history st ++ outs) cs /\
    swc_history st' = skipn n (swc_history st ++ outs).
Proof.
  exact (fun w s r st n Hw Hs Hwf => swc_recurrence_all (swc01_upd w) w s r st n (swc01_up_ok w r Hw) Hs Hw Hwf).
Qed.
Print Assumptions C14_swc01_recurrence.

Example C14_case : swc_type u32 24 /\ swc_params 10 24 /\ swc_wf 24 24 (Swc (map (fun j => 700001 * Z.of_nat j) (seq 0 24)) 5 1).
Proof.
  split; [unfold swc_type, wf_ity, u32; cbn [bits]; repeat split; try lia; vm_compute; discriminate|].
  split; [unfold swc_params; lia|].
  split; [reflexivity|]. split; [cbn [kk]; lia|]. split; [|right; reflexivity].
  intros v Hv. apply in_map_iff in Hv. destruct Hv as [j [<- Hj]]. apply in_seq in Hj. change (2 ^ 24) with 16777216. lia.
Qed.

(* operator>> does not check the values it reads: after reading such a text the
   outputs can exceed max() *)
Theorem C14_swc_range_after_read_refuted :
  exists st ts st' i v st'', swc_wf 4 3 st /\ swc_read u32 3 st (good_in ts) = (st', i) /\ failb i = false /\
    swc_next (swc_upd u32 4) 1 3 st' = Some (v, st'') /\ ~ (0 <= v <= 2 ^ 4 - 1).
Proof. exact wit_read. Qed.
Print Assumptions C14_swc_range_after_read_refuted.

(* ================= C15: discard ================= *)

(* Partial: excludes 0 < z < r at buffer position 0, where it is refuted below. *)
Theorem C15_swc_discard_partial :
  forall t w s r st z, swc_type t w -> swc_params s r -> swc_wf w r st -> 0 <= z ->
  kk st <> 0%nat \/ z = 0 \/ Z.of_nat r <= z ->
  exists outs st', run (swc_next (swc_upd t w) s r) (Z.to_nat z) st = Some (outs, st') /\
    swc_discard (swc_upd t w) s r z st = Some st'.
Proof.
  exact (fun t w s r st z HT Hs Hwf Hz H =>
    swc_discard_all (swc_upd t w) w s r st z (swc_up_len t w)
      (swc_up_ok t w r (proj1 HT) (proj1 (proj2 HT)) (proj2 (proj2 HT))) Hs (proj1 (proj2 HT)) Hwf Hz H).
Qed.
Print Assumptions C15_swc_discard_partial.

Theorem C15_swc01_discard_partial :
  forall w s r st z, 0 <= w -> swc_params s r -> swc_wf w r st -> 0 <= z ->
  kk st <> 0%nat \/ z = 0 \/ Z.of_nat r <= z ->
  exists outs st', run (swc_next (swc01_upd w) s r) (Z.to_nat z) st = Some (outs, st') /\
    swc_discard (swc01_upd w) s r z st = Some st'.
Proof.
  exact (fun w s r st z Hw Hs Hwf Hz H =>
    swc_discard_all (swc01_upd w) w s r st z (swc01_up_len w) (swc01_up_ok w r Hw) Hs Hw Hwf Hz H).
Qed.
Print Assumptions C15_swc01_discard_partial.

(* what happens in the excluded case: no entry is updated *)
Theorem C15_swc_discard_position_0 :
  forall t w s r st z, swc_params s r -> length (xs st) = r -> kk st = 0%nat -> 0 < z < Z.of_nat r ->
  swc_discard (swc_upd t w) s r z st = Some (Swc (xs st) (Z.to_nat z) (cy st)).
Proof.
  exact (fun t w s r st z Hs HL Hk Hz => discard_run_bad (swc_upd t w) s r st z (swc_up_len t w) Hs HL Hk Hz).
Qed.
Print Assumptions C15_swc_discard_position_0.

Example C15_case : let st := Swc [5; 11; 2] 2 0 in
  swc_type u32 4 /\ swc_params 1 3 /\ swc_wf 4 3 st /\ (kk st <> 0%nat \/ 7 = 0 \/ 3 <= 7) /\
  swc_discard (swc_upd u32 4) 1 3 7 st = Some (Swc [10; 1; 2] 0 1).
Proof.
  cbv zeta. split; [unfold swc_type, wf_ity, u32; cbn [bits]; repeat split; try lia; vm_compute; discriminate|].
  split; [unfold swc_params; lia|].
  split; [repeat split; cbn [xs kk cy length In] in *; lia|].
  split; [left; discriminate|]. vm_compute. reflexivity.
Qed.

Theorem C15_swc_discard_refuted :
  exists st z a b va vb a' b' outs, swc_wf 4 3 st /\ 0 <= z /\
  swc_discard (swc_upd u32 4) 1 3 z st = Some a /\
  run (swc_next (swc_upd u32 4) 1 3) (Z.to_nat z) st = Some (outs, b) /\
  swc_next (swc_upd u32 4) 1 3 a = Some (va, a') /\ swc_next (swc_upd u32 4) 1 3 b = Some (vb, b') /\ va <> vb.
Proof. exact wit_discard. Qed.
Print Assumptions C15_swc_discard_refuted.

(* ================= C16: equality ================= *)

(* operator== decides whether the last r terms agree *)
Theorem C16_swc_eq_compares_history :
  forall w r a b, swc_wf w r a -> swc_wf w r b ->
  (swc_eq r a b = Some true <-> swc_history a = swc_history b) /\ swc_eq r a b <> None.
Proof. exact swc_eq_iff_history. Qed.
Print Assumptions C16_swc_eq_compares_history.

(* Partial: one direction, for engines with equal carry; both directions are
   refuted in general. *)
Theorem C16_swc_eq_same_future_partial :
  forall t w s r a b, swc_type t w -> swc_params s r -> swc_wf w r a -> swc_wf w r b ->
  cy a = cy b -> swc_eq r a b = Some true -> swc_same_future (swc_upd t w) s r a b.
Proof.
  exact (fun t w s r a b HT Hs Ha Hb Hc He =>
    eq_same_future w s r (swc_upd t w) a b (swc_up_ok t w r (proj1 HT) (proj1 (proj2 HT)) (proj2 (proj2 HT))) Hs
      (proj1 (proj2 HT)) Ha Hb Hc He).
Qed.
Print Assumptions C16_swc_eq_same_future_partial.

Example C16_case : let a := Swc [5; 11; 2] 0 1 in let b := Swc [11; 2; 5] 2 1 in
  swc_wf 4 3 a /\ swc_wf 4 3 b /\ cy a = cy b /\ swc_eq 3 a b = Some true.
Proof. cbv zeta. repeat split; cbn [xs kk cy length In] in *; lia. Qed.

Theorem C16_swc_equal_but_different_future_refuted :
  exists a b va vb a' b', swc_wf 4 3 a /\ swc_wf 4 3 b /\ swc_eq 3 a b = Some true /\
  swc_next (swc_upd u32 4) 1 3 a = Some (va, a') /\ swc_next (swc_upd u32 4) 1 3 b = Some (vb, b') /\ va <> vb.
Proof. exact wit_eq1. Qed.
Print Assumptions C16_swc_equal_but_different_future_refuted.

Theorem C16_swc_same_future_but_unequal_refuted :
  exists a b, swc_wf 4 3 a /\ swc_wf 4 3 b /\ swc_eq 3 a b = Some false /\ swc_same_future (swc_upd u32 4) 1 3 a b.
Proof. exact wit_eq2. Qed.
Print Assumptions C16_swc_same_future_but_unequal_refuted.

(* ================= C17: save and restore ================= *)

Theorem C17_swc_save_restore :
  forall t w s r a b rest, swc_type t w -> swc_params s r -> swc_wf w r a -> length (xs b) = r ->
  exists ts c, swc_write r a = Some ts /\ swc_read t r b (good_in (ts ++ rest)) = (c, good_in rest) /\
    swc_eq r a c = Some true /\ swc_same_future (swc_upd t w) s r a c /\ swc_wf w r c.
Proof. exact swc_save_restore_int. Qed.
Print Assumptions C17_swc_save_restore.

(* subtract_with_carry_01_engine; its values are written as the integers of the
   model, read here by an integer extraction of 64 bits *)
Theorem C17_swc01_save_restore :
  forall w s r a b rest, 0 <= w <= 63 -> swc_params s r -> swc_wf w r a -> length (xs b) = r ->
  exists ts c, swc_write r a = Some ts /\ swc_read u64 r b (good_in (ts ++ rest)) = (c, good_in rest) /\
    swc_eq r a c = Some true /\ swc_same_future (swc01_upd w) s r a c /\ swc_wf w r c.
Proof. exact swc_save_restore_01. Qed.
Print Assumptions C17_swc01_save_restore.

Example C17_case : let a := Swc [5; 11; 2] 2 1 in
  swc_wf 4 3 a /\ swc_write 3 a = Some [TInt 2; TInt 5; TInt 11; TInt 1].
Proof. cbv zeta. repeat split; cbn [xs kk cy length In] in *; lia. Qed.

(* ================= C18: lagged Fibonacci ================= *)

(* UIntType t unsigned with w <= digits *)
Definition lf_type (t : ity) (w : Z) : Prop := sgn t = false /\ 0 <= w <= bits t.

Theorem C18_lf_recurrence :
  forall t w p q st, lf_type t w -> lf_params p q -> lf_wf w p st ->
  exists X, lf_sequence w p q (lx st) X /\
  forall n, let outs := map X (seq (Nat.min (Z.to_nat (li st)) p) n) in
    exists st', run (lf_next (lf_op t w) p q) n st = Some (outs, st') /\ lf_wf w p st' /\
      (forall v, In v outs -> 0 <= v <= 2 ^ w - 1).
Proof.
  exact (fun t w p q st HT Hp Hwf =>
    lf_all (lf_op t w) w p q st (lf_op_ok t w (proj1 HT) (proj2 HT)) (proj1 (proj2 HT)) Hp Hwf).
Qed.
Print Assumptions C18_lf_recurrence.

Theorem C18_lf01_recurrence :
  forall w p q st, 0 <= w -> lf_params p q -> lf_wf w p st ->
  exists X, lf_sequence w p q (lx st) X /\
  forall n, let outs := map X (seq (Nat.min (Z.to_nat (li st)) p) n) in
    exists st', run (lf_next (lf01_op w) p q) n st = Some (outs, st') /\ lf_wf w p st' /\
      (forall v, In v outs -> 0 <= v <= 2 ^ w - 1).
Proof. exact (fun w p q st Hw Hp Hwf => lf_all (lf01_op w) w p q st (lf01_op_ok w Hw) Hw Hp Hwf). Qed.
Print Assumptions C18_lf01_recurrence.

Theorem C18_lf_equality :
  forall t w p q a b, lf_type t w -> lf_params p q -> lf_wf w p a -> lf_wf w p b -> li a = li b ->
  (lf_eq a b = true <-> lf_same_future (lf_op t w) p q a b).
Proof.
  exact (fun t w p q a b HT Hp Ha Hb Hi =>
    lf_eq_iff (lf_op t w) w p q a b (lf_op_ok t w (proj1 HT) (proj2 HT)) (proj1 (proj2 HT)) Hp Ha Hb Hi).
Qed.
Print Assumptions C18_lf_equality.

Theorem C18_lf01_equality :
  forall w p q a b, 0 <= w -> lf_params p q -> lf_wf w p a -> lf_wf w p b -> li a = li b ->
  (lf_eq a b = true <-> lf_same_future (lf01_op w) p q a b).
Proof. exact (fun w p q a b Hw Hp Ha Hb Hi => lf_eq_iff (lf01_op w) w p q a b (lf01_op_ok w Hw) Hw Hp Ha Hb Hi). Qed.
Print Assumptions C18_lf01_equality.

Theorem C18_lf_save_restore :
  forall t w p a b rest, lf_type t w -> lf_wf w p a -> length (lx b) = p ->
  exists c, lf_read t p b (good_in (lf_write a ++ rest)) = (c, good_in rest) /\ lf_eq a c = true /\
    forall q, lf_same_future (lf_op t w) p q a c.
Proof. exact lf_save_restore. Qed.
Print Assumptions C18_lf_save_restore.

Theorem C18_lf_discard :
  forall t w p q st z, lf_type t w -> lf_params p q -> lf_wf w p st -> 0 <= z ->
  exists outs st', run (lf_next (lf_op t w) p q) (Z.to_nat z) st = Some (outs, st') /\
    lf_discard (lf_op t w) p q z st = Some st'.
Proof. exact lf_discard_ok. Qed.
Print Assumptions C18_lf_discard.

Example C18_case : let a := Lf 3 [5; 11; 2; 250; 9] in
  lf_type u32 8 /\ lf_params 5 2 /\ lf_wf 8 5 a /\ li a = li (Lf 3 [5; 11; 2; 251; 9]) /\
  lf_outputs (lf_op u32 8) 5 2 6 a = Some [250; 9; 255; 20; 1; 14].
Proof.
  cbv zeta. unfold lf_type, lf_params. cbn [u32 sgn bits].
  repeat split; cbn [lx li length In] in *; lia.
Qed.

(* engines at different positions can have the same future but compare unequal *)
Theorem C18_lf_equality_positions_refuted :
  exists a b, lf_wf 8 3 a /\ lf_wf 8 3 b /\ lf_eq a b = false /\ lf_same_future (lf_op u32 8) 3 1 a b.
Proof. exact wit_lf_pos. Qed.
Print Assumptions C18_lf_equality_positions_refuted.
