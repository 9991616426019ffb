(* Remaining final forms for LagProps *)
From Verif Require Import Base StreamModel RingModel RingProofs SwcModel SwcSpec SwcProofs Swc2Proofs Swc3Proofs LfModel LfSpec LfProofs.

Lemma imin_le0 : forall t, wf_ity t -> imin t <= 0.
Proof. intros t H. unfold wf_ity, imin in *. destruct (sgn t); [|lia]. pose proof (Z.pow_nonneg 2 (bits t - 1)). lia. Qed.

Lemma swc_save_restore_int :
  forall t w s r a b rest, (wf_ity t /\ 0 <= w /\ 2 ^ w <= imax t) -> swc_params s r -> swc_wf w r a -> length (xs b) = r ->
  exists ts c, swc_write r a = Some ts /\ swc_read t r b (good_in (ts ++ rest)) = (c, good_in rest) /\
    swc_eq r a c = Some true /\ swc_same_future (swc_upd t w) s r a c /\ swc_wf w r c.
Proof.
  intros t w s r a b rest [Ht [Hw Hm]] Hs Ha HL.
  pose proof (imin_le0 t Ht). pose proof (Z.pow_pos_nonneg 2 w ltac:(lia) Hw).
  apply (swc_round_trip_all t w s r (swc_upd t w) a b rest); auto.
  - apply swc_up_ok; assumption.
  - intros v Hv. unfold inT. lia.
  - unfold inT. lia.
  - unfold inT. lia.
Qed.

Lemma swc_save_restore_01 :
  forall w s r a b rest, 0 <= w <= 63 -> swc_params s r -> swc_wf w r a -> length (xs b) = r ->
  exists ts c, swc_write r a = Some ts /\ swc_read u64 r b (good_in (ts ++ rest)) = (c, good_in rest) /\
    swc_eq r a c = Some true /\ swc_same_future (swc01_upd w) s r a c /\ swc_wf w r c.
Proof.
  intros w s r a b rest Hw Hs Ha HL.
  assert (Hp: 2 ^ w <= 2 ^ 63) by (apply Z.pow_le_mono_r; lia).
  assert (H63: 2 ^ 64 = 2 * 2 ^ 63) by reflexivity.
  apply (swc_round_trip_all u64 w s r (swc01_upd w) a b rest); auto; try lia.
  - apply swc01_up_ok; lia.
  - intros v Hv. unfold inT, imin, imax, u64. cbn [sgn bits]. lia.
  - unfold inT, imin, imax, u64. cbn [sgn bits]. lia.
  - unfold inT, imin, imax, u64. cbn [sgn bits]. lia.
Qed.

Lemma lf_save_restore : forall t w p a b rest, (sgn t = false /\ 0 <= w <= bits t) -> lf_wf w p a -> length (lx b) = p ->
  exists c, lf_read t p b (good_in (lf_write a ++ rest)) = (c, good_in rest) /\ lf_eq a c = true /\
    forall q, lf_same_future (lf_op t w) p q a c.
Proof.
  intros t w p a b rest [Hs Hw] Ha HL. exists a.
  destruct (lf_round_trip t w p a b rest Ha HL) as [E1 E2].
  - intros v Hv. unfold inT, imin, imax. rewrite Hs.
    assert (2 ^ w <= 2 ^ bits t) by (apply Z.pow_le_mono_r; lia). lia.
  - split; [exact E1|]. split; [exact E2|]. intros q n. reflexivity.
Qed.

Lemma lf_discard_ok : forall t w p q st z, (sgn t = false /\ 0 <= w <= bits t) -> lf_params p q -> lf_wf w p st -> 0 <= z ->
  exists outs st', run (lf_next (lf_op t w) p q) (Z.to_nat z) st = Some (outs, st') /\
    lf_discard (lf_op t w) p q z st = Some st'.
Proof.
  intros t w p q st z [Hs Hw] Hp Hst Hz.
  destruct (lf_all (lf_op t w) w p q st (lf_op_ok t w Hs Hw) (proj1 Hw) Hp Hst) as [X [_ H]].
  destruct (H (Z.to_nat z)) as [st' [E _]].
  do 2 eexists. split; [exact E|]. rewrite lf_discard_run, E. reflexivity.
Qed.

Lemma wit_lf_pos : exists a b, lf_wf 8 3 a /\ lf_wf 8 3 b /\ lf_eq a b = false /\ lf_same_future (lf_op u32 8) 3 1 a b.
Proof.
  exists (Lf 3 [5; 11; 200]), (Lf 0 [205; 216; 160]).
  split; [repeat split; cbn [lx li length In] in *; lia|].
  split; [repeat split; cbn [lx li length In] in *; lia|].
  split; [reflexivity|]. intro n. unfold lf_outputs. destruct n as [|n]; [reflexivity|].
  cbn [run].
  replace (lf_next (lf_op u32 8) 3 1 (Lf 3 [5; 11; 200])) with (lf_next (lf_op u32 8) 3 1 (Lf 0 [205; 216; 160]))
    by (vm_compute; reflexivity).
  reflexivity.
Qed.
