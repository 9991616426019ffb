(* Final forms and witnesses for the subtract-with-carry engines *)
From Verif Require Import Base StreamModel RingModel RingProofs SwcModel SwcSpec SwcProofs Swc2Proofs.

Lemma swc_recurrence_all : forall up w s r st n, up_ok w r up -> swc_params s r -> 0 <= w -> swc_wf w r st ->
  exists outs st' cs, run (swc_next up s r) n st = Some (outs, st') /\ length outs = n /\ swc_wf w r st' /\
    (forall v, In v outs -> 0 <= v <= 2 ^ w - 1) /\
    nth 0 cs 0 = cy st /\ nth n cs 0 = cy st' /\
    swc_recurrence w s r (swc_history st ++ outs) cs /\
    swc_history st' = skipn n (swc_history st ++ outs).
Proof.
  intros up w s r st n Hup Hs Hw Hwf.
  destruct (run_swc w s r up Hup Hs Hw n st Hwf) as [outs [st' [cs [E [HL [Hwf' [HR [_ [Hc0 [Hcn [Hrec Hh]]]]]]]]]]].
  exists outs, st', cs. split; [exact E|]. split; [exact HL|]. split; [exact Hwf'|].
  split; [intros v Hv; apply HR in Hv; lia|]. split; [exact Hc0|]. split; [exact Hcn|].
  rewrite !history_rot by (destruct Hwf as [H1 [H2 _]], Hwf' as [H3 [H4 _]]; lia).
  split; assumption.
Qed.

Lemma swc_discard_all : forall up w s r st z, up_len up -> up_ok w r up -> swc_params s r -> 0 <= w -> swc_wf w r st -> 0 <= z ->
  (kk st <> 0%nat \/ z = 0 \/ Z.of_nat r <= z) ->
  exists outs st', run (swc_next up s r) (Z.to_nat z) st = Some (outs, st') /\ swc_discard up s r z st = Some st'.
Proof.
  intros up w s r st z Hl Hup Hs Hw Hwf Hz H.
  destruct (run_swc w s r up Hup Hs Hw (Z.to_nat z) st Hwf) as [outs [st' [cs [E _]]]].
  exists outs, st'. split; [exact E|]. destruct Hwf as [H1 [H2 _]].
  rewrite (discard_run up s r st z Hl Hs H1 H2 Hz H). rewrite E. reflexivity.
Qed.

(* equal next states: equal futures *)
Lemma next_eq_same_future : forall w s r up a b, up_ok w r up -> swc_params s r -> 0 <= w -> swc_wf w r a ->
  swc_next up s r a = swc_next up s r b -> swc_same_future up s r a b.
Proof.
  intros w s r up a b Hup Hs Hw Ha E n. unfold swc_outputs.
  destruct (run_swc w s r up Hup Hs Hw n a Ha) as [outs [st' [cs [E1 _]]]].
  split; [|rewrite E1; discriminate].
  destruct n as [|n]; [reflexivity|]. cbn [run]. rewrite <- E. reflexivity.
Qed.

(* witnesses: IntType = uint32_t, w = 4, s = 1, r = 3 *)
Definition wit_up := swc_upd u32 4.

Lemma wit_discard : exists st z a b va vb a' b' outs, swc_wf 4 3 st /\ 0 <= z /\
  swc_discard wit_up 1 3 z st = Some a /\ run (swc_next wit_up 1 3) (Z.to_nat z) st = Some (outs, b) /\
  swc_next wit_up 1 3 a = Some (va, a') /\ swc_next wit_up 1 3 b = Some (vb, b') /\ va <> vb.
Proof.
  exists (Swc [5; 11; 2] 0 0), 1, (Swc [5; 11; 2] 1 0), (Swc [13; 11; 2] 1 1), 10, 1.
  do 3 eexists. split; [|split; [|split; [|split; [|split; [|split]]]]]; try reflexivity; try lia.
  repeat split; cbn [xs kk cy length] in *; try lia.
  - cbn [In] in H; lia.
  - cbn [In] in H; lia.
Qed.

Lemma wit_eq1 : exists a b va vb a' b', swc_wf 4 3 a /\ swc_wf 4 3 b /\ swc_eq 3 a b = Some true /\
  swc_next wit_up 1 3 a = Some (va, a') /\ swc_next wit_up 1 3 b = Some (vb, b') /\ va <> vb.
Proof.
  exists (Swc [5; 11; 2] 0 0), (Swc [5; 11; 2] 0 1), 13, 12.
  do 2 eexists. split; [|split; [|split; [|split; [|split]]]]; try reflexivity; try lia;
  repeat split; cbn [xs kk cy length] in *; try lia; cbn [In] in H; lia.
Qed.

Lemma wit_eq2 : exists a b, swc_wf 4 3 a /\ swc_wf 4 3 b /\ swc_eq 3 a b = Some false /\ swc_same_future wit_up 1 3 a b.
Proof.
  exists (Swc [5; 11; 2] 0 1), (Swc [6; 11; 2] 0 0).
  assert (Ha: swc_wf 4 3 (Swc [5; 11; 2] 0 1)) by (repeat split; cbn [xs kk cy length] in *; try lia; cbn [In] in H; lia).
  assert (Hb: swc_wf 4 3 (Swc [6; 11; 2] 0 0)) by (repeat split; cbn [xs kk cy length] in *; try lia; cbn [In] in H; lia).
  split; [exact Ha|]. split; [exact Hb|]. split; [reflexivity|].
  apply (next_eq_same_future 4); [|unfold swc_params; lia|lia|exact Ha|reflexivity].
  apply swc_up_ok; [|lia|vm_compute; discriminate]. unfold wf_ity, u32; simpl; lia.
Qed.

(* a text that operator>> accepts although the values exceed max() *)
Lemma wit_read : exists st ts st' i v st'', swc_wf 4 3 st /\ swc_read u32 3 st (good_in ts) = (st', i) /\ failb i = false /\
  swc_next wit_up 1 3 st' = Some (v, st'') /\ ~ (0 <= v <= 2 ^ 4 - 1).
Proof.
  exists (Swc [5; 11; 2] 0 1), [TInt 3; TInt 4; TInt 100; TInt 0].
  do 4 eexists. split; [|split; [|split; [|split]]]; try reflexivity.
  - repeat split; cbn [xs kk cy length] in *; try lia; cbn [In] in H; lia.
  - vm_compute. intros [_ H]. apply H. reflexivity.
Qed.
