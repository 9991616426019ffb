(* C40-C42: discrete_distribution with integral weights *)
From Verif Require Import Base ProgModel ProgSpec UIntModel UIntSpec DiscModel DiscSpec DiscProofs Disc2Proofs Disc3Proofs
  Disc4Proofs Disc5Proofs.

Definition u8 := Ity 8 false.

(* ---- C40 ---- *)

(* construction succeeds (no value leaves its type, no access leaves the
   table), value i is selected by exactly weight(i) of the accepted (column,
   threshold) pairs, and probabilities() returns the weights *)
Theorem C40_exact : forall tw t ws, weights_wf tw t ws ->
  exists al, d_make tw t ws = Some al /\
    (forall i, 0 <= i < Z.of_nat (length ws) -> Z.of_nat (length (selected al i)) = weight ws i) /\
    d_probabilities tw al = Some ws.
Proof.
  intros tw t ws [Hok _]. destruct (made_prob tw t ws Hok) as (al & E1 & (h & HB) & EP).
  exists al. split; [exact E1|]. split; [|exact EP]. exact (selected_count tw t ws Hok h al HB).
Qed.
Print Assumptions C40_exact.

(* operator() through the real uniform_int_distribution calls: for every number
   n of engine outputs, the n-tuples after which it returns i and those after
   which it returns j are in proportion weight(i) : weight(j) *)
Theorem C40_operator : forall tw t ws tb bmin bmax, weights_wf tw t ws -> eng_wf tb bmin bmax ->
  exists al, d_make tw t ws = Some al /\
    forall F, proportional bmin bmax (d_op tw t F tb bmin bmax al) ws.
Proof.
  intros tw t ws tb bmin bmax [Hok _] Hb. destruct (made_prob tw t ws Hok) as (al & E1 & (h & HB) & EP).
  exists al. split; [exact E1|]. intro F. exact (op_proportional tb bmin bmax Hb tw t ws Hok h al HB F).
Qed.
Print Assumptions C40_operator.

(* every run is free of undefined behaviour and returns an index of positive weight *)
Theorem C40_operator_range : forall tw t ws tb bmin bmax, weights_wf tw t ws -> eng_wf tb bmin bmax ->
  exists al, d_make tw t ws = Some al /\
    forall F ds, (length ds < F)%nat -> valid_draws bmin bmax ds ->
      exec (d_op tw t F tb bmin bmax al) ds = OMore \/
      exists i rest, exec (d_op tw t F tb bmin bmax al) ds = ORet i rest /\
        0 <= i < Z.of_nat (length ws) /\ 0 < weight ws i.
Proof.
  intros tw t ws tb bmin bmax [Hok HS] Hb. destruct (made_prob tw t ws Hok) as (al & E1 & (h & HB) & EP).
  exists al. split; [exact E1|]. exact (op_run tb bmin bmax Hb tw t ws Hok h al HB HS).
Qed.
Print Assumptions C40_operator_range.

(* why the sum must be positive: with weights that are all zero no sequence of
   engine outputs makes operator() return *)
Theorem C40_zero_sum_never_returns : forall tw t ws tb bmin bmax, weights_ok tw t ws -> eng_wf tb bmin bmax ->
  Forall (fun x => x = 0) ws ->
  exists al, d_make tw t ws = Some al /\
    forall F n i, count bmin bmax (d_op tw t F tb bmin bmax al) n i = 0%nat.
Proof. intros tw t ws tb bmin bmax Hok Hb HZ. exact (zero_never tb bmin bmax Hb tw t ws Hok HZ). Qed.
Print Assumptions C40_zero_sum_never_returns.

Example C40_wf_ex : weights_wf u8 i32 [255; 0; 3; 255; 1].
Proof.
  split; [|reflexivity]. unfold weights_ok. cbn. repeat split; try lia; try discriminate.
  repeat constructor; lia.
Qed.

Example C40_exact_ex :
  d_make u8 i32 [1; 4; 5] = Some (Alias [(1, 1); (1, 2); (3, 0)] 3 1) /\
  option_map (fun al => map (fun i => length (selected al i)) [0; 1; 2]) (d_make u8 i32 [1; 4; 5]) = Some [1; 4; 5]%nat /\
  option_map (d_probabilities u8) (d_make u8 i32 [255; 0; 3; 255; 1]) = Some (Some [255; 0; 3; 255; 1]).
Proof. vm_compute. repeat split. Qed.

(* an engine with three values: returns after two, three or four outputs, always 1 : 2 : 1 *)
Example C40_operator_ex :
  match d_make u8 i32 [1; 2; 1] with
  | Some al => map (fun n => map (count 0 2 (d_op u8 i32 9 u32 0 2 al) n) [0; 1; 2]) [2; 3; 4]%nat =
               [[1; 2; 1]; [1; 2; 1]; [3; 6; 3]]%nat
  | None => False
  end.
Proof. vm_compute. reflexivity. Qed.

(* ---- C41 ---- *)

(* after param(p) the previous state has no influence on the values returned *)
Theorem C41_behaviour : forall tw t ws tb bmin bmax al, weights_ok tw t ws -> eng_wf tb bmin bmax ->
  exists al' fresh, d_init tw t al ws = Some al' /\ d_make tw t ws = Some fresh /\
    forall F ds, (length ds < F)%nat -> valid_draws bmin bmax ds ->
      exec (d_op tw t F tb bmin bmax al') ds = exec (d_op tw t F tb bmin bmax fresh) ds.
Proof.
  intros tw t ws tb bmin bmax al Hok Hb. destruct (init_built tw t ws Hok) as (avg & exc & h & H).
  destruct (H al) as (al' & E1 & _). destruct (H new_alias) as (fr & E2 & _).
  exists al', fr. split; [exact E1|]. split; [exact E2|]. intros F ds HF Hd.
  apply (param_same tw t ws al new_alias al' fr Hok E1 E2); assumption.
Qed.
Print Assumptions C41_behaviour.

(* probabilities(): right when every alias index left over from the previous
   state lies inside the new vector, in particular when ... *)
Theorem C41_probabilities_partial : forall tw t ws al al', weights_ok tw t ws ->
  d_init tw t al ws = Some al' ->
  Forall (fun e => 0 <= snd e < Z.of_nat (length ws)) (al_tab al) ->
  d_probabilities tw al' = Some ws.
Proof.
  intros tw t ws al al' Hok HI HF. apply (param_prob tw t ws al al' Hok HI).
  intros j Hj. unfold tabZ. rewrite Forall_forall in HF. apply HF. apply nth_In. lia.
Qed.
Print Assumptions C41_probabilities_partial.

(* ... the object has never had more values than the new parameters have *)
Theorem C41_probabilities_growing_partial : forall tw t ws N al al', weights_ok tw t ws ->
  reachable tw t N al -> (N <= length ws)%nat -> d_init tw t al ws = Some al' ->
  d_probabilities tw al' = Some ws.
Proof.
  intros tw t ws N al al' Hok HR HN HI. apply (C41_probabilities_partial tw t ws al al' Hok HI).
  apply (reachable_snd tw t (length ws) al); [pose proof (n_pos tw t ws Hok); lia|].
  clear HI al'. induction HR as [|a v a' HR IH Hv HL HI]; [apply reach_new|].
  apply reach_param with a v; try assumption. lia.
Qed.
Print Assumptions C41_probabilities_growing_partial.

(* equality: right when the alias indices left over are all zero *)
Theorem C41_equal_partial : forall tw t ws al al', weights_ok tw t ws -> d_init tw t al ws = Some al' ->
  Forall (fun e => snd e = 0) (al_tab al) ->
  exists fresh, d_make tw t ws = Some fresh /\ d_eqb al' fresh = true.
Proof.
  intros tw t ws al al' Hok HI HF. exists al'. split; [exact (param_equal tw t ws al al' Hok HI HF)|apply d_eqb_refl].
Qed.
Print Assumptions C41_equal_partial.

(* distributions that compare equal behave alike *)
Theorem C41_equal_sound : forall x y, d_eqb x y = true ->
  forall tw t, d_probabilities tw x = d_probabilities tw y /\ forall fuel tb bmin bmax, d_op tw t fuel tb bmin bmax x = d_op tw t fuel tb bmin bmax y.
Proof.
  intros [tx ax ex] [ty ay ey] H tw t. unfold d_eqb, zlist2_eqb in H. cbn [al_tab al_avg al_exc] in H. destruct (list_eq_dec _ tx ty) as [->|_]; [|discriminate H].
  apply andb_true_iff in H. destruct H as [H1 H2]. apply Z.eqb_eq in H1, H2. subst. split; reflexivity.
Qed.
Print Assumptions C41_equal_sound.

(* new distributions that compare equal have the same weights *)
Theorem C41_equal_weights : forall tw t ws ws' x y, weights_ok tw t ws -> weights_ok tw t ws' -> d_make tw t ws = Some x -> d_make tw t ws' = Some y ->
  d_eqb x y = true -> ws = ws'.
Proof.
  intros tw t ws ws' x y O O' M M' E. destruct (C41_equal_sound x y E tw t) as [P _].
  assert (A : d_probabilities tw x = Some ws) by (apply (C41_probabilities_partial tw t ws new_alias x O M); constructor).
  assert (B : d_probabilities tw y = Some ws') by (apply (C41_probabilities_partial tw t ws' new_alias y O' M'); constructor). congruence.
Qed.
Print Assumptions C41_equal_weights.
Example C41_equal_ex :
  match d_make i32 i32 [5; 1; 1; 7], d_make i32 i32 [5; 1; 1; 7], d_make i32 i32 [5; 1; 1; 8] with
  | Some x, Some y, Some z => d_eqb x y = true /\ d_eqb x z = false
  | _, _, _ => False
  end.
Proof. vm_compute. split; reflexivity. Qed.

(* {1,3} and then param({2,2}): the stale alias index makes it unequal to a new
   distribution({2,2}) *)
Theorem C41_equal_refuted : exists tw t ws N al al' fresh, weights_ok tw t ws /\ reachable tw t N al /\
  d_init tw t al ws = Some al' /\ d_make tw t ws = Some fresh /\ d_eqb al' fresh = false.
Proof.
  assert (W1 : weights_ok i32 i32 [1; 3]) by (unfold weights_ok; cbn; repeat split; try lia; try discriminate; repeat constructor; lia).
  assert (W2 : weights_ok i32 i32 [2; 2]) by (unfold weights_ok; cbn; repeat split; try lia; try discriminate; repeat constructor; lia).
  exists i32, i32, [2; 2], 2%nat, (Alias [(1, 1); (2, 0)] 2 0), (Alias [(2, 1); (2, 0)] 2 0), (Alias [(2, 0); (2, 0)] 2 0).
  split; [exact W2|]. split.
  - apply reach_param with (al := new_alias) (ws := [1; 3]); [apply reach_new|right; exact W1|cbn; lia|vm_compute; reflexivity].
  - vm_compute. repeat split.
Qed.
Print Assumptions C41_equal_refuted.

(* {1,1,7} and then param({1}): probabilities(), and with it param() and
   operator<<, writes outside its result vector *)
Theorem C41_probabilities_refuted : exists tw t ws N al al', weights_ok tw t ws /\ reachable tw t N al /\
  d_init tw t al ws = Some al' /\ d_probabilities tw al' = None.
Proof.
  assert (W1 : weights_ok i32 i32 [1; 1; 7]) by (unfold weights_ok; cbn; repeat split; try lia; try discriminate; repeat constructor; lia).
  assert (W2 : weights_ok i32 i32 [1]) by (unfold weights_ok; cbn; repeat split; try lia; try discriminate; repeat constructor; lia).
  exists i32, i32, [1], 3%nat, (Alias [(1, 2); (1, 2); (3, 0)] 3 0), (Alias [(1, 2)] 1 0).
  split; [exact W2|]. split.
  - apply reach_param with (al := new_alias) (ws := [1; 1; 7]); [apply reach_new|right; exact W1|cbn; lia|vm_compute; reflexivity].
  - vm_compute. repeat split.
Qed.
Print Assumptions C41_probabilities_refuted.

Example C41_behaviour_ex :
  match d_make i32 i32 [5; 1; 1; 7; 2; 2], d_make i32 i32 [2; 1; 1] with
  | Some old, Some fresh =>
      match d_init i32 i32 old [2; 1; 1] with
      | Some al' => d_eqb al' fresh = false /\
          map (fun x => exec (d_op i32 i32 9 u32 0 5 al') [x; 1; 2; 0]) [0; 1; 2; 3; 4; 5] =
          map (fun x => exec (d_op i32 i32 9 u32 0 5 fresh) [x; 1; 2; 0]) [0; 1; 2; 3; 4; 5]
      | None => False
      end
  | _, _ => False
  end.
Proof. vm_compute. repeat split. Qed.

(* ---- C42 ---- *)

(* the call with explicit parameters uses the weights, unless the first weight
   is the largest value of WeightType and another weight is not zero *)
Theorem C42_call_with_parameters_partial : forall tw t w0 ws tb bmin bmax, eng_wf tb bmin bmax ->
  weights_ok tw t (w0 :: ws) -> (w0 < imax tw \/ Forall (fun x => x = 0) ws) ->
  forall F, proportional bmin bmax (d_op_parm tw t F tb bmin bmax (w0 :: ws)) (w0 :: ws).
Proof. intros tw t w0 ws tb bmin bmax Hb Hok HC F. exact (parm_proportional tb bmin bmax Hb tw t w0 ws Hok HC F). Qed.
Print Assumptions C42_call_with_parameters_partial.

(* the excluded case, unsigned: {255, 10} in 8 bits; the sum wraps to 9 and the
   second value is never returned *)
Theorem C42_call_with_parameters_refuted : exists tw t ws tb bmin bmax F, eng_wf tb bmin bmax /\ weights_wf tw t ws /\
  ~ proportional bmin bmax (d_op_parm tw t F tb bmin bmax ws) ws.
Proof.
  exists u8, i32, [255; 10], u32, 0, 8, 3%nat.
  split; [unfold eng_wf, inT; cbn; lia|]. split.
  - split; [|reflexivity]. unfold weights_ok. cbn. repeat split; try lia; try discriminate. repeat constructor; lia.
  - intro H. specialize (H 1%nat 0 1 ltac:(cbn; lia) ltac:(cbn; lia)). vm_compute in H. discriminate.
Qed.
Print Assumptions C42_call_with_parameters_refuted.

(* the excluded case, signed: the sum overflows, undefined behaviour before any
   engine call *)
Theorem C42_call_with_parameters_ub_refuted : exists tw t ws, weights_wf tw t ws /\
  forall F tb bmin bmax, d_op_parm tw t F tb bmin bmax ws = PUB.
Proof.
  exists i32, i32, [2147483647; 10]. split.
  - split; [|reflexivity]. unfold weights_ok. cbn. repeat split; try lia; try discriminate. repeat constructor; lia.
  - intros. reflexivity.
Qed.
Print Assumptions C42_call_with_parameters_ub_refuted.

Example C42_ex : map (count 0 3 (d_op_parm u8 i32 9 u32 0 3 [1; 0; 1; 2]) 2) [0; 1; 2; 3] = [2; 0; 2; 4]%nat /\
  map (count 0 4 (d_op_parm u8 i32 9 u32 0 4 [255; 0; 0]) 4) [0; 1; 2] = [255; 0; 0]%nat.
Proof. vm_compute. repeat split. Qed.
