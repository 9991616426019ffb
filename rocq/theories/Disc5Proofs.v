(* History of an object, and calls with explicit parameters. *)
From Verif Require Import Base ProgModel ProgSpec ProgProofs UIntModel UIntSpec UIntProofs UInt4Proofs
  DiscModel DiscSpec DiscProofs Disc2Proofs Disc3Proofs Disc4Proofs.

Ltac Zify.zify_post_hook ::= idtac.

Lemma resize_at : forall l k j, 0 <= j < Z.of_nat k ->
  tabZ (resize_tab l k) j = if j <? Z.of_nat (length l) then tabZ l j else (0, 0).
Proof.
  intros l k j Hj. unfold resize_tab, tabZ. destruct (Z.ltb_spec j (Z.of_nat (length l))) as [L|L].
  - rewrite app_nth1 by (rewrite firstn_length; lia).
    rewrite <- (firstn_skipn k l) at 2. rewrite app_nth1; [reflexivity|]. rewrite firstn_length. lia.
  - rewrite app_nth2 by (rewrite firstn_length; lia). apply nth_repeat.
Qed.

Theorem init_built : forall tw t ws, weights_ok tw t ws ->
  exists avg exc h, forall al, exists al', d_init tw t al ws = Some al' /\ built tw ws h al' /\
    al_avg al' = avg /\ al_exc al' = exc /\
    forall j, 0 <= j < Z.of_nat (length ws) ->
      tabZ (al_tab al') j = apply_entry (h j) (tabZ (resize_tab (al_tab al) (length ws)) j).
Proof.
  intros tw t ws Hok. destruct (init_ok tw t ws Hok) as (avg & exc & h & H1 & H2 & H3 & H4).
  exists avg, exc, h. intro al. destruct (H4 al) as (tab & E1 & E2 & E3).
  exists (Alias tab avg exc). split; [exact E1|]. split; [|split; [reflexivity|split; [reflexivity|exact E3]]].
  unfold built. cbn [al_avg al_exc al_tab]. split; [exact H1|]. split; [exact H2|]. split; [exact H3|].
  split; [exact E2|]. intros j Hj. eexists. apply E3. exact Hj.
Qed.

Lemma entry_snd : forall tw ws h al' tab n, built tw ws h al' -> n = Z.of_nat (length ws) ->
  (forall j, 0 <= j < n -> tabZ (al_tab al') j = apply_entry (h j) (tabZ tab j)) ->
  (forall j, 0 <= j < n -> 0 <= snd (tabZ tab j) < n) ->
  forall j, 0 <= j < n -> 0 <= snd (tabZ (al_tab al') j) < n.
Proof.
  intros tw ws h al' tab n HB -> HT Hs j Hj. rewrite HT by exact Hj. unfold apply_entry. cbn [snd].
  destruct HB as (_ & HE & _). destruct (HE j Hj) as (_ & H2). destruct (snd (h j)); [exact H2|]. apply Hs. exact Hj.
Qed.

(* second components of a reachable object are below the largest size it ever had; for a
   vector that grows they stay inside *)
Lemma resize_snd : forall l k, (0 < k)%nat -> (forall j, 0 <= j < Z.of_nat (length l) -> 0 <= snd (tabZ l j) < Z.of_nat k) ->
  forall j, 0 <= j < Z.of_nat k -> 0 <= snd (tabZ (resize_tab l k) j) < Z.of_nat k.
Proof.
  intros l k Hk H j Hj. rewrite resize_at by exact Hj.
  destruct (Z.ltb_spec j (Z.of_nat (length l))) as [L|L]; [apply H; lia|cbn [snd]; lia].
Qed.

Lemma made_prob : forall tw t ws, weights_ok tw t ws -> exists al, d_make tw t ws = Some al /\
  (exists h, built tw ws h al) /\ d_probabilities tw al = Some ws.
Proof.
  intros tw t ws Hok. destruct (init_built tw t ws Hok) as (avg & exc & h & H).
  destruct (H new_alias) as (al & E1 & HB & _ & _ & HT). exists al. split; [exact E1|].
  split; [exists h; exact HB|]. apply (prob_ok tw t ws h al Hok HB).
  pose proof (n_pos tw t ws Hok).
  apply (entry_snd tw ws h al (resize_tab (al_tab new_alias) (length ws)) _ HB eq_refl HT).
  apply resize_snd; [lia|]. cbn. lia.
Qed.

(* parameters given to an object whose alias indices lie inside the new vector *)
Lemma param_prob : forall tw t ws al al', weights_ok tw t ws -> d_init tw t al ws = Some al' ->
  (forall j, 0 <= j < Z.of_nat (length (al_tab al)) -> 0 <= snd (tabZ (al_tab al) j) < Z.of_nat (length ws)) ->
  d_probabilities tw al' = Some ws.
Proof.
  intros tw t ws al al' Hok HI Hs. destruct (init_built tw t ws Hok) as (avg & exc & h & H).
  destruct (H al) as (al2 & E1 & HB & _ & _ & HT). assert (al2 = al') by congruence. subst al2.
  apply (prob_ok tw t ws h al' Hok HB). pose proof (n_pos tw t ws Hok).
  apply (entry_snd tw ws h al' (resize_tab (al_tab al) (length ws)) _ HB eq_refl HT).
  apply resize_snd; [lia|]. exact Hs.
Qed.

Lemma param_len : forall tw t ws al al', weights_ok tw t ws -> d_init tw t al ws = Some al' ->
  length (al_tab al') = length ws.
Proof.
  intros tw t ws al al' Hok HI. destruct (init_built tw t ws Hok) as (avg & exc & h & H).
  destruct (H al) as (al2 & E1 & HB & _). assert (al2 = al') by congruence. subst al2.
  apply HB.
Qed.

Lemma param_same : forall tw t ws a1 a2 b1 b2, weights_ok tw t ws ->
  d_init tw t a1 ws = Some b1 -> d_init tw t a2 ws = Some b2 ->
  al_avg b1 = al_avg b2 /\ al_exc b1 = al_exc b2 /\
  forall tb bmin bmax F ds, eng_wf tb bmin bmax -> (length ds < F)%nat -> valid_draws bmin bmax ds ->
    exec (d_op tw t F tb bmin bmax b1) ds = exec (d_op tw t F tb bmin bmax b2) ds.
Proof.
  intros tw t ws a1 a2 b1 b2 Hok I1 I2. destruct (init_built tw t ws Hok) as (avg & exc & h & H).
  destruct (H a1) as (c1 & E1 & B1 & A1 & X1 & _). assert (c1 = b1) by congruence. subst c1.
  destruct (H a2) as (c2 & E2 & B2 & A2 & X2 & _). assert (c2 = b2) by congruence. subst c2.
  split; [congruence|]. split; [congruence|]. intros tb bmin bmax F ds Hb HF Hd.
  apply (op_same tb bmin bmax Hb tw t ws Hok h b1 b2 B1 B2); congruence || assumption.
Qed.

Lemma param_equal : forall tw t ws al al', weights_ok tw t ws -> d_init tw t al ws = Some al' ->
  Forall (fun e => snd e = 0) (al_tab al) -> d_make tw t ws = Some al'.
Proof.
  intros tw t ws al al' Hok HI Hz. destruct (init_built tw t ws Hok) as (avg & exc & h & H).
  destruct (H al) as (c1 & E1 & B1 & A1 & X1 & T1). assert (c1 = al') by congruence. subst c1.
  destruct (H new_alias) as (c2 & E2 & B2 & A2 & X2 & T2). unfold d_make. rewrite E2. f_equal.
  destruct c2 as [tb2 av2 ex2], al' as [tb1 av1 ex1]. cbn [al_avg al_exc al_tab] in *. subst. f_equal.
  destruct B1 as (_ & _ & _ & L1 & _). destruct B2 as (_ & _ & _ & L2 & _). cbn [al_tab] in *.
  apply nth_ext with (d := (0, 0)) (d' := (0, 0)); [congruence|]. intros q Hq.
  specialize (T1 (Z.of_nat q) ltac:(lia)). specialize (T2 (Z.of_nat q) ltac:(lia)).
  unfold tabZ at 1 in T1. unfold tabZ at 1 in T2. rewrite Nat2Z.id in T1, T2. rewrite T1, T2.
  rewrite !resize_at by lia. unfold apply_entry. f_equal. destruct (snd (h (Z.of_nat q))); [reflexivity|].
  cbn [length al_tab new_alias]. destruct (Z.ltb_spec (Z.of_nat q) (Z.of_nat 0)); [lia|].
  destruct (Z.ltb_spec (Z.of_nat q) (Z.of_nat (length (al_tab al)))); [|reflexivity].
  cbn [snd]. symmetry. unfold tabZ. rewrite Nat2Z.id. rewrite Forall_forall in Hz. apply Hz. apply nth_In. lia.
Qed.

Lemma d_eqb_refl : forall al, d_eqb al al = true.
Proof.
  intro al. unfold d_eqb, zlist2_eqb. destruct (list_eq_dec _ _ _) as [_|N]; [|congruence].
  rewrite !Z.eqb_refl. reflexivity.
Qed.

(* ---- operator()(urng, parm) ---- *)
Lemma try_small : forall tw w0 ws, w0 < imax tw -> try_sum tw 0 (w0 :: ws) = Some 0.
Proof.
  intros tw w0 ws H. cbn [try_sum]. rewrite Z.sub_0_r. destruct (Z.ltb_spec w0 (imax tw)); [reflexivity|lia].
Qed.

Lemma try_zeros : forall tw ws, 2 <= bits tw -> Forall (fun x => x = 0) ws ->
  try_sum tw (imax tw) ws = Some (imax tw).
Proof.
  intros tw ws Htw HF. induction HF as [|x ws -> HF IH]; [reflexivity|].
  cbn [try_sum]. rewrite Z.sub_diag, Z.add_0_r. change (0 <? 0) with false. cbn iota.
  rewrite norm_in; [exact IH|]. pose proof (imin_le tw Htw). unfold inT. lia.
Qed.

Lemma weight_zeros : forall w0 ws i, Forall (fun x => x = 0) ws -> 0 < i -> weight (w0 :: ws) i = 0.
Proof.
  intros w0 ws i HF Hi. unfold weight. replace (Z.to_nat i) with (S (Z.to_nat (i - 1))) by lia. cbn [nth].
  generalize (Z.to_nat (i - 1)). induction HF as [|x ws -> HF IH]; intros [|q]; try reflexivity. apply IH.
Qed.

Lemma parm_proportional : forall tb bmin bmax, eng_wf tb bmin bmax -> forall tw t w0 ws, weights_ok tw t (w0 :: ws) ->
  w0 < imax tw \/ Forall (fun x => x = 0) ws ->
  forall F, proportional bmin bmax (d_op_parm tw t F tb bmin bmax (w0 :: ws)) (w0 :: ws).
Proof.
  intros tb bmin bmax Hb tw t w0 ws Hok HC F.
  destruct (Z.lt_ge_cases w0 (imax tw)) as [L|L].
  - unfold d_op_parm. rewrite try_small by exact L. cbn [plift pbind]. change (0 =? 0) with true. cbn iota.
    destruct (made_prob tw t _ Hok) as (al & E1 & (h & HB) & _). rewrite E1. cbn [plift pbind].
    apply (op_proportional tb bmin bmax Hb tw t _ Hok h al HB).
  - destruct HC as [HC|HC]; [lia|]. pose proof Hok as (Htw & Ht & _ & _ & HF).
    pose proof (Forall_inv HF) as Hw0. cbn beta in Hw0. assert (w0 = imax tw) by lia. subst w0.
    pose proof (imin_le tw Htw).
    assert (ES: try_sum tw 0 (imax tw :: ws) = Some (imax tw)).
    { cbn [try_sum]. rewrite Z.sub_0_r. destruct (Z.ltb_spec (imax tw) (imax tw)); [lia|].
      rewrite Z.add_0_l, norm_in; [|unfold inT; lia]. cbn [bind]. apply try_zeros; assumption. }
    unfold d_op_parm. rewrite ES. cbn [plift pbind]. destruct (Z.eqb_spec (imax tw) 0); [lia|].
    assert (CZ: forall m i, i <> 0 -> Z.of_nat (count bmin bmax (v <~ uniform_int F tb bmin bmax tw 0 (imax tw - 1);;
      plift (cumul tw v 0 0 (imax tw :: ws))) m i) = 0).
    { intros m i Hi. rewrite count_E, E_bind.
      rewrite (ui0_Uniform tb bmin bmax Hb tw (imax tw - 1) Htw ltac:(lia) F m _ (fun _ _ => 0)); [apply E_zero|].
      intro q. apply ssum_ext. intros v Hv. cbn [cumul]. rewrite !Z.add_0_l, norm_in by (unfold inT; lia).
      cbn [bind]. destruct (Z.ltb_spec v (imax tw)); [|lia]. cbn [plift E].
      destruct (Nat.eqb q 0); [|reflexivity]. destruct (Z.eqb_spec 0 i); [lia|reflexivity]. }
    intros m i j Hi Hj. destruct (Z.eq_dec i j) as [->|NE]; [reflexivity|].
    destruct (Z.eq_dec i 0) as [->|Ni].
    + rewrite (CZ m j) by lia. rewrite (weight_zeros _ _ j) by (assumption || lia). lia.
    + rewrite (CZ m i) by lia. rewrite (weight_zeros _ _ i) by (assumption || lia). lia.
Qed.

Lemma zero_never : forall tb bmin bmax, eng_wf tb bmin bmax -> forall tw t ws, weights_ok tw t ws ->
  Forall (fun x => x = 0) ws ->
  exists al, d_make tw t ws = Some al /\ forall F n i, count bmin bmax (d_op tw t F tb bmin bmax al) n i = 0%nat.
Proof.
  intros tb bmin bmax Hb tw t ws Hok HZ. destruct (made_prob tw t ws Hok) as (al & E1 & (h & HB) & _).
  exists al. split; [exact E1|]. intros F n i. apply Nat2Z.inj. rewrite count_E.
  rewrite (op_E tb bmin bmax Hb tw t ws Hok h al HB F n _ (fun _ _ => 0)); [rewrite E_zero; reflexivity|].
  intro q. apply ssum_ext. intros k Hk.
  assert (weight ws k = 0) as ->; [|reflexivity].
  unfold weight. rewrite Forall_forall in HZ. apply HZ. apply nth_In. lia.
Qed.

Lemma init_snd_bound : forall tw t ws al al' (N : nat), weights_ok tw t ws -> d_init tw t al ws = Some al' ->
  (length ws <= N)%nat -> Forall (fun e => 0 <= snd e < Z.of_nat N) (al_tab al) ->
  Forall (fun e => 0 <= snd e < Z.of_nat N) (al_tab al').
Proof.
  intros tw t ws al al' N Hok HI HL HF. destruct (init_built tw t ws Hok) as (avg & exc & h & H).
  destruct (H al) as (c1 & E1 & B1 & A1 & X1 & T1). assert (c1 = al') by congruence. subst c1.
  pose proof B1 as (_ & HE & _ & L1 & _). apply Forall_forall. intros e He.
  apply (In_nth _ _ (0, 0)) in He. destruct He as (q & Hq & <-). rewrite L1 in Hq.
  specialize (T1 (Z.of_nat q) ltac:(lia)). unfold tabZ at 1 in T1. rewrite Nat2Z.id in T1. rewrite T1.
  destruct (HE (Z.of_nat q) ltac:(lia)) as (_ & H2). unfold apply_entry. cbn [snd].
  destruct (snd (h (Z.of_nat q))); [lia|]. rewrite resize_at by lia.
  destruct (Z.ltb_spec (Z.of_nat q) (Z.of_nat (length (al_tab al)))) as [L|L]; [|cbn [snd]; lia].
  unfold tabZ. rewrite Nat2Z.id. rewrite Forall_forall in HF. apply HF. apply nth_In. lia.
Qed.

Lemma reachable_snd : forall tw t (N : nat) al, (0 < N)%nat -> reachable tw t N al ->
  Forall (fun e => 0 <= snd e < Z.of_nat N) (al_tab al).
Proof.
  intros tw t N al HN HR. induction HR as [|al ws al' HR IH Hw HL HI].
  - constructor.
  - destruct Hw as [->|Hok].
    + inversion HI. constructor; [cbn [snd]; lia|constructor].
    + exact (init_snd_bound tw t ws al al' N Hok HI HL IH).
Qed.
