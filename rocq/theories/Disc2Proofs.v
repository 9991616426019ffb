(* The table construction: weights are conserved. *)
From Coq Require Import Permutation.
From Verif Require Import Base ProgModel ProgSpec ProgProofs UIntModel UIntSpec UIntProofs DiscModel DiscSpec DiscProofs.

Ltac Zify.zify_post_hook ::= idtac.

Section Vose.
Variables (tw : ity) (n avg exc : Z).
Hypothesis Htw : 2 <= bits tw.
Local Notation M := (imax tw).
Hypothesis Hn : 0 < n.
Hypothesis Hexc : 0 <= exc < n.
Hypothesis Havg : 0 <= avg.
Hypothesis HM : if 0 <? exc then avg + 1 <= M else avg <= M.

Definition gw (j : Z) : Z := if j <? exc then avg + 1 else avg.

Lemma gw_ok : forall j, 0 <= j -> get_weight tw avg exc j = Some (gw j).
Proof using Htw Havg HM.
  intros j Hj. unfold get_weight, gw. destruct (Z.ltb_spec j exc); [|reflexivity].
  destruct (Z.ltb_spec 0 exc); [|lia]. apply chk_ok; lia.
Qed.

Lemma gw_bounds : forall j, 0 <= j -> avg <= gw j <= gw 0 /\ gw 0 <= avg + 1 /\ gw 0 <= M.
Proof using HM.
  intros j Hj. unfold gw. destruct (Z.ltb_spec j exc), (Z.ltb_spec 0 exc); lia.
Qed.

(* what is known about entry j of the table: the first component and, unless
   it was left alone, the second *)
Definition entry := Z -> Z * option Z.
Definition apply_entry (h : Z * option Z) (old : Z * Z) : Z * Z :=
  (fst h, match snd h with Some s => s | None => snd old end).
Definition entry_ok (h : entry) (j : Z) : Prop :=
  0 <= fst (h j) <= gw j /\ match snd (h j) with Some s => 0 <= s < n | None => fst (h j) = gw j end.
Definition contrib (h : entry) (j i : Z) : Z :=
  (if j =? i then fst (h j) else 0) +
  match snd (h j) with Some s => if s =? i then gw j - fst (h j) else 0 | None => 0 end.

Definition inb (j : Z) (l : list Z) : bool := if in_dec Z.eq_dec j l then true else false.
Lemma inb_in : forall j l, In j l -> inb j l = true.
Proof. intros. unfold inb. destruct (in_dec Z.eq_dec j l); [reflexivity|contradiction]. Qed.
Lemma inb_out : forall j l, ~ In j l -> inb j l = false.
Proof. intros. unfold inb. destruct (in_dec Z.eq_dec j l); [contradiction|reflexivity]. Qed.

(* tab' is tab with the entries listed in idx replaced according to h *)
Definition updated (h : entry) (idx : list Z) (tab tab' : list (Z * Z)) : Prop :=
  length tab' = length tab /\
  forall j, 0 <= j -> tabZ tab' j = if inb j idx then apply_entry (h j) (tabZ tab j) else tabZ tab j.

Lemma fill_ok : forall l tab, Z.of_nat (length tab) = n -> Forall (fun e => 0 <= snd e < n) l ->
  exists tab', fill tw avg exc l tab = Some tab' /\
    updated (fun j => (gw j, None)) (map snd l) tab tab'.
Proof using Htw Havg HM.
  induction l as [|[v k] l IH]; intros tab HL HF.
  - exists tab. split; [reflexivity|]. split; [reflexivity|]. intros j Hj. reflexivity.
  - pose proof (Forall_inv HF) as Hk. cbn [snd] in Hk. pose proof (Forall_inv_tail HF) as HF'.
    cbn [fill snd]. unfold set_first. rewrite (at_ok _ (0, 0)) by lia. cbn [bind].
    rewrite gw_ok by lia. cbn [bind].
    destruct (put_ok_Z _ (0, 0) tab k (gw k, snd (nth (Z.to_nat k) tab (0, 0))) ltac:(lia)) as (t1 & E1 & E2 & E3).
    rewrite E1. cbn [bind]. destruct (IH t1 ltac:(lia) HF') as (t2 & F1 & F2 & F3).
    exists t2. split; [exact F1|]. split; [congruence|]. intros j Hj. rewrite F3 by lia.
    cbn [map snd]. unfold tabZ. rewrite E3 by lia.
    destruct (in_dec Z.eq_dec j (k :: map snd l)) as [I|I].
    + rewrite (inb_in _ _ I). destruct (Z.eqb_spec j k) as [->|NE].
      * destruct (inb k (map snd l)); unfold apply_entry; cbn [fst snd]; reflexivity.
      * rewrite inb_in; [reflexivity|]. destruct I as [->|I]; [contradiction|exact I].
    + rewrite (inb_out _ _ I). rewrite inb_out by (intro; apply I; right; assumption).
      destruct (Z.eqb_spec j k) as [->|NE]; [|reflexivity]. exfalso. apply I. left. reflexivity.
Qed.

Lemma fill_app : forall b a tab, 
  fill tw avg exc (b ++ a) tab = (t1 <- fill tw avg exc b tab;; fill tw avg exc a t1).
Proof using.
  induction b as [|x b IH]; intros a tab; [reflexivity|]. cbn [app fill].
  destruct (set_first tw avg exc tab (snd x)); [|reflexivity]. cbn [bind]. apply IH.
Qed.

Lemma vose_end : forall fuel na below above tab, below = [] \/ above = [] ->
  vose tw fuel na avg exc below above tab = fill tw avg exc (below ++ above) tab.
Proof using.
  intros fuel na below above tab H. rewrite fill_app.
  destruct fuel, below, above; try reflexivity; destruct H; discriminate.
Qed.

Definition sumfst (i : Z) (l : list (Z * Z)) : Z := lsum (fun e => if snd e =? i then fst e else 0) l.

Lemma vose_ok : forall fuel below above,
  (length below + length above <= fuel)%nat ->
  Forall (fun e => 0 <= snd e < n) (below ++ above) ->
  NoDup (map snd (below ++ above)) ->
  Forall (fun e => 0 <= fst e < gw 0) below -> Forall (fun e => gw 0 <= fst e <= M) above ->
  lsum fst (below ++ above) = lsum (fun e => gw (snd e)) (below ++ above) ->
  exists h, (forall j, In j (map snd (below ++ above)) -> entry_ok h j) /\
    (forall i, lsum (fun j => contrib h j i) (map snd (below ++ above)) = sumfst i (below ++ above)) /\
    forall tab, Z.of_nat (length tab) = n -> exists tab', vose tw fuel (gw 0) avg exc below above tab = Some tab' /\
      updated h (map snd (below ++ above)) tab tab'.
Proof using Htw Hn Hexc Havg HM.
  assert (FIN: forall fuel below above, below = [] \/ above = [] ->
    Forall (fun e => 0 <= snd e < n) (below ++ above) ->
    Forall (fun e => 0 <= fst e < gw 0) below -> Forall (fun e => gw 0 <= fst e <= M) above ->
    lsum fst (below ++ above) = lsum (fun e => gw (snd e)) (below ++ above) ->
    exists h, (forall j, In j (map snd (below ++ above)) -> entry_ok h j) /\
    (forall i, lsum (fun j => contrib h j i) (map snd (below ++ above)) = sumfst i (below ++ above)) /\
    forall tab, Z.of_nat (length tab) = n -> exists tab', vose tw fuel (gw 0) avg exc below above tab = Some tab' /\
      updated h (map snd (below ++ above)) tab tab').
  { intros fuel below above HE HR HB HA HS.
    assert (EQ: forall e, In e (below ++ above) -> fst e = gw (snd e)).
    { destruct HE as [->| ->].
      - cbn [app] in *. intros e He. symmetry. revert e He. apply lsum_le_eq; [|symmetry; exact HS].
        intros e He. rewrite Forall_forall in HA, HR. specialize (HA e He). specialize (HR e He). cbn beta in *.
        pose proof (gw_bounds (snd e) ltac:(lia)). lia.
      - rewrite app_nil_r in *. apply lsum_le_eq; [|exact HS].
        intros e He. rewrite Forall_forall in HB, HR. specialize (HB e He). specialize (HR e He). cbn beta in *.
        pose proof (gw_bounds (snd e) ltac:(lia)). lia. }
    exists (fun j => (gw j, None)). split; [|split].
    - intros j Hj. unfold entry_ok. cbn [fst snd]. apply in_map_iff in Hj. destruct Hj as (e & <- & He).
      rewrite Forall_forall in HR. specialize (HR e He). cbn beta in HR. pose proof (gw_bounds (snd e) ltac:(lia)). lia.
    - intro i. rewrite lsum_map. unfold sumfst. apply lsum_ext. intros e He. unfold contrib. cbn [fst snd].
      rewrite (EQ e He). lia.
    - intros tab HT. rewrite vose_end by exact HE. apply fill_ok; assumption. }
  induction fuel as [|f IH]; intros below above HL HR HD HB HA HS.
  { apply FIN; try assumption. left. destruct below; [reflexivity|simpl in HL; lia]. }
  destruct below as [|[vb kb] bs]; [apply FIN; auto|].
  destruct above as [|[va ka] rest]; [apply FIN; auto|].
  clear FIN.
  pose proof (Forall_inv HB) as Hvb. cbn [fst] in Hvb. pose proof (Forall_inv_tail HB) as HB'.
  pose proof (Forall_inv HA) as Hva. cbn [fst] in Hva. pose proof (Forall_inv_tail HA) as HA'.
  assert (Hkb: 0 <= kb < n) by (exact (Forall_inv HR)).
  assert (HR1: Forall (fun e => 0 <= snd e < n) bs).
  { apply Forall_inv_tail in HR. apply Forall_app in HR. apply HR. }
  assert (HR2: Forall (fun e => 0 <= snd e < n) ((va, ka) :: rest)).
  { apply Forall_inv_tail in HR. apply Forall_app in HR. apply HR. }
  assert (Hka: 0 <= ka < n) by (exact (Forall_inv HR2)). apply Forall_inv_tail in HR2.
  pose proof (gw_bounds kb ltac:(lia)) as Hgb.
  set (v := va - (gw kb - vb)).
  assert (Hv: 0 <= v <= va) by (unfold v; lia).
  (* the remaining elements *)
  set (bs' := if v <? gw 0 then (v, ka) :: bs else bs).
  set (as' := if v <? gw 0 then rest else (v, ka) :: rest).
  assert (PM: Permutation (bs' ++ as') ((v, ka) :: bs ++ rest)).
  { unfold bs', as'. destruct (v <? gw 0); [apply Permutation_refl|].
    apply Permutation_sym, Permutation_middle. }
  assert (PO: Permutation (((vb, kb) :: bs) ++ (va, ka) :: rest) ((vb, kb) :: (va, ka) :: bs ++ rest)).
  { cbn [app]. constructor. apply Permutation_sym, Permutation_middle. }
  assert (PMs: Permutation (map snd (bs' ++ as')) (ka :: map snd (bs ++ rest))).
  { apply (Permutation_map snd) in PM. exact PM. }
  assert (POs: Permutation (map snd (((vb, kb) :: bs) ++ (va, ka) :: rest)) (kb :: ka :: map snd (bs ++ rest))).
  { apply (Permutation_map snd) in PO. exact PO. }
  destruct (IH bs' as') as (h & H1 & H2 & H3).
  - unfold bs', as'. destruct (v <? gw 0); simpl in *; lia.
  - eapply Permutation_Forall; [apply Permutation_sym; exact PM|]. constructor; [cbn [snd]; lia|].
    apply Forall_app. split; assumption.
  - eapply Permutation_NoDup; [apply Permutation_sym; exact PMs|].
    apply (Permutation_NoDup POs) in HD. inversion HD; assumption.
  - unfold bs'. destruct (Z.ltb_spec v (gw 0)); [constructor; [cbn [fst]; lia|assumption]|assumption].
  - unfold as'. destruct (Z.ltb_spec v (gw 0)); [assumption|constructor; [cbn [fst]; lia|assumption]].
  - rewrite (lsum_perm _ _ _ _ PM), (lsum_perm _ (fun e => gw (snd e)) _ _ PM).
    rewrite (lsum_perm _ _ _ _ PO), (lsum_perm _ (fun e => gw (snd e)) _ _ PO) in HS.
    cbn [lsum fst snd] in *. unfold v. lia.
  - assert (HND: ~ In kb (map snd (bs' ++ as'))).
    { apply (Permutation_NoDup POs) in HD. inversion HD as [|? ? N1 N2]. intro X. apply N1.
      apply (Permutation_in _ PMs). exact X. }
    assert (HIN: forall j, In j (map snd (((vb, kb) :: bs) ++ (va, ka) :: rest)) <-> j = kb \/ In j (map snd (bs' ++ as'))).
    { intro j. split; intro X.
      - apply (Permutation_in _ POs) in X. destruct X as [<-|X]; [left; reflexivity|right].
        apply (Permutation_in _ (Permutation_sym PMs)). exact X.
      - apply (Permutation_in _ (Permutation_sym POs)). destruct X as [->|X]; [left; reflexivity|right].
        apply (Permutation_in _ PMs). exact X. }
    exists (fun j => if j =? kb then (vb, Some ka) else h j). split; [|split].
    + intros j Hj. apply HIN in Hj. unfold entry_ok. destruct (Z.eqb_spec j kb) as [->|NE].
      * cbn [fst snd]. lia.
      * destruct Hj as [Hj|Hj]; [contradiction|]. apply H1. exact Hj.
    + intro i. rewrite (lsum_perm _ _ _ _ POs). unfold sumfst. rewrite (lsum_perm _ _ _ _ PO).
      specialize (H2 i). rewrite (lsum_perm _ _ _ _ PMs) in H2. unfold sumfst in H2. rewrite (lsum_perm _ _ _ _ PM) in H2.
      cbn [lsum fst snd] in *.
      assert (EX: forall l, (forall j, In j l -> j <> kb) -> 
        lsum (fun j => contrib (fun j0 => if j0 =? kb then (vb, Some ka) else h j0) j i) l = lsum (fun j => contrib h j i) l).
      { intros l Hl. apply lsum_ext. intros j Hj. unfold contrib. destruct (Z.eqb_spec j kb) as [E|E]; [|reflexivity].
        exfalso. exact (Hl j Hj E). }
      assert (NK: forall j, In j (ka :: map snd (bs ++ rest)) -> j <> kb).
      { intros j Hj ->. apply HND. apply (Permutation_in _ (Permutation_sym PMs)). exact Hj. }
      pose proof (EX (ka :: map snd (bs ++ rest)) NK) as EX1. cbn [lsum] in EX1.
      unfold contrib at 1. rewrite Z.eqb_refl. cbn [fst snd].
      unfold v in H2. destruct (kb =? i), (ka =? i); lia.
    + intros tab HT. cbn [vose fst snd].
      destruct (put_ok_Z _ (0, 0) tab kb (vb, ka) ltac:(lia)) as (t1 & E1 & E2 & E3).
      rewrite E1. cbn [bind]. rewrite gw_ok by lia. cbn [bind].
      rewrite (chk_ok tw (gw kb - vb)) by lia. cbn [bind]. rewrite (chk_ok tw (va - (gw kb - vb))) by (unfold v in Hv; lia).
      cbn [bind]. fold v.
      destruct (H3 t1 ltac:(lia)) as (t2 & F1 & F2 & F3). exists t2.
      split; [unfold bs', as' in F1; destruct (v <? gw 0); exact F1|].
      split; [congruence|]. intros j Hj. rewrite F3 by exact Hj. unfold tabZ. rewrite E3 by exact Hj.
      destruct (Z.eqb_spec j kb) as [->|NE].
      * rewrite (inb_out _ _ HND). rewrite inb_in; [reflexivity|]. apply HIN. left. reflexivity.
      * destruct (in_dec Z.eq_dec j (map snd (bs' ++ as'))) as [I|I].
        -- rewrite (inb_in _ _ I), inb_in; [reflexivity|]. apply HIN. right. exact I.
        -- rewrite (inb_out _ _ I), inb_out; [reflexivity|]. intro X. apply HIN in X. destruct X; contradiction.
Qed.
End Vose.

(* ---- init as a whole ---- *)
Lemma lsum_fst_zsum : forall ws i, lsum fst (indexed i ws) = zsum ws.
Proof.
  induction ws as [|x ws IH]; intros i; [reflexivity|]. rewrite indexed_cons. cbn [lsum fst zsum fold_right].
  rewrite IH. reflexivity.
Qed.

Lemma ssum_gw : forall avg exc k, 0 <= exc <= Z.of_nat k -> ssum k (gw avg exc) = avg * Z.of_nat k + exc.
Proof.
  intros avg exc. assert (G: forall k, ssum k (gw avg exc) = avg * Z.of_nat k + Z.max 0 (Z.min exc (Z.of_nat k))).
  { induction k as [|k IH]; [simpl; lia|]. cbn [ssum]. rewrite IH. unfold gw.
    destruct (Z.ltb_spec (Z.of_nat k) exc); lia. }
  intros k H. rewrite G. lia.
Qed.

Lemma seq_of_nat : forall k, map (fun q => 0 + Z.of_nat q) (seq 0 k) = map Z.of_nat (seq 0 k).
Proof. intro k. apply map_ext. intro q. lia. Qed.

Lemma In_range : forall k j, In j (map Z.of_nat (seq 0 k)) <-> 0 <= j < Z.of_nat k.
Proof.
  intros k j. rewrite in_map_iff. split.
  - intros (q & <- & Hq). apply in_seq in Hq. lia.
  - intros H. exists (Z.to_nat j). split; [lia|]. apply in_seq. lia.
Qed.

Theorem init_ok : forall tw t ws, weights_ok tw t ws ->
  exists avg exc h, avg_ok tw ws avg exc /\
    (forall j, 0 <= j < Z.of_nat (length ws) -> entry_ok (Z.of_nat (length ws)) avg exc h j) /\
    (forall i, 0 <= i -> ssum (length ws) (fun j => contrib avg exc h j i) = weight ws i) /\
    forall al, exists tab', d_init tw t al ws = Some (Alias tab' avg exc) /\ length tab' = length ws /\
      forall j, 0 <= j < Z.of_nat (length ws) ->
        tabZ tab' j = apply_entry (h j) (tabZ (resize_tab (al_tab al) (length ws)) j).
Proof.
  intros tw t ws Hok. pose proof Hok as (Htw & Ht & Hne & HL & HF).
  destruct (ia_ok tw t Htw Ht ws Hok) as (avg & exc & EA & (A1 & A2 & A3 & A4)).
  set (n := Z.of_nat (length ws)) in *.
  assert (Hn: 0 < n) by (unfold n; destruct ws; [congruence|cbn [length]; lia]).
  destruct (split_ws (gw avg exc 0) 0 ws) as [b a] eqn:ES.
  destruct (split_perm _ _ _ _ _ ES) as (P1 & P2 & P3).
  assert (PS: Permutation (map snd (b ++ a)) (map Z.of_nat (seq 0 (length ws)))).
  { apply (Permutation_map snd) in P1. rewrite indexed_snd, seq_of_nat in P1. exact P1. }
  assert (PR: Forall (fun e : Z * Z => 0 <= fst e <= imax tw) (b ++ a)).
  { eapply Permutation_Forall; [apply Permutation_sym; exact P1|]. apply Forall_forall. intros e He.
    rewrite Forall_forall in HF. apply HF. rewrite <- (indexed_fst ws 0). apply in_map. exact He. }
  apply Forall_app in PR. destruct PR as [PRb PRa].
  destruct (vose_ok tw n avg exc Htw Hn A2 A3 A4 (length ws) b a) as (h & H1 & H2 & H3).
  - apply Permutation_length in PS. rewrite !map_length, app_length, seq_length in PS. lia.
  - apply Forall_forall. intros e He. apply (in_map snd) in He. apply (Permutation_in _ PS) in He.
    apply In_range in He. exact He.
  - eapply Permutation_NoDup; [apply Permutation_sym; exact PS|]. apply FinFun.Injective_map_NoDup; [|apply seq_NoDup].
    intros x y. apply Nat2Z.inj.
  - rewrite Forall_forall in *. intros e He. specialize (P2 e He). specialize (PRb e He). cbn beta in *. lia.
  - rewrite Forall_forall in *. intros e He. specialize (P3 e He). specialize (PRa e He). cbn beta in *. lia.
  - rewrite (lsum_perm _ _ _ _ P1), lsum_fst_zsum.
    rewrite <- (lsum_map _ _ (gw avg exc) snd), (lsum_perm _ _ _ _ PS), lsum_seq, ssum_gw; lia.
  - exists avg, exc, h. split; [exact (conj A1 (conj A2 (conj A3 A4)))|]. split; [|split].
    + intros j Hj. apply H1. apply (Permutation_in _ (Permutation_sym PS)). apply In_range. exact Hj.
    + intros i Hi. rewrite <- lsum_seq. rewrite <- (lsum_perm _ _ _ _ PS), H2. unfold sumfst.
      rewrite (lsum_perm _ _ _ _ P1). apply (indexed_weight ws 0 i Hi).
    + intro al. assert (RL: length (resize_tab (al_tab al) (length ws)) = length ws).
      { unfold resize_tab. rewrite app_length, firstn_length, repeat_length. lia. }
      destruct (H3 (resize_tab (al_tab al) (length ws)) ltac:(lia)) as (t' & E1 & E2 & E3).
      exists t'. split; [|split].
      * unfold d_init. destruct ws as [|w0 ws']; [congruence|]. rewrite EA. cbn [bind].
        unfold n. rewrite Nat2Z.id.
        rewrite (gw_ok tw avg exc Htw A3 A4 0 (Z.le_refl 0)). cbn [bind]. rewrite ES. rewrite E1. reflexivity.
      * lia.
      * intros j Hj. rewrite E3 by lia. rewrite inb_in; [reflexivity|].
        apply (Permutation_in _ (Permutation_sym PS)). apply In_range. exact Hj.
Qed.
