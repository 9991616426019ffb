(* Selection from the table, and probabilities(). *)
From Verif Require Import Base ProgModel ProgSpec ProgProofs UIntModel UIntSpec UIntProofs DiscModel DiscSpec
  DiscProofs Disc2Proofs.

Ltac Zify.zify_post_hook ::= idtac.

Lemma ssum_two : forall X Y a b, 0 <= a <= b -> forall k, b <= Z.of_nat k ->
  ssum k (fun v => if v <? b then (if v <? a then X else Y) else 0) = a * X + (b - a) * Y.
Proof.
  intros X Y a b Hab.
  assert (G: forall k, ssum k (fun v => if v <? b then (if v <? a then X else Y) else 0) =
    Z.min a (Z.of_nat k) * X + (Z.min b (Z.of_nat k) - Z.min a (Z.of_nat k)) * Y).
  { induction k as [|k IH]; [cbn [ssum]; rewrite !Z.min_r by lia; lia|]. cbn [ssum]. rewrite IH.
    destruct (Z.ltb_spec (Z.of_nat k) b) as [L|L].
    - destruct (Z.ltb_spec (Z.of_nat k) a) as [L'|L'].
      + rewrite (Z.min_r a (Z.of_nat k)), (Z.min_r b (Z.of_nat k)), (Z.min_r a (Z.of_nat (S k))), (Z.min_r b (Z.of_nat (S k))) by lia.
        replace (Z.of_nat (S k)) with (Z.of_nat k + 1) by lia. ring.
      + rewrite (Z.min_l a (Z.of_nat k)), (Z.min_r b (Z.of_nat k)), (Z.min_l a (Z.of_nat (S k))), (Z.min_r b (Z.of_nat (S k))) by lia.
        replace (Z.of_nat (S k)) with (Z.of_nat k + 1) by lia. ring.
    - rewrite (Z.min_l a (Z.of_nat k)), (Z.min_l b (Z.of_nat k)), (Z.min_l a (Z.of_nat (S k))), (Z.min_l b (Z.of_nat (S k))) by lia.
      ring. }
  intros k Hk. rewrite G. rewrite !Z.min_l by lia. reflexivity.
Qed.

Lemma ssum_pick : forall (f : Z -> Z) A k c, 0 <= c < Z.of_nat k ->
  ssum k (fun i => (if c =? i then A else 0) * f i) = A * f c.
Proof.
  intros f A. induction k as [|k IH]; intros c Hc; [lia|]. cbn [ssum].
  destruct (Z.eqb_spec c (Z.of_nat k)) as [->|NE].
  - rewrite (ssum_ext k _ (fun _ => 0)); [rewrite ssum_zero; lia|].
    intros i Hi. destruct (Z.eqb_spec (Z.of_nat k) i); lia.
  - rewrite IH by lia. lia.
Qed.

Lemma ssum_scale : forall k c g, ssum k (fun i => c * g i) = c * ssum k g.
Proof. induction k as [|k IH]; intros; cbn [ssum]; [lia|]. rewrite IH. lia. Qed.

Lemma ssum_nonneg : forall k g, (forall i, 0 <= i < Z.of_nat k -> 0 <= g i) -> 0 <= ssum k g.
Proof.
  induction k as [|k IH]; intros g H; cbn [ssum]; [lia|].
  pose proof (H (Z.of_nat k) ltac:(lia)). assert (0 <= ssum k g) by (apply IH; intros; apply H; lia). lia.
Qed.

(* a table that was built from ws *)
Definition built (tw : ity) (ws : list Z) (h : entry) (al : alias) : Prop :=
  avg_ok tw ws (al_avg al) (al_exc al) /\
  (forall j, 0 <= j < Z.of_nat (length ws) -> entry_ok (Z.of_nat (length ws)) (al_avg al) (al_exc al) h j) /\
  (forall i, 0 <= i -> ssum (length ws) (fun j => contrib (al_avg al) (al_exc al) h j i) = weight ws i) /\
  length (al_tab al) = length ws /\
  (forall j, 0 <= j < Z.of_nat (length ws) -> exists old, tabZ (al_tab al) j = apply_entry (h j) old).

Section Built.
Variables (tw t : ity) (ws : list Z) (h : entry) (al : alias).
Hypothesis Hok : weights_ok tw t ws.
Hypothesis HB : built tw ws h al.
Local Notation n := (Z.of_nat (length ws)).
Local Notation avg := (al_avg al).
Local Notation exc := (al_exc al).
Local Notation g := (gw avg exc).

Definition selh (c v : Z) : Z :=
  if v <? fst (h c) then c else match snd (h c) with Some s => s | None => 0 end.

Lemma n_pos : 0 < n.
Proof using Hok. destruct Hok as (_ & _ & H & _). rewrite <- length_zero_iff_nil in H. lia. Qed.

Lemma dmax_eq : d_max al = n - 1.
Proof using HB. destruct HB as (_ & _ & _ & H & _). unfold d_max. rewrite H. reflexivity. Qed.

Lemma accept_eq : forall c v, 0 <= v <= avg -> d_accept al c v = (v <? g c).
Proof using.
  intros c v Hv. unfold d_accept, gw. destruct (Z.ltb_spec c exc); cbn [orb]; [|reflexivity].
  destruct (Z.ltb_spec v (avg + 1)); lia.
Qed.

Lemma select_eq : forall c v, 0 <= c < n -> 0 <= v < g c -> d_select al c v = Some (selh c v).
Proof using HB.
  intros c v Hc Hv. destruct HB as (_ & HE & _ & HL & HT). unfold d_select.
  rewrite (at_ok _ (0, 0)) by lia. cbn [bind]. f_equal. unfold selh.
  destruct (HT c Hc) as (old & Ho). unfold tabZ in Ho. rewrite Ho. unfold apply_entry. cbn [fst snd].
  destruct (Z.ltb_spec v (fst (h c))); [reflexivity|].
  destruct (HE c Hc) as (_ & H2). destruct (snd (h c)); [reflexivity|]. lia.
Qed.

Lemma selh_range : forall c v, 0 <= c < n -> 0 <= v < g c -> 0 <= selh c v < n.
Proof using HB.
  intros c v Hc Hv. destruct HB as (_ & HE & _ & _ & _). destruct (HE c Hc) as (_ & H2). unfold selh.
  destruct (Z.ltb_spec v (fst (h c))); [exact Hc|]. destruct (snd (h c)); [exact H2|]. lia.
Qed.

Lemma contrib_nonneg : forall j i, 0 <= j < n -> 0 <= contrib avg exc h j i.
Proof using HB.
  intros j i Hj. destruct HB as (_ & HE & _). destruct (HE j Hj) as (H1 & H2). unfold contrib.
  destruct (j =? i), (snd (h j)) as [s|]; try (destruct (s =? i)); lia.
Qed.

(* columns and thresholds weigh as the weights do *)
Lemma sel_sum : forall f : Z -> Z,
  ssum (length ws) (fun c => ssum (Z.to_nat (avg + 1)) (fun v => if v <? g c then f (selh c v) else 0)) =
  ssum (length ws) (fun i => weight ws i * f i).
Proof using HB.
  intro f. pose proof HB as ((A1 & A2 & A3 & A4) & HE & HC & _ & _).
  assert (IN: forall c, 0 <= c < n ->
    ssum (Z.to_nat (avg + 1)) (fun v => if v <? g c then f (selh c v) else 0) =
    ssum (length ws) (fun i => contrib avg exc h c i * f i)).
  { intros c Hc. destruct (HE c Hc) as (H1 & H2).
    assert (Hg: g c <= avg + 1) by (unfold gw; destruct (c <? exc); lia).
    rewrite (ssum_ext _ _ (fun v => if v <? g c then (if v <? fst (h c) then f c else
       f (match snd (h c) with Some s => s | None => 0 end)) else 0)).
    2:{ intros v Hv. unfold selh. destruct (v <? g c); [|reflexivity]. destruct (v <? fst (h c)); reflexivity. }
    rewrite (ssum_two (f c) (f (match snd (h c) with Some s => s | None => 0 end)) (fst (h c)) (g c) H1) by lia.
    unfold contrib.
    rewrite (ssum_ext _ _ (fun i => (if c =? i then fst (h c) else 0) * f i +
      match snd (h c) with Some s => if s =? i then g c - fst (h c) else 0 | None => 0 end * f i)).
    2:{ intros i Hi. ring. }
    rewrite ssum_add, ssum_pick by exact Hc. f_equal. destruct (snd (h c)) as [s|].
    - rewrite ssum_pick by exact H2. reflexivity.
    - rewrite (ssum_ext _ _ (fun _ => 0)) by (intros; lia). rewrite ssum_zero. rewrite H2. lia. }
  rewrite (ssum_ext _ _ (fun c => ssum (length ws) (fun i => contrib avg exc h c i * f i))).
  2:{ intros c Hc. apply IN. exact Hc. }
  rewrite ssum_swap. apply ssum_ext. intros i Hi.
  rewrite <- (HC i) by lia. rewrite Z.mul_comm, <- ssum_scale. apply ssum_ext. intros j Hj. ring.
Qed.

(* only values of positive weight are selected *)
Lemma selh_pos : forall c v, 0 <= c < n -> 0 <= v < g c -> 0 < weight ws (selh c v).
Proof using Hok HB.
  intros c v Hc Hv. pose proof (selh_range c v Hc Hv) as Hr.
  pose proof HB as (_ & HE & HC & _ & _). destruct (HE c Hc) as (H1 & H2).
  rewrite <- (HC (selh c v)) by lia.
  assert (P: 0 < contrib avg exc h c (selh c v)).
  { unfold contrib, selh. destruct (Z.ltb_spec v (fst (h c))) as [L|L].
    - rewrite Z.eqb_refl. destruct (snd (h c)) as [s|]; [destruct (s =? c)|]; lia.
    - destruct (snd (h c)) as [s|]; [|lia]. rewrite Z.eqb_refl. destruct (c =? s); lia. }
  rewrite (ssum_split (S (Z.to_nat c))) by lia. cbn [ssum]. rewrite Z2Nat.id by lia.
  assert (0 <= ssum (Z.to_nat c) (fun j => contrib avg exc h j (selh c v))).
  { apply ssum_nonneg. intros i Hi. apply contrib_nonneg. lia. }
  assert (0 <= ssum (length ws - S (Z.to_nat c)) (fun i => contrib avg exc h (Z.of_nat (S (Z.to_nat c)) + i) (selh c v))).
  { apply ssum_nonneg. intros i Hi. apply contrib_nonneg. lia. }
  lia.
Qed.

(* ---- probabilities() ---- *)
Hypothesis Hsnd : forall j, 0 <= j < n -> 0 <= snd (tabZ (al_tab al) j) < n.

Definition resat (res : list Z) (i : nat) : Prop :=
  length res = length ws /\
  forall k, 0 <= k < n -> nth (Z.to_nat k) res 0 = ssum i (fun j => contrib avg exc h j k).

Lemma part_le : forall i k, (i <= length ws)%nat -> 0 <= k < n ->
  0 <= ssum i (fun j => contrib avg exc h j k) <= imax tw.
Proof using Hok HB.
  intros i k Hi Hk. split.
  - apply ssum_nonneg. intros j Hj. apply contrib_nonneg. lia.
  - pose proof HB as (_ & _ & HC & _ & _). pose proof Hok as (_ & _ & _ & _ & HF).
    assert (HW: 0 <= weight ws k <= imax tw).
    { unfold weight. rewrite Forall_forall in HF. apply HF. apply nth_In. lia. }
    rewrite <- (HC k) in HW by lia. rewrite (ssum_split i) in HW by exact Hi.
    assert (0 <= ssum (length ws - i) (fun j => contrib avg exc h (Z.of_nat i + j) k)).
    { apply ssum_nonneg. intros j Hj. apply contrib_nonneg. lia. }
    lia.
Qed.

Lemma prob_loop_ok : forall l i res, (i + length l = length ws)%nat ->
  (forall q, (q < length l)%nat -> nth q l (0, 0) = tabZ (al_tab al) (Z.of_nat (i + q))) ->
  resat res i ->
  exists res', prob_loop tw avg exc (Z.of_nat i) l res = Some res' /\ resat res' (length ws).
Proof using Hok HB Hsnd.
  pose proof HB as ((A1 & A2 & A3 & A4) & HE & HC & HL & HT). pose proof Hok as (Htw & Ht & _ & HLn & HF).
  induction l as [|e l IH]; intros i res Hi Hq HR.
  - exists res. split; [reflexivity|]. cbn [length] in Hi. replace (length ws) with i by lia. exact HR.
  - cbn [length] in Hi. cbn [prob_loop].
    assert (Hin: 0 <= Z.of_nat i < n) by lia.
    assert (He: e = tabZ (al_tab al) (Z.of_nat i)).
    { specialize (Hq 0%nat ltac:(cbn [length]; lia)). cbn [nth] in Hq. rewrite Nat.add_0_r in Hq. exact Hq. }
    destruct (HE _ Hin) as (E1 & E2). destruct (HT _ Hin) as (old & Ho).
    assert (Hfst: fst e = fst (h (Z.of_nat i))) by (rewrite He, Ho; reflexivity).
    assert (Hse: 0 <= snd e < n) by (rewrite He; apply Hsnd; exact Hin).
    assert (Hcon: forall k, contrib avg exc h (Z.of_nat i) k =
      (if Z.of_nat i =? k then fst e else 0) + (if snd e =? k then g (Z.of_nat i) - fst e else 0)).
    { intro k. unfold contrib. rewrite Hfst. f_equal. rewrite He, Ho. unfold apply_entry. cbn [fst snd].
      destruct (snd (h (Z.of_nat i))) as [s|]; [reflexivity|]. destruct (snd old =? k); lia. }
    destruct HR as [R1 R2].
    assert (Hcn: forall k, 0 <= k < n -> ssum (S i) (fun j => contrib avg exc h j k) =
      nth (Z.to_nat k) res 0 + contrib avg exc h (Z.of_nat i) k).
    { intros k Hk. cbn [ssum]. rewrite (R2 k Hk). reflexivity. }
    rewrite (at_ok _ 0 res) by lia. cbn [bind].
    assert (B1: 0 <= nth (Z.to_nat (Z.of_nat i)) res 0 + fst e <= imax tw).
    { pose proof (part_le (S i) (Z.of_nat i) ltac:(lia) Hin) as H. rewrite (Hcn _ Hin), Hcon, Z.eqb_refl in H.
      pose proof (part_le i (Z.of_nat i) ltac:(lia) Hin) as H'. rewrite <- (R2 _ Hin) in H'.
      destruct (snd e =? Z.of_nat i); lia. }
    rewrite (chk_ok tw (nth (Z.to_nat (Z.of_nat i)) res 0 + fst e) Htw B1). cbn [bind].
    destruct (put_ok_Z _ 0 res (Z.of_nat i) (nth (Z.to_nat (Z.of_nat i)) res 0 + fst e) ltac:(lia)) as (r1 & P1 & P2 & P3).
    rewrite P1. cbn [bind]. rewrite (gw_ok tw avg exc Htw A3 A4) by lia. cbn [bind].
    assert (B2: 0 <= g (Z.of_nat i) - fst e <= imax tw).
    { pose proof (gw_bounds tw avg exc A4 (Z.of_nat i) ltac:(lia)). lia. }
    rewrite (chk_ok tw (g (Z.of_nat i) - fst e) Htw B2). cbn [bind].
    rewrite (at_ok _ 0 r1) by lia. cbn [bind].
    assert (B3: 0 <= nth (Z.to_nat (snd e)) r1 0 + (g (Z.of_nat i) - fst e) <= imax tw).
    { pose proof (part_le (S i) (snd e) ltac:(lia) Hse) as H. rewrite (Hcn _ Hse), Hcon, Z.eqb_refl in H.
      rewrite (P3 (snd e)) by lia.
      pose proof (part_le i (snd e) ltac:(lia) Hse) as H'. rewrite <- (R2 _ Hse) in H'.
      rewrite (Z.eqb_sym (snd e)). revert H. destruct (Z.eqb_spec (Z.of_nat i) (snd e)) as [EE|NE]; intro H.
      - rewrite EE in *. lia.
      - lia. }
    rewrite (chk_ok tw _ Htw B3). cbn [bind].
    destruct (put_ok_Z _ 0 r1 (snd e) (nth (Z.to_nat (snd e)) r1 0 + (g (Z.of_nat i) - fst e)) ltac:(lia)) as (r2 & Q1 & Q2 & Q3).
    rewrite Q1. cbn [bind]. replace (Z.of_nat i + 1) with (Z.of_nat (S i)) by lia.
    apply IH; [lia| |].
    + intros q Hq'. specialize (Hq (S q) ltac:(cbn [length]; lia)). cbn [nth] in Hq. rewrite Hq. f_equal. lia.
    + split; [lia|]. intros k Hk. rewrite (Hcn k Hk), Hcon. rewrite (Q3 k), (P3 k), (P3 (snd e)) by lia.
      rewrite (Z.eqb_sym k (snd e)), (Z.eqb_sym k (Z.of_nat i)).
      destruct (Z.eqb_spec (snd e) k) as [->|N1].
      * rewrite (Z.eqb_sym k (Z.of_nat i)). destruct (Z.eqb_spec (Z.of_nat i) k) as [->|N2]; lia.
      * destruct (Z.eqb_spec (Z.of_nat i) k) as [<-|N2]; lia.
Qed.

Theorem prob_ok : d_probabilities tw al = Some ws.
Proof using Hok HB Hsnd.
  pose proof HB as (_ & _ & HC & HL & _). unfold d_probabilities.
  destruct (prob_loop_ok (al_tab al) 0 (repeat 0 (length (al_tab al)))) as (res & E1 & R1 & R2).
  - lia.
  - intros q Hq. unfold tabZ. rewrite Nat2Z.id. reflexivity.
  - split; [rewrite repeat_length; exact HL|]. intros k Hk. cbn [ssum]. apply nth_repeat.
  - change (Z.of_nat 0) with 0 in E1. rewrite E1. f_equal. apply nth_ext with (d := 0) (d' := 0); [exact R1|].
    intros q Hq. specialize (R2 (Z.of_nat q) ltac:(lia)). rewrite Nat2Z.id in R2. rewrite R2, HC by lia.
    unfold weight. rewrite Nat2Z.id. reflexivity.
Qed.
End Built.
