(* operator() of discrete_distribution. *)
From Verif Require Import Base ProgModel ProgSpec ProgProofs UIntModel UIntSpec UIntProofs UInt2Proofs UInt3Proofs UInt4Proofs
  DiscModel DiscSpec DiscProofs Disc2Proofs Disc3Proofs.

Ltac Zify.zify_post_hook ::= idtac.

(* ---- programs ---- *)
Lemma peq_E : forall A bmin bmax (p q : prog A) n f, peq bmin bmax p q -> E bmin bmax p n f = E bmin bmax q n f.
Proof.
  induction p as [a|k IH| |]; destruct q; simpl; try tauto; intros n f H.
  - subst. reflexivity.
  - destruct n as [|m]; [reflexivity|]. apply ssum_ext. intros i Hi. apply IH. apply H. lia.
Qed.

Lemma E_scale : forall A bmin bmax (p : prog A) n c f,
  E bmin bmax p n (fun a m => c * f a m) = c * E bmin bmax p n f.
Proof.
  induction p as [a|k IH| |]; simpl; intros n c f; try lia.
  destruct n as [|m]; [lia|]. rewrite <- ssum_scale. apply ssum_ext. intros i Hi. apply IH.
Qed.

Lemma exec_bind_eq : forall A B (p : prog A) (f : A -> prog B) ds,
  exec (pbind p f) ds = match exec p ds with ORet a r => exec (f a) r | OMore => OMore | OUB => OUB | OFuel => OFuel end.
Proof.
  induction p as [a|k IH| |]; simpl; intros f ds; try reflexivity.
  destruct ds as [|v r]; [reflexivity|apply IH].
Qed.

Lemma exec_suffix : forall A (p : prog A) ds a rest bmin bmax, exec p ds = ORet a rest -> valid_draws bmin bmax ds ->
  valid_draws bmin bmax rest /\ (length rest <= length ds)%nat.
Proof.
  intros A p ds a rest bmin bmax H Hd. destruct (exec_rest _ _ _ _ _ H) as (u & -> & _).
  apply Forall_app in Hd. split; [apply Hd|]. rewrite app_length. lia.
Qed.

Lemma exec_retry_ext : forall A bmin bmax (p q : prog (option A)) N,
  (forall ds, (length ds < N)%nat -> valid_draws bmin bmax ds -> exec p ds = exec q ds) ->
  forall F ds, (length ds < N)%nat -> valid_draws bmin bmax ds -> exec (retry F p) ds = exec (retry F q) ds.
Proof.
  intros A bmin bmax p q N H. induction F as [|F IH]; intros ds HL Hd; [reflexivity|].
  cbn [retry]. rewrite !exec_bind_eq. rewrite (H ds HL Hd). destruct (exec q ds) as [a r| | |] eqn:EQ; try reflexivity.
  destruct a as [a|]; [reflexivity|]. destruct (exec_suffix _ _ _ _ _ _ _ EQ Hd). apply IH; [lia|assumption].
Qed.

(* ---- uniform integers in [0,b] ---- *)
Section UI.
Variables (tb : ity) (bmin bmax : Z).
Hypothesis Hb : eng_wf tb bmin bmax.
Variables (t : ity) (b : Z).
Hypothesis Ht : 2 <= bits t.
Hypothesis Hbt : 0 <= b <= imax t.

Lemma ui0_wf : ui_wf t 0 b.
Proof using Ht Hbt. pose proof (imin_le t Ht). unfold ui_wf, inT. repeat split; lia. Qed.

Lemma ui0_good : ui_good bmin bmax t 0 b.
Proof using. left. reflexivity. Qed.

Lemma ui0_Uniform : forall F, Uniform bmin bmax (uniform_int F tb bmin bmax t 0 b) 0 (Z.to_nat (b + 1)).
Proof using Hb Ht Hbt.
  intros F. pose proof ui0_wf as Hui. pose proof (Hlt tb bmin bmax Hb) as HLT. unfold uniform_int.
  destruct (top_cases tb bmin bmax Hb 0 b) as [L|(k & K1 & K2 & K3)].
  - pose proof (small_peq tb bmin bmax Hb 1 F t 0 b Hui ltac:(lia)) as HE.
    intros n f g H. rewrite !(peq_E _ _ _ _ _ _ _ HE). 
    assert (HU: Uniform bmin bmax (pgen_small F bmin (bmax - bmin + 1) (b - 0) 0) 0 (Z.to_nat (b - 0 + 1))).
    { apply (small_uniform tb bmin bmax Hb). lia. }
    apply HU. replace (b - 0 + 1) with (b + 1) by lia. exact H.
  - pose proof (big_peq tb bmin bmax Hb F t 0 b k Hui ltac:(lia) K1 K3) as HE.
    intros n f g H. rewrite !(peq_E _ _ _ _ _ _ _ HE).
    pose proof (big_uniform t 0 b Hui tb bmin bmax Hb k ltac:(lia) K1 K3 (fun _ => or_introl eq_refl) F) as HU.
    apply HU. replace (b - 0 + 1) with (b + 1) by lia. exact H.
Qed.

Lemma ui0_run : forall F ds, (length ds < F)%nat -> valid_draws bmin bmax ds ->
  exec (uniform_int F tb bmin bmax t 0 b) ds = OMore \/
  exists v rest, exec (uniform_int F tb bmin bmax t 0 b) ds = ORet v rest /\ 0 <= v <= b /\
    (0 < b -> (length rest < length ds)%nat).
Proof using Hb Ht Hbt.
  intros F ds HF Hd. pose proof ui0_wf as Hui. pose proof (Hlt tb bmin bmax Hb) as HLT.
  destruct (least_exists tb bmin bmax Hb t 0 b Hui) as (kk & Hkk).
  destruct (ui_run tb bmin bmax Hb t 0 b Hui (fun v => 0 <= v <= b) F ds kk HF Hd) as [H|(v & rest & H1 & H2 & H3)]; try assumption.
  - intros HP r Hr. apply (good_range t 0 b Hui (or_introl eq_refl)). lia.
  - intros y Hy. lia.
  - left. exact H.
  - right. exists v, rest. split; [exact H1|]. split; [exact H2|]. intro HB0.
    destruct kk as [|kk]; [|lia]. destruct Hkk as [Q _]. change (Z.of_nat 0) with 0 in Q. rewrite Z.pow_0_r in Q. lia.
Qed.
End UI.

(* ---- weighted programs ---- *)
Section Op.
Variables (tb : ity) (bmin bmax : Z).
Hypothesis Hb : eng_wf tb bmin bmax.
Variables (tw t : ity) (ws : list Z).
Hypothesis Hok : weights_ok tw t ws.
Local Notation n := (Z.of_nat (length ws)).

Definition attempt (F : nat) (al : alias) : prog (option Z) :=
  c <~ uniform_int F tb bmin bmax t 0 (d_max al);;
  v <~ uniform_int F tb bmin bmax tw 0 (al_avg al);;
  if d_accept al c v then r <~ plift (d_select al c v);; PRet (Some r) else PRet None.

Lemma avg_range : forall h al, built tw ws h al -> 0 <= al_avg al <= imax tw.
Proof using.
  intros h al ((A1 & A2 & A3 & A4) & _). destruct (Z.ltb_spec 0 (al_exc al)); lia.
Qed.

Lemma dmax_range : forall h al, built tw ws h al -> 0 <= d_max al <= imax t /\ d_max al = n - 1.
Proof using Hok.
  intros h al HB. rewrite (dmax_eq tw ws h al HB). pose proof (n_pos tw t ws Hok).
  destruct Hok as (_ & _ & _ & HL & _). lia.
Qed.

Section One.
Variables (h : entry) (al : alias).
Hypothesis HB : built tw ws h al.

Lemma attempt_run : forall F ds, (length ds < F)%nat -> valid_draws bmin bmax ds ->
  exec (attempt F al) ds = OMore \/
  exists c v rest, exec (attempt F al) ds =
      ORet (if v <? gw (al_avg al) (al_exc al) c then Some (selh h c v) else None) rest /\
    0 <= c < n /\ 0 <= v <= al_avg al /\ (length rest <= length ds)%nat /\
    (0 < zsum ws -> (length rest < length ds)%nat).
Proof using Hb Hok HB.
  intros F ds HF Hd. pose proof Hok as (Htw & Ht & _ & _ & _).
  destruct (dmax_range h al HB) as [D1 D2]. pose proof (avg_range h al HB) as A1.
  unfold attempt. rewrite exec_bind_eq.
  destruct (ui0_run tb bmin bmax Hb t (d_max al) Ht D1 F ds HF Hd) as [X|(c & r1 & X & C1 & C2)]; rewrite X; [left; reflexivity|].
  destruct (exec_suffix _ _ _ _ _ bmin bmax X Hd) as [V1 L1].
  rewrite exec_bind_eq.
  destruct (ui0_run tb bmin bmax Hb tw (al_avg al) Htw A1 F r1 ltac:(lia) V1) as [Y|(v & r2 & Y & C3 & C4)]; rewrite Y; [left; reflexivity|].
  destruct (exec_suffix _ _ _ _ _ bmin bmax Y V1) as [V2 L2].
  right. exists c, v, r2. split; [|split; [lia|split; [exact C3|split; [lia|]]]].
  - rewrite accept_eq by exact C3. destruct (Z.ltb_spec v (gw (al_avg al) (al_exc al) c)) as [L|L]; [|reflexivity].
    rewrite (select_eq tw ws h al HB c v) by lia. reflexivity.
  - intro HS. destruct HB as ((B1 & B2 & B3 & B4) & _).
    destruct (Z.eq_dec (al_avg al) 0) as [Z0|NZ]; [|lia].
    assert (0 < d_max al) by nia. lia.
Qed.

Lemma op_run : 0 < zsum ws -> forall F ds, (length ds < F)%nat -> valid_draws bmin bmax ds ->
  exec (d_op tw t F tb bmin bmax al) ds = OMore \/
  exists i rest, exec (d_op tw t F tb bmin bmax al) ds = ORet i rest /\ 0 <= i < n /\ 0 < weight ws i.
Proof using Hb Hok HB.
  intros HS F0 ds HF Hd. unfold d_op. fold (attempt F0 al).
  assert (G: forall N F ds, (N <= F0)%nat -> (length ds < N)%nat -> (length ds < F)%nat -> valid_draws bmin bmax ds ->
    exec (retry F (attempt F0 al)) ds = OMore \/
    exists i rest, exec (retry F (attempt F0 al)) ds = ORet i rest /\ 0 <= i < n /\ 0 < weight ws i).
  { induction N as [|N IH]; intros F ds' HN HLN HLF Hd'; [lia|].
    destruct F as [|F]; [lia|]. cbn [retry]. rewrite exec_bind_eq.
    destruct (attempt_run F0 ds' ltac:(lia) Hd') as [X|(c & v & rest & X & C1 & C2 & C3 & C4)]; [left; rewrite X; reflexivity|].
    destruct (exec_suffix _ _ _ _ _ bmin bmax X Hd') as [V1 L1]. rewrite X. specialize (C4 HS).
    destruct (Z.ltb_spec v (gw (al_avg al) (al_exc al) c)) as [L|L].
    - right. exists (selh h c v), rest. split; [reflexivity|]. split.
      + apply (selh_range tw ws h al HB); lia.
      + apply (selh_pos tw t ws h al Hok HB); lia.
    - apply IH; try lia. exact V1. }
  apply (G (S (length ds))); try lia. exact Hd.
Qed.

(* the weighted count of one attempt depends on f only through sum(weight i * f i) *)
Lemma attempt_E : forall F m f g,
  (forall q, ssum (length ws) (fun i => weight ws i * f (Some i) q) = ssum (length ws) (fun i => weight ws i * g (Some i) q)) ->
  (forall q, f None q = g None q) ->
  E bmin bmax (attempt F al) m f = E bmin bmax (attempt F al) m g.
Proof using Hb Hok HB.
  intros F m f g Hs Hnone. pose proof Hok as (Htw & Ht & _ & _ & _).
  destruct (dmax_range h al HB) as [D1 D2]. pose proof (avg_range h al HB) as A1.
  unfold attempt. rewrite !E_bind.
  apply (ui0_Uniform tb bmin bmax Hb t (d_max al) Ht D1). intro m1.
  replace (Z.to_nat (d_max al + 1)) with (length ws) by lia.
  set (T := fun (k : option Z -> nat -> Z) c v q => if v <? gw (al_avg al) (al_exc al) c then k (Some (selh h c v)) q else k None q).
  set (R := fun (k : option Z -> nat -> Z) c v q => E bmin bmax
     (if d_accept al c v then r <~ plift (d_select al c v);; PRet (Some r) else PRet None) q k).
  assert (RT: forall k c v q, 0 <= c < n -> 0 <= v <= al_avg al -> R k c v q = T k c v q).
  { intros k c v q Hc Hv. unfold R, T. rewrite accept_eq by exact Hv.
    destruct (Z.ltb_spec v (gw (al_avg al) (al_exc al) c)) as [L|L]; [|reflexivity].
    rewrite (select_eq tw ws h al HB c v) by lia. reflexivity. }
  transitivity (E bmin bmax (uniform_int F tb bmin bmax tw 0 (al_avg al)) m1
                 (fun v q => ssum (length ws) (fun c => R f c v q))).
  { rewrite (E_ssum _ bmin bmax _ m1 (length ws) (fun c v q => R f c v q)). apply ssum_ext. intros c Hc.
    rewrite Z.add_0_l. rewrite E_bind. reflexivity. }
  transitivity (E bmin bmax (uniform_int F tb bmin bmax tw 0 (al_avg al)) m1
                 (fun v q => ssum (length ws) (fun c => R g c v q))).
  2:{ rewrite (E_ssum _ bmin bmax _ m1 (length ws) (fun c v q => R g c v q)). symmetry. apply ssum_ext. intros c Hc.
    rewrite Z.add_0_l. rewrite E_bind. reflexivity. }
  apply (ui0_Uniform tb bmin bmax Hb tw (al_avg al) Htw A1). intro q.
  assert (G: forall k : option Z -> nat -> Z,
    ssum (Z.to_nat (al_avg al + 1)) (fun w => ssum (length ws) (fun c => R k c (0 + w) q)) =
    ssum (length ws) (fun i => weight ws i * k (Some i) q) +
    ssum (length ws) (fun c => ssum (Z.to_nat (al_avg al + 1)) (fun w => if w <? gw (al_avg al) (al_exc al) c then 0 else 1) * k None q)).
  { intro k. rewrite ssum_swap.
    rewrite <- (sel_sum tw ws h al HB (fun i => k (Some i) q)). rewrite <- ssum_add. apply ssum_ext. intros c Hc.
    rewrite (Z.mul_comm _ (k None q)), <- ssum_scale, <- ssum_add. apply ssum_ext. intros v Hv.
    rewrite Z.add_0_l. rewrite RT by lia. unfold T. destruct (v <? gw (al_avg al) (al_exc al) c); lia. }
  rewrite !G, Hs, Hnone. reflexivity.
Qed.

Lemma op_E : forall F m f g,
  (forall q, ssum (length ws) (fun i => weight ws i * f i q) = ssum (length ws) (fun i => weight ws i * g i q)) ->
  E bmin bmax (d_op tw t F tb bmin bmax al) m f = E bmin bmax (d_op tw t F tb bmin bmax al) m g.
Proof using Hb Hok HB.
  intros F0 m f g Hs. unfold d_op. fold (attempt F0 al).
  assert (G: forall F m, E bmin bmax (retry F (attempt F0 al)) m f = E bmin bmax (retry F (attempt F0 al)) m g).
  { induction F as [|F IH]; intros m'; [reflexivity|]. cbn [retry]. rewrite !E_bind.
    apply attempt_E.
    - intro q. cbn [E]. apply Hs.
    - intro q. apply IH. }
  apply G.
Qed.

Theorem op_proportional : forall F, proportional bmin bmax (d_op tw t F tb bmin bmax al) ws.
Proof using Hb Hok HB.
  intros F m i j Hi Hj. rewrite !count_E. 
  rewrite Z.mul_comm, <- E_scale. rewrite (Z.mul_comm _ (weight ws i)), <- E_scale.
  apply op_E. intro q. destruct (Nat.eqb q 0).
  - rewrite (ssum_ext _ _ (fun a => (if i =? a then weight ws i * weight ws j else 0) * 1)).
    2:{ intros a Ha. rewrite (Z.eqb_sym a i). destruct (Z.eqb_spec i a) as [->|]; ring. }
    rewrite (ssum_ext _ (fun i0 => weight ws i0 * (weight ws i * _)) (fun a => (if j =? a then weight ws i * weight ws j else 0) * 1)).
    2:{ intros a Ha. rewrite (Z.eqb_sym a j). destruct (Z.eqb_spec j a) as [->|]; ring. }
    rewrite !(ssum_pick (fun _ => 1)) by assumption. reflexivity.
  - apply ssum_ext. intros. ring.
Qed.

(* accepted pairs *)
Lemma selected_count : forall i, 0 <= i < n -> Z.of_nat (length (selected al i)) = weight ws i.
Proof using Hok HB.
  intros i Hi. unfold selected. destruct (dmax_range h al HB) as [D1 D2]. pose proof (avg_range h al HB) as A1.
  set (P := fun p : Z * Z => _).
  assert (L1: forall (g : Z -> Z -> bool) k c, Z.of_nat (length (filter (fun p => g (fst p) (snd p)) (map (fun v => (c, v)) (map (fun q => 0 + Z.of_nat q) (seq 0 k))))) =
    ssum k (fun v => if g c v then 1 else 0)).
  { intros g k c. induction k as [|k IH]; [reflexivity|].
    rewrite seq_S, !map_app, filter_app, app_length, Nat2Z.inj_add, IH. cbn [ssum map filter Nat.add fst snd].
    rewrite Z.add_0_l. f_equal. destruct (g c (Z.of_nat k)); reflexivity. }
  assert (L2: forall (g : Z -> Z -> bool) k m, Z.of_nat (length (filter (fun p => g (fst p) (snd p)) (list_prod (map (fun q => 0 + Z.of_nat q) (seq 0 m)) (map (fun q => 0 + Z.of_nat q) (seq 0 k))))) =
    ssum m (fun c => ssum k (fun v => if g c v then 1 else 0))).
  { intros g k m. induction m as [|m IH]; [reflexivity|].
    assert (LP: forall (a b c : list Z), list_prod (a ++ b) c = list_prod a c ++ list_prod b c).
    { intros a b c. induction a as [|x a IHa]; [reflexivity|]. cbn [app list_prod]. rewrite IHa, app_assoc. reflexivity. }
    rewrite seq_S, map_app, LP, filter_app, app_length, Nat2Z.inj_add, IH. cbn [ssum map list_prod Nat.add].
    rewrite app_nil_r, L1, Z.add_0_l. reflexivity. }
  unfold zrange. unfold P.
  rewrite (L2 (fun c v => d_accept al c v && match d_select al c v with Some r => r =? i | None => false end)).
  rewrite D2, !Z.sub_0_r. replace (Z.to_nat (n - 1 + 1)) with (length ws) by lia.
  transitivity (ssum (length ws) (fun k => weight ws k * (if i =? k then 1 else 0))).
  - rewrite <- (sel_sum tw ws h al HB (fun k => if i =? k then 1 else 0)).
    apply ssum_ext. intros c Hc. apply ssum_ext. intros v Hv.
    rewrite accept_eq by lia. destruct (Z.ltb_spec v (gw (al_avg al) (al_exc al) c)) as [L|L]; [|reflexivity].
    rewrite (select_eq tw ws h al HB c v) by lia. cbn [andb]. rewrite Z.eqb_sym. reflexivity.
  - rewrite (ssum_ext _ _ (fun k => (if i =? k then 1 else 0) * weight ws k)).
    2:{ intros k Hk. ring. }
    rewrite ssum_pick by exact Hi. lia.
Qed.
End One.

(* two tables with the same columns *)
Lemma op_same : forall h a1 a2, built tw ws h a1 -> built tw ws h a2 ->
  al_avg a1 = al_avg a2 -> al_exc a1 = al_exc a2 ->
  forall F ds, (length ds < F)%nat -> valid_draws bmin bmax ds ->
  exec (d_op tw t F tb bmin bmax a1) ds = exec (d_op tw t F tb bmin bmax a2) ds.
Proof using Hb Hok.
  intros h a1 a2 B1 B2 EA EX F ds HF Hd. unfold d_op. fold (attempt F a1). fold (attempt F a2).
  apply exec_retry_ext with (bmin := bmin) (bmax := bmax) (N := F); try assumption.
  clear ds HF Hd. intros ds HF Hd. pose proof Hok as (Htw & Ht & _ & _ & _).
  destruct (dmax_range h a1 B1) as [D1 D1']. destruct (dmax_range h a2 B2) as [D2 D2'].
  pose proof (avg_range h a1 B1) as A1. unfold attempt. rewrite D2', <- D1'. rewrite <- EA. rewrite !exec_bind_eq.
  destruct (ui0_run tb bmin bmax Hb t (d_max a1) Ht D1 F ds HF Hd) as [X|(c & r1 & X & C1 & C2)]; rewrite X; [reflexivity|].
  destruct (exec_suffix _ _ _ _ _ bmin bmax X Hd) as [V1 L1]. rewrite !exec_bind_eq.
  destruct (ui0_run tb bmin bmax Hb tw (al_avg a1) Htw A1 F r1 ltac:(lia) V1) as [Y|(v & r2 & Y & C3 & C4)]; rewrite Y; [reflexivity|].
  rewrite !accept_eq by lia. rewrite <- EA, <- EX.
  destruct (Z.ltb_spec v (gw (al_avg a1) (al_exc a1) c)) as [L|L]; [|reflexivity].
  rewrite (select_eq tw ws h a1 B1 c v) by lia. rewrite (select_eq tw ws h a2 B2 c v) by (rewrite <- ?EA, <- ?EX; lia).
  reflexivity.
Qed.
End Op.
