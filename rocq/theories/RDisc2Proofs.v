(* The table construction with real weights: how far the weights are conserved. *)
From Coq Require Import Permutation Lqa.
From Verif Require Import Base ProgModel ProgSpec ProgProofs UIntModel UIntSpec UIntProofs FloatModel FloatSpec FloatProofs RealModel DiscModel DiscSpec DiscProofs Disc2Proofs RDiscModel RDiscProofs.
Ltac Zify.zify_post_hook ::= idtac.
Open Scope Q_scope.

Definition tabQ (l : rtab) (j : Z) : Q * Z := nth (Z.to_nat j) l (0, 0%Z).
Definition rentry := Z -> Q * option Z.
Definition r_apply (h : Q * option Z) (old : Q * Z) : Q * Z :=
  (fst h, match snd h with Some s => s | None => snd old end).
Definition rcontrib (h : rentry) (j i : Z) : Q :=
  (if (j =? i)%Z then fst (h j) else 0) +
  match snd (h j) with Some s => if (s =? i)%Z then 1 - fst (h j) else 0 | None => 0 end.
Definition r_updated (h : rentry) (idx : list Z) (tab tab' : rtab) : Prop :=
  length tab' = length tab /\
  forall j, (0 <= j)%Z -> tabQ tab' j = if inb j idx then r_apply (h j) (tabQ tab j) else tabQ tab j.
Definition rsumfst (i : Z) (l : list (Q * Z)) : Q := qsum (fun e => if (snd e =? i)%Z then fst e else 0) l.
Definition zof {A} (l : list A) : Q := inject_Z (Z.of_nat (length l)).

Lemma zof_cons : forall A (x : A) l, zof (x :: l) == 1 + zof l.
Proof. intros. unfold zof. cbn [length]. rewrite Nat2Z.inj_succ. unfold Z.succ. rewrite inject_Z_plus. change (inject_Z 1) with 1. ring. Qed.
Lemma zof_nonneg : forall A (l : list A), 0 <= zof l.
Proof. intros. unfold zof. change 0 with (inject_Z 0). apply injZ_le. lia. Qed.
Lemma zof_perm : forall A (l m : list A), Permutation l m -> zof l == zof m.
Proof. intros A l m H. unfold zof. rewrite (Permutation_length H). reflexivity. Qed.

Section RVose.
Variables (f : fmt) (md : rmode) (n : Z).
Hypothesis Hf : fmt_ok f.
Local Notation rnd := (fround f md).
Local Notation e := (p2 (1 - prec f)).
Hypothesis Hn : (0 < n)%Z.
Variable B : Q. (* a bound for the elements above the average *)

Definition rentry_ok (h : rentry) (j : Z) : Prop :=
  representable f (fst (h j)) /\ 0 <= fst (h j) /\ fst (h j) <= 1 /\ match snd (h j) with Some s => (0 <= s < n)%Z | None => fst (h j) = 1 end.

Lemma r_fill_ok : forall l tab, Z.of_nat (length tab) = n -> Forall (fun x => (0 <= snd x < n)%Z) l ->
  exists tab', r_fill l tab = Some tab' /\ r_updated (fun j => (1, None)) (map snd l) tab tab'.
Proof using.
  induction l as [|[v k] l IH]; intros tab HL HF.
  - exists tab. split; [reflexivity|]. split; [reflexivity|]. intros j Hj. reflexivity.
  - pose proof (Forall_inv HF) as Hk. cbn [snd] in Hk. pose proof (Forall_inv_tail HF) as HF'.
    cbn [r_fill snd]. unfold r_set. rewrite (at_ok _ (0, 0%Z)) by lia. cbn [bind].
    destruct (put_ok_Z _ (0, 0%Z) tab k (1, snd (nth (Z.to_nat k) tab (0, 0%Z))) ltac:(lia)) as (t1 & E1 & E2 & E3).
    rewrite E1. cbn [bind]. destruct (IH t1 ltac:(lia) HF') as (t2 & F1 & F2 & F3).
    exists t2. split; [exact F1|]. split; [congruence|]. intros j Hj. rewrite F3 by lia.
    cbn [map snd]. unfold tabQ. rewrite E3 by lia.
    destruct (in_dec Z.eq_dec j (k :: map snd l)) as [I|I].
    + rewrite (inb_in _ _ I). destruct (Z.eqb_spec j k) as [->|NE].
      * destruct (inb k (map snd l)); unfold r_apply; cbn [fst snd]; reflexivity.
      * rewrite inb_in; [reflexivity|]. destruct I as [->|I]; [contradiction|exact I].
    + rewrite (inb_out _ _ I). rewrite inb_out by (intro; apply I; right; assumption).
      destruct (Z.eqb_spec j k) as [->|NE]; [|reflexivity]. exfalso. apply I. left. reflexivity.
Qed.

Lemma r_fill_app : forall b a tab, r_fill (b ++ a) tab = (t1 <- r_fill b tab;; r_fill a t1).
Proof using.
  induction b as [|x b IH]; intros a tab; [reflexivity|]. cbn [app r_fill].
  destruct (r_set tab (snd x)); [|reflexivity]. cbn [bind]. apply IH.
Qed.

Lemma r_vose_end : forall fuel below above tab, below = [] \/ above = [] ->
  r_vose f md fuel below above tab = r_fill (below ++ above) tab.
Proof using.
  intros fuel below above tab H. rewrite r_fill_app.
  destruct fuel, below, above; try reflexivity; destruct H; discriminate.
Qed.

(* one step: the error of a - (1 - b) *)
Definition E1 : Q := (B + 2) * e.
Lemma step_err : forall va vb, representable f va -> 0 <= vb -> vb < 1 -> 1 <= va -> va <= B ->
  let v := rnd (va - rnd (1 - vb)) in
  representable f v /\ 0 <= v /\ v <= va /\ Qabs (v - (va - (1 - vb))) <= E1.
Proof using Hf.
  intros va vb Ra H0 H1 H2 H3 v. destruct (e_pos f Hf) as [E0 EL].
  assert (D1: 0 <= rnd (1 - vb)) by (apply rnd_nonneg; lra).
  assert (D2: rnd (1 - vb) <= 1) by (apply repr_rnd_le; [exact Hf|apply repr_1; exact Hf|lra]).
  destruct (rnd_abs f md Hf (1 - vb) ltac:(lra)) as [A1 A2].
  destruct (rnd_abs f md Hf (va - rnd (1 - vb)) ltac:(lra)) as [A3 A4]. fold v in A3, A4.
  split; [apply rnd_repr; exact Hf|]. split; [apply rnd_nonneg; lra|].
  split; [apply repr_rnd_le; [exact Hf|exact Ra|lra]|].
  set (d := rnd (1 - vb)) in *. set (eps := e) in *.
  assert (P1: (1 - vb) * eps <= 1 * eps) by (apply Qmult_le_compat_r; lra).
  assert (P2: (va - d) * eps <= B * eps) by (apply Qmult_le_compat_r; lra).
  assert (HH: eps / 2 + eps / 2 == eps) by field.
  unfold E1. fold eps. apply abs_le; lra.
Qed.

Lemma E1_nonneg : 0 <= B -> 0 <= E1.
Proof using. intro H. unfold E1. pose proof (p2_pos (1 - prec f)). apply Qmult_le_0_compat; lra. Qed.

Lemma r_vose_ok : 0 <= B -> forall fuel below above D,
  (length below + length above <= fuel)%nat ->
  Forall (fun x => (0 <= snd x < n)%Z) (below ++ above) ->
  NoDup (map snd (below ++ above)) ->
  Forall (fun x => representable f (fst x) /\ 0 <= fst x < 1) below ->
  Forall (fun x => representable f (fst x) /\ 1 <= fst x <= B) above ->
  Qabs (qsum fst (below ++ above) - zof (below ++ above)) <= D ->
  exists h, (forall j, In j (map snd (below ++ above)) -> rentry_ok h j) /\
    (forall i, Qabs (qsum (fun j => rcontrib h j i) (map snd (below ++ above)) - rsumfst i (below ++ above)) <=
      D + 2 * inject_Z (Z.of_nat fuel) * E1) /\
    (forall i, D + inject_Z (Z.of_nat fuel) * E1 < 1 -> rsumfst i (below ++ above) == 0 ->
      qsum (fun j => rcontrib h j i) (map snd (below ++ above)) == 0) /\
    forall tab, Z.of_nat (length tab) = n -> exists tab', r_vose f md fuel below above tab = Some tab' /\
      r_updated h (map snd (below ++ above)) tab tab'.
Proof using Hf Hn.
  intro HB0. pose proof (E1_nonneg HB0) as HE.
  assert (FIN: forall fuel below above D, below = [] \/ above = [] ->
    Forall (fun x => (0 <= snd x < n)%Z) (below ++ above) ->
    NoDup (map snd (below ++ above)) ->
    Forall (fun x => representable f (fst x) /\ 0 <= fst x < 1) below ->
    Forall (fun x => representable f (fst x) /\ 1 <= fst x <= B) above ->
    Qabs (qsum fst (below ++ above) - zof (below ++ above)) <= D ->
    exists h, (forall j, In j (map snd (below ++ above)) -> rentry_ok h j) /\
    (forall i, Qabs (qsum (fun j => rcontrib h j i) (map snd (below ++ above)) - rsumfst i (below ++ above)) <=
      D + 2 * inject_Z (Z.of_nat fuel) * E1) /\
    (forall i, D + inject_Z (Z.of_nat fuel) * E1 < 1 -> rsumfst i (below ++ above) == 0 ->
      qsum (fun j => rcontrib h j i) (map snd (below ++ above)) == 0) /\
    forall tab, Z.of_nat (length tab) = n -> exists tab', r_vose f md fuel below above tab = Some tab' /\
      r_updated h (map snd (below ++ above)) tab tab').
  { intros fuel below above D HEnd HR HD HB HA HS.
    assert (F0: 0 <= inject_Z (Z.of_nat fuel)) by (change 0 with (inject_Z 0); apply injZ_le; lia).
    assert (FE: 0 <= inject_Z (Z.of_nat fuel) * E1) by (apply Qmult_le_0_compat; assumption).
    (* all leftovers deviate from 1 to the same side *)
    assert (SG: (forall x, In x (below ++ above) -> 0 <= fst x - 1) \/ (forall x, In x (below ++ above) -> 0 <= 1 - fst x)).
    { destruct HEnd as [->| ->]; [left|right].
      - cbn [app]. intros x Hx. rewrite Forall_forall in HA. destruct (HA x Hx) as [_ ?]. lra.
      - rewrite app_nil_r. intros x Hx. rewrite Forall_forall in HB. destruct (HB x Hx) as [_ ?]. lra. }
    assert (T: qsum (fun x => fst x - 1) (below ++ above) == qsum fst (below ++ above) - zof (below ++ above)).
    { clear. induction (below ++ above) as [|x l IH]; [reflexivity|]. cbn [qsum]. rewrite IH, zof_cons. ring. }
    assert (DEV: forall g : Q * Z -> bool, Qabs (qsum (fun x => if g x then 1 - fst x else 0) (below ++ above)) <= D).
    { intro g. apply abs_le_inv in HS. rewrite <- T in HS. destruct SG as [SG|SG].
      - assert (L: 0 <= qsum (fun x => if g x then fst x - 1 else 0) (below ++ above) <= qsum (fun x => fst x - 1) (below ++ above)).
        { split; [apply qsum_nonneg|apply qsum_le]; intros x Hx; specialize (SG x Hx); destruct (g x); lra. }
        assert (N: qsum (fun x => if g x then 1 - fst x else 0) (below ++ above) == - qsum (fun x => if g x then fst x - 1 else 0) (below ++ above)).
        { clear. induction (below ++ above) as [|x l IH]; cbn [qsum]; [lra|]. rewrite IH. destruct (g x); ring. }
        rewrite N. apply abs_le; lra.
      - assert (L: 0 <= qsum (fun x => if g x then 1 - fst x else 0) (below ++ above) <= qsum (fun x => 1 - fst x) (below ++ above)).
        { split; [apply qsum_nonneg|apply qsum_le]; intros x Hx; specialize (SG x Hx); destruct (g x); lra. }
        assert (N: qsum (fun x => 1 - fst x) (below ++ above) == - qsum (fun x => fst x - 1) (below ++ above)).
        { clear. induction (below ++ above) as [|x l IH]; cbn [qsum]; [lra|]. rewrite IH. ring. }
        apply abs_le; lra. }
    assert (CS: forall i, qsum (fun j => rcontrib (fun _ => (1, None)) j i) (map snd (below ++ above)) ==
        rsumfst i (below ++ above) + qsum (fun x => if (snd x =? i)%Z then 1 - fst x else 0) (below ++ above)).
    { intro i. rewrite qsum_map. unfold rsumfst. clear. induction (below ++ above) as [|x l IH]; cbn [qsum]; [lra|].
      rewrite IH. unfold rcontrib. cbn [fst snd]. destruct (snd x =? i)%Z; ring. }
    exists (fun _ => (1, None)). split; [|split; [|split]].
    - intros j Hj. unfold rentry_ok. cbn [fst snd]. split; [apply repr_1; exact Hf|]. split; [lra|]. split; [lra|reflexivity].
    - intro i. rewrite CS. specialize (DEV (fun x => (snd x =? i)%Z)). apply abs_le_inv in DEV. apply abs_le; lra.
    - intros i HD1 HZ. rewrite CS. specialize (DEV (fun x => (snd x =? i)%Z)). apply abs_le_inv in DEV.
      (* a leftover of weight 0 would deviate by 1 *)
      assert (NI: forall x, In x (below ++ above) -> snd x <> i).
      { intros x Hx E. assert (G: forall y, In y (below ++ above) -> 0 <= (if (snd y =? i)%Z then fst y else 0)).
        { intros y Hy. destruct (snd y =? i)%Z; [|lra]. apply in_app_or in Hy. rewrite Forall_forall in HB, HA.
          destruct Hy as [Hy|Hy]; [destruct (HB y Hy)|destruct (HA y Hy)]; lra. }
        pose proof (qsum_in _ _ _ x G Hx) as Q1. cbn beta in Q1. rewrite E, Z.eqb_refl in Q1. unfold rsumfst in HZ.
        pose proof (G x Hx) as Q2. rewrite E, Z.eqb_refl in Q2.
        destruct SG as [SG|SG]; [specialize (SG x Hx); lra|].
        pose proof (qsum_in _ (fun x => if (snd x =? i)%Z then 1 - fst x else 0) (below ++ above) x) as Q3.
        cbn beta in Q3. rewrite E, Z.eqb_refl in Q3.
        assert (Q4: 1 - fst x <= qsum (fun x0 : Q * Z => if (snd x0 =? i)%Z then 1 - fst x0 else 0) (below ++ above)).
        { apply Q3; [|exact Hx]. intros y Hy. specialize (SG y Hy). destruct (snd y =? i)%Z; lra. }
        lra. }
      assert (Z1: qsum (fun x => if (snd x =? i)%Z then 1 - fst x else 0) (below ++ above) == 0).
      { rewrite (qsum_ext _ _ (fun _ => 0)); [|]. { rewrite qsum_const. ring. }
        intros x Hx. destruct (Z.eqb_spec (snd x) i) as [E|E]; [exfalso; exact (NI x Hx E)|reflexivity]. }
      rewrite HZ, Z1. ring.
    - intros tab HT. rewrite r_vose_end by exact HEnd. apply r_fill_ok; assumption. }
  induction fuel as [|k IH]; intros below above D HL HR HD HB HA HS.
  { apply FIN; try assumption. left. destruct below; [reflexivity|simpl in HL; lia]. }
  destruct below as [|[vb kb] bs]; [apply FIN; auto|].
  destruct above as [|[va ka] rest]; [apply FIN; auto|].
  clear FIN.
  pose proof (Forall_inv HB) as [Rb Hvb]. cbn [fst] in Rb, Hvb. pose proof (Forall_inv_tail HB) as HB'.
  pose proof (Forall_inv HA) as [Ra Hva]. cbn [fst] in Ra, Hva. pose proof (Forall_inv_tail HA) as HA'.
  assert (Hkb: (0 <= kb < n)%Z) by (exact (Forall_inv HR)).
  assert (HR1: Forall (fun x => (0 <= snd x < n)%Z) bs).
  { apply Forall_inv_tail in HR. apply Forall_app in HR. apply HR. }
  assert (HR2: Forall (fun x => (0 <= snd x < n)%Z) ((va, ka) :: rest)).
  { apply Forall_inv_tail in HR. apply Forall_app in HR. apply HR. }
  assert (Hka: (0 <= ka < n)%Z) by (exact (Forall_inv HR2)). apply Forall_inv_tail in HR2.
  destruct (step_err va vb Ra ltac:(lra) ltac:(lra) ltac:(lra) ltac:(lra)) as (Rv & V0 & V1 & V2).
  set (v := rnd (va - rnd (1 - vb))) in *.
  set (bs' := if qlt v 1 then (v, ka) :: bs else bs).
  set (as' := if qlt v 1 then rest else (v, ka) :: rest).
  assert (PM: Permutation (bs' ++ as') ((v, ka) :: bs ++ rest)).
  { unfold bs', as'. destruct (qlt v 1); [apply Permutation_refl|].
    apply Permutation_sym, Permutation_middle. }
  assert (PO: Permutation (((vb, kb) :: bs) ++ (va, ka) :: rest) ((vb, kb) :: (va, ka) :: bs ++ rest)).
  { cbn [app]. constructor. apply Permutation_sym, Permutation_middle. }
  assert (PMs: Permutation (map snd (bs' ++ as')) (ka :: map snd (bs ++ rest))).
  { apply (Permutation_map snd) in PM. exact PM. }
  assert (POs: Permutation (map snd (((vb, kb) :: bs) ++ (va, ka) :: rest)) (kb :: ka :: map snd (bs ++ rest))).
  { apply (Permutation_map snd) in PO. exact PO. }
  assert (FS: inject_Z (Z.of_nat (S k)) == 1 + inject_Z (Z.of_nat k)).
  { rewrite Nat2Z.inj_succ. unfold Z.succ. rewrite inject_Z_plus. change (inject_Z 1) with 1. ring. }
  apply abs_le_inv in V2.
  destruct (IH bs' as' (D + E1)) as (h & H1 & H2 & HZ & H3).
  - unfold bs', as'. destruct (qlt v 1); simpl in *; lia.
  - eapply Permutation_Forall; [apply Permutation_sym; exact PM|]. constructor; [cbn [snd]; lia|].
    apply Forall_app. split; assumption.
  - eapply Permutation_NoDup; [apply Permutation_sym; exact PMs|].
    apply (Permutation_NoDup POs) in HD. inversion HD; assumption.
  - unfold bs'. pose proof (qlt_spec v 1) as QL. destruct (qlt v 1); [constructor; [cbn [fst]; split; [exact Rv|lra]|assumption]|assumption].
  - unfold as'. pose proof (qlt_spec v 1) as QL. destruct (qlt v 1); [assumption|constructor; [cbn [fst]; split; [exact Rv|lra]|assumption]].
  - rewrite (qsum_perm _ _ _ _ PM), (zof_perm _ _ _ PM). apply abs_le_inv in HS.
    rewrite (qsum_perm _ _ _ _ PO), (zof_perm _ _ _ PO) in HS. rewrite !zof_cons in *. cbn [qsum fst] in *.
    apply abs_le; lra.
  - assert (HND: ~ In kb (map snd (bs' ++ as'))).
    { apply (Permutation_NoDup POs) in HD. inversion HD as [|? ? N1 N2]. intro X. apply N1.
      apply (Permutation_in _ PMs). exact X. }
    assert (HIN: forall j, In j (map snd (((vb, kb) :: bs) ++ (va, ka) :: rest)) <-> j = kb \/ In j (map snd (bs' ++ as'))).
    { intro j. split; intro X.
      - apply (Permutation_in _ POs) in X. destruct X as [<-|X]; [left; reflexivity|right].
        apply (Permutation_in _ (Permutation_sym PMs)). exact X.
      - apply (Permutation_in _ (Permutation_sym POs)). destruct X as [->|X]; [left; reflexivity|right].
        apply (Permutation_in _ PMs). exact X. }
    set (h' := fun j => if (j =? kb)%Z then (vb, Some ka) else h j).
    assert (CT: forall i, qsum (fun j => rcontrib h' j i) (map snd (((vb, kb) :: bs) ++ (va, ka) :: rest)) ==
      (if (kb =? i)%Z then vb else 0) + (if (ka =? i)%Z then 1 - vb else 0) + qsum (fun j => rcontrib h j i) (map snd (bs' ++ as'))).
    { intro i. rewrite (qsum_perm _ _ _ _ POs), (qsum_perm _ _ _ _ PMs).
      assert (NK: forall j, In j (ka :: map snd (bs ++ rest)) -> j <> kb).
      { intros j Hj ->. apply HND. apply (Permutation_in _ (Permutation_sym PMs)). exact Hj. }
      assert (EX: qsum (fun j => rcontrib h' j i) (ka :: map snd (bs ++ rest)) == qsum (fun j => rcontrib h j i) (ka :: map snd (bs ++ rest))).
      { apply qsum_ext. intros j Hj. unfold rcontrib, h'. destruct (Z.eqb_spec j kb) as [E|E]; [|reflexivity].
        exfalso. exact (NK j Hj E). }
      assert (QC: forall (g : Z -> Q) x l, qsum g (x :: l) == g x + qsum g l) by (intros; reflexivity).
      rewrite (QC _ kb), EX. unfold rcontrib at 1, h'. rewrite Z.eqb_refl. cbn [fst snd]. reflexivity. }
    assert (SF: forall i, rsumfst i (((vb, kb) :: bs) ++ (va, ka) :: rest) ==
      (if (kb =? i)%Z then vb else 0) + (if (ka =? i)%Z then va else 0) + rsumfst i (bs ++ rest)).
    { intro i. unfold rsumfst. rewrite (qsum_perm _ _ _ _ PO). cbn [qsum fst snd]. lra. }
    assert (SF': forall i, rsumfst i (bs' ++ as') == (if (ka =? i)%Z then v else 0) + rsumfst i (bs ++ rest)).
    { intro i. unfold rsumfst. rewrite (qsum_perm _ _ _ _ PM). cbn [qsum fst snd]. lra. }
    exists h'. split; [|split; [|split]].
    + intros j Hj. apply HIN in Hj. unfold rentry_ok, h'. destruct (Z.eqb_spec j kb) as [->|NE].
      * cbn [fst snd]. split; [exact Rb|]. split; [lra|]. split; [lra|lia].
      * destruct Hj as [Hj|Hj]; [contradiction|]. apply H1. exact Hj.
    + intro i. rewrite CT, SF. specialize (H2 i). rewrite SF' in H2. apply abs_le_inv in H2.
      assert (X: 2 * inject_Z (Z.of_nat (S k)) * E1 == 2 * E1 + 2 * inject_Z (Z.of_nat k) * E1) by (rewrite FS; ring).
      destruct (kb =? i)%Z, (ka =? i)%Z; apply abs_le; lra.
    + intros i HD1 HS0. rewrite SF in HS0. rewrite CT.
      assert (X: inject_Z (Z.of_nat (S k)) * E1 == E1 + inject_Z (Z.of_nat k) * E1) by (rewrite FS; ring).
      assert (G: 0 <= rsumfst i (bs ++ rest)).
      { apply qsum_nonneg. intros y Hy. destruct (snd y =? i)%Z; [|lra]. apply in_app_or in Hy. rewrite Forall_forall in HB', HA'.
        destruct Hy as [Hy|Hy]; [destruct (HB' y Hy)|destruct (HA' y Hy)]; lra. }
      destruct (Z.eqb_spec ka i) as [Ei|Ei].
      { exfalso. destruct (kb =? i)%Z; lra. }
      rewrite HZ; [destruct (kb =? i)%Z; lra|lra|]. rewrite SF'. destruct (Z.eqb_spec ka i); [contradiction|]. destruct (kb =? i)%Z; lra.
    + intros tab HT. cbn [r_vose fst snd].
      destruct (put_ok_Z _ (0, 0%Z) tab kb (vb, ka) ltac:(lia)) as (t1 & F1 & F2 & F3).
      rewrite F1. cbn [bind]. fold v.
      destruct (H3 t1 ltac:(lia)) as (t2 & G1 & G2 & G3). exists t2.
      split; [unfold bs', as' in G1; destruct (qlt v 1); exact G1|].
      split; [congruence|]. intros j Hj. rewrite G3 by exact Hj. unfold tabQ. rewrite F3 by exact Hj.
      destruct (Z.eqb_spec j kb) as [->|NE].
      * rewrite (inb_out _ _ HND). rewrite inb_in; [|apply HIN; left; reflexivity]. unfold h'. rewrite Z.eqb_refl. reflexivity.
      * unfold h'. destruct (Z.eqb_spec j kb) as [E|_]; [contradiction|]. destruct (in_dec Z.eq_dec j (map snd (bs' ++ as'))) as [I|I].
        -- rewrite (inb_in _ _ I), inb_in; [reflexivity|]. apply HIN. right. exact I.
        -- rewrite (inb_out _ _ I), inb_out; [reflexivity|]. intro X. apply HIN in X. destruct X; contradiction.
Qed.
End RVose.
