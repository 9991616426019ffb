(* Proofs about the lagged Fibonacci engines. *)
From Verif Require Import Base StreamModel RingModel RingProofs SwcProofs Swc2Proofs LfModel LfSpec.

Definition op_ok (w : Z) (op : Z -> Z -> option Z) : Prop :=
  forall a b, 0 <= a < 2 ^ w -> 0 <= b < 2 ^ w -> op a b = Some ((a + b) mod 2 ^ w).

Lemma lf_op_ok : forall t w, sgn t = false -> 0 <= w <= bits t -> op_ok w (lf_op t w).
Proof.
  intros [b sg] w Hs Hw x y Hx Hy. cbn [sgn bits] in *. subst sg. unfold lf_op, addT, norm. cbn [sgn bits bind].
  f_equal. replace (2 ^ w - 1) with (Z.ones w) by (rewrite Z.ones_equiv; lia).
  rewrite Z.land_ones by lia. 
  assert (E: 2 ^ b = 2 ^ w * 2 ^ (b - w)) by (rewrite <- Z.pow_add_r by lia; f_equal; lia).
  rewrite E. rewrite Z.rem_mul_r; try (apply Z.pow_nonzero; lia); try (apply Z.pow_pos_nonneg; lia).
  rewrite Z.mul_comm, Z.mod_add by (apply Z.pow_nonzero; lia). apply Z.mod_mod. apply Z.pow_nonzero; lia.
Qed.

Lemma lf01_op_ok : forall w, 0 <= w -> op_ok w (lf01_op w).
Proof.
  intros w Hw x y Hx Hy. unfold lf01_op. cbv zeta. destruct (Z.leb_spec (2 ^ w) (x + y)) as [L|L]; f_equal.
  - replace (x + y) with (x + y - 2 ^ w + 1 * 2 ^ w) at 2 by ring. rewrite Z.mod_add by lia.
    rewrite Z.mod_small by lia. reflexivity.
  - rewrite Z.mod_small by lia. reflexivity.
Qed.

Section Lf.
Variable w : Z.
Variable op : Z -> Z -> option Z.
Variable p q : nat.
Hypothesis Hw : 0 <= w.
Hypothesis Hop : op_ok w op.
Hypothesis Hpq : (1 <= q < p)%nat.

(* one step of the sequence on the window of the last p terms *)
Definition wstep (W : list Z) : list Z := tl W ++ [(nth 0 W 0 + nth (p - q) W 0) mod 2 ^ w].

Definition inr (x : list Z) : Prop := length x = p /\ forall v, In v x -> 0 <= v < 2 ^ w.

Lemma wstep_inr : forall W, inr W -> inr (wstep W).
Proof.
  intros W [HL HV]. unfold wstep. split.
  - rewrite app_length. destruct W as [|a W]; [simpl in HL; lia|]. cbn [tl length] in *. lia.
  - intros v Hv. apply in_app_or in Hv. destruct Hv as [Hv|[<- |[]]].
    + apply HV. destruct W; [destruct Hv|right; exact Hv].
    + apply Z.mod_pos_bound. lia.
Qed.

(* one generic in-place update *)
Definition lsx (j : nat) : nat := (if (j <? q)%nat then j + (p - q) else j - q)%nat.
Fixpoint lseg (n j : nat) (x : list Z) : option (list Z) :=
  match n with
  | O => Some x
  | S n' => a <- get x j;; b <- get x (lsx j);; v <- op a b;; x' <- upd x j v;; lseg n' (S j) x'
  end.

Lemma la_seg : forall n j x, (j + n <= q)%nat -> lf_loop_a op p q n j x = lseg n j x.
Proof.
  induction n as [|n IH]; intros j x H; [reflexivity|]. cbn [lf_loop_a lseg]. unfold lsx.
  destruct (Nat.ltb_spec j q); [|lia]. do 4 (apply bind_ext; intros ? _). apply IH. lia.
Qed.
Lemma lb_seg : forall n j x, (q <= j)%nat -> lf_loop_b op p q n j x = lseg n j x.
Proof.
  induction n as [|n IH]; intros j x H; [reflexivity|]. cbn [lf_loop_b lseg]. unfold lsx.
  destruct (Nat.ltb_spec j q); [lia|]. do 4 (apply bind_ext; intros ? _). apply IH. lia.
Qed.
Lemma lseg_app : forall a b j x, lseg (a + b) j x = bind (lseg a j x) (fun x' => lseg b (j + a) x').
Proof.
  induction a as [|a IH]; intros b j x.
  - cbn [Nat.add lseg bind]. rewrite Nat.add_0_r. reflexivity.
  - cbn [Nat.add lseg]. rewrite !bind_assoc. do 4 (apply bind_ext; intros ? _; rewrite ?bind_assoc). rewrite IH.
    replace (S j + a)%nat with (j + S a)%nat by lia. reflexivity.
Qed.
Lemma fill_lseg : forall x, lf_fill op p q x = lseg p 0 x.
Proof.
  intro x. unfold lf_fill. rewrite la_seg by lia.
  transitivity (lseg (q + (p - q)) 0 x); [|f_equal; lia]. rewrite lseg_app. apply bind_ext.
  intros x' _. apply lb_seg. lia.
Qed.

Lemma lseg_rot : forall n j x, inr x -> (j + n <= p)%nat -> (j < p)%nat ->
  exists x', lseg n j x = Some x' /\ inr x' /\
    rot (if (j + n =? p)%nat then 0%nat else j + n)%nat x' = iter n wstep (rot j x).
Proof.
  induction n as [|n IH]; intros j x [HL HV] Hn Hj.
  - exists x. cbn [lseg iter]. split; [reflexivity|]. split; [split; assumption|].
    destruct (Nat.eqb_spec (j + 0) p); [lia|]. rewrite Nat.add_0_r. reflexivity.
  - cbn [lseg].
    assert (Hlsx: (lsx j < p)%nat) by (unfold lsx; destruct (Nat.ltb_spec j q); lia).
    rewrite !get_nth by lia. cbn [bind].
    rewrite Hop by (apply HV, nth_In; lia). cbn [bind].
    set (v := (nth j x 0 + nth (lsx j) x 0) mod 2 ^ w).
    rewrite upd_some by lia. cbn [bind].
    set (x1 := firstn j x ++ v :: skipn (S j) x).
    assert (Hv: 0 <= v < 2 ^ w) by (apply Z.mod_pos_bound; lia).
    assert (Hx1: inr x1).
    { split.
      - unfold x1. rewrite app_length, firstn_length.
        change (length (v :: skipn (S j) x)) with (S (length (skipn (S j) x))). rewrite skipn_length. lia.
      - intros u Hu. apply In_replace in Hu. destruct Hu as [-> | Hu]; [exact Hv|apply HV; exact Hu]. }
    assert (HR: rot (nxt p j) x1 = wstep (rot j x)).
    { unfold x1. rewrite <- HL. rewrite rot_upd by lia. unfold wstep. do 2 f_equal. unfold v. f_equal. f_equal.
      - rewrite nth_rot by lia. f_equal. destruct (Nat.ltb_spec (j + 0) (length x)); lia.
      - rewrite nth_rot by lia. f_equal. unfold lsx.
        destruct (Nat.ltb_spec (j + (p - q)) (length x)), (Nat.ltb_spec j q); lia. }
    cbn [iter].
    destruct (Nat.eq_dec (S j) p) as [E|E].
    + assert (n = 0%nat) by lia. subst n. exists x1. cbn [lseg iter]. split; [reflexivity|]. split; [exact Hx1|].
      destruct (Nat.eqb_spec (j + 1) p); [|lia]. rewrite <- HR. unfold nxt.
      destruct (Nat.eqb_spec (S j) p); [reflexivity|lia].
    + destruct (IH (S j) x1 Hx1 ltac:(lia) ltac:(lia)) as [x' [E1 [E2 E3]]].
      exists x'. split; [exact E1|]. split; [exact E2|].
      replace (j + S n)%nat with (S j + n)%nat by lia. rewrite E3. f_equal.
      rewrite <- HR. unfold nxt. destruct (Nat.eqb_spec (S j) p); [lia|reflexivity].
Qed.

Lemma fill_ok : forall x, inr x -> exists x', lf_fill op p q x = Some x' /\ inr x' /\ x' = iter p wstep x.
Proof.
  intros x Hx. destruct (lseg_rot p 0 x Hx ltac:(lia) ltac:(lia)) as [x' [E1 [E2 E3]]].
  exists x'. rewrite fill_lseg. split; [exact E1|]. split; [exact E2|].
  rewrite Nat.add_0_l, Nat.eqb_refl, !rot_0 in E3. exact E3.
Qed.

(* the sequence *)
Definition sq (x : list Z) (n : nat) : Z := nth 0 (iter n wstep x) 0.

Lemma iter_add : forall (A : Type) (f : A -> A) a b x, iter (a + b) f x = iter b f (iter a f x).
Proof. intros A f. induction a as [|a IH]; intros b x; [reflexivity|]. cbn [Nat.add iter]. apply IH. Qed.

Lemma iter_inr : forall n x, inr x -> inr (iter n wstep x).
Proof. induction n as [|n IH]; intros x H; [exact H|]. cbn [iter]. apply IH, wstep_inr, H. Qed.

Lemma nth_tl : forall (l : list Z) j, nth j (tl l) 0 = nth (S j) l 0.
Proof. intros [|a l] j; [destruct j; reflexivity|reflexivity]. Qed.

Lemma wstep_nth : forall W j, inr W -> (S j < p)%nat -> nth j (wstep W) 0 = nth (S j) W 0.
Proof.
  intros W j [HL _] Hj. unfold wstep. rewrite app_nth1 by (destruct W; simpl in *; lia). apply nth_tl.
Qed.

Lemma iter_nth : forall n W j, inr W -> (j + n < p)%nat -> nth j (iter n wstep W) 0 = nth (j + n) W 0.
Proof.
  induction n as [|n IH]; intros W j HW Hj; [rewrite Nat.add_0_r; reflexivity|].
  cbn [iter]. rewrite IH by (auto using wstep_inr; lia). rewrite wstep_nth by (auto; lia). f_equal. lia.
Qed.

Lemma iter_Sn : forall (A : Type) (f : A -> A) n x, iter (S n) f x = f (iter n f x).
Proof. intros A f. induction n as [|n IH]; intro x; [reflexivity|]. cbn [iter] in *. rewrite IH. reflexivity. Qed.

Lemma sq_window : forall x n j, inr x -> (j < p)%nat -> nth j (iter n wstep x) 0 = sq x (n + j).
Proof.
  intros x n j Hx Hj. unfold sq. rewrite iter_add.
  rewrite (iter_nth j) by (auto using iter_inr; lia). reflexivity.
Qed.

Lemma sq_sequence : forall x, inr x -> lf_sequence w p q x (sq x).
Proof.
  intros x Hx. split.
  - intros j Hj. unfold sq. rewrite iter_nth by (auto; lia). reflexivity.
  - intros n Hn.
    assert (En: n = (S (n - p) + (p - 1))%nat) by lia.
    rewrite En at 1. rewrite <- sq_window by (auto; lia). rewrite iter_Sn.
    set (W := iter (n - p) wstep x). assert (HW: inr W) by (apply iter_inr; exact Hx).
    unfold wstep at 1. rewrite app_nth2 by (destruct HW as [HW _]; destruct W; simpl in *; lia).
    replace (p - 1 - length (tl W))%nat with O by (destruct HW as [HW _]; destruct W; simpl in *; lia).
    cbn [nth]. unfold W. rewrite !sq_window by (auto; lia). do 3 f_equal; lia.
Qed.

Lemma sq_range : forall x n, inr x -> 0 <= sq x n < 2 ^ w.
Proof.
  intros x n Hx. unfold sq. destruct (iter_inr n x Hx) as [HL HV]. apply HV, nth_In. lia.
Qed.

(* the position used: a position beyond the end behaves like the end *)
Definition pos (st : lf) : nat := Nat.min (Z.to_nat (li st)) p.

Lemma lf_next_sq : forall st, inr (lx st) -> 0 <= li st ->
  exists st', lf_next op p q st = Some (sq (lx st) (pos st), st') /\ inr (lx st') /\ 0 <= li st' <= Z.of_nat p /\
    forall n, sq (lx st') (pos st' + n) = sq (lx st) (S (pos st) + n).
Proof.
  intros [i x] Hx Hi. cbn [lx li] in *. unfold lf_next, pos. cbn [lx li].
  destruct (Z.leb_spec (Z.of_nat p) i) as [L|L].
  - destruct (fill_ok x Hx) as [x' [E1 [E2 E3]]]. rewrite E1. cbn [bind lx li].
    change (Z.to_nat 0) with O. rewrite get_nth by (destruct E2; lia). cbn [bind].
    replace (Nat.min (Z.to_nat i) p) with p by lia.
    exists (Lf (0 + 1) x'). split; [|split; [|split]]; cbn [lx li].
    + do 3 f_equal. rewrite E3. reflexivity.
    + exact E2.
    + lia.
    + intro n. change (Z.to_nat (0 + 1)) with 1%nat. replace (Nat.min 1 p) with 1%nat by lia.
      rewrite E3. unfold sq. rewrite <- iter_add. do 2 f_equal. lia.
  - cbn [bind lx li]. rewrite get_nth by (destruct Hx; lia). cbn [bind].
    replace (Nat.min (Z.to_nat i) p) with (Z.to_nat i) by lia.
    exists (Lf (i + 1) x). split; [|split; [|split]]; cbn [lx li].
    + do 2 f_equal. unfold sq. rewrite iter_nth by (auto; lia). reflexivity.
    + exact Hx.
    + lia.
    + intro n. do 2 f_equal. lia.
Qed.

Lemma run_sq : forall n st, inr (lx st) -> 0 <= li st ->
  exists st', run (lf_next op p q) n st = Some (map (sq (lx st)) (seq (pos st) n), st') /\ inr (lx st') /\ 0 <= li st'
    /\ (li st' = li st \/ li st' <= Z.of_nat p).
Proof.
  induction n as [|n IH]; intros st Hx Hi.
  - exists st. cbn [run seq map]. auto.
  - destruct (lf_next_sq st Hx Hi) as [st1 [E1 [E2 [E3 E4]]]].
    destruct (IH st1 E2 ltac:(lia)) as [st' [F1 [F2 [F3 F4]]]].
    exists st'. cbn [run]. rewrite E1. cbn [bind fst snd]. rewrite F1. cbn [bind fst snd seq map].
    split; [|split; [exact F2|split; [exact F3|lia]]]. do 3 f_equal.
    apply (nth_ext _ _ 0 0); [rewrite !map_length, !seq_length; reflexivity|].
    intros j Hj. rewrite map_length, seq_length in Hj.
    rewrite (nth_indep _ 0 (sq (lx st1) 0)) by (rewrite map_length, seq_length; lia).
    rewrite map_nth. rewrite seq_nth by lia.
    rewrite (nth_indep _ 0 (sq (lx st) 0)) by (rewrite map_length, seq_length; lia).
    rewrite map_nth. rewrite seq_nth by lia. apply E4.
Qed.

(* two sequences that agree from some point on agree everywhere *)
Lemma sq_back : forall x y i, inr x -> inr y -> (forall n, sq x (i + n) = sq y (i + n)) -> forall n, sq x n = sq y n.
Proof.
  intros x y. induction i as [|i IH]; intros Hx Hy H; [exact H|].
  apply IH; auto. intros n. destruct n as [|n].
  - rewrite Nat.add_0_r.
    destruct (sq_sequence x Hx) as [_ RX]. destruct (sq_sequence y Hy) as [_ RY].
    specialize (RX (i + p)%nat ltac:(lia)). specialize (RY (i + p)%nat ltac:(lia)).
    replace (i + p - p)%nat with i in * by lia.
    assert (E1: sq x (i + p) = sq y (i + p)) by (replace (i + p)%nat with (S i + (p - 1))%nat by lia; apply H).
    assert (E2: sq x (i + p - q) = sq y (i + p - q)) by (replace (i + p - q)%nat with (S i + (p - q - 1))%nat by lia; apply H).
    rewrite E2 in RX. rewrite RY, RX in E1. clear RX RY E2.
    pose proof (sq_range x i Hx) as Bx. pose proof (sq_range y i Hy) as By.
    set (a := sq x i) in *. set (b := sq y i) in *. set (c := sq y (i + p - q)) in *.
    assert (HM: (a - b) mod 2 ^ w = 0).
    { replace (a - b) with ((a + c) - (b + c)) by ring. rewrite Zminus_mod, E1, Z.sub_diag. apply Z.mod_0_l. lia. }
    apply Z.mod_divide in HM; [|lia]. destruct HM as [k Hk].
    set (M := 2 ^ w) in *. clearbody M a b. clear - Hk Bx By.
    destruct (Z.lt_trichotomy k 0) as [K|[K|K]]; [|subst k; lia|].
    + assert (k * M <= -1 * M) by (apply Z.mul_le_mono_nonneg_r; lia). lia.
    + assert (1 * M <= k * M) by (apply Z.mul_le_mono_nonneg_r; lia). lia.
  - replace (i + S n)%nat with (S i + n)%nat by lia. apply H.
Qed.

End Lf.

Lemma list_eqb_spec : forall a b, length a = length b -> (list_eqb a b = true <-> a = b).
Proof.
  induction a as [|u a IH]; intros [|v b] H; simpl in *; try discriminate; [tauto|].
  rewrite andb_true_iff, Z.eqb_eq, IH by lia. split; [intros [-> ->]; reflexivity|intro E; injection E; auto].
Qed.

Lemma lf_eq_spec : forall a b, length (lx a) = length (lx b) -> (lf_eq a b = true <-> a = b).
Proof.
  intros [i x] [j y] H. unfold lf_eq. cbn [li lx] in *. rewrite andb_true_iff, Z.eqb_eq, list_eqb_spec by exact H.
  split; [intros [-> ->]; reflexivity|intro E; injection E; auto].
Qed.

Lemma lf_all : forall op w p q st, op_ok w op -> 0 <= w -> lf_params p q -> lf_wf w p st ->
  exists X, lf_sequence w p q (lx st) X /\
  forall n, exists st', run (lf_next op p q) n st = Some (map X (seq (Nat.min (Z.to_nat (li st)) p) n), st') /\ lf_wf w p st' /\
    (forall v, In v (map X (seq (Nat.min (Z.to_nat (li st)) p) n)) -> 0 <= v <= 2 ^ w - 1).
Proof.
  intros op w p q st Hop Hw [Hpq Hp] [HL [Hi HV]].
  assert (Hx: inr w p (lx st)) by (split; assumption).
  exists (sq w p q (lx st)). split; [apply sq_sequence; assumption|].
  intro n. destruct (run_sq w op p q Hw Hop Hpq n st Hx ltac:(lia)) as [st' [E [F1 [F2 F3]]]].
  exists st'. split; [exact E|]. split.
  - destruct F1 as [F1 F1']. split; [exact F1|]. split; [|exact F1']. lia.
  - intros v Hv. apply in_map_iff in Hv. destruct Hv as [m [<- _]].
    pose proof (sq_range w p q Hw Hpq (lx st) m Hx). lia.
Qed.

Lemma lf_eq_iff : forall op w p q a b, op_ok w op -> 0 <= w -> lf_params p q -> lf_wf w p a -> lf_wf w p b ->
  li a = li b -> (lf_eq a b = true <-> lf_same_future op p q a b).
Proof.
  intros op w p q a b Hop Hw [Hpq Hp] [HLa [Hia HVa]] [HLb [Hib HVb]] Hi.
  rewrite lf_eq_spec by lia. split; [intros ->; intro n; reflexivity|].
  intro H.
  assert (Ha: inr w p (lx a)) by (split; assumption).
  assert (Hb: inr w p (lx b)) by (split; assumption).
  assert (HS: forall n, sq w p q (lx a) (pos p a + n) = sq w p q (lx b) (pos p a + n)).
  { intro n. specialize (H (S n)). unfold lf_outputs in H.
    destruct (run_sq w op p q Hw Hop Hpq (S n) a Ha ltac:(lia)) as [a' [E1 _]].
    destruct (run_sq w op p q Hw Hop Hpq (S n) b Hb ltac:(lia)) as [b' [E2 _]].
    rewrite E1, E2 in H. cbn [bind fst] in H. apply Some_eq_inj in H.
    assert (Hpos: pos p b = pos p a) by (unfold pos; rewrite Hi; reflexivity). rewrite Hpos in H.
    apply (f_equal (fun l => nth n l 0)) in H.
    rewrite (nth_indep _ 0 (sq w p q (lx a) 0)) in H by (rewrite map_length, seq_length; lia).
    rewrite map_nth, seq_nth in H by lia.
    rewrite (nth_indep _ 0 (sq w p q (lx b) 0)) in H by (rewrite map_length, seq_length; lia).
    rewrite map_nth, seq_nth in H by lia. exact H. }
  pose proof (sq_back w p q Hw Hpq (lx a) (lx b) (pos p a) Ha Hb HS) as HB.
  assert (EX: lx a = lx b).
  { apply (nth_ext _ _ 0 0); [lia|]. intros j Hj.
    destruct (sq_sequence w p q Hw Hpq (lx a) Ha) as [SA _]. destruct (sq_sequence w p q Hw Hpq (lx b) Hb) as [SB _].
    rewrite <- SA, <- SB by lia. apply HB. }
  destruct a as [ia xa], b as [ib xb]; cbn [li lx] in *; subst; reflexivity.
Qed.

Lemma lf_round_trip : forall t w p a b rest, lf_wf w p a -> length (lx b) = p ->
  (forall v, 0 <= v < 2 ^ w -> inT t v) ->
  lf_read t p b (good_in (lf_write a ++ rest)) = (a, good_in rest) /\ lf_eq a a = true.
Proof.
  intros t w p a b rest [HL [Hi HV]] HLb HT. split; [|apply lf_eq_spec; reflexivity].
  unfold lf_read, lf_write. cbn [app].
  rewrite get_int_ok by (unfold inT; change (imin u32) with 0; change (imax u32) with (2 ^ 32 - 1); lia).
  rewrite <- HL. rewrite <- HL in HLb. rewrite read_arr_ok.
  - cbn [firstn app]. destruct a; reflexivity.
  - intros v Hv. apply HT, HV, Hv.
  - lia.
Qed.

Lemma lf_discard_run : forall op p q st z, lf_discard op p q z st = (r <- run (lf_next op p q) (Z.to_nat z) st;; Some (snd r)).
Proof.
  intros op p q st z. unfold lf_discard. generalize (Z.to_nat z). intro n. revert st.
  induction n as [|n IH]; intro st; [reflexivity|]. cbn [iterM run].
  rewrite !bind_assoc. apply bind_ext. intros r _. cbn [bind]. rewrite IH. rewrite !bind_assoc. apply bind_ext.
  intros; reflexivity.
Qed.
