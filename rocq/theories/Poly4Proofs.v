(* copy_bits, shift_left and squaring. *)
From Coq Require Import NArith Ring.
From Verif Require Import Base PolyModel PolySpec PolyProofs Poly2Proofs Poly3Proofs.
Open Scope nat_scope.
Open Scope gf_scope.
Ltac Zify.zify_post_hook ::= idtac.

Lemma ceil_le : forall a W b, 1 <= W -> (ceil a W <= b <-> a <= W * b).
Proof.
  intros a W b HW. unfold ceil. pose proof (Nat.div_mod (a + W - 1) W ltac:(lia)) as D. pose proof (Nat.mod_upper_bound (a + W - 1) W ltac:(lia)) as M.
  set (q := (a + W - 1) / W) in *. set (r := (a + W - 1) mod W) in *. split; intro H; nia.
Qed.
Lemma ceil_ge : forall a W, 1 <= W -> a <= W * ceil a W.
Proof. intros a W HW. apply ceil_le; [exact HW|lia]. Qed.
Lemma ceil_lt : forall a W, 1 <= W -> W * ceil a W < a + W.
Proof.
  intros a W HW. unfold ceil. pose proof (Nat.div_mod (a + W - 1) W ltac:(lia)) as D. lia.
Qed.
Lemma divmod : forall a W, 1 <= W -> a = W * (a / W) + a mod W /\ a mod W < W.
Proof. intros a W HW. split; [apply Nat.div_mod; lia|apply Nat.mod_upper_bound; lia]. Qed.
Lemma divmod_u : forall W q r, r < W -> (W * q + r) / W = q /\ (W * q + r) mod W = r.
Proof.
  intros W q r H. split.
  - symmetry. apply (Nat.div_unique _ _ _ r); lia.
  - symmetry. apply (Nat.mod_unique _ _ q); lia.
Qed.
Lemma ceil_div : forall a W, 1 <= W -> ceil a W = a / W + (if a mod W =? 0 then 0 else 1).
Proof.
  intros a W HW. destruct (divmod a W HW) as [D M]. pose proof (ceil_ge a W HW). pose proof (ceil_lt a W HW).
  set (q := a / W) in *. set (r := a mod W) in *. set (c := ceil a W) in *. destruct (Nat.eqb_spec r 0); nia.
Qed.

Section Bits.
Variable W : nat.
Hypothesis HW : 1 <= W.
Local Notation dg := (dg W).
Local Notation reg := (reg W).
Local Notation frame := (frame W).

Lemma coef_reg : forall l o n i j, dg l -> j < W -> coef (reg l o n) (W * i + j) = if i <? n then coef (at_ l (o + i)) j else false.
Proof using HW.
  intros l o n i j D Hj. induction n as [|n IH]; [apply coef_0|]. cbn [Poly2Proofs.reg]. rewrite coef_xor, IH, coef_Xm.
  destruct (Nat.ltb_spec i n) as [L|L], (Nat.ltb_spec i (S n)) as [L'|L'], (Nat.ltb_spec (W * i + j) (W * n)) as [K|K]; try nia; rewrite ?xorb_false_r, ?xorb_false_l; try reflexivity.
  - assert (i = n) by lia. subst i. replace (W * n + j - W * n) with j by lia. reflexivity.
  - apply D. nia.
Qed.
Lemma coef_pval : forall l i j, dg l -> j < W -> coef (pval W l) (W * i + j) = coef (at_ l i) j.
Proof using HW.
  intros l i j D Hj. rewrite pval_reg, coef_reg by assumption. destruct (Nat.ltb_spec i (length l)) as [L|L]; [reflexivity|].
  rewrite at_out by exact L. symmetry. apply coef_0.
Qed.
Lemma coef_pval' : forall l k, dg l -> coef (pval W l) k = coef (at_ l (k / W)) (k mod W).
Proof using HW. intros l k D. destruct (divmod k W HW) as [E M]. rewrite E at 1. apply coef_pval; assumption. Qed.
Lemma pval_deg : forall l, dg l -> deg_lt (pval W l) (W * length l).
Proof using HW. intros l D. rewrite pval_reg. apply reg_deg. exact D. Qed.

Lemma dpred_X : forall j, j < W -> dpred W (X j) = N.ones (N.of_nat j).
Proof using HW.
  intros j Hj. unfold dpred, trunc. rewrite X_pow, N.ones_equiv, N.ones_equiv. 
  assert (1 <= 2 ^ N.of_nat j)%N. { change 1%N with (2 ^ 0)%N. apply N.pow_le_mono_r; lia. }
  assert (2 ^ N.of_nat j < 2 ^ N.of_nat W)%N by (apply N.pow_lt_mono_r; lia).
  set (a := (2 ^ N.of_nat j)%N) in *. set (b := (2 ^ N.of_nat W)%N) in *.
  replace (a + N.pred b)%N with (N.pred a + 1 * b)%N by lia. rewrite N.mod_add by lia. apply N.mod_small. lia.
Qed.

Lemma copy_bits_ok : forall x low high out, dg x -> dg out -> low <= high -> high <= W * length x -> ceil (high - low) W <= length out ->
  exists out', copy_bits W x low high out = Some out' /\ frame out out' 0 (ceil (high - low) W) /\
    reg out' 0 (ceil (high - low) W) = (N.shiftr (pval W x) (N.of_nat low) mod 2 ^ N.of_nat (high - low))%N.
Proof using HW.
  intros x low high out Dx Do Hlh Hh Ho.
  destruct (divmod low W HW) as [EL ML]. rewrite (ceil_div (high - low) W HW) in *. destruct (divmod (high - low) W HW) as [EH MH].
  set (off := low / W) in *. set (l0 := low mod W) in *. unfold copy_bits. fold off.
  replace (low - off * W) with l0 by nia. replace (high - off * W - l0) with (high - low) by nia.
  set (n := (high - low) / W) in *. set (rem := (high - low) mod W) in *. set (h := high - low) in *.
  set (V := pval W x).
  set (C := fun (o : list N) i => forall j, j < W -> coef (at_ o i) j = if W * i + j <? h then coef V (low + (W * i + j)) else false).
  assert (CE: forall o, dg o -> (forall i, i < n + (if rem =? 0 then 0 else 1) -> C o i) ->
     reg o 0 (n + (if rem =? 0 then 0 else 1)) = (N.shiftr V (N.of_nat low) mod 2 ^ N.of_nat h)%N).
  { intros o Dd HC. apply coef_ext. intro k. rewrite coef_mod, coef_shr. destruct (divmod k W HW) as [EK MK]. set (i := k / W) in *. set (j := k mod W) in *. rewrite EK.
    rewrite coef_reg by assumption. destruct (Nat.ltb_spec i (n + (if rem =? 0 then 0 else 1))) as [L|L].
    - cbn [plus]. rewrite (HC i L j MK). destruct (W * i + j <? h); [f_equal; lia|reflexivity].
    - destruct (Nat.ltb_spec (W * i + j) h) as [Q|Q]; [|reflexivity]. exfalso. destruct (Nat.eqb_spec rem 0); nia. }
  assert (LOOP: exists o, (if l0 =? 0 then floop (fun i out => a <- rd x (off + i);; wr out i a) 0 n out
      else floop (fun i out => a <- rd x (off + i);; a <- dshr W a l0;; b <- rd x (off + (i + 1));; b <- dshl W b (W - l0);; wr out i (N.lor a b)) 0 n out) = Some o /\
      frame out o 0 n /\ (forall i, i < n -> C o i)).
  { destruct (Nat.eqb_spec l0 0) as [Z|NZ].
    - destruct (floop_inv (list N) (fun k o => frame out o 0 k /\ forall i, i < k -> C o i) (fun i out => a <- rd x (off + i);; wr out i a) n out) as (o & E & F & G).
      + split; [apply frame_refl|intros; lia].
      + intros k o Hk (F & G). pose proof F as (FL & _ & FD). rewrite rd_at by nia. cbn [bind].
        destruct (wr_frame W o k (at_ x (off + k))) as (o' & E & F' & V'); [destruct (Nat.eqb_spec rem 0); lia|apply Dx|].
        exists o'. split; [exact E|]. split.
        * apply (frame_trans W _ o); [apply (frame_sub W _ _ 0 k); [exact F|lia|lia]|apply (frame_sub W _ _ k 1); [exact F'|lia|lia]].
        * intros i Hi j Hj. destruct (Nat.eq_dec i k) as [->|NE].
          -- rewrite V'. destruct (Nat.ltb_spec (W * k + j) h); [|nia]. unfold V. rewrite EL, Z. replace (W * off + 0 + (W * k + j)) with (W * (off + k) + j) by lia. symmetry. apply coef_pval; assumption.
          -- destruct F' as (_ & F' & _). rewrite F' by lia. apply G; lia.
      + exists o. auto.
    - destruct (floop_inv (list N) (fun k o => frame out o 0 k /\ forall i, i < k -> C o i)
        (fun i out => a <- rd x (off + i);; a <- dshr W a l0;; b <- rd x (off + (i + 1));; b <- dshl W b (W - l0);; wr out i (N.lor a b)) n out) as (o & E & F & G).
      + split; [apply frame_refl|intros; lia].
      + intros k o Hk (F & G). pose proof F as (FL & _ & FD). rewrite rd_at by nia. cbn [bind]. rewrite dshr_ok by lia. cbn [bind].
        rewrite rd_at by nia. cbn [bind]. rewrite dshl_ok by lia. cbn [bind].
        match goal with |- context [wr o k ?v] => destruct (wr_frame W o k v) as (o' & E & F' & V') end; [destruct (Nat.eqb_spec rem 0); lia| |].
        { intros j Hj. rewrite coef_or, coef_shr, (Dx _ (j + l0)) by lia. apply trunc_deg. exact Hj. }
        exists o'. split; [exact E|]. split.
        * apply (frame_trans W _ o); [apply (frame_sub W _ _ 0 k); [exact F|lia|lia]|apply (frame_sub W _ _ k 1); [exact F'|lia|lia]].
        * intros i Hi j Hj. destruct (Nat.eq_dec i k) as [->|NE].
          -- rewrite V'. destruct (Nat.ltb_spec (W * k + j) h); [|nia]. rewrite coef_or, coef_shr. unfold trunc. rewrite coef_mod, coef_shl. unfold V. rewrite EL.
             destruct (Nat.ltb_spec j W); [|lia]. destruct (Nat.ltb_spec j (W - l0)) as [Q|Q].
             ++ rewrite orb_false_r. replace (W * off + l0 + (W * k + j)) with (W * (off + k) + (j + l0)) by lia. symmetry. apply coef_pval; [assumption|lia].
             ++ rewrite (Dx _ (j + l0)) by lia. cbn [orb]. replace (W * off + l0 + (W * k + j)) with (W * (off + (k + 1)) + (j - (W - l0))) by lia. symmetry. apply coef_pval; [assumption|lia].
          -- destruct F' as (_ & F' & _). rewrite F' by lia. apply G; lia.
      + exists o. auto. }
  destruct LOOP as (o & E & F & G). rewrite E. cbn [bind]. pose proof F as (FL & FO & FD).
  destruct (Nat.eqb_spec rem 0) as [Z|NZ].
  - exists o. split; [reflexivity|]. rewrite Nat.add_0_r in *. split; [exact F|]. apply CE; [apply FD; exact Do|exact G].
  - rewrite dshl_ok by lia. cbn [bind]. rewrite bit_mask by lia. rewrite dpred_X by lia. rewrite rd_at by nia. cbn [bind]. rewrite dshr_ok by lia. cbn [bind].
    assert (HR: exists r, (if negb (l0 =? 0) && ((n + 1) * W <? high - off * W) then b <- rd x (off + (n + 1));; b <- dshl W b (W - l0);; Some (N.lor (N.shiftr (at_ x (off + n)) (N.of_nat l0)) b)
        else Some (N.shiftr (at_ x (off + n)) (N.of_nat l0))) = Some r /\ forall j, j < rem -> coef r j = coef V (low + (W * n + j))).
    { destruct (negb (l0 =? 0) && ((n + 1) * W <? high - off * W)) eqn:CND.
      - apply andb_true_iff in CND. destruct CND as [C1 C2]. apply negb_true_iff, Nat.eqb_neq in C1. apply Nat.ltb_lt in C2.
        rewrite rd_at by nia. cbn [bind]. rewrite dshl_ok by lia. cbn [bind]. eexists. split; [reflexivity|]. intros j Hj.
        rewrite coef_or, coef_shr. unfold trunc. rewrite coef_mod, coef_shl. unfold V. rewrite EL.
        destruct (Nat.ltb_spec j W); [|lia]. destruct (Nat.ltb_spec j (W - l0)) as [Q|Q].
        + rewrite orb_false_r. replace (W * off + l0 + (W * n + j)) with (W * (off + n) + (j + l0)) by lia. symmetry. apply coef_pval; [assumption|lia].
        + rewrite (Dx _ (j + l0)) by lia. cbn [orb]. replace (W * off + l0 + (W * n + j)) with (W * (off + (n + 1)) + (j - (W - l0))) by lia. symmetry. apply coef_pval; [assumption|lia].
      - eexists. split; [reflexivity|]. intros j Hj. rewrite coef_shr. unfold V. rewrite EL.
        replace (W * off + l0 + (W * n + j)) with (W * (off + n) + (j + l0)) by lia. symmetry. apply coef_pval; [assumption|].
        apply andb_false_iff in CND. destruct CND as [C1|C2].
        + apply negb_false_iff, Nat.eqb_eq in C1. lia.
        + apply Nat.ltb_ge in C2. nia. }
    destruct HR as (r & ER & CR). rewrite ER. cbn [bind].
    destruct (wr_frame W o n (N.land r (N.ones (N.of_nat rem)))) as (o' & E' & F' & V'); [lia| |].
    { intros j Hj. rewrite coef_and, coef_ones. destruct (Nat.ltb_spec j rem); [lia|apply andb_false_r]. }
    exists o'. split; [exact E'|]. split.
    + apply (frame_trans W _ o); [apply (frame_sub W _ _ 0 n); [exact F|lia|lia]|apply (frame_sub W _ _ n 1); [exact F'|lia|lia]].
    + destruct F' as (F1' & F2' & F3'). apply CE; [apply F3', FD, Do|]. intros i Hi. destruct (Nat.eq_dec i n) as [->|NE].
      * intros j Hj. rewrite V', coef_and, coef_ones. destruct (Nat.ltb_spec j rem) as [Q|Q], (Nat.ltb_spec (W * n + j) h) as [Q'|Q']; try nia.
        rewrite andb_true_r. apply CR. exact Q.
      * intros j Hj. rewrite F2' by lia. apply G; lia.
Qed.

(* ---- shift_left ---- *)
Lemma shift_left_ok : forall val size s, 0 < s < W -> size <= length val -> dg val ->
  exists val', shift_left W val size s = Some val' /\ frame val val' 0 size /\
    reg val' 0 size = (X s (x) reg val 0 size mod 2 ^ N.of_nat (W * size))%N.
Proof using HW.
  intros val size s Hs Hl Dv. unfold shift_left.
  destruct (floop_inv (list N * N) (fun i st => frame val (fst st) 0 i /\ deg_lt (snd st) W /\
      reg (fst st) 0 i (+) X (W * i) (x) N.shiftr (snd st) (N.of_nat (W - s)) = X s (x) reg val 0 i)
    (fun i st => tmp <- rd (fst st) i;; l <- dshr W (snd st) (W - s);; h <- dshl W tmp s;; val <- wr (fst st) i (N.lor l h);; Some (val, tmp)) size (val, 0%N)) as ((o & pv) & E & F & P & R).
  - cbn [fst snd Poly2Proofs.reg]. split; [apply frame_refl|]. split; [apply deg_0|]. rewrite N.shiftr_0_l, !gm_0_r. reflexivity.
  - intros k (o & pv) Hk (F & P & R). cbn [fst snd] in *. pose proof F as (F1 & F2 & F3).
    rewrite rd_at by lia. cbn [bind]. rewrite dshr_ok by lia. cbn [bind]. rewrite dshl_ok by lia. cbn [bind]. rewrite N.lor_comm, carry_or by (try exact P; lia).
    match goal with |- context [wr o k ?v] => destruct (wr_frame W o k v ltac:(lia)) as (o' & E & G & V) end.
    { apply deg_xor; [apply trunc_deg|]. apply shr_deg. apply (deg_mono _ _ _ P). lia. }
    rewrite E. cbn [bind]. eexists. split; [reflexivity|]. cbn [fst snd]. split; [|split].
    + apply (frame_trans W _ o); [apply (frame_sub W _ _ 0 k); [exact F|lia|lia]|]. apply (frame_sub W _ _ k 1); [exact G|lia|lia].
    + apply F3. exact Dv.
    + cbn [Poly2Proofs.reg plus]. rewrite (frame_reg W _ _ _ _ 0 k G) by lia. rewrite V, (F2 k) by lia.
      replace (W * S k) with (W * k + W) by lia. rewrite X_add.
      pose proof (shl_carry W (at_ val k) s ltac:(lia) (Dv _)) as C.
      transitivity ((reg o 0 k (+) X (W * k) (x) N.shiftr pv (N.of_nat (W - s))) (+)
        X (W * k) (x) (trunc W (N.shiftl (at_ val k) (N.of_nat s)) (+) X W (x) N.shiftr (at_ val k) (N.of_nat (W - s)))); [ring|].
      rewrite <- C, R. ring.
  - rewrite E. cbn [bind fst snd] in *. exists o. split; [reflexivity|]. split; [exact F|]. rewrite <- R. pose proof F as (_ & _ & FD).
    apply coef_ext. intro k. rewrite coef_mod, coef_xor, coef_Xm. destruct (Nat.ltb_spec k (W * size)) as [L|L]; [rewrite xorb_false_r; reflexivity|].
    apply (reg_deg W o 0 size (FD Dv)). exact L.
Qed.

(* ---- sqr(digit_t) ---- *)
Definition sstep (v : N) (hm : nat * N) : N :=
  N.lor (trunc W (N.shiftl (N.land v (dnot W (snd hm))) (N.of_nat (fst hm)))) (N.land v (snd hm)).
Definition sstep' (v : N) (hm : nat * N) : N :=
  trunc W (N.shiftl (N.land v (dnot W (snd hm))) (N.of_nat (fst hm))) (+) N.land v (snd hm).
Fixpoint smasks (fuel i : nat) (mask : N) : option (list (nat * N)) :=
  match fuel with
  | O => None
  | S fuel =>
    if i <=? 1 then Some [] else
    _ <- dshl W 0 (i / 2);;
    b <- dshr W mask (i / 4);;
    c <- dshl W (N.land mask b) (i / 2);;
    r <- smasks fuel (i / 2) (N.lor (N.land mask b) c);;
    Some ((i / 2, mask) :: r)
  end.
Lemma sqr_loop_masks : forall fuel i mask v ms, smasks fuel i mask = Some ms -> sqr_loop W fuel i v mask = Some (fold_left sstep ms v).
Proof using HW.
  induction fuel as [|fuel IH]; intros i mask v ms H; [discriminate|]. cbn [smasks sqr_loop] in *. destruct (i <=? 1) eqn:C.
  - inversion H. reflexivity.
  - unfold dshl in *. destruct (i / 2 <? W) eqn:C2; [|discriminate]. cbn [bind] in *. destruct (dshr W mask (i / 4)) as [b|]; [|discriminate]. cbn [bind] in *.
    match type of H with context [smasks fuel ?a ?b] => destruct (smasks fuel a b) as [r|] eqn:E end; [|discriminate]. cbn [bind] in H. inversion H; subst ms. cbn [fold_left].
    rewrite (IH _ _ _ _ E). reflexivity.
Qed.
(* the steps do not merge bits, starting from the bits M *)
Fixpoint sgood (ms : list (nat * N)) (M : N) : bool :=
  match ms with
  | [] => true
  | hm :: t => (N.land (trunc W (N.shiftl (N.land M (dnot W (snd hm))) (N.of_nat (fst hm)))) (N.land M (snd hm)) =? 0)%N && sgood t (sstep M hm)
  end.
Lemma coef_sh_and : forall v m h k, coef (trunc W (N.shiftl (N.land v m) (N.of_nat h))) k = if k <? W then if k <? h then false else coef v (k - h) && coef m (k - h) else false.
Proof using HW. intros. unfold trunc. rewrite coef_mod, coef_shl, coef_and. reflexivity. Qed.
Lemma sstep_lin : forall ms M v, sgood ms M = true -> (forall k, coef v k = true -> coef M k = true) -> fold_left sstep ms v = fold_left sstep' ms v.
Proof using HW.
  induction ms as [|hm t IH]; intros M v G S; [reflexivity|]. cbn [sgood fold_left] in *. apply andb_true_iff in G. destruct G as [G1 G2].
  apply N.eqb_eq in G1.
  assert (E: sstep v hm = sstep' v hm).
  { unfold sstep, sstep'. apply or_xor. intro k. 
    assert (Z: coef (N.land (trunc W (N.shiftl (N.land M (dnot W (snd hm))) (N.of_nat (fst hm)))) (N.land M (snd hm))) k = false) by (rewrite G1; apply coef_0).
    rewrite !coef_and, coef_sh_and in *. destruct (k <? W); [|reflexivity]. destruct (k <? fst hm); [reflexivity|].
    destruct (coef v (k - fst hm)) eqn:A; [|reflexivity]. rewrite (S _ A) in Z. destruct (coef v k) eqn:B; [|apply andb_false_r]. rewrite (S _ B) in Z. exact Z. }
  rewrite <- E. apply (IH _ _ G2). intros k. unfold sstep. rewrite !coef_or, !coef_sh_and, !coef_and. intro HK. apply orb_true_iff in HK. apply orb_true_iff.
  destruct HK as [HK|HK].
  - left. destruct (k <? W); [|discriminate]. destruct (k <? fst hm); [discriminate|]. apply andb_true_iff in HK. destruct HK as [A B]. rewrite (S _ A), B. reflexivity.
  - right. apply andb_true_iff in HK. destruct HK as [A B]. rewrite (S _ A), B. reflexivity.
Qed.
Lemma sstep'_xor : forall ms a b, fold_left sstep' ms (a (+) b) = fold_left sstep' ms a (+) fold_left sstep' ms b.
Proof using HW.
  induction ms as [|hm t IH]; intros a b; [reflexivity|]. cbn [fold_left]. rewrite <- IH. f_equal. unfold sstep'.
  apply coef_ext. intro k. rewrite !coef_xor, !coef_sh_and, !coef_and, !coef_xor.
  destruct (k <? W), (k <? fst hm), (coef a k), (coef b k), (coef a (k - fst hm)), (coef b (k - fst hm)), (coef (snd hm) k), (coef (dnot W (snd hm)) (k - fst hm)); reflexivity.
Qed.
Lemma sstep'_0 : forall ms, fold_left sstep' ms 0%N = 0%N.
Proof using HW.
  intro ms. pose proof (sstep'_xor ms 0%N 0%N) as H. rewrite (xor_nil (fold_left _ _ _)) in H. exact H.
Qed.
Definition sqr_check : bool :=
  match half_mask W with
  | Some mask => match smasks (S W) W mask with
     | Some ms => (mask =? N.ones (N.of_nat (W / 2)))%N && sgood ms (N.ones (N.of_nat (W / 2))) && forallb (fun j => N.eqb (fold_left sstep ms (X j)) (X (j + j))) (seq 0 (W / 2))
     | None => false end
  | None => false end.
Lemma gm_sqr_xor : forall a b, (a (+) b) (x) (a (+) b) = a (x) a (+) b (x) b.
Proof using HW. intros. ring. Qed.
Lemma sqr_digit_ok : sqr_check = true -> half_mask W = Some (N.ones (N.of_nat (W / 2))) /\
  forall v, deg_lt v (W / 2) -> sqr_digit W v = Some (v (x) v).
Proof using HW.
  unfold sqr_check, sqr_digit. destruct (half_mask W) as [mask|]; [|discriminate]. cbn [bind]. destruct (smasks (S W) W mask) as [ms|] eqn:E; [|discriminate].
  intro H. apply andb_true_iff in H. destruct H as [H B]. apply andb_true_iff in H. destruct H as [H G]. apply N.eqb_eq in H. split; [congruence|].
  intros v Hv. rewrite (sqr_loop_masks _ _ _ v _ E). f_equal. rewrite (sstep_lin ms _ v G).
  2:{ intros k Hk. rewrite coef_ones. apply Nat.ltb_lt. destruct (Nat.lt_ge_cases k (W / 2)) as [|L]; [assumption|]. rewrite (Hv _ L) in Hk. discriminate. }
  assert (K: forall k, k <= W / 2 -> fold_left sstep' ms (v mod 2 ^ N.of_nat k)%N = (v mod 2 ^ N.of_nat k)%N (x) (v mod 2 ^ N.of_nat k)%N).
  { induction k as [|k IH]; intro L; [rewrite mod_0; apply sstep'_0|]. rewrite mod_S, sstep'_xor, gm_sqr_xor, IH by lia. f_equal.
    destruct (coef v k); [|apply sstep'_0]. rewrite <- X_add. rewrite <- (sstep_lin ms _ (X k) G).
    - rewrite forallb_forall in B. apply N.eqb_eq. apply B. apply in_seq. lia.
    - intros i Hi. rewrite coef_X in Hi. apply Nat.eqb_eq in Hi. subst i. rewrite coef_ones. apply Nat.ltb_lt. lia. }
  specialize (K (W / 2) (le_n _)). rewrite (mod_deg v _ Hv) in K. exact K.
Qed.

(* ---- sqr(digit_t *, size) ---- *)
Hypothesis Hev : W = W / 2 + W / 2.
Hypothesis Hsq : sqr_check = true.
Lemma sqr_array_ok : forall val size, 2 * size <= length val -> dg val ->
  exists val', sqr_array W val size = Some val' /\ frame val val' 0 (2 * size) /\
    reg val' 0 (2 * size) = reg val 0 size (x) reg val 0 size.
Proof using HW Hev Hsq.
  intros val size Hl Dv. destruct (sqr_digit_ok Hsq) as [HM HD]. unfold sqr_array. rewrite HM. cbn [bind]. set (H := W / 2) in *.
  set (lo := fun k => (at_ val k mod 2 ^ N.of_nat H)%N). set (hi := fun k => N.shiftr (at_ val k) (N.of_nat H)).
  assert (Dlo: forall k, deg_lt (lo k) H) by (intro; apply deg_mod).
  assert (Dhi: forall k, deg_lt (hi k) H). { intro k. unfold hi. apply shr_deg. rewrite <- Hev. apply Dv. }
  assert (DD: forall v, deg_lt v H -> deg_lt (v (x) v) W). { intros v Hv. apply (deg_gm' v v H H); [exact Hv|exact Hv|lia]. }
  match goal with |- context [floop ?b 0 size val] => destruct (floop_inv (list N) (fun i o => frame val o 0 (2 * size) /\
     (forall k, k < size - i -> at_ o k = at_ val k) /\
     (forall k, size - i <= k < size -> at_ o (2 * k) = lo k (x) lo k /\ at_ o (2 * k + 1) = hi k (x) hi k)) b size val) as (o & E & F & _ & G) end.
  - split; [apply frame_refl|]. split; [auto|intros; lia].
  - intros i o Hi (F & LO & HI). set (k := size - i - 1). pose proof F as (FL & FO & FD). rewrite rd_at by lia. cbn [bind].
    rewrite (LO k) by lia.
    assert (EA: N.land (at_ val k) (N.ones (N.of_nat H)) = lo k) by apply N.land_ones.
    rewrite EA, HD by apply Dlo. cbn [bind].
    destruct (wr_frame W o (k * 2) (lo k (x) lo k)) as (o1 & E1 & F1 & V1); [lia|apply DD, Dlo|]. rewrite E1. cbn [bind].
    rewrite dshr_ok by lia. cbn [bind]. fold (hi k). rewrite HD by apply Dhi. cbn [bind].
    pose proof F1 as (FL1 & FO1 & FD1).
    destruct (wr_frame W o1 (k * 2 + 1) (hi k (x) hi k)) as (o2 & E2 & F2 & V2); [lia|apply DD, Dhi|]. exists o2. split; [exact E2|]. pose proof F2 as (FL2 & FO2 & FD2). split.
    + apply (frame_trans W _ o); [exact F|]. apply (frame_trans W _ o1); [apply (frame_sub W _ _ (k * 2) 1); [exact F1|lia|lia]|apply (frame_sub W _ _ (k * 2 + 1) 1); [exact F2|lia|lia]].
    + split.
      * intros j Hj. rewrite FO2, FO1 by lia. apply LO. lia.
      * intros j Hj. destruct (Nat.eq_dec j k) as [->|NE].
        -- replace (2 * k) with (k * 2) by lia. split; [rewrite FO2 by lia; exact V1|exact V2].
        -- rewrite !FO2, !FO1 by lia. apply HI. lia.
  - exists o. split; [exact E|]. split; [exact F|].
    assert (EX: X W = X H (x) X H) by (rewrite <- X_add; f_equal; exact Hev).
    assert (K: forall s, s <= size -> reg o 0 (2 * s) = reg val 0 s (x) reg val 0 s).
    { induction s as [|s IH]; intro L; [reflexivity|]. replace (2 * S s) with (S (S (2 * s))) by lia. cbn [Poly2Proofs.reg]. rewrite IH by lia. cbn [plus].
      destruct (G s ltac:(lia)) as [G1 G2]. replace (s + (s + 0)) with (2 * s) by lia. rewrite G1. replace (S (2 * s)) with (2 * s + 1) by lia. rewrite G2.
      rewrite gm_sqr_xor. rewrite (split_at (at_ val s) H). fold (lo s) (hi s). 
      replace (W * (2 * s + 1)) with (W * s + W * s + W) by lia. replace (W * (2 * s)) with (W * s + W * s) by lia. rewrite !X_add, EX. ring. }
    apply K. lia.
Qed.
End Bits.
