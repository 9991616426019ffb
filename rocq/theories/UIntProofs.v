(* Proofs about generate_uniform_int. *)
From Verif Require Import Base ProgModel ProgSpec ProgProofs UIntModel UIntSpec.

Ltac Zify.zify_post_hook ::= idtac.

(* ---- pointwise equality of programs on valid draws ---- *)
Fixpoint peq {A} (bmin bmax : Z) (p q : prog A) : Prop :=
  match p, q with
  | PRet a, PRet b => a = b
  | PDraw k, PDraw l => forall v, bmin <= v <= bmax -> peq bmin bmax (k v) (l v)
  | PUB, PUB => True
  | PFuel, PFuel => True
  | _, _ => False
  end.

Fixpoint rets {A} (bmin bmax : Z) (p : prog A) (P : A -> Prop) : Prop :=
  match p with
  | PRet a => P a
  | PDraw k => forall v, bmin <= v <= bmax -> rets bmin bmax (k v) P
  | PUB | PFuel => True
  end.

Lemma peq_refl : forall A bmin bmax (p : prog A), peq bmin bmax p p.
Proof. induction p; simpl; auto. Qed.

Lemma peq_trans : forall A bmin bmax (p q r : prog A),
  peq bmin bmax p q -> peq bmin bmax q r -> peq bmin bmax p r.
Proof.
  induction p as [a|k IH| |]; destruct q; simpl; try tauto; destruct r; simpl; try tauto.
  - congruence.
  - intros H1 H2 v Hv. eapply IH; [apply H1 | apply H2]; exact Hv.
Qed.

Lemma peq_bind_r : forall A B bmin bmax (p q : prog A) (f g : A -> prog B) (P : A -> Prop),
  peq bmin bmax p q -> rets bmin bmax q P -> (forall a, P a -> peq bmin bmax (f a) (g a)) ->
  peq bmin bmax (pbind p f) (pbind q g).
Proof.
  induction p as [a|k IH| |]; destruct q; simpl; try tauto; intros f g P H1 H2 H3.
  - subst. apply H3. exact H2.
  - intros v Hv. apply IH with (P := P); auto.
Qed.

Lemma peq_bind : forall A B bmin bmax (p q : prog A) (f g : A -> prog B),
  peq bmin bmax p q -> (forall a, peq bmin bmax (f a) (g a)) ->
  peq bmin bmax (pbind p f) (pbind q g).
Proof.
  intros A B bmin bmax p q f g H1 H2. apply peq_bind_r with (P := fun _ => True); auto.
  clear. induction q; simpl; auto.
Qed.

Lemma rets_bind : forall A B bmin bmax (p : prog A) (f : A -> prog B) P Q,
  rets bmin bmax p P -> (forall a, P a -> rets bmin bmax (f a) Q) -> rets bmin bmax (pbind p f) Q.
Proof. induction p as [a|k IH| |]; simpl; intros; eauto. Qed.

Lemma rets_retry : forall A bmin bmax (att : prog (option A)) (P : A -> Prop) F,
  rets bmin bmax att (fun r => forall a, r = Some a -> P a) -> rets bmin bmax (retry F att) P.
Proof.
  induction F as [|F IH]; simpl; intros H; [exact I|].
  eapply rets_bind; [exact H|]. intros [a|] Ha; simpl; auto.
Qed.

Lemma peq_retry : forall A bmin bmax (p q : prog (option A)) F,
  peq bmin bmax p q -> peq bmin bmax (retry F p) (retry F q).
Proof.
  induction F as [|F IH]; simpl; intros H; [exact I|].
  apply peq_bind; [exact H|]. intros [a|]; simpl; auto.
Qed.

Lemma peq_exec : forall A bmin bmax (p q : prog A) ds,
  peq bmin bmax p q -> valid_draws bmin bmax ds -> exec p ds = exec q ds.
Proof.
  induction p as [a|k IH| |]; destruct q; simpl; try tauto; intros ds H Hd; try congruence.
  - destruct ds as [|v r]; [reflexivity|]. inversion Hd; subst. auto.
Qed.

Lemma rets_exec : forall A bmin bmax (p : prog A) (P : A -> Prop) ds a rest,
  rets bmin bmax p P -> valid_draws bmin bmax ds -> exec p ds = ORet a rest -> P a.
Proof.
  induction p as [a0|k IH| |]; simpl; intros P ds a rest HR Hd H; try discriminate.
  - injection H as -> ->. exact HR.
  - destruct ds as [|v r]; [discriminate|]. inversion Hd; subst.
    apply (IH v P r a rest); [apply HR; assumption | assumption | exact H].
Qed.

Lemma tuples_valid : forall bmin bmax n d, In d (tuples bmin bmax n) ->
  valid_draws bmin bmax d /\ length d = n.
Proof.
  induction n as [|n IH]; simpl; intros d Hd.
  - destruct Hd as [<-|[]]. split; [constructor|reflexivity].
  - apply in_flat_map in Hd. destruct Hd as (x & Hx & Hd). apply in_map_iff in Hd.
    destruct Hd as (y & <- & Hy). destruct (IH y Hy) as [H1 H2]. split; [|simpl; lia].
    constructor; [|exact H1]. unfold zrange in Hx. apply in_map_iff in Hx.
    destruct Hx as (i & <- & Hi). apply in_seq in Hi. lia.
Qed.

Lemma peq_count : forall bmin bmax p q n v,
  peq bmin bmax p q -> count bmin bmax p n v = count bmin bmax q n v.
Proof.
  intros bmin bmax p q n v H. unfold count.
  assert (G: forall d, In d (tuples bmin bmax n) -> returns p v d = returns q v d).
  { intros d Hd. unfold returns. rewrite (peq_exec _ bmin bmax p q); [reflexivity|exact H|].
    apply (tuples_valid _ _ n). exact Hd. }
  induction (tuples bmin bmax n) as [|d l IH]; [reflexivity|]. simpl.
  rewrite (G d) by (left; reflexivity).
  assert (K: length (filter (returns p v) l) = length (filter (returns q v) l)).
  { apply IH. intros e He. apply G. right. exact He. }
  destruct (returns q v d); simpl; lia.
Qed.

(* ---- machine arithmetic for any width ---- *)
Lemma wrap_small : forall w z, 0 <= z < 2 ^ w -> wrap w z = z.
Proof. intros. unfold wrap. apply Z.mod_small. assumption. Qed.

Lemma pow_half : forall b, 1 <= b -> 2 ^ b = 2 * 2 ^ (b - 1).
Proof. intros. rewrite <- Z.pow_succ_r by lia. f_equal. lia. Qed.

Lemma norm_in : forall t z, inT t z -> norm t z = Some z.
Proof.
  intros [b s] z [H1 H2]. unfold norm, imin, imax in *; cbn [bits sgn] in *. destruct s.
  - destruct (Z.leb_spec (- 2 ^ (b - 1)) z), (Z.leb_spec z (2 ^ (b - 1) - 1)); simpl; try lia; reflexivity.
  - rewrite Z.mod_small by lia. reflexivity.
Qed.

Lemma cast_in : forall t z, 1 <= bits t -> inT t z -> cast t z = z.
Proof.
  intros [b s] z Hb [H1 H2]. unfold cast, imin, imax in *; cbn [bits sgn] in *. destruct s.
  - rewrite (pow_half b) in * by lia. destruct (Z.le_gt_cases 0 z).
    + rewrite Z.mod_small by lia. destruct (Z.ltb_spec z (2 ^ (b - 1))); lia.
    + assert (E: z mod (2 * 2 ^ (b - 1)) = z + 2 * 2 ^ (b - 1)).
      { symmetry. apply Z.mod_unique with (q := -1); [left|]; lia. }
      rewrite E. destruct (Z.ltb_spec (z + 2 * 2 ^ (b - 1)) (2 ^ (b - 1))); lia.
  - apply Z.mod_small. lia.
Qed.

Lemma usub_ok : forall t x y, 2 <= bits t -> inT t x -> inT t y -> y <= x ->
  usub t x y = Some (x - y).
Proof.
  intros [b s] x y Hb Hx Hy Hle. unfold usub. simpl sgn. simpl in Hb.
  assert (HP: 0 < 2 ^ (b - 1)) by (apply Z.pow_pos_nonneg; lia).
  assert (HD: 2 ^ b = 2 * 2 ^ (b - 1)) by (apply pow_half; lia).
  destruct s.
  - destruct Hx as [Hx1 Hx2], Hy as [Hy1 Hy2]. unfold imin, imax in *; cbn [bits sgn] in *.
    destruct (Z.leb_spec 0 y).
    + unfold to_uns; cbn [bits sgn]. rewrite (Z.mod_small x), (Z.mod_small y), Z.mod_small by lia. reflexivity.
    + destruct (Z.leb_spec 0 x).
      * unfold addT, subT. rewrite norm_in by (unfold inT, imin, imax; cbn [bits sgn]; lia). cbn [bind].
        rewrite norm_in by (unfold inT, imin, imax; cbn [bits sgn]; lia). cbn [bind].
        unfold to_uns; cbn [bits sgn]. rewrite (Z.mod_small x), (Z.mod_small (0 - (y + 1))), Z.mod_small by lia.
        f_equal. lia.
      * unfold subT. rewrite norm_in by (unfold inT, imin, imax; cbn [bits sgn]; lia). cbn [bind].
        unfold to_uns; cbn [bits sgn]. rewrite Z.mod_small by lia. reflexivity.
  - destruct Hx as [Hx1 Hx2], Hy as [Hy1 Hy2]. unfold imin, imax in *; cbn [bits sgn] in *.
    unfold to_uns; cbn [bits sgn]. rewrite Z.mod_small by lia. reflexivity.
Qed.

Lemma uadd_ok : forall w1 t x y, 2 <= bits t -> 0 < w1 -> 0 <= x < 2 ^ w1 -> inT t y -> inT t (x + y) ->
  uadd w1 t x y = Some (x + y).
Proof.
  intros w1 [b s] x y Hb Hw Hx Hy Hxy. simpl in Hb.
  assert (HP: 0 < 2 ^ (b - 1)) by (apply Z.pow_pos_nonneg; lia).
  assert (HD: 2 ^ b = 2 * 2 ^ (b - 1)) by (apply pow_half; lia).
  assert (HW: 0 < 2 ^ w1) by (apply Z.pow_pos_nonneg; lia).
  unfold uadd, addT, subT. simpl sgn. unfold digits; simpl sgn.
  destruct s; cbn [andb].
  - pose proof Hy as [Hy1 Hy2]. pose proof Hxy as [Hs1 Hs2]. unfold imin, imax in *; cbn [bits sgn] in *.
    destruct (Z.leb_spec (b - 1) w1).
    + assert (HM: 2 ^ (b - 1) <= 2 ^ w1) by (apply Z.pow_le_mono_r; lia).
      destruct (Z.leb_spec 0 y).
      * rewrite cast_in; [|simpl; lia|unfold inT, imin, imax; cbn [bits sgn]; lia].
        rewrite norm_in; [f_equal; lia | unfold inT, imin, imax; cbn [bits sgn]; lia].
      * rewrite norm_in by (unfold inT, imin, imax; cbn [bits sgn]; lia). cbn [bind].
        rewrite norm_in by (unfold inT, imin, imax; cbn [bits sgn]; lia). cbn [bind].
        rewrite (wrap_small w1 (0 - (y + 1))) by lia.
        destruct (Z.ltb_spec (0 - (y + 1)) x).
        -- rewrite (wrap_small w1 (x - (0 - (y + 1)))) by lia.
           rewrite (wrap_small w1 (x - (0 - (y + 1)) - 1)) by lia.
           rewrite cast_in; [f_equal; lia | simpl; lia | unfold inT, imin, imax; cbn [bits sgn]; lia].
        -- rewrite cast_in; [|simpl; lia|unfold inT, imin, imax; cbn [bits sgn]; lia].
           apply norm_in; unfold inT, imin, imax; cbn [bits sgn]; lia.
    + assert (HM: 2 ^ w1 <= 2 ^ (b - 2)) by (apply Z.pow_le_mono_r; lia).
      assert (HM2: 2 ^ (b - 1) = 2 * 2 ^ (b - 2)) by (rewrite (pow_half (b - 1)) by lia; do 2 f_equal; lia).
      rewrite cast_in; [|simpl; lia|unfold inT, imin, imax; cbn [bits sgn]; lia].
      apply norm_in; unfold inT, imin, imax; cbn [bits sgn]; lia.
  - pose proof Hy as [Hy1 Hy2]. pose proof Hxy as [Hs1 Hs2]. unfold imin, imax in *; cbn [bits sgn] in *.
    rewrite cast_in; [|simpl; lia|unfold inT, imin, imax; cbn [bits sgn]; lia].
    apply norm_in; unfold inT, imin, imax; cbn [bits sgn]; lia.
Qed.

(* size of an interval of a type *)
Lemma inT_diff : forall t x y, 2 <= bits t -> inT t x -> inT t y -> x - y < 2 ^ bits t.
Proof.
  intros [b s] x y Hb [H1 H2] [H3 H4]. cbn [bits sgn] in *. unfold imin, imax in *; cbn [bits sgn] in *.
  rewrite (pow_half b) in * by lia. destruct s; lia.
Qed.

Lemma inT_between : forall t x y z, inT t x -> inT t y -> x <= z <= y -> inT t z.
Proof. unfold inT. intros. lia. Qed.

Lemma inT_utype : forall t z, 0 <= z < 2 ^ bits t -> inT (utype t) z.
Proof. intros. unfold inT, imin, imax, utype; simpl. lia. Qed.

(* ---- the mathematical content of the generator ---- *)
Definition dig (bmin : Z) : prog Z := PDraw (fun v => PRet (v - bmin)).

Fixpoint acc (bmin B : Z) (j : nat) (r m : Z) : prog Z :=
  match j with
  | O => PRet r
  | S j' => PDraw (fun v => acc bmin B j' (r + (v - bmin) * m) (m * B))
  end.

Definition small_att (bmin B R lo : Z) : prog (option Z) :=
  PDraw (fun v => let y := (v - bmin) / (B / (R + 1)) in
                  PRet (if y <=? R then Some (lo + y) else None)).

Definition pgen_small (F : nat) (bmin B R lo : Z) : prog Z :=
  if R =? 0 then PRet lo
  else if B - 1 =? R then PDraw (fun v => PRet (lo + (v - bmin)))
  else retry F (small_att bmin B R lo).

Definition big_att (F : nat) (bmin B : Z) (t : ity) (R lo : Z) (k : nat) : prog (option Z) :=
  r <~ acc bmin B k 0 1;;
  if B ^ Z.of_nat k =? R + 1 then PRet (Some (cast t r))
  else
    inc <~ pgen_small F bmin B (R / B ^ Z.of_nat k) 0;;
    let y := r + inc * B ^ Z.of_nat k in
    PRet (if y <=? R then Some (lo + y) else None).

(* ---- reduction of the code to it ---- *)

Lemma limit_ok : forall wr R br, 0 < wr -> 0 < br < R -> R < 2 ^ wr ->
  ui_limit wr R br = Some ((R + 1) / (br + 1)).
Proof.
  intros wr R br Hw Hb HR. unfold ui_limit.
  rewrite (wrap_small wr br) by lia. rewrite (wrap_small wr (br + 1)) by lia.
  destruct (Z.eqb_spec (br + 1) 0); [lia|].
  assert (HQ: 0 <= (R + 1) / (br + 1)) by (apply Z.div_pos; lia).
  destruct (Z.eqb_spec R (2 ^ wr - 1)) as [E|E].
  - pose proof (Z.div_mod R (br + 1) ltac:(lia)) as D.
    pose proof (Z.mod_pos_bound R (br + 1) ltac:(lia)) as M.
    destruct (Z.eqb_spec (R mod (br + 1)) br) as [E1|E1].
    + assert (E2: (R + 1) / (br + 1) = R / (br + 1) + 1).
      { symmetry. apply Z.div_unique with (r := 0); [left; lia|]. lia. }
      rewrite E2 in *. f_equal.
      apply wrap_small. split; [lia|]. rewrite <- E2.
      assert ((R + 1) / (br + 1) <= (R + 1) / 2) by (apply Z.div_le_compat_l; lia).
      assert ((R + 1) / 2 < R + 1) by (apply Z.div_lt; lia). lia.
    + f_equal. apply Z.div_unique with (r := R mod (br + 1) + 1); [left; lia|]. lia.
  - rewrite wrap_small by lia. reflexivity.
Qed.

Lemma bucket_ok : forall wb R br, 0 < wb -> 0 < R < br -> br < 2 ^ wb ->
  ui_bucket wb R br = Some ((br + 1) / (R + 1)).
Proof.
  intros wb R br Hw Hb HR.
  pose proof (limit_ok wb br R Hw ltac:(lia) HR) as H. unfold ui_limit in H. unfold ui_bucket.
  destruct (wrap wb (wrap wb R + 1) =? 0); [discriminate|exact H].
Qed.

Section Code.
Variables (tb : ity) (bmin bmax : Z).
Hypothesis Hb : eng_wf tb bmin bmax.
Let B := bmax - bmin + 1.

Lemma HB2 : 2 <= B.
Proof using Hb. destruct Hb as (_ & _ & _ & H). unfold B. lia. Qed.

Lemma eng_sub : forall v, bmin <= v <= bmax -> usub tb v bmin = Some (v - bmin).
Proof using Hb.
  intros v Hv. destruct Hb as (H1 & H2 & H3 & H4). apply usub_ok; try assumption; [|lia].
  apply inT_between with bmin bmax; assumption.
Qed.

Lemma HBw : B <= 2 ^ bits tb.
Proof using Hb.
  destruct Hb as (H1 & H2 & H3 & H4). pose proof (inT_diff tb bmax bmin H1 H3 H2). unfold B. lia.
Qed.

Lemma mul_step : forall x m, 0 <= x < B -> 0 < m -> 0 <= x * m <= B * m - m.
Proof. intros x m [H1 H2] Hm. split; [apply Z.mul_nonneg_nonneg; lia|].
  replace (B * m - m) with ((B - 1) * m) by ring. apply Z.mul_le_mono_nonneg_r; lia. Qed.

Lemma pow_ge_B : forall j m, (1 <= j)%nat -> 0 < m -> m * B <= m * B ^ Z.of_nat j.
Proof using Hb.
  intros j m Hj Hm. pose proof HB2. apply Z.mul_le_mono_nonneg_l; [lia|].
  rewrite <- (Z.pow_1_r B) at 1. apply Z.pow_le_mono_r; lia.
Qed.

Lemma pow_ge_BB : forall j m, (2 <= j)%nat -> 0 < m -> m * B < m * B ^ Z.of_nat j.
Proof using Hb.
  intros j m Hj Hm. pose proof HB2. apply Zmult_lt_compat_l; [lia|].
  rewrite <- (Z.pow_1_r B) at 1. apply Z.pow_lt_mono_r; lia.
Qed.

Lemma loop_peq : forall wr R, 0 < wr -> B - 1 < R < 2 ^ wr ->
  forall j fuel r m,
  0 < m -> 0 <= r < m -> m * B ^ Z.of_nat j <= R + 1 < m * B ^ Z.of_nat j * B ->
  (m * B ^ Z.of_nat j = R + 1 -> (1 <= j)%nat) -> (j < fuel)%nat ->
  peq bmin bmax (digit_loop fuel tb bmin wr R (B - 1) ((R + 1) / B) r m)
    (x <~ acc bmin B j r m;;
     PRet (if m * B ^ Z.of_nat j =? R + 1 then inl x else inr (x, m * B ^ Z.of_nat j))).
Proof using Hb.
  intros wr R Hw HR. pose proof HB2 as HB.
  induction j as [|j IH]; intros fuel r m Hm Hr HM Hex Hf; (destruct fuel as [|f]; [lia|]).
  - cbn [digit_loop acc pbind]. change (Z.of_nat 0) with 0 in *. rewrite Z.pow_0_r, Z.mul_1_r in *.
    destruct (Z.leb_spec m ((R + 1) / B)) as [L|L].
    + exfalso. pose proof (Z.mul_div_le (R + 1) B ltac:(lia)).
      assert (B * m <= B * ((R + 1) / B)) by (apply Z.mul_le_mono_nonneg_l; lia).
      assert (m = R + 1) by lia. specialize (Hex H1). lia.
    + cbn [peq]. destruct (Z.eqb_spec m (R + 1)) as [E|E]; [specialize (Hex E); lia|]. reflexivity.
  - cbn [digit_loop acc]. assert (Hp := pow_ge_B (S j) m ltac:(lia) Hm).
    assert (L: m <= (R + 1) / B) by (apply Z.div_le_lower_bound; lia).
    apply Z.leb_le in L. rewrite L. cbn [draw pbind peq]. intros v Hv.
    rewrite eng_sub by exact Hv. cbn [plift pbind].
    assert (Hx: 0 <= v - bmin < B) by (unfold B; lia).
    pose proof (mul_step (v - bmin) m Hx Hm) as Hxm.
    assert (HmB: m * 2 <= m * B) by (apply Z.mul_le_mono_nonneg_l; lia).
    rewrite (wrap_small wr (v - bmin)) by lia.
    rewrite (wrap_small wr ((v - bmin) * m)) by lia.
    rewrite (wrap_small wr (r + (v - bmin) * m)) by lia.
    rewrite (wrap_small wr (B - 1)) by lia.
    assert (Hm1: 0 <= m * (B - 1) <= R) by (replace (m * (B - 1)) with (m * B - m) by ring; lia).
    rewrite (wrap_small wr (m * (B - 1))) by lia.
    rewrite (wrap_small wr (R - m)) by lia.
    rewrite (wrap_small wr (R - m + 1)) by lia.
    assert (EqS: m * B ^ Z.of_nat (S j) = m * B * B ^ Z.of_nat j).
    { rewrite Nat2Z.inj_succ, Z.pow_succ_r by lia. ring. }
    destruct (Z.eqb_spec (m * (B - 1)) (R - m + 1)) as [E|E].
    + assert (E': m * B = R + 1) by (replace (m * B) with (m * (B - 1) + m) by ring; lia).
      assert (j = O).
      { destruct j as [|j']; [reflexivity|exfalso].
        pose proof (pow_ge_BB (S (S j')) m ltac:(lia) Hm). lia. }
      subst j. cbn [acc pbind peq]. rewrite EqS. change (Z.of_nat 0) with 0. rewrite Z.pow_0_r, Z.mul_1_r.
      rewrite E'. rewrite Z.eqb_refl. reflexivity.
    + assert (E': m * B <> R + 1) by (intro E'; apply E; replace (m * (B - 1)) with (m * B - m) by ring; lia).
      replace (B - 1 + 1) with B by ring.
      rewrite (wrap_small wr B) by lia. rewrite (wrap_small wr (m * B)) by lia.
      rewrite EqS. apply IH; try lia.
      * rewrite EqS in HM. exact HM.
      * intros E2. destruct j as [|j']; [|lia]. exfalso. apply E'.
        change (Z.of_nat 0) with 0 in E2. rewrite Z.pow_0_r, Z.mul_1_r in E2. exact E2.
Qed.
End Code.
