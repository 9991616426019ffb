From Verif Require Import Base RingModel RingProofs SeqProofs BitsProofs UIntProofs QrngSpec Gen4Proofs GenProofs Qrng2Proofs SobolModel SobolSpec.
Ltac Zify.zify_post_hook ::= idtac.

Lemma for_inv : forall A (f : nat -> A -> lres A) (P : nat -> A -> Prop) n from a, P from a ->
  (forall i x, (from <= i < from + n)%nat -> P i x -> exists y, f i x = LOk y /\ P (S i) y) ->
  exists y, for_ from n f a = LOk y /\ P (from + n)%nat y.
Proof.
  intros A f P. induction n as [|n IH]; intros from a H0 HS; cbn [for_].
  - exists a. rewrite Nat.add_0_r. split; [reflexivity|exact H0].
  - destruct (HS from a ltac:(lia) H0) as (y & E & Py). rewrite E. cbn [lbind].
    destruct (IH (S from) y Py) as (y2 & E2 & P2); [intros i x Hi; apply HS; lia|].
    exists y2. split; [exact E2|]. rewrite Nat.add_succ_r. exact P2.
Qed.

(* the array as a matrix *)
Definition rep2 (w D : nat) (cj : list Z) (f : nat -> nat -> Z) : Prop :=
  length cj = (w * D)%nat /\ forall k d, (k < w)%nat -> (d < D)%nat -> get cj (D * k + d) = Some (f k d).

Lemma idx_in : forall w D k d, (k < w)%nat -> (d < D)%nat -> (D * k + d < w * D)%nat.
Proof. intros w D k d Hk Hd. assert (S k * D <= w * D)%nat by (apply Nat.mul_le_mono_r; lia). lia. Qed.

Lemma idx_inj : forall D k d k' d', (d < D)%nat -> (d' < D)%nat -> (D * k + d = D * k' + d')%nat -> k = k' /\ d = d'.
Proof.
  intros D k d k' d' H H' E. assert (K : k = k').
  { destruct (Nat.lt_trichotomy k k') as [L|[L|L]]; [|exact L|]; exfalso.
    - assert (D * S k <= D * k')%nat by (apply Nat.mul_le_mono_l; lia). lia.
    - assert (D * S k' <= D * k)%nat by (apply Nat.mul_le_mono_l; lia). lia. }
  subst k'. split; [reflexivity|lia].
Qed.

Definition fset (f : nat -> nat -> Z) (k d : nat) (v : Z) : nat -> nat -> Z :=
  fun k' d' => if (k' =? k)%nat && (d' =? d)%nat then v else f k' d'.

Lemma rep2_upd : forall w D cj f k d v, rep2 w D cj f -> (k < w)%nat -> (d < D)%nat ->
  exists cj', lopt (upd cj (D * k + d) v) = LOk cj' /\ rep2 w D cj' (fset f k d v).
Proof.
  intros w D cj f k d v [HL H] Hk Hd. pose proof (idx_in w D k d Hk Hd) as HI.
  rewrite upd_some by lia. eexists. split; [reflexivity|]. split.
  - rewrite app_length, firstn_length. cbn [length]. rewrite skipn_length. lia.
  - intros k' d' Hk' Hd'. unfold get. rewrite upd_nth by lia. unfold fset.
    destruct (Nat.eqb_spec (D * k' + d') (D * k + d)) as [E|E].
    + destruct (idx_inj D k' d' k d Hd' Hd E) as [-> ->]. rewrite !Nat.eqb_refl. reflexivity.
    + destruct (Nat.eqb_spec k' k) as [E1|E1]; [|apply H; assumption].
      destruct (Nat.eqb_spec d' d) as [E2|E2]; [subst; lia|apply H; assumption].
Qed.

Lemma rep2_get : forall w D cj f k d, rep2 w D cj f -> (k < w)%nat -> (d < D)%nat -> lopt (get cj (D * k + d)) = LOk (f k d).
Proof. intros w D cj f k d [_ H] Hk Hd. rewrite H by assumption. reflexivity. Qed.

Lemma rep2_zero : forall w D, rep2 w D (repeat 0 (w * D)) (fun _ _ => 0).
Proof.
  intros w D. split; [apply repeat_length|]. intros k d Hk Hd. unfold get. pose proof (idx_in w D k d Hk Hd).
  rewrite (nth_error_nth' _ 0) by (rewrite repeat_length; lia). rewrite nth_repeat. reflexivity.
Qed.

Lemma xors_ext : forall n f g, (forall k, (k < n)%nat -> f k = g k) -> xors n f = xors n g.
Proof.
  induction n as [|n IH]; intros f g H; cbn [xors]; [reflexivity|]. rewrite (IH f g) by (intros; apply H; lia). rewrite H by lia. reflexivity.
Qed.

Lemma xors_rng : forall n f w, 0 <= w -> (forall k, (k < n)%nat -> 0 <= f k < 2 ^ w) -> 0 <= xors n f < 2 ^ w.
Proof.
  induction n as [|n IH]; intros f w Hw H; cbn [xors]; [pose proof (pos_pow w Hw); lia|].
  apply BitsProofs.lxor_range; [exact Hw|apply IH; [exact Hw|]|]; intros; apply H; lia.
Qed.

Lemma xors_even : forall n f, (forall k, (k < n)%nat -> Z.odd (f k) = false) -> Z.odd (xors n f) = false.
Proof.
  induction n as [|n IH]; intros f H; cbn [xors]; [reflexivity|].
  rewrite <- Z.bit0_odd, Z.lxor_spec, !Z.bit0_odd, IH, H by (intros; try apply H; lia). reflexivity.
Qed.

(* the value computed for element j *)
Definition s_next (poly : Z) (deg j : nat) (m : nat -> Z) : Z :=
  Z.lxor (m (j - deg)%nat)
    (xors deg (fun k => if Z.testbit poly (Z.of_nat k) then m (j - (deg - k))%nat * 2 ^ Z.of_nat (deg - k) else 0)).

Lemma s_next_ob : forall poly deg j m, (1 <= deg <= j)%nat -> odd_bounded m j -> Z.odd (s_next poly deg j m) = true /\ 0 <= s_next poly deg j m < 2 ^ (Z.of_nat j + 1).
Proof.
  intros poly deg j m Hd H. unfold s_next. split.
  - rewrite <- Z.bit0_odd, Z.lxor_spec, !Z.bit0_odd. rewrite (proj1 (H (j - deg)%nat ltac:(lia))).
    rewrite xors_even; [reflexivity|]. intros k Hk. destruct (Z.testbit poly (Z.of_nat k)); [|reflexivity].
    replace (Z.of_nat (deg - k)) with (Z.succ (Z.of_nat (deg - k - 1))) by lia. rewrite Z.pow_succ_r by lia.
    rewrite !Z.odd_mul. cbn [Z.odd andb]. apply Bool.andb_false_r.
  - apply BitsProofs.lxor_range; [lia| |].
    + destruct (H (j - deg)%nat ltac:(lia)) as [_ B]. split; [lia|]. apply Z.lt_le_trans with (2 ^ (Z.of_nat (j - deg) + 1)); [lia|]. apply Z.pow_le_mono_r; lia.
    + apply xors_rng; [lia|]. intros k Hk. pose proof (pos_pow (Z.of_nat j + 1) ltac:(lia)). destruct (Z.testbit poly (Z.of_nat k)); [|lia].
      destruct (H (j - (deg - k))%nat ltac:(lia)) as [_ B]. pose proof (pos_pow (Z.of_nat (deg - k)) ltac:(lia)).
      replace (Z.of_nat j + 1) with ((Z.of_nat (j - (deg - k)) + 1) + Z.of_nat (deg - k)) by lia. rewrite Z.pow_add_r by lia.
      split; [apply Z.mul_nonneg_nonneg; lia|]. apply Z.mul_lt_mono_pos_r; lia.
Qed.

Lemma testbit_land : forall p k, 0 <= k -> Z.land (Z.shiftr p k) 1 = if Z.testbit p k then 1 else 0.
Proof.
  intros p k Hk. change 1 with (Z.ones 1) at 1. rewrite Z.land_ones by lia. change (2 ^ 1) with 2. rewrite Zmod_odd, <- Z.bit0_odd, Z.shiftr_spec by lia. reflexivity.
Qed.

Lemma s_elem_ok : forall W w D dim poly deg j cj f, Z.of_nat w <= W -> rep2 w D cj f -> (dim < D)%nat -> (1 <= deg <= j)%nat -> (j < w)%nat ->
  odd_bounded (fun k => f k dim) j ->
  exists cj', s_elem W D dim poly deg j cj = LOk cj' /\ rep2 w D cj' (fset f j dim (s_next poly deg j (fun k => f k dim))).
Proof.
  intros W w D dim poly deg j cj f HW HR Hd Hj Hjw HB. unfold s_elem. rewrite (rep2_get w D cj f) by (assumption || lia). cbn [lbind].
  set (body := fun k v => _). set (t := fun k => if Z.testbit poly (Z.of_nat k) then f (j - (deg - k))%nat dim * 2 ^ Z.of_nat (deg - k) else 0).
  destruct (for_inv Z body (fun k v => v = Z.lxor (f (j - deg)%nat dim) (xors k t)) deg 0 (f (j - deg)%nat dim)) as (r & E & Er).
  - cbn [xors]. rewrite Z.lxor_0_r. reflexivity.
  - intros i x Hi Hx. unfold body. rewrite (rep2_get w D cj f) by (assumption || lia). cbn [lbind]. eexists. split; [reflexivity|].
    cbn [xors]. rewrite Hx, <- Z.lxor_assoc. f_equal. unfold t. rewrite testbit_land by lia.
    rewrite Z.shiftl_mul_pow2 by lia.
    assert (B : 0 <= f (j - (deg - i))%nat dim * 2 ^ Z.of_nat (deg - i) < 2 ^ W).
    { destruct (HB (j - (deg - i))%nat ltac:(lia)) as [_ B]. pose proof (pos_pow (Z.of_nat (deg - i)) ltac:(lia)).
      split; [apply Z.mul_nonneg_nonneg; lia|]. apply Z.lt_le_trans with (2 ^ (Z.of_nat j + 1)); [|apply Z.pow_le_mono_r; lia].
      replace (Z.of_nat j + 1) with ((Z.of_nat (j - (deg - i)) + 1) + Z.of_nat (deg - i)) by lia. rewrite Z.pow_add_r by lia.
      apply Z.mul_lt_mono_pos_r; lia. }
    destruct (Z.testbit poly (Z.of_nat i)).
    + rewrite Z.mul_1_l. apply wrap_small. exact B.
    + cbn [Z.mul]. apply wrap_small. lia.
  - rewrite E. cbn [lbind]. rewrite Er. apply rep2_upd; assumption.
Qed.

Definition agree (dim : nat) (f g : nat -> nat -> Z) : Prop := forall k d, d <> dim -> g k d = f k d.

Lemma agree_fset : forall dim f g j v, agree dim f g -> agree dim f (fset g j dim v).
Proof. intros dim f g j v H k d Hd. unfold fset. destruct (Nat.eqb_spec d dim); [contradiction|]. rewrite Bool.andb_false_r. apply H. exact Hd. Qed.

Lemma fset_same : forall g j dim v, fset g j dim v j dim = v.
Proof. intros. unfold fset. rewrite !Nat.eqb_refl. reflexivity. Qed.
Lemma fset_row : forall g j dim v k, k <> j -> fset g j dim v k dim = g k dim.
Proof. intros. unfold fset. destruct (Nat.eqb_spec k j); [contradiction|]. reflexivity. Qed.

Lemma s_next_ext : forall poly deg j m m', (1 <= deg <= j)%nat -> (forall k, (k < j)%nat -> m k = m' k) -> s_next poly deg j m = s_next poly deg j m'.
Proof.
  intros poly deg j m m' Hd H. unfold s_next. rewrite H by lia. f_equal. apply xors_ext. intros k Hk. rewrite H by lia. reflexivity.
Qed.

Lemma s_column_ok : forall W w D T dim cj f, Z.of_nat w <= W -> rep2 w D cj f -> (1 <= dim < D)%nat ->
  2 <= t_poly T (dim - 1) < 2 ^ W -> (Z.to_nat (Z.log2 (t_poly T (dim - 1))) <= w)%nat ->
  odd_bounded (t_minit T (dim - 1)) (Z.to_nat (Z.log2 (t_poly T (dim - 1)))) ->
  exists cj' f', s_column W w D T dim cj = LOk cj' /\ rep2 w D cj' f' /\ agree dim f f' /\
    sobol_numbers (t_poly T (dim - 1)) (t_minit T (dim - 1)) (fun k => f' k dim) w /\ odd_bounded (fun k => f' k dim) w.
Proof.
  intros W w D T dim cj f HW HR Hdim Hp Hdeg HB. unfold s_column. set (poly := t_poly T (dim - 1)) in *.
  destruct (Z.ltb_spec (2 ^ W - 1) poly); [lia|]. unfold msb. destruct (Z.eqb_spec poly 0); [lia|]. cbn [lbind].
  set (deg := Z.to_nat (Z.log2 poly)) in *. set (init := t_minit T (dim - 1)) in *.
  assert (HG : (1 <= deg)%nat). { assert (1 <= Z.log2 poly) by (apply Z.log2_le_pow2; change (2 ^ 1) with 2; lia). unfold deg. lia. }
  match goal with |- context [for_ 0 deg ?b cj] => set (b1 := b) end.
  destruct (for_inv _ b1 (fun i c => exists g, rep2 w D c g /\ agree dim f g /\ forall k, (k < i)%nat -> g k dim = init k) deg 0 cj) as (c1 & E1 & g1 & R1 & A1 & I1).
  - exists f. split; [exact HR|]. split; [intros k d _; reflexivity|lia].
  - intros i x Hi (g & R & A & I). unfold b1.
    destruct (HB i ltac:(lia)) as [_ B].
    assert (EW : wrap W (init i) = init i). { apply wrap_small. split; [lia|]. apply Z.lt_le_trans with (2 ^ (Z.of_nat i + 1)); [lia|]. apply Z.pow_le_mono_r; lia. }
    rewrite EW. destruct (rep2_upd w D x g i dim (init i) R ltac:(lia) ltac:(lia)) as (y & Ey & Ry).
    exists y. split; [exact Ey|]. exists (fset g i dim (init i)). split; [exact Ry|]. split; [apply agree_fset; exact A|].
    intros k Hk. destruct (Nat.eq_dec k i) as [->|N]; [apply fset_same|]. rewrite fset_row by exact N. apply I. lia.
  - cbn [Nat.add] in I1. rewrite E1. cbn [lbind].
    destruct (for_inv _ (s_elem W D dim poly deg) (fun i c => exists g, rep2 w D c g /\ agree dim f g /\
       (forall k, (k < deg)%nat -> g k dim = init k) /\
       (forall j, (deg <= j < i)%nat -> g j dim = s_next poly deg j (fun k => g k dim)) /\ odd_bounded (fun k => g k dim) i) (w - deg) deg c1) as (c2 & E2 & g2 & R2 & A2 & I2 & J2 & B2).
    + exists g1. split; [exact R1|]. split; [exact A1|]. split; [exact I1|]. split; [lia|]. intros k Hk. cbn beta. rewrite I1 by exact Hk. apply HB. exact Hk.
    + intros i x Hi (g & R & A & I & J & B). destruct (s_elem_ok W w D dim poly deg i x g HW R ltac:(lia) ltac:(lia) ltac:(lia) B) as (y & Ey & Ry).
      set (v := s_next poly deg i (fun k => g k dim)) in *. exists y. split; [exact Ey|]. exists (fset g i dim v). split; [exact Ry|].
      split; [apply agree_fset; exact A|]. split; [intros k Hk; rewrite fset_row by lia; apply I; exact Hk|]. split.
      * intros j Hj. rewrite (s_next_ext poly deg j _ (fun k => g k dim)) by (try lia; intros k Hk; apply fset_row; lia).
        destruct (Nat.eq_dec j i) as [->|N]; [apply fset_same|]. rewrite fset_row by exact N. apply J. lia.
      * intros k Hk. cbn beta. destruct (Nat.eq_dec k i) as [->|N].
        -- rewrite fset_same. apply s_next_ob; [lia|exact B].
        -- rewrite fset_row by exact N. apply B. lia.
    + exists c2, g2. split; [exact E2|]. split; [exact R2|]. split; [exact A2|]. replace (deg + (w - deg))%nat with w in * by lia. split; [|exact B2].
      split; [exact I2|exact J2].
Qed.

Lemma s_shift_ok : forall W w D p cj f, rep2 w D cj f -> (1 <= p < w)%nat ->
  exists cj', s_shift W w D p cj = LOk cj' /\
    rep2 w D cj' (fun k d => if (k =? w - 1 - p)%nat then wrap W (Z.shiftl (f k d) (Z.of_nat p)) else f k d).
Proof.
  intros W w D p cj f HR Hp. unfold s_shift. match goal with |- context [for_ 0 D ?b cj] => set (b1 := b) end.
  destruct (for_inv _ b1 (fun i c => rep2 w D c (fun k d => if (k =? w - 1 - p)%nat && (d <? i)%nat then wrap W (Z.shiftl (f k d) (Z.of_nat p)) else f k d)) D 0 cj) as (c1 & E1 & R1).
  - destruct HR as [HL H]. split; [exact HL|]. intros k d Hk Hd. rewrite H by assumption. rewrite (proj2 (Nat.ltb_ge d 0)) by lia. rewrite Bool.andb_false_r. reflexivity.
  - intros i x Hi R. unfold b1. rewrite (rep2_get w D x _ (w - 1 - p) i R) by lia. cbn [lbind].
    rewrite Nat.eqb_refl, Nat.ltb_irrefl. cbn [andb].
    destruct (rep2_upd w D x _ (w - 1 - p) i (wrap W (Z.shiftl (f (w - 1 - p)%nat i) (Z.of_nat p))) R ltac:(lia) ltac:(lia)) as (y & Ey & HL & Hy).
    exists y. split; [exact Ey|]. split; [exact HL|]. intros k d Hk Hd. rewrite Hy by assumption. f_equal. unfold fset.
    destruct (Nat.eqb_spec k (w - 1 - p)) as [->|N]; [|reflexivity]. cbn [andb].
    destruct (Nat.eqb_spec d i) as [->|N]; [rewrite (proj2 (Nat.ltb_lt i (S i))) by lia; reflexivity|].
    destruct (Nat.ltb_spec d i), (Nat.ltb_spec d (S i)); try lia; reflexivity.
  - exists c1. split; [exact E1|]. destruct R1 as [HL H]. split; [exact HL|]. intros k d Hk Hd. rewrite H by assumption.
    rewrite (proj2 (Nat.ltb_lt d (0 + D))) by lia. rewrite Bool.andb_true_r. reflexivity.
Qed.

Lemma rep2_direction : forall w D cj f k d, rep2 w D cj f -> (k < w)%nat -> (d < D)%nat -> direction cj D d (Z.of_nat k) = f k d.
Proof.
  intros w D cj f k d [_ H] Hk Hd. unfold direction. rewrite Nat2Z.id. apply nth_error_nth. rewrite (Nat.mul_comm k D). apply H; assumption.
Qed.

(* the tables are usable for dimension D *)
Definition table_ok (W : Z) (w : nat) (T : stables) (D : nat) : Prop :=
  forall dim, (1 <= dim < D)%nat -> 2 <= t_poly T (dim - 1) < 2 ^ W /\ (Z.to_nat (Z.log2 (t_poly T (dim - 1))) <= w)%nat /\
    odd_bounded (t_minit T (dim - 1)) (Z.to_nat (Z.log2 (t_poly T (dim - 1)))).

Lemma sobol_lattice_ok : forall W w T D, (1 <= w)%nat -> Z.of_nat w <= W -> (1 <= D)%nat -> Z.of_nat D <= t_maxdim T -> table_ok W w T D ->
  exists lat m, sobol_lattice W w T D = LOk lat /\ length lat = (w * D)%nat /\
    (forall k, (k < w)%nat -> m 0%nat k = 1) /\
    forall dim, (dim < D)%nat ->
      ((1 <= dim)%nat -> sobol_numbers (t_poly T (dim - 1)) (t_minit T (dim - 1)) (m dim) w) /\
      odd_bounded (m dim) w /\
      forall k, (k < w)%nat -> direction lat D dim (Z.of_nat k) = m dim k * 2 ^ Z.of_nat (w - 1 - k).
Proof.
  intros W w T D Hw HW HD HM HT. unfold sobol_lattice. destruct (Nat.eqb_spec D 0); [lia|]. destruct (Z.ltb_spec (t_maxdim T) (Z.of_nat D)); [lia|]. cbn [orb].
  match goal with |- context [for_ 0 w ?b ?c] => set (b1 := b) end.
  destruct (for_inv _ b1 (fun i c => exists f, rep2 w D c f /\ forall k, (k < i)%nat -> f k 0%nat = 1) w 0 (repeat 0 (w * D))) as (c1 & E1 & f1 & R1 & F1).
  { exists (fun _ _ => 0). split; [apply rep2_zero|lia]. }
  { intros i x Hi (f & R & F). unfold b1. destruct (rep2_upd w D x f i 0 1 R ltac:(lia) ltac:(lia)) as (y & Ey & Ry). rewrite Nat.add_0_r in Ey.
    exists y. split; [exact Ey|]. exists (fset f i 0 1). split; [exact Ry|]. intros k Hk. destruct (Nat.eq_dec k i) as [->|N]; [apply fset_same|]. rewrite fset_row by exact N. apply F. lia. }
  cbn [Nat.add] in F1. rewrite E1. cbn [lbind].
  set (good := fun (f : nat -> nat -> Z) dim => ((1 <= dim)%nat -> sobol_numbers (t_poly T (dim - 1)) (t_minit T (dim - 1)) (fun k => f k dim) w) /\ odd_bounded (fun k => f k dim) w).
  destruct (for_inv _ (s_column W w D T) (fun i c => exists f, rep2 w D c f /\ (forall k, (k < w)%nat -> f k 0%nat = 1) /\ forall d, (d < i)%nat -> good f d) (D - 1) 1 c1) as (c2 & E2 & f2 & R2 & F2 & G2).
  { exists f1. split; [exact R1|]. split; [exact F1|]. intros d Hd. assert (d = 0)%nat by lia. subst d. split; [lia|].
    intros k Hk. cbn beta. rewrite F1 by exact Hk. split; [reflexivity|]. split; [lia|]. change 1 with (2 ^ 0) at 1. apply Z.pow_lt_mono_r; lia. }
  { intros i x Hi (f & R & F & G). destruct (HT i ltac:(lia)) as (T1 & T2 & T3).
    destruct (s_column_ok W w D T i x f HW R ltac:(lia) T1 T2 T3) as (y & f' & Ey & Ry & A & S1 & S2). exists y. split; [exact Ey|]. exists f'.
    split; [exact Ry|]. split; [intros k Hk; rewrite A by lia; apply F; exact Hk|]. intros d Hd. destruct (Nat.eq_dec d i) as [->|N]; [split; [intros _; exact S1|exact S2]|].
    destruct (G d ltac:(lia)) as [G1 G3]. split.
    - intros H1. destruct (G1 H1) as [Ga Gb]. split; cbv zeta in *; [intros k Hk; rewrite A by exact N; apply Ga; exact Hk|].
      intros j Hj. rewrite A by exact N. rewrite Gb by exact Hj. rewrite A by exact N. f_equal. apply xors_ext. intros k _. rewrite A by exact N. reflexivity.
    - intros k Hk. cbn beta. rewrite A by exact N. apply G3. exact Hk. }
  rewrite E2. cbn [lbind]. replace (1 + (D - 1))%nat with D in * by lia.
  destruct (for_inv _ (s_shift W w D) (fun p c => rep2 w D c (fun k d => if (w - p <=? k)%nat then f2 k d * 2 ^ Z.of_nat (w - 1 - k) else f2 k d)) (w - 1) 1 c2) as (c3 & E3 & R3).
  { destruct R2 as [HL H2]. split; [exact HL|]. intros k d Hk Hd. rewrite H2 by assumption. f_equal. destruct (Nat.leb_spec (w - 1) k); [|reflexivity].
    replace (w - 1 - k)%nat with 0%nat by lia. cbn. lia. }
  { intros p x Hp R. destruct (s_shift_ok W w D p x _ R ltac:(lia)) as (y & Ey & HL & Hy). exists y. split; [exact Ey|]. split; [exact HL|].
    intros k d Hk Hd. rewrite Hy by assumption. f_equal. destruct (Nat.eqb_spec k (w - 1 - p)) as [E|N].
    - rewrite (proj2 (Nat.leb_gt (w - p) k)) by lia. rewrite (proj2 (Nat.leb_le (w - S p) k)) by lia.
      rewrite Z.shiftl_mul_pow2 by lia. replace (w - 1 - k)%nat with p by lia. apply wrap_small.
      destruct (G2 d Hd) as [_ B]. destruct (B k Hk) as [_ B1]. cbn beta in B1. pose proof (pos_pow (Z.of_nat p) ltac:(lia)).
      split; [apply Z.mul_nonneg_nonneg; lia|]. apply Z.lt_le_trans with (2 ^ Z.of_nat w); [|apply Z.pow_le_mono_r; lia].
      replace (Z.of_nat w) with ((Z.of_nat k + 1) + Z.of_nat p) by lia. rewrite Z.pow_add_r by lia. apply Z.mul_lt_mono_pos_r; lia.
    - destruct (Nat.leb_spec (w - p) k), (Nat.leb_spec (w - S p) k); try lia; reflexivity. }
  exists c3, (fun dim k => f2 k dim). split; [exact E3|]. split; [exact (proj1 R3)|]. split; [exact F2|].
  intros dim Hd. destruct (G2 dim Hd) as [Ga Gb]. split; [exact Ga|]. split; [exact Gb|]. intros k Hk.
  rewrite (rep2_direction w D c3 _ k dim R3 Hk Hd). cbn beta. rewrite (proj2 (Nat.leb_le (w - (1 + (w - 1))) k)) by lia. reflexivity.
Qed.
