(* The direction numbers computed by niederreiter_base2_lattice. *)
From Coq Require Import NArith Ring.
From Verif Require Import Base RingModel RingProofs BitsProofs UIntProofs QrngSpec PolySpec PolyProofs MtJumpProofs NetSpec Gf2Proofs NetProofs Net2Proofs Net3Proofs
  SobolModel SobolProofs NiedTable NiedModel NiedSpec NiedTableProofs.
Open Scope nat_scope.
Open Scope gf_scope.
Ltac Zify.zify_post_hook ::= idtac.

(* ---- bitsets ---- *)
Lemma bs_set_ok : forall v i b, i < length v -> exists v', bs_set v i b = LOk v' /\ length v' = length v /\ forall k, nth k v' false = if k =? i then b else nth k v false.
Proof.
  intros v i b Hi. unfold bs_set. destruct (Nat.ltb_spec i (length v)); [|lia]. eexists. split; [reflexivity|]. split.
  - rewrite app_length, firstn_length. cbn [length]. rewrite skipn_length. lia.
  - intros k. destruct (Nat.lt_ge_cases k i) as [L|G].
    + rewrite app_nth1 by (rewrite firstn_length; lia). destruct (Nat.eqb_spec k i); [lia|]. rewrite <- (firstn_skipn i v) at 2. rewrite app_nth1 by (rewrite firstn_length; lia). reflexivity.
    + rewrite app_nth2 by (rewrite firstn_length; lia). rewrite firstn_length, Nat.min_l by lia. destruct (Nat.eqb_spec k i) as [->|N]; [rewrite Nat.sub_diag; reflexivity|].
      replace (k - i) with (S (k - S i)) by lia. cbn [nth]. rewrite <- (firstn_skipn (S i) v) at 2. rewrite app_nth2 by (rewrite firstn_length; lia). rewrite firstn_length, Nat.min_l by lia. reflexivity.
Qed.
Lemma bs_get_ok : forall v i, i < length v -> bs_get v i = LOk (nth i v false).
Proof. intros v i Hi. unfold bs_get. rewrite (nth_error_nth' v false Hi). reflexivity. Qed.
Lemma bs_resize_len : forall n v, length (bs_resize n v) = n.
Proof. intros. unfold bs_resize. rewrite app_length, firstn_length, repeat_length. lia. Qed.

Lemma mul_loop_ok : forall size P v pt, mul_loop size P (v mod 2 ^ N.of_nat size) (pt mod 2 ^ N.of_nat size) = ((pt (+) (Npos P (x) v)) mod 2 ^ N.of_nat size)%N.
Proof.
  intros size. assert (SH : forall v, bs_shl1 size (v mod 2 ^ N.of_nat size) = (N.double v mod 2 ^ N.of_nat size)%N).
  { intros v. unfold bs_shl1. apply coef_ext. intros k. rewrite !coef_mod. destruct (Nat.ltb_spec k size); [|reflexivity].
    destruct k as [|k]; [rewrite !coef_double0; reflexivity|]. rewrite !coef_double, coef_mod. destruct (Nat.ltb_spec k size); [reflexivity|lia]. }
  assert (XM : forall a b, ((a mod 2 ^ N.of_nat size) (+) (b mod 2 ^ N.of_nat size) = ((a (+) b) mod 2 ^ N.of_nat size))%N).
  { intros a b. apply coef_ext. intros k. rewrite coef_xor, !coef_mod. destruct (k <? size); [symmetry; apply coef_xor|reflexivity]. }
  induction P as [P IH|P IH|]; intros v pt; cbn [mul_loop].
  - rewrite SH, XM, IH. f_equal. change (Npos (xI P)) with (N.succ_double (Npos P)). rewrite gm_sd_l, gm_double_r. rewrite <- N.lxor_assoc. reflexivity.
  - rewrite SH, IH. f_equal. change (Npos (xO P)) with (N.double (Npos P)). rewrite gm_double_l, gm_double_r. reflexivity.
  - rewrite XM. reflexivity.
Qed.
Lemma multiply_ok : forall size P v, modulo2_multiply size P (v mod 2 ^ N.of_nat size) = ((P (x) v) mod 2 ^ N.of_nat size)%N.
Proof.
  intros size [|P] v; cbn [modulo2_multiply].
  - change (0%N (x) v) with 0%N. rewrite N.mod_0_l; [reflexivity|]. apply N.pow_nonzero. lia.
  - pose proof (mul_loop_ok size P v 0%N) as K. rewrite N.mod_0_l in K by (apply N.pow_nonzero; lia). rewrite K, N.lxor_0_l. reflexivity.
Qed.

Lemma scan_down_ok : forall h v d, has_deg v d -> d <= h -> scan_down h v = LOk d.
Proof.
  induction h as [|h IH]; intros v d HD L; cbn [scan_down]; destruct HD as [C D]; unfold coef in C.
  - assert (d = 0) by lia. subst. rewrite C. reflexivity.
  - destruct (Nat.eq_dec d (S h)) as [->|N]; [rewrite C; reflexivity|]. pose proof (D (S h) ltac:(lia)) as Z. unfold coef in Z. rewrite Z. apply IH; [split; assumption|lia].
Qed.
Lemma log2_ok : forall size v d, has_deg v d -> d < size -> bitset_log2 size v = LOk d.
Proof. intros size v d H L. unfold bitset_log2. destruct (N.eqb_spec v 0) as [E|_]; [exfalso; exact (has_deg_nz _ _ H E)|]. apply scan_down_ok; [exact H|lia]. Qed.

Lemma calculate_v_ok : forall pb size kj deg v, kj <= length v -> deg <= length v -> deg <= size ->
  exists v', calculate_v pb size kj deg v = LOk v' /\ length v' = length v /\ forall r, r < length v -> nth r v' false = vseq pb deg kj r.
Proof.
  intros pb size kj deg v Hk Hd Hs. unfold calculate_v.
  match goal with |- context [for_ 0 kj ?b v] => set (b1 := b) end.
  destruct (for_inv _ b1 (fun i x => length x = length v /\ forall r, r < i -> nth r x false = vseq pb deg kj r) kj 0 v) as (v1 & E1 & L1 & F1).
  { split; [reflexivity|lia]. }
  { intros i x Hi [L F]. destruct (bs_set_ok x i false ltac:(lia)) as (y & Ey & Ly & Ny). exists y. split; [exact Ey|]. split; [lia|]. intros r Hr. rewrite Ny.
    destruct (Nat.eqb_spec r i) as [->|N]; [|apply F; lia]. rewrite vseq_eq. unfold vnext. destruct (Nat.ltb_spec i kj); [reflexivity|lia]. }
  rewrite E1. cbn [lbind Nat.add] in *.
  match goal with |- context [for_ kj (deg - kj) ?b v1] => set (b2 := b) end.
  destruct (for_inv _ b2 (fun i x => length x = length v /\ forall r, r < i -> nth r x false = vseq pb deg kj r) (deg - kj) kj v1) as (v2 & E2 & L2 & F2).
  { split; [exact L1|exact F1]. }
  { intros i x Hi [L F]. destruct (bs_set_ok x i true ltac:(lia)) as (y & Ey & Ly & Ny). exists y. split; [exact Ey|]. split; [lia|]. intros r Hr. rewrite Ny.
    destruct (Nat.eqb_spec r i) as [->|N]; [|apply F; lia]. rewrite vseq_eq. unfold vnext. destruct (Nat.ltb_spec i kj); [lia|]. destruct (Nat.ltb_spec i deg); [reflexivity|lia]. }
  rewrite E2. cbn [lbind]. replace (kj + (deg - kj)) with (Nat.max kj deg) in F2 by lia. destruct (Nat.ltb_spec (length v2) (Nat.max kj deg)); [lia|].
  match goal with |- context [for_ (Nat.max kj deg) _ ?b v2] => set (b3 := b) end.
  destruct (for_inv _ b3 (fun i x => length x = length v /\ forall r, r < i -> nth r x false = vseq pb deg kj r) (length v2 - Nat.max kj deg) (Nat.max kj deg) v2) as (v3 & E3 & L3 & F3).
  { split; [exact L2|exact F2]. }
  { intros i x Hi [L F]. unfold b3. 
    match goal with |- context [for_ 0 deg ?b false] => set (b4 := b) end.
    destruct (for_inv _ b4 (fun k t => t = xsum k (fun k => coef pb k && vseq pb deg kj (i + k - deg))) deg 0 false) as (t & Et & Ft); [reflexivity| |].
    { intros k t Hk2 Ft. unfold b4. destruct (Nat.leb_spec size k); [lia|]. rewrite bs_get_ok by lia. cbn [lbind]. eexists. split; [reflexivity|]. cbn [xsum]. rewrite Ft, F by lia. reflexivity. }
    rewrite Et. cbn [lbind Nat.add] in *. destruct (bs_set_ok x i t ltac:(lia)) as (y & Ey & Ly & Ny). exists y. split; [exact Ey|]. split; [lia|]. intros r Hr. rewrite Ny.
    destruct (Nat.eqb_spec r i) as [->|N]; [|apply F; lia]. rewrite vseq_eq. unfold vnext. destruct (Nat.ltb_spec i kj); [lia|]. destruct (Nat.ltb_spec i deg); [lia|]. exact Ft. }
  exists v3. split; [exact E3|]. split; [exact L3|]. intros r Hr. apply F3. lia.
Qed.

(* ---- one column ---- *)
Definition jv (w b : nat) : Z := if b <? w then (2 ^ Z.of_nat (w - 1 - b))%Z else 0%Z.
Lemma jv_next : forall w b, b < w -> Z.shiftr (jv w b) 1 = jv w (S b).
Proof.
  intros w b H. unfold jv. destruct (Nat.ltb_spec b w); [|lia]. destruct (Nat.ltb_spec (S b) w).
  - rewrite Z.shiftr_div_pow2 by lia. change (2 ^ 1)%Z with 2%Z. replace (Z.of_nat (w - 1 - b)) with (Z.succ (Z.of_nat (w - 1 - S b))) by lia. rewrite Z.pow_succ_r by lia. rewrite Z.mul_comm. apply Z.div_mul. lia.
  - replace (w - 1 - b) with 0 by lia. reflexivity.
Qed.
Lemma jv_nz : forall w b, b < w -> (jv w b =? 0)%Z = false.
Proof. intros w b H. unfold jv. destruct (Nat.ltb_spec b w); [|lia]. apply Z.eqb_neq. apply Z.pow_nonzero; lia. Qed.

(* the digits b < b0 of column dim are R, the other columns are those of f0 *)
Definition colinv (w D dim : nat) (f0 : nat -> nat -> Z) (R : nat -> nat -> bool) (b0 : nat) (cj : list Z) : Prop :=
  exists f, rep2 w D cj f /\ agree dim f0 f /\ forall k, k < w -> (0 <= f k dim < 2 ^ Z.of_nat w)%Z /\ forall b, b < b0 -> Z.testbit (f k dim) (Z.of_nat (w - 1 - b)) = R b k.

Lemma setbit_val : forall w b0 num b, (0 <= num < 2 ^ Z.of_nat w)%Z -> b0 < w ->
  let r := Z.lor (Z.land num (Z.lnot (jv w b0))) (Z.land (- Z.b2z b) (jv w b0)) in
  (0 <= r < 2 ^ Z.of_nat w)%Z /\ forall c, c < w -> Z.testbit r (Z.of_nat (w - 1 - c)) = if c =? b0 then b else Z.testbit num (Z.of_nat (w - 1 - c)).
Proof.
  intros w b0 num b Hn Hb. unfold jv. destruct (Nat.ltb_spec b0 w); [|lia]. cbv zeta. set (e := w - 1 - b0).
  assert (T : forall i, (0 <= i)%Z -> Z.testbit (Z.lor (Z.land num (Z.lnot (2 ^ Z.of_nat e))) (Z.land (- Z.b2z b) (2 ^ Z.of_nat e))) i = if (Z.of_nat e =? i)%Z then b else Z.testbit num i).
  { intros i Hi. rewrite Z.lor_spec, !Z.land_spec, Z.lnot_spec, !Z.pow2_bits_eqb by lia. assert (B : Z.testbit (- Z.b2z b) i = b). { destruct b; [apply Z.bits_m1; exact Hi|apply Z.testbit_0_l]. }
    rewrite B. destruct (Z.of_nat e =? i)%Z; cbn [negb]; rewrite ?andb_true_r, ?andb_false_r, ?orb_false_r, ?orb_false_l; reflexivity. }
  split.
  - assert (N : (0 <= Z.lor (Z.land num (Z.lnot (2 ^ Z.of_nat e))) (Z.land (- Z.b2z b) (2 ^ Z.of_nat e)))%Z).
    { apply Z.lor_nonneg. split; apply Z.land_nonneg; [left; lia|right; apply Z.pow_nonneg; lia]. }
    split; [exact N|]. apply lt_pow2_bits; [lia|exact N|]. intros i Hi. rewrite T by lia. destruct (Z.eqb_spec (Z.of_nat e) i) as [E|_]; [lia|]. apply (bits_above _ (Z.of_nat w)); assumption.
  - intros c Hc. rewrite T by lia. destruct (Nat.eqb_spec c b0) as [->|N]; [unfold e; rewrite Z.eqb_refl; reflexivity|]. destruct (Z.eqb_spec (Z.of_nat e) (Z.of_nat (w - 1 - c))); [lia|reflexivity].
Qed.

Lemma n_block_ok : forall w D dim f0 R v n u b0 cj, dim < D -> colinv w D dim f0 R b0 cj -> b0 <= w ->
  (forall i k, i < n -> b0 + i < w -> k < w -> k + (u + i) < length v /\ nth (k + (u + i)) v false = R (b0 + i) k) ->
  exists cj', n_block w D dim v n u (jv w b0) cj = LOk (cj', jv w (Nat.min w (b0 + n))) /\ colinv w D dim f0 R (Nat.min w (b0 + n)) cj'.
Proof.
  intros w D dim f0 R v. induction n as [|n IH]; intros u b0 cj Hd HC Hb HR; cbn [n_block].
  - exists cj. rewrite Nat.add_0_r, Nat.min_r by lia. split; [reflexivity|exact HC].
  - destruct (Nat.eq_dec b0 w) as [->|N].
    + assert (J : jv w w = 0%Z) by (unfold jv; rewrite Nat.ltb_irrefl; reflexivity). rewrite J. cbn [Z.eqb]. exists cj. rewrite Nat.min_l by lia. rewrite J. split; [reflexivity|exact HC].
    + rewrite jv_nz by lia. match goal with |- context [for_ 0 w ?b cj] => set (bd := b) end. destruct HC as (f & HF & HA & HV).
      destruct (for_inv _ bd (fun i c => exists g, rep2 w D c g /\ agree dim f0 g /\ forall k, k < w -> (0 <= g k dim < 2 ^ Z.of_nat w)%Z /\
          (forall b, b < b0 -> Z.testbit (g k dim) (Z.of_nat (w - 1 - b)) = R b k) /\ (k < i -> Z.testbit (g k dim) (Z.of_nat (w - 1 - b0)) = R b0 k)) w 0 cj) as (c1 & E1 & g & G1 & G2 & G3).
      { exists f. split; [exact HF|]. split; [exact HA|]. intros k Hk. destruct (HV k Hk) as [A B]. split; [exact A|]. split; [exact B|lia]. }
      { intros r x Hr (g & G1 & G2 & G3). unfold bd. rewrite (rep2_get w D x g r dim G1) by lia. cbn [lbind].
        destruct (HR 0 r ltac:(lia) ltac:(lia) ltac:(lia)) as [Q1 Q2]. rewrite (Nat.add_0_r u) in Q1, Q2. rewrite (Nat.add_0_r b0) in Q2. rewrite bs_get_ok by exact Q1. cbn [lbind]. rewrite Q2.
        destruct (setbit_val w b0 (g r dim) (R b0 r) (proj1 (G3 r ltac:(lia))) ltac:(lia)) as [S1 S2].
        destruct (rep2_upd w D x g r dim (Z.lor (Z.land (g r dim) (Z.lnot (jv w b0))) (Z.land (- Z.b2z (R b0 r)) (jv w b0))) G1 ltac:(lia) Hd) as (y & Ey & Ry). exists y. split; [exact Ey|].
        eexists. split; [exact Ry|]. split; [apply agree_fset; exact G2|]. intros k Hk. destruct (Nat.eq_dec k r) as [->|NK].
        - rewrite fset_same. split; [exact S1|]. split.
          + intros b Hb'. rewrite S2 by lia. destruct (Nat.eqb_spec b b0); [lia|]. apply (G3 r Hk). exact Hb'.
          + intros _. rewrite S2 by lia. rewrite Nat.eqb_refl. reflexivity.
        - rewrite fset_row by exact NK. destruct (G3 k Hk) as (A & B & C). split; [exact A|]. split; [exact B|]. intros L. apply C. lia. }
      rewrite E1. cbn [lbind]. rewrite jv_next by lia. destruct (IH (S u) (S b0) c1 Hd) as (c2 & E2 & I2).
      * exists g. split; [exact G1|]. split; [exact G2|]. intros k Hk. destruct (G3 k Hk) as (A & B & C). split; [exact A|]. intros b Hb'. destruct (Nat.eq_dec b b0) as [->|NB]; [apply C; lia|apply B; lia].
      * lia.
      * intros i k Hi Hi2 Hk. specialize (HR (S i) k ltac:(lia) ltac:(lia) Hk). rewrite !Nat.add_succ_r in HR. cbn [Nat.add]. rewrite !Nat.add_succ_r. exact HR.
      * replace (b0 + S n) with (S b0 + n) by lia. exists c2. split; [exact E2|exact I2].
Qed.

Section Column.
Variables (w D dim : nat) (p : N) (e : nat).
Hypothesis Hw : 1 <= w.
Hypothesis Hd : dim < D.
Hypothesis PD : has_deg p e.
Hypothesis E1 : 1 <= e.
Hypothesis P0 : coef p 0 = true \/ e = 1.
Definition csize : nat := e * (w / e + 1).
(* the polynomial of the block q, and its degree *)
Definition cpoly (q : nat) : N := (gpow p (S q) mod 2 ^ N.of_nat csize)%N.
Definition cdeg (q : nat) : nat := N.to_nat (N.log2 (cpoly q)).
Definition crow (b k : nat) : bool := vseq (cpoly (b / e)) (cdeg (b / e)) (b / e * e) (k + b mod e).

Lemma size_w : w < csize /\ csize <= w + e /\ (csize = w + e -> csize = e * (w / e) + e /\ e * (w / e) = w).
Proof using Hw E1. clear Hd PD P0. unfold csize. pose proof (Nat.div_mod w e ltac:(lia)). pose proof (Nat.mod_upper_bound w e ltac:(lia)). lia. Qed.
Lemma gpow_0 : forall n, coef p 0 = true -> coef (gpow p n) 0 = true.
Proof. clear. intros n H. induction n as [|n IH]; [reflexivity|]. cbn [gpow]. rewrite (gm_product p (gpow p n) 0). cbn [xsum Nat.sub]. rewrite H, IH. reflexivity. Qed.
Lemma full_block : forall q, S q * e < csize -> cpoly q = gpow p (S q) /\ cdeg q = S q * e.
Proof using PD.
  clear Hd P0 Hw E1. intros q L. pose proof (gpow_deg p e (S q) PD) as G. assert (E : cpoly q = gpow p (S q)). { unfold cpoly. apply mod_deg. destruct G as [_ G]. apply (deg_mono _ _ _ G). lia. }
  split; [exact E|]. unfold cdeg. rewrite E. symmetry. apply (has_deg_uniq (gpow p (S q))); [exact G|apply has_deg_log, (has_deg_nz _ _ G)].
Qed.
Lemma cpoly_nz : forall q, q * e < w -> cpoly q <> 0%N.
Proof using PD P0 Hw E1.
  clear Hd.
  intros q L. destruct (Nat.lt_ge_cases (S q * e) csize) as [F|F].
  - rewrite (proj1 (full_block q F)). apply (has_deg_nz _ (S q * e)). apply gpow_deg. exact PD.
  - destruct P0 as [C|C].
    + intro Z. pose proof (coef_mod (gpow p (S q)) csize 0) as K. fold (cpoly q) in K. rewrite Z, coef_0, (gpow_0 _ C) in K. destruct (Nat.ltb_spec 0 csize); [discriminate K|]. pose proof size_w. lia.
    + pose proof size_w. unfold csize in *. rewrite C, Nat.div_1_r in *. lia.
Qed.
Lemma cdeg_ok : forall q, q * e < w -> has_deg (cpoly q) (cdeg q) /\ cdeg q < csize.
Proof using PD P0 Hw E1.
  clear Hd.
  intros q L. pose proof (has_deg_log _ (cpoly_nz q L)) as H. fold (cdeg q) in H. split; [exact H|]. apply (has_deg_lt _ _ _ H). apply deg_mod.
Qed.

Lemma n_loop_ok : forall fuel q f0 v cj, w < q * e + fuel + 1 -> q * e < w -> length v = e + w - 1 -> colinv w D dim f0 crow (q * e) cj ->
  exists cj' v', n_loop fuel w D dim p e csize (gpow p q mod 2 ^ N.of_nat csize)%N (q * e) (jv w (q * e)) v cj = LOk (cj', v') /\ colinv w D dim f0 crow w cj'.
Proof using Hw Hd PD E1 P0.
  induction fuel as [|fuel IH]; intros q f0 v cj HF L HL HC; [lia|]. cbn [n_loop]. cbv zeta. rewrite multiply_ok. change (p (x) gpow p q) with (gpow p (S q)). fold (cpoly q).
  destruct (cdeg_ok q L) as [CD CS]. pose proof size_w as SW.
  assert (DG : (if csize <=? q * e + e then bitset_log2 csize (cpoly q) else LOk (q * e + e)) = LOk (cdeg q)).
  { destruct (Nat.leb_spec csize (q * e + e)); [apply log2_ok; assumption|]. rewrite (proj2 (full_block q ltac:(lia))). f_equal. lia. }
  rewrite DG. cbn [lbind].
  assert (CL : cdeg q <= length v).
  { destruct (Nat.lt_ge_cases (S q * e) csize) as [F|F].
    - rewrite (proj2 (full_block q F)). rewrite HL. assert (S q * e <= e * (w / e)). { unfold csize in F. assert (S q < w / e + 1) by (apply (Nat.mul_lt_mono_pos_l e); lia). rewrite Nat.mul_comm. apply Nat.mul_le_mono_l. lia. }
      pose proof (Nat.mul_div_le w e ltac:(lia)). lia.
    - destruct (Nat.eq_dec csize (w + e)) as [EQ|NE]; [|rewrite HL; lia]. exfalso. destruct SW as (_ & _ & S3). destruct (S3 EQ) as [_ S4]. rewrite EQ in F. lia. }
  destruct (calculate_v_ok (cpoly q) csize (q * e) (cdeg q) v) as (v1 & E2 & L2 & F2); [lia|exact CL|lia|]. rewrite E2. cbn [lbind].
  destruct (n_block_ok w D dim f0 crow v1 e 0 (q * e) cj Hd HC ltac:(lia)) as (c1 & E3 & I3).
  { intros i k Hi Hi2 Hk. split; [lia|]. rewrite F2 by lia. unfold crow. rewrite Nat.div_add_l by lia. rewrite (Nat.div_small i e) by lia. rewrite Nat.add_0_r.
    rewrite (Nat.add_comm (q * e) i), Nat.mod_add by lia. rewrite (Nat.mod_small i e) by lia. reflexivity. }
  rewrite E3. cbn [lbind].
  destruct (Nat.le_gt_cases w (q * e + e)) as [LE|GT].
  - rewrite Nat.min_l in * by lia. assert (J : jv w w = 0%Z) by (unfold jv; rewrite Nat.ltb_irrefl; reflexivity). rewrite J. cbn [Z.eqb]. exists c1, v1. split; [reflexivity|exact I3].
  - rewrite Nat.min_r in * by lia. rewrite jv_nz by lia. assert (SQ : S q * e < csize) by lia. destruct (full_block q SQ) as [FB1 FB2].
    replace (q * e + e) with (S q * e) in * by lia. rewrite FB2. unfold cpoly. apply IH; try assumption; lia.
Qed.
End Column.

Definition ntable_ok (W : Z) (T : ntable) (D : nat) : Prop :=
  forall dim, dim < D -> (Z.of_N (n_poly T dim) < 2 ^ W)%Z /\ irreducible (n_poly T dim).
Definition ndeg (T : ntable) (dim : nat) : nat := N.to_nat (N.log2 (n_poly T dim)).

Lemma log2_N : forall p, Z.log2 (Z.of_N p) = Z.of_N (N.log2 p).
Proof. intros [|[p|p|]]; reflexivity. Qed.
Lemma irr_deg : forall p, irreducible p -> has_deg p (N.to_nat (N.log2 p)) /\ 1 <= N.to_nat (N.log2 p).
Proof.
  intros p [G _]. split; [apply has_deg_log; lia|]. assert (1 <= N.log2 p)%N by (apply N.log2_le_pow2; [lia|]; change (2 ^ 1)%N with 2%N; lia). lia.
Qed.
Lemma irr_0 : forall p, irreducible p -> coef p 0 = true \/ N.to_nat (N.log2 p) = 1.
Proof.
  intros p [G I]. destruct (coef p 0) eqn:C; [left; reflexivity|right].
  assert (E : p = 2%N (x) N.div2 p). { rewrite <- double_gm. unfold coef in C. rewrite N.double_spec. rewrite (N.div2_odd p) at 1. change (N.of_nat 0) with 0%N in C. rewrite N.bit0_odd in C. rewrite C. cbn [N.b2n]. lia. }
  destruct (I 2%N (N.div2 p)) as [A|A]; [apply product_gm; exact E|discriminate A|]. rewrite E, A. reflexivity.
Qed.

Lemma nied_lattice_ok : forall W w T D, 1 <= w -> 1 <= D -> (Z.of_nat D <= n_maxdim T)%Z -> ntable_ok W T D ->
  exists lat, nied_lattice W w T D = LOk lat /\ length lat = w * D /\
    forall dim k, dim < D -> k < w -> (0 <= direction lat D dim (Z.of_nat k) < 2 ^ Z.of_nat w)%Z /\
      forall b, b < w -> Z.testbit (direction lat D dim (Z.of_nat k)) (Z.of_nat (w - 1 - b)) = crow w (n_poly T dim) (ndeg T dim) b k.
Proof.
  intros W w T D Hw HD HM HT. unfold nied_lattice. destruct (Nat.eqb_spec D 0); [lia|]. destruct (Z.ltb_spec (n_maxdim T) (Z.of_nat D)); [lia|]. cbn [orb].
  destruct (for_inv _ (n_column W w D T) (fun i st => exists f, rep2 w D (fst st) f /\ forall dim, (dim < D -> i <= dim -> forall k, f k dim = 0%Z) /\
     (dim < i -> forall k, k < w -> (0 <= f k dim < 2 ^ Z.of_nat w)%Z /\ forall b, b < w -> Z.testbit (f k dim) (Z.of_nat (w - 1 - b)) = crow w (n_poly T dim) (ndeg T dim) b k)) D 0 (repeat 0%Z (w * D), [])) as ([cj v] & E & f & R & F).
  { exists (fun _ _ => 0%Z). split; [apply rep2_zero|]. intros dim. split; [reflexivity|lia]. }
  { intros i [cj v] Hi (f & R & F). cbn [fst] in R. destruct (HT i ltac:(lia)) as [T1 T2]. destruct (irr_deg _ T2) as [PD E1]. unfold n_column.
    destruct (Z.ltb_spec (2 ^ W - 1) (Z.of_N (n_poly T i))); [lia|]. unfold msb. assert (Z.of_N (n_poly T i) <> 0)%Z. { intro Z. apply (has_deg_nz _ _ PD). lia. }
    destruct (Z.eqb_spec (Z.of_N (n_poly T i)) 0); [contradiction|]. cbn [lbind]. cbv zeta.
    assert (LG : Z.to_nat (Z.log2 (Z.of_N (n_poly T i))) = ndeg T i). { unfold ndeg. rewrite log2_N. lia. }
    rewrite LG. fold (ndeg T i) in PD, E1. destruct (Nat.eqb_spec (ndeg T i) 0); [lia|].
    destruct (n_loop_ok w D i (n_poly T i) (ndeg T i) Hw ltac:(lia) PD E1 (irr_0 _ T2) w 0 f (bs_resize (ndeg T i + w - 1) v) cj) as (cj' & v' & EL & g & G1 & G2 & G3); try lia.
    { apply bs_resize_len. }
    { exists f. split; [exact R|]. split; [intros k d _; reflexivity|]. intros k Hk. destruct (F i) as [Z _]. rewrite Z by lia. split; [split; [lia|apply Z.pow_pos_nonneg; lia]|]. intros b Hb. lia. }
    rewrite Nat.mul_0_l in EL. cbn [gpow] in EL. rewrite mod_deg in EL.
    2: { apply (deg_mono _ 1); [intros [|k] Hk; [lia|apply coef_1]|]. pose proof (size_w w (ndeg T i) Hw E1). lia. }
    unfold jv in EL. destruct (Nat.ltb_spec 0 w); [|lia]. rewrite Nat.sub_0_r in EL.
    change (ndeg T i * (w / ndeg T i + 1)) with (csize w (ndeg T i)). exists (cj', v'). split; [exact EL|]. exists g. split; [exact G1|]. intros dim. split.
    - intros A B k. rewrite G2 by lia. apply F; lia.
    - intros A k Hk. destruct (Nat.eq_dec dim i) as [->|N]; [apply G3; exact Hk|]. rewrite G2 by exact N. apply F; [lia|exact Hk]. }
  rewrite E. cbn [lbind fst] in *. exists cj. split; [reflexivity|]. split; [exact (proj1 R)|]. intros dim k Hdim Hk. rewrite (rep2_direction w D cj f k dim R Hk Hdim). apply F; [lia|exact Hk].
Qed.
