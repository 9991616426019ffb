(* C53, C54: the Niederreiter direction numbers; the net property of the Sobol and
   Niederreiter engines *)
From Coq Require Import NArith.
From Verif Require Import Base QrngModel QrngSpec QrngProofs Qrng2Proofs Qrng3Proofs PolySpec PolyProofs MtJumpProofs NetSpec Gf2Proofs NetProofs Net2Proofs Net3Proofs
  SobolModel SobolSpec SobolProofs SobolTable SobolTableProofs NiedTable NiedModel NiedSpec NiedTableProofs NiedProofs Net4Proofs.
Open Scope nat_scope.
Ltac Zify.zify_post_hook ::= idtac.

(* ---- C53 ---- *)

Lemma is_power_gpow : forall p n P, is_power p n P <-> P = gpow p n.
Proof.
  intros p n. induction n as [|n IH]; intros P; cbn [is_power gpow]; [reflexivity|]. split.
  - intros (Q & A & B). apply IH in A. apply product_gm in B. rewrite B, A. reflexivity.
  - intros ->. exists (gpow p n). split; [apply IH; reflexivity|apply gm_product].
Qed.
Lemma vseq_recurrence : forall P deg kj, has_deg P deg -> recurrence P deg kj (vseq P deg kj).
Proof.
  intros P deg kj [C D]. split; [|split].
  - intros r L. rewrite vseq_eq. unfold vnext. destruct (Nat.ltb_spec r kj); [reflexivity|lia].
  - intros r L. rewrite vseq_eq. unfold vnext. destruct (Nat.ltb_spec r kj); [lia|]. destruct (Nat.ltb_spec r deg); [reflexivity|lia].
  - intros r L. cbn [xsum]. rewrite C. cbn [andb]. rewrite (vseq_eq P deg kj (r + deg)). unfold vnext.
    destruct (Nat.ltb_spec (r + deg) kj); [lia|]. destruct (Nat.ltb_spec (r + deg) deg); [lia|].
    rewrite <- xsum_xor. apply xsum_false. intros k Hk. replace (r + deg + k - deg) with (r + k) by lia. destruct (coef P k && vseq P deg kj (r + k)); reflexivity.
Qed.

(* The lattice is built without an access out of bounds.  Let e be the degree of the
   polynomial p of a coordinate.  Digit b of direction number k (counted from the
   highest of w digits) is v(k + b mod e) for the sequence v of block q = b / e.
   This sequence has q e zeros, then ones up to the degree of its polynomial, then
   follows the recurrence of the polynomial.  The polynomial is p^(q+1), as in the
   paper, for the complete blocks.  In a last block with fewer than e digits it is
   p^(q+1) without the leading term. *)
Theorem C53_directions : forall W w T D, 1 <= w -> (Z.of_nat w <= W)%Z -> 1 <= D -> (Z.of_nat D <= n_maxdim T)%Z ->
  (forall dim, dim < D -> (Z.of_N (n_poly T dim) < 2 ^ W)%Z /\ irreducible (n_poly T dim)) ->
  exists lat v, nied_lattice W w T D = LOk lat /\ length lat = w * D /\
  forall dim, dim < D -> let p := n_poly T dim in let e := N.to_nat (N.log2 p) in
    (forall q P, is_power p (S q) P ->
       (S q * e <= w -> recurrence P (S q * e) (q * e) (v dim q)) /\
       (q * e < w < S q * e -> let P' := N.lxor P (2 ^ N.of_nat (S q * e)) in recurrence P' (N.to_nat (N.log2 P')) (q * e) (v dim q))) /\
    (forall k, k < w -> (0 <= direction lat D dim (Z.of_nat k) < 2 ^ Z.of_nat w)%Z /\
       forall b, b < w -> Z.testbit (direction lat D dim (Z.of_nat k)) (Z.of_nat (w - 1 - b)) = v dim (b / e) (k + b mod e)).
Proof.
  intros W w T D Hw HW HD HM HT. destruct (nied_lattice_ok W w T D Hw HD HM HT) as (lat & E & L & H).
  exists lat, (fun dim q => vseq (cpoly w (n_poly T dim) (ndeg T dim) q) (cdeg w (n_poly T dim) (ndeg T dim) q) (q * ndeg T dim)). split; [exact E|]. split; [exact L|].
  intros dim Hd. cbv zeta. fold (ndeg T dim). destruct (HT dim Hd) as [_ I]. destruct (irr_deg _ I) as [PD E1]. fold (ndeg T dim) in *. split.
  - intros q P HP. apply is_power_gpow in HP. split.
    + intros Hq. assert (F : S q * ndeg T dim < csize w (ndeg T dim)) by (pose proof (size_w w (ndeg T dim) Hw E1); lia).
      destruct (full_block w (n_poly T dim) (ndeg T dim) PD q F) as [A B]. rewrite A, B, HP. apply vseq_recurrence. apply gpow_deg. exact PD.
    + intros Hq. assert (CS : csize w (ndeg T dim) = S q * ndeg T dim).
      { unfold csize. rewrite Nat.mul_comm. f_equal. assert (w / ndeg T dim = q); [|lia]. symmetry. apply (Nat.div_unique w (ndeg T dim) q (w - q * ndeg T dim)); lia. }
      assert (CP : cpoly w (n_poly T dim) (ndeg T dim) q = N.lxor P (2 ^ N.of_nat (S q * ndeg T dim))).
      { unfold cpoly. rewrite CS, HP. apply coef_ext. intros k. rewrite coef_mod. rewrite <- X_pow, coef_xor, coef_X. destruct (gpow_deg _ _ (S q) PD) as [C1 C2].
        destruct (Nat.ltb_spec k (S q * ndeg T dim)), (Nat.eqb_spec k (S q * ndeg T dim)); try lia; [symmetry; apply xorb_false_r| |].
        - subst k. rewrite C1. reflexivity.
        - rewrite C2 by lia. reflexivity. }
      rewrite <- CP. change (N.to_nat (N.log2 (cpoly w (n_poly T dim) (ndeg T dim) q))) with (cdeg w (n_poly T dim) (ndeg T dim) q).
      apply vseq_recurrence. apply (cdeg_ok w (n_poly T dim) (ndeg T dim) Hw PD E1 (irr_0 _ I) q). lia.
  - intros k Hk. destruct (H dim k Hd Hk) as [A B]. split; [exact A|]. intros b Hb. apply B. exact Hb.
Qed.
Print Assumptions C53_directions.

(* the first points in four dimensions of 8 bits; the first two coordinates are the
   ones of the documentation: 0.5, 0.5, 0.75, 0.25, 0.25, 0.75, 0.375, 0.375, 0.875, 0.875 *)
Example C53_directions_ex :
  match nied_lattice 32 8 nied_tables 4 with
  | LOk lat => map (point lat 4 8) [1; 2; 3; 4; 5]%Z = [[128; 128; 192; 224]; [192; 64; 80; 36]; [64; 192; 144; 196]; [96; 96; 224; 72]; [224; 224; 32; 168]]%Z
  | _ => False
  end.
Proof. vm_compute. reflexivity. Qed.

(* the table is the list of all irreducible polynomials of degree less than 16, in
   increasing order: the hypotheses of C53_directions hold in all 4720 dimensions *)
Theorem C53_table : (forall p, irreducible p /\ (p < 65536)%N <-> exists i, i < Z.to_nat 4720 /\ n_poly nied_tables i = p) /\
  length nied_polys = Z.to_nat 4720 /\ n_maxdim nied_tables = 4720%Z /\
  forall i k, i < k -> k < Z.to_nat 4720 -> (n_poly nied_tables i < n_poly nied_tables k)%N.
Proof.
  split; [|split; [exact nied_length|split; [reflexivity|]]].
  - assert (NI: forall p, In p nied_polys <-> exists i, i < Z.to_nat 4720 /\ n_poly nied_tables i = p).
    { intro p. pose proof nied_length as NL. split; [intro H; destruct (In_nth _ _ 0%N H) as (i & Hi & E); exists i; split; [lia|exact E]|]. intros (i & Hi & <-). apply nth_In. rewrite NL. exact Hi. }
    intros p. rewrite <- NI. split; [intros [I L]; apply nied_complete; assumption|]. intros H. split; [apply nied_irreducible; exact H|apply nied_range; exact H].
  - intros i k L H. pose proof nied_length as NL. unfold nied_tables, n_poly. refine (proj2 (increasing_nth _ _ nied_increasing i _) k _); rewrite NL; lia.
Qed.
Print Assumptions C53_table.
Example C53_table_ex : map (n_poly nied_tables) [0; 1; 2; 3; 4; 5; 6] = [2; 3; 7; 11; 13; 19; 25]%N /\ ~ irreducible 5%N.
Proof. split; [reflexivity|]. intros [_ I]. destruct (I 3%N 3%N); [apply product_gm; reflexivity| |]; discriminate. Qed.

Lemma nied_ok16 : forall W D, (16 <= W)%Z -> (Z.of_nat D <= 4720)%Z -> ntable_ok W nied_tables D.
Proof.
  intros W D HW HD dim Hd. assert (I : In (n_poly nied_tables dim) nied_polys). { apply nth_In. rewrite nied_length. lia. } split; [|apply nied_irreducible; exact I].
  pose proof (nied_range _ I). apply Z.lt_le_trans with (2 ^ 16)%Z; [change (2 ^ 16)%Z with (Z.of_N 65536); lia|apply Z.pow_le_mono_r; lia].
Qed.

(* the engine of the library can be built in all dimensions up to 4720 *)
Theorem C53_library : forall W w D, (16 <= W)%Z -> 1 <= w -> (Z.of_nat w <= W)%Z ->
  (1 <= D -> (Z.of_nat D <= 4720)%Z -> exists lat, nied_lattice W w nied_tables D = LOk lat) /\
  (D = 0 \/ (4720 < Z.of_nat D)%Z -> nied_lattice W w nied_tables D = LThr).
Proof.
  intros W w D HW Hw HwW. split.
  - intros HD HM. destruct (nied_lattice_ok W w nied_tables D Hw HD HM (nied_ok16 W D HW HM)) as (lat & E & _). exists lat. exact E.
  - intros [->|H]; [reflexivity|]. unfold nied_lattice. change (n_maxdim nied_tables) with 4720%Z. destruct (Z.ltb_spec 4720 (Z.of_nat D)); [|lia]. rewrite orb_true_r. reflexivity.
Qed.
Print Assumptions C53_library.
Example C53_library_ex : nied_lattice 32 8 nied_tables 0 = LThr.
Proof. reflexivity. Qed.

(* niederreiter_base2 with 64 bits: the lowest digit of the fourth coordinate (p = 11,
   e = 3, and 64 is not a multiple of 3) is always 0: the last block has 63 zeros
   before the recurrence of a polynomial of degree 62.  The values that are odd are never
   delivered, so 2^64 points do not fill the 2^64 intervals of length 2^-64. *)
Theorem C53_low_digit_refuted : exists lat, nied_lattice 64 64 nied_tables 4 = LOk lat /\
  forall n, Z.testbit (coord lat 4 64 n 3) 0 = false /\ coord lat 4 64 n 3 <> 1%Z.
Proof.
  assert (K : match nied_lattice 64 64 nied_tables 4 with LOk lat => forallb (fun k => negb (Z.testbit (direction lat 4 3 (Z.of_nat k)) 0)) (seq 0 64) | _ => false end = true) by (vm_compute; reflexivity).
  destruct (nied_lattice 64 64 nied_tables 4) as [lat| |]; [|discriminate K|discriminate K]. exists lat. split; [reflexivity|]. intros n. rewrite forallb_forall in K.
  assert (B : Z.testbit (coord lat 4 64 n 3) 0 = false).
  { unfold coord. apply xsum_testbit0. intros k Hk. specialize (K (Z.to_nat k)). rewrite in_seq in K. specialize (K ltac:(lia)). rewrite Z2Nat.id in K by lia. apply negb_true_iff in K. exact K. }
  split; [exact B|]. intros E. rewrite E in B. discriminate B.
Qed.
Print Assumptions C53_low_digit_refuted.

(* ---- C54 ---- *)

(* the Niederreiter points are a digital (t, D)-sequence, t = the sum of e(j) - 1 *)
Theorem C54_niederreiter : forall W w T D, 1 <= w -> (Z.of_nat w <= W)%Z -> 1 <= D -> (Z.of_nat D <= n_maxdim T)%Z ->
  (forall dim, dim < D -> (Z.of_N (n_poly T dim) < 2 ^ W)%Z /\ irreducible (n_poly T dim)) ->
  (forall i k, i < k -> k < D -> n_poly T i <> n_poly T k) ->
  exists lat, nied_lattice W w T D = LOk lat /\ ts_sequence w (total D (fun dim => N.to_nat (N.log2 (n_poly T dim)) - 1)) D (coord lat D w).
Proof. intros W w T D Hw _ HD HM HT HN. exact (nied_net W w T D Hw HD HM HT HN). Qed.
Print Assumptions C54_niederreiter.

(* with the table of the library *)
Theorem C54_niederreiter_library : forall W w D, (16 <= W)%Z -> 1 <= w -> (Z.of_nat w <= W)%Z -> 1 <= D -> (Z.of_nat D <= 4720)%Z ->
  exists lat, nied_lattice W w nied_tables D = LOk lat /\ ts_sequence w (total D (fun dim => N.to_nat (N.log2 (nth dim nied_polys 0%N)) - 1)) D (coord lat D w).
Proof.
  intros W w D HW Hw _ HD HM. apply (nied_net W w nied_tables D Hw HD HM (nied_ok16 W D HW HM)).
  intros i k L H. apply nied_distinct; rewrite ?nied_length; lia.
Qed.
Print Assumptions C54_niederreiter_library.

(* the Sobol points are a digital (t, D)-sequence, t = the sum of deg(j) - 1 over the
   polynomials of the coordinates but the first *)
Theorem C54_sobol : forall W w T D, 1 <= w -> (Z.of_nat w <= W)%Z -> 1 <= D -> (Z.of_nat D <= t_maxdim T)%Z ->
  (forall dim, 1 <= dim < D -> (2 <= t_poly T (dim - 1) < 2 ^ W)%Z /\ (Z.to_nat (Z.log2 (t_poly T (dim - 1))) <= w)%nat /\
     odd_bounded (t_minit T (dim - 1)) (Z.to_nat (Z.log2 (t_poly T (dim - 1))))) ->
  (forall i, S i < D -> irreducible (Z.to_N (t_poly T i)) /\ t_poly T i <> 2%Z) -> (forall i k, i < k -> S k < D -> t_poly T i <> t_poly T k) ->
  exists lat, sobol_lattice W w T D = LOk lat /\
    ts_sequence w (total D (fun dim => match dim with O => 0 | S i => Z.to_nat (Z.log2 (t_poly T i)) - 1 end)) D (coord lat D w).
Proof.
  intros W w T D Hw HW HD HM HT HI HN. destruct (sobol_net W w T D Hw HW HD HM HT) as (lat & E & H).
  - intros [|i] Hd; [|apply HI; exact Hd]. apply nied_irreducible. left. reflexivity.
  - intros [|i] [|k] L1 L2; try lia.
    + cbn [spoly]. intro K. apply (proj2 (HI k L2)). destruct (HT (S k) ltac:(lia)) as [B _]. replace (S k - 1) with k in B by lia. apply (f_equal Z.of_N) in K. rewrite Z2N.id in K by lia. symmetry. exact K.
    + cbn [spoly]. intro K. apply (HN i k); [lia|exact L2|]. destruct (HT (S k) ltac:(lia)) as [B _]. destruct (HT (S i) ltac:(lia)) as [B' _]. replace (S k - 1) with k in B by lia. replace (S i - 1) with i in B' by lia.
      apply (f_equal Z.of_N) in K. rewrite !Z2N.id in K by lia. exact K.
  - exists lat. split; [exact E|]. replace (total D (fun dim => match dim with O => 0 | S i => Z.to_nat (Z.log2 (t_poly T i)) - 1 end)) with (total D (fun dim => sdeg T dim - 1)); [exact H|].
    unfold total. f_equal. apply map_ext_in. intros [|i] Hi; [reflexivity|]. apply in_seq in Hi. destruct (HT (S i) ltac:(lia)) as [B _]. replace (S i - 1) with i in B by lia.
    rewrite (proj1 (sdeg_S T i ltac:(lia))). reflexivity.
Qed.
Print Assumptions C54_sobol.

(* with the tables of the library *)
Theorem C54_sobol_library : forall W w D, (16 <= W)%Z -> 15 <= w -> (Z.of_nat w <= W)%Z -> 1 <= D -> (Z.of_nat D <= 3667)%Z ->
  exists lat, sobol_lattice W w sobol_tables D = LOk lat /\
    ts_sequence w (total D (fun dim => match dim with O => 0 | S i => Z.to_nat (Z.log2 (t_poly sobol_tables i)) - 1 end)) D (coord lat D w).
Proof.
  intros W w D HW Hw HwW HD HM. pose proof (sobol_table_16 W w D HW Hw HM) as HT. apply (C54_sobol W w sobol_tables D); try assumption; [lia| |].
  - intros i Hi. split; [apply (sobol_irr (S i)); lia|]. intro K. apply (sobol_dist 0 (S i)); [lia|lia|]. cbn [spoly]. rewrite K. reflexivity.
  - intros i k L1 L2 K. apply (sobol_dist (S i) (S k)); [lia|lia|]. cbn [spoly]. rewrite K. reflexivity.
Qed.
Print Assumptions C54_sobol_library.

(* 8 boxes in three dimensions, t = 1: 16 points with two points in each box; the same for
   the next 16 points *)
Example C54_ex : 
  match nied_lattice 32 8 nied_tables 3, sobol_lattice 32 15 sobol_tables 3 with
  | LOk n, LOk s =>
      let count w lat l (A : Z) := zcount (fun i => forallb (fun j => in_box w 1 ((A / 2 ^ Z.of_nat j) mod 2) (coord lat 3 w i j)) (seq 0 3)) 4 (l * 2 ^ 4) in
      map (count 8 n 0%Z) [0; 1; 2; 3; 4; 5; 6; 7]%Z = repeat 2%Z 8 /\ map (count 8 n 1%Z) [0; 1; 2; 3; 4; 5; 6; 7]%Z = repeat 2%Z 8 /\
      map (count 15 s 0%Z) [0; 1; 2; 3; 4; 5; 6; 7]%Z = repeat 2%Z 8 /\ map (count 15 s 5%Z) [0; 1; 2; 3; 4; 5; 6; 7]%Z = repeat 2%Z 8
  | _, _ => False
  end.
Proof. vm_compute. repeat split. Qed.

(* the Sobol points in three dimensions are not a (0, 3)-sequence: of the first four
   points two have second and third coordinate less than 1/2, one would be the share *)
Theorem C54_sobol_t0_refuted : exists lat, sobol_lattice 32 15 sobol_tables 3 = LOk lat /\ ~ ts_sequence 15 0 3 (coord lat 3 15).
Proof.
  set (d := fun j => nth j [0; 1; 1] 0).
  assert (K : match sobol_lattice 32 15 sobol_tables 3 with LOk lat => zcount (fun n => forallb (fun j => in_box 15 (d j) 0 (coord lat 3 15 n j)) (seq 0 3)) 2 0 = 2%Z | _ => False end) by (vm_compute; reflexivity).
  destruct (sobol_lattice 32 15 sobol_tables 3) as [lat| |]; [|destruct K|destruct K]. exists lat. split; [reflexivity|]. intros H.
  specialize (H 2 d 0%Z (fun _ => 0%Z)). cbv beta in H. change (total 3 d) with 2 in H. change (0 * 2 ^ Z.of_nat 2)%Z with 0%Z in H. rewrite K in H.
  assert (P : forall j, (0 <= 0 < 2 ^ Z.of_nat (d j))%Z) by (intro j; split; [lia|apply Z.pow_pos_nonneg; lia]).
  specialize (H ltac:(lia) ltac:(lia) ltac:(lia) (fun j _ => P j)). discriminate H.
Qed.
Print Assumptions C54_sobol_t0_refuted.
