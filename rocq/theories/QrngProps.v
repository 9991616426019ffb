(* C36-C39: the quasi-random engines *)
From Verif Require Import Base QrngModel QrngSpec QrngProofs Qrng2Proofs Qrng3Proofs Qrng4Proofs Qrng5Proofs QTextModel QTextProofs
  SobolModel SobolSpec SobolProofs SobolTable SobolTableProofs.

(* the lattice as seen by the engine: None when the constructor throws *)
Definition sobol_of (W : Z) (w : nat) (D : Z) : option (list Z) :=
  match sobol_lattice W w sobol_tables (Z.to_nat D) with LOk l => Some l | _ => None end.

(* an engine used in the examples: sobol_engine<uint32_t, 8>(2) *)
Definition ex_new : geng := match q_new (sobol_of 32 8) 2 with Some (Ret e _) => e | _ => Qe 0 0 [] [] end.
Definition ex_ops := gray_ops 32 8.
Definition ex_run (e : geng) (z : nat) : option (geng * list Z) := calls (vcall 32 ex_ops) z e.

Lemma ex_reach : reach 32 8 (sobol_of 32 8) 2 ex_new.
Proof. apply R_new. vm_compute. reflexivity. Qed.

(* ---- C36 ---- *)

(* discard(z) leaves the engine in the state z calls leave it in, and throws
   exactly when one of these calls throws *)
Theorem C36_discard : forall (W w : nat) lattice D lat, (1 <= w <= W)%nat -> (W <= 64)%nat -> (1 <= D)%nat -> Z.of_nat D < 2 ^ 63 ->
  lattice (Z.of_nat D) = Some lat -> length lat = (w * D)%nat ->
  forall e z, reach W w lattice D e -> 0 <= z < 2 ^ 64 -> ~ (D = 1%nat /\ q_curr e = 1 /\ z = 2 ^ 64 - 1) ->
  match q_discard (Z.of_nat W) (gray_ops (Z.of_nat W) (Z.of_nat w)) e z with
  | Ret e' _ => exists l, calls (vcall (Z.of_nat W) (gray_ops (Z.of_nat W) (Z.of_nat w))) (Z.to_nat z) e = Some (e', l)
  | Thr e' => e' = e /\ calls (vcall (Z.of_nat W) (gray_ops (Z.of_nat W) (Z.of_nat w))) (Z.to_nat z) e = None
  | Bad => False
  end.
Proof. intros W w lattice D lat H1 H2 H3 H4 H5 H6. exact (discard_calls W w lattice D lat (conj H1 H2) (conj H3 H4) H5 H6). Qed.
Print Assumptions C36_discard.

Example C36_discard_ex :
  q_discard 32 ex_ops ex_new 7 = match ex_run ex_new 7 with Some (e, _) => Ret e tt | None => Bad end /\
  option_map snd (ex_run ex_new 10) = Some [128; 128; 192; 64; 64; 192; 96; 96; 224; 224].
Proof. vm_compute. split; reflexivity. Qed.

(* the excluded case: with one dimension, after a call, discard(2^64 - 1) returns
   normally and moves the engine back by one, where 2^64 - 1 calls throw *)
Theorem C36_discard_all_refuted : exists e e' v, reach 64 64 (sobol_of 64 64) 1 e /\
  q_discard 64 (gray_ops 64 64) e (2 ^ 64 - 1) = Ret e' tt /\
  calls (vcall 64 (gray_ops 64 64)) (Z.to_nat (2 ^ 64 - 1)) e = None /\
  q_call 64 (gray_ops 64 64) e' = Ret e v /\ q_eq e' e = false.
Proof.
  set (lat := match sobol_of 64 64 1 with Some l => l | None => [] end).
  assert (HL : sobol_of 64 64 (Z.of_nat 1) = Some lat) by (vm_compute; reflexivity).
  assert (HN : length lat = (64 * 1)%nat) by (vm_compute; reflexivity).
  assert (HW : (1 <= 64 <= 64)%nat /\ (64 <= 64)%nat) by lia. assert (HD : (1 <= 1)%nat /\ Z.of_nat 1 < 2 ^ 63) by (split; [lia|reflexivity]).
  pose proof (der 64 64 1 lat HW HD HN) as HD1.
  assert (P : 2 ^ Z.of_nat 64 - 2 = 18446744073709551614) by reflexivity.
  assert (C0 : q_call 64 (gray_ops 64 64) (at_ (gpt lat 1 64) 0 0) = Ret (at_ (gpt lat 1 64) 0 1) (value (Z.of_nat 1) (gpt lat 1 64) 0 0)).
  { exact (call_in _ _ _ _ _ 0 HD1 0 0 ltac:(rewrite P; lia) ltac:(lia)). }
  exists (at_ (gpt lat 1 64) 0 1), (at_ (gpt lat 1 64) 0 0), (value (Z.of_nat 1) (gpt lat 1 64) 0 0).
  split; [apply (R_call 64 64 (sobol_of 64 64) 1 (at_ (gpt lat 1 64) 0 0) _ (value (Z.of_nat 1) (gpt lat 1 64) 0 0)); [|exact C0]; apply R_new; apply q_new_ok; (assumption || lia)|].
  split; [exact (wrapped_discard 64 64 1 lat HW HD HN 0 ltac:(rewrite P; lia) eq_refl)|]. split; [|split; [exact C0|]].
  - pose proof (calls_ok _ _ _ _ _ 0 HD1 (Z.to_nat (2 ^ 64 - 1)) 0 1 ltac:(rewrite P; lia) ltac:(lia)) as C. rewrite Z2Nat.id in C by lia.
    change (0 * Z.of_nat 1 + 1 + (2 ^ 64 - 1) <=? ends (Z.of_nat 1) (2 ^ Z.of_nat 64 - 2)) with false in C. exact C.
  - destruct (q_eq (at_ (gpt lat 1 64) 0 0) (at_ (gpt lat 1 64) 0 1)) eqn:E; [|reflexivity].
    apply (proj1 (q_eq_ok _ _ _ _ _ HD1 0 0 0 1 ltac:(rewrite P; lia) ltac:(rewrite P; lia) ltac:(lia) ltac:(lia))) in E. lia.
Qed.
Print Assumptions C36_discard_all_refuted.

(* seed(n), on an engine in any state, is a fresh engine after n * dimension() calls *)
Theorem C36_seed : forall (W w : nat) lattice D lat, (1 <= w <= W)%nat -> (W <= 64)%nat -> (1 <= D)%nat -> Z.of_nat D < 2 ^ 63 ->
  lattice (Z.of_nat D) = Some lat -> length lat = (w * D)%nat ->
  forall e e0 n, reach W w lattice D e -> q_new lattice (Z.of_nat D) = Some (Ret e0 tt) -> 0 <= n < 2 ^ Z.of_nat w - 1 ->
  let call := vcall (Z.of_nat W) (gray_ops (Z.of_nat W) (Z.of_nat w)) in
  exists e1 e2 l, g_seed (Z.of_nat W) (Z.of_nat w) e n = Ret e1 tt /\ calls call (Z.to_nat n * D) e0 = Some (e2, l) /\ q_eq e1 e2 = true /\
    forall z, option_map snd (calls call z e1) = option_map snd (calls call z e2).
Proof. intros W w lattice D lat H1 H2 H3 H4 H5 H6. exact (seed_calls W w lattice D lat (conj H1 H2) (conj H3 H4) H5 H6). Qed.
Print Assumptions C36_seed.

Example C36_seed_ex :
  match g_seed 32 8 ex_new 3, ex_run ex_new 6 with
  | Ret e1 _, Some (e2, _) => option_map snd (ex_run e1 4) = Some [96; 96; 224; 224] /\ option_map snd (ex_run e2 4) = Some [96; 96; 224; 224] /\ q_curr e1 <> q_curr e2
  | _, _ => False
  end.
Proof. vm_compute. repeat split; discriminate. Qed.

(* ---- C37 ---- *)

(* the values of a fresh engine are the coordinates of the points 1, 2, ...: the
   coordinates of point n are the sums of the direction numbers over the bits of its Gray code *)
Theorem C37_points : forall (W w : nat) lattice D lat, (1 <= w <= W)%nat -> (W <= 64)%nat -> (1 <= D)%nat -> Z.of_nat D < 2 ^ 63 ->
  lattice (Z.of_nat D) = Some lat -> length lat = (w * D)%nat ->
  forall e z, q_new lattice (Z.of_nat D) = Some (Ret e tt) ->
  option_map snd (calls (vcall (Z.of_nat W) (gray_ops (Z.of_nat W) (Z.of_nat w))) z e) =
  if Z.of_nat z <=? (2 ^ Z.of_nat w - 1) * Z.of_nat D
  then Some (map (fun i => xsum (direction lat D (i mod D)) w (gray (Z.of_nat (i / D) + 1))) (seq 0 z))
  else None.
Proof.
  intros W w lattice D lat H1 H2 H3 H4 H5 H6 e z HN.
  pose proof (outputs_at W w lattice D lat (conj H1 H2) (conj H3 H4) H5 H6 e z (R_new W w lattice D e HN)) as [_ O].
  pose proof HN as HN2. rewrite (q_new_ok lattice lat D w) in HN2 by (assumption || lia).
  assert (P : position D e = 0) by (assert (e = at_ (gpt lat D w) 0 0) as -> by congruence; reflexivity).
  etransitivity; [exact O|]. rewrite P. unfold total. rewrite Z.add_0_l. destruct (Z.of_nat z <=? (2 ^ Z.of_nat w - 1) * Z.of_nat D); [|reflexivity].
  f_equal. apply map_ext. intros i. cbv zeta. rewrite Z.add_0_l. rewrite <- Nat2Z.inj_div, <- Nat2Z.inj_mod. rewrite Nat2Z.id. reflexivity.
Qed.
Print Assumptions C37_points.

Example C37_points_ex : option_map snd (ex_run ex_new 10) = Some [128; 128; 192; 64; 64; 192; 96; 96; 224; 224].
Proof. vm_compute. reflexivity. Qed.

(* the Sobol lattice: in every coordinate but the first the numbers m_k follow the
   recurrence of the polynomial; they are odd and less than 2^(k+1), and
   the direction numbers are m_k * 2^(w-1-k).  No access is out of bounds. *)
Theorem C37_sobol_directions : forall W w T D, (1 <= w)%nat -> Z.of_nat w <= W -> (1 <= D)%nat -> Z.of_nat D <= t_maxdim T ->
  (forall dim, (1 <= dim < D)%nat -> 2 <= t_poly T (dim - 1) < 2 ^ W /\ (Z.to_nat (Z.log2 (t_poly T (dim - 1))) <= w)%nat /\
     odd_bounded (t_minit T (dim - 1)) (Z.to_nat (Z.log2 (t_poly T (dim - 1))))) ->
  exists lat m, sobol_lattice W w T D = LOk lat /\ length lat = (w * D)%nat /\
    (forall k, (k < w)%nat -> m 0%nat k = 1) /\
    forall dim, (dim < D)%nat ->
      ((1 <= dim)%nat -> sobol_numbers (t_poly T (dim - 1)) (t_minit T (dim - 1)) (m dim) w) /\
      odd_bounded (m dim) w /\
      forall k, (k < w)%nat -> direction lat D dim (Z.of_nat k) = m dim k * 2 ^ Z.of_nat (w - 1 - k).
Proof. exact sobol_lattice_ok. Qed.
Print Assumptions C37_sobol_directions.

(* the hypotheses hold for the tables of the library in all 3667 dimensions *)
Theorem C37_sobol_tables : forall W w D, 16 <= W -> (15 <= w)%nat -> Z.of_nat D <= t_maxdim sobol_tables ->
  forall dim, (1 <= dim < D)%nat -> 2 <= t_poly sobol_tables (dim - 1) < 2 ^ W /\ (Z.to_nat (Z.log2 (t_poly sobol_tables (dim - 1))) <= w)%nat /\
     odd_bounded (t_minit sobol_tables (dim - 1)) (Z.to_nat (Z.log2 (t_poly sobol_tables (dim - 1)))).
Proof. exact sobol_table_16. Qed.
Print Assumptions C37_sobol_tables.

(* in every Sobol coordinate, each aligned block of 2^k points (counted from the
   point 0, which the engine skips) has exactly one point in every dyadic interval of length 2^-k *)
Theorem C37_sobol_dyadic : forall W w D, 16 <= W -> (15 <= w)%nat -> Z.of_nat w <= W -> (1 <= D)%nat -> Z.of_nat D <= 3667 ->
  exists lat, sobol_lattice W w sobol_tables D = LOk lat /\
  forall j k a t, (j < D)%nat -> (k <= w)%nat -> 0 <= a -> 0 <= t < 2 ^ Z.of_nat k ->
  exists! b, 0 <= b < 2 ^ Z.of_nat k /\ xsum (direction lat D j) w (gray (a * 2 ^ Z.of_nat k + b)) / 2 ^ Z.of_nat (w - k) = t.
Proof.
  intros W w D HW Hw HwW HD HM. destruct (sobol_lattice_ok W w sobol_tables D ltac:(lia) HwW HD HM (sobol_table_16 W w D HW Hw HM)) as (lat & m & E & HL & _ & H).
  exists lat. split; [exact E|]. intros j k a t Hj Hk Ha Ht. destruct (H j Hj) as (_ & HB & HDir).
  apply dyadic; [exact Hk| | |exact Ha|exact Ht].
  - intros i Hi. replace i with (Z.of_nat (Z.to_nat i)) by lia. rewrite HDir by lia. destruct (HB (Z.to_nat i) ltac:(lia)) as [_ B].
    split; [apply Z.mul_nonneg_nonneg; [lia|apply Z.pow_nonneg; lia]|].
    replace (Z.of_nat w) with (Z.of_nat (Z.to_nat i) + 1 + Z.of_nat (w - 1 - Z.to_nat i)) by lia. rewrite Z.pow_add_r by lia.
    apply Z.mul_lt_mono_pos_r; [apply Z.pow_pos_nonneg; lia|lia].
  - intros i Hi. apply (odd_triangular (direction lat D j) (m j) w HDir); [intros i' Hi'; apply HB; exact Hi'|lia].
Qed.
Print Assumptions C37_sobol_dyadic.

Example C37_sobol_dyadic_ex :
  match sobol_lattice 32 15 sobol_tables 3 with
  | LOk lat => map (fun n => xsum (direction lat 3 2) 15 (gray n) / 2 ^ 12) [8; 9; 10; 11; 12; 13; 14; 15] = [7; 3; 5; 1; 2; 6; 0; 4]
  | _ => False
  end.
Proof. vm_compute. reflexivity. Qed.

(* the first 2^k values delivered do not have this property: 0.5 and 0.75 *)
Theorem C37_first_points_refuted : exists l, option_map snd (ex_run ex_new 4) = Some l /\
  nth 0 l 0 / 2 ^ 7 = 1 /\ nth 2 l 0 / 2 ^ 7 = 1.
Proof. exists [128; 128; 192; 64]. vm_compute. repeat split. Qed.
Print Assumptions C37_first_points_refuted.

(* the Sobol lattice for fewer bits than the degree of a polynomial writes out of
   bounds: the check compares the polynomial with the largest UIntType.
   sobol_engine<uint32_t, 4>(20) *)
Theorem C37_sobol_few_bits_refuted : sobol_lattice 32 4 sobol_tables 20 = LBad.
Proof. vm_compute. reflexivity. Qed.
Print Assumptions C37_sobol_few_bits_refuted.

(* the values are within [min(), max()] *)
Theorem C37_sobol_range : forall W w D, 16 <= W -> (15 <= w)%nat -> Z.of_nat w <= W -> (1 <= D)%nat -> Z.of_nat D <= 3667 ->
  exists lat, sobol_lattice W w sobol_tables D = LOk lat /\
  forall j n, (j < D)%nat -> 0 <= xsum (direction lat D j) w (gray n) <= g_max (Z.of_nat w).
Proof.
  intros W w D HW Hw HwW HD HM. destruct (sobol_lattice_ok W w sobol_tables D ltac:(lia) HwW HD HM (sobol_table_16 W w D HW Hw HM)) as (lat & m & E & HL & _ & H).
  exists lat. split; [exact E|]. intros j n Hj. destruct (H j Hj) as (_ & HB & HDir). unfold g_max.
  enough (0 <= xsum (direction lat D j) w (gray n) < 2 ^ Z.of_nat w) by lia. apply xsum_rng; [lia|].
  intros i Hi. replace i with (Z.of_nat (Z.to_nat i)) by lia. rewrite HDir by lia. destruct (HB (Z.to_nat i) ltac:(lia)) as [_ B].
  split; [apply Z.mul_nonneg_nonneg; [lia|apply Z.pow_nonneg; lia]|].
  replace (Z.of_nat w) with (Z.of_nat (Z.to_nat i) + 1 + Z.of_nat (w - 1 - Z.to_nat i)) by lia. rewrite Z.pow_add_r by lia.
  apply Z.mul_lt_mono_pos_r; [apply Z.pow_pos_nonneg; lia|lia].
Qed.
Print Assumptions C37_sobol_range.

(* ---- C38 ---- *)

(* operator(): there are (2^w - 1) * dimension() values.  The call throws exactly
   after the last one, and leaves the engine as it was. *)
Theorem C38_call : forall (W w : nat) lattice D lat, (1 <= w <= W)%nat -> (W <= 64)%nat -> (1 <= D)%nat -> Z.of_nat D < 2 ^ 63 ->
  lattice (Z.of_nat D) = Some lat -> length lat = (w * D)%nat ->
  forall e, reach W w lattice D e ->
  if position D e <? (2 ^ Z.of_nat w - 1) * Z.of_nat D
  then exists e' v, q_call (Z.of_nat W) (gray_ops (Z.of_nat W) (Z.of_nat w)) e = Ret e' v /\ position D e' = position D e + 1
  else q_call (Z.of_nat W) (gray_ops (Z.of_nat W) (Z.of_nat w)) e = Thr e.
Proof. intros W w lattice D lat H1 H2 H3 H4 H5 H6. exact (call_throws W w lattice D lat (conj H1 H2) (conj H3 H4) H5 H6). Qed.
Print Assumptions C38_call.

(* discard *)
Theorem C38_discard : forall (W w : nat) lattice D lat, (1 <= w <= W)%nat -> (W <= 64)%nat -> (1 <= D)%nat -> Z.of_nat D < 2 ^ 63 ->
  lattice (Z.of_nat D) = Some lat -> length lat = (w * D)%nat ->
  forall e z, reach W w lattice D e -> 0 <= z < 2 ^ 64 -> ~ (D = 1%nat /\ q_curr e = 1 /\ z = 2 ^ 64 - 1) ->
  if position D e + z <=? (2 ^ Z.of_nat w - 1) * Z.of_nat D
  then exists e', q_discard (Z.of_nat W) (gray_ops (Z.of_nat W) (Z.of_nat w)) e z = Ret e' tt /\ position D e' = position D e + z
  else q_discard (Z.of_nat W) (gray_ops (Z.of_nat W) (Z.of_nat w)) e z = Thr e.
Proof. intros W w lattice D lat H1 H2 H3 H4 H5 H6. exact (discard_throws W w lattice D lat (conj H1 H2) (conj H3 H4) H5 H6). Qed.
Print Assumptions C38_discard.

(* seed: the argument is the number of a point *)
Theorem C38_seed : forall (W w : nat) lattice D lat, (1 <= w <= W)%nat -> (W <= 64)%nat -> (1 <= D)%nat -> Z.of_nat D < 2 ^ 63 ->
  lattice (Z.of_nat D) = Some lat -> length lat = (w * D)%nat ->
  forall e n, reach W w lattice D e -> 0 <= n < 2 ^ Z.of_nat W ->
  if n <? 2 ^ Z.of_nat w - 1
  then exists e', g_seed (Z.of_nat W) (Z.of_nat w) e n = Ret e' tt /\ position D e' = n * Z.of_nat D
  else g_seed (Z.of_nat W) (Z.of_nat w) e n = Thr e.
Proof. intros W w lattice D lat H1 H2 H3 H4 H5 H6. exact (seed_throws W w lattice D lat (conj H1 H2) (conj H3 H4) H5 H6). Qed.
Print Assumptions C38_seed.

(* the position is the number of values delivered *)
Theorem C38_position : forall (W w : nat) lattice D lat, (1 <= w <= W)%nat -> (W <= 64)%nat -> (1 <= D)%nat -> Z.of_nat D < 2 ^ 63 ->
  lattice (Z.of_nat D) = Some lat -> length lat = (w * D)%nat ->
  forall e, reach W w lattice D e -> 0 <= position D e <= (2 ^ Z.of_nat w - 1) * Z.of_nat D /\
  forall z, (exists e' l, calls (vcall (Z.of_nat W) (gray_ops (Z.of_nat W) (Z.of_nat w))) z e = Some (e', l)) <->
    Z.of_nat z <= (2 ^ Z.of_nat w - 1) * Z.of_nat D - position D e.
Proof.
  intros W w lattice D lat H1 H2 H3 H4 H5 H6 e R. split; [exact (proj1 (outputs_at W w lattice D lat (conj H1 H2) (conj H3 H4) H5 H6 e 0%nat R))|]. intros z.
  pose proof (outputs_at W w lattice D lat (conj H1 H2) (conj H3 H4) H5 H6 e z R) as [_ O]. unfold total in O.
  destruct (Z.leb_spec (position D e + Z.of_nat z) ((2 ^ Z.of_nat w - 1) * Z.of_nat D)) as [H|H].
  - split; [lia|]. intros _. destruct (ocalls W w z e) as [[e' l]|] eqn:E; [exists e', l; exact E|discriminate].
  - split; [|lia]. intros (e' & l & E). change (ocalls W w z e = Some (e', l)) in E. rewrite E in O. discriminate.
Qed.
Print Assumptions C38_position.

(* the last value of sobol_engine<uint32_t, 8>(2), and the exceptions after it *)
Example C38_ex :
  match q_discard 32 ex_ops ex_new 509 with
  | Ret e _ => position 2 e = 509 /\
      match q_call 32 ex_ops e with
      | Ret e1 v => v = 255 /\ q_call 32 ex_ops e1 = Thr e1 /\ q_discard 32 ex_ops e1 1 = Thr e1 /\ q_discard 32 ex_ops e 2 = Thr e /\
                    g_seed 32 8 e 255 = Thr e /\ g_seed 32 8 e (2 ^ 32 - 1) = Thr e
      | _ => False
      end
  | _ => False
  end.
Proof. vm_compute. repeat split. Qed.

(* not for all requests: see C36_discard_all_refuted *)
Theorem C38_discard_all_refuted : exists e e', reach 64 64 (sobol_of 64 64) 1 e /\
  (2 ^ 64 - 1) * 1 < position 1 e + (2 ^ 64 - 1) /\ q_discard 64 (gray_ops 64 64) e (2 ^ 64 - 1) = Ret e' tt /\ position 1 e' < position 1 e.
Proof.
  set (lat := match sobol_of 64 64 1 with Some l => l | None => [] end).
  assert (HL : sobol_of 64 64 (Z.of_nat 1) = Some lat) by (vm_compute; reflexivity).
  assert (HN : length lat = (64 * 1)%nat) by (vm_compute; reflexivity).
  assert (HW : (1 <= 64 <= 64)%nat /\ (64 <= 64)%nat) by lia. assert (HD : (1 <= 1)%nat /\ Z.of_nat 1 < 2 ^ 63) by (split; [lia|reflexivity]).
  pose proof (der 64 64 1 lat HW HD HN) as HD1. assert (P : 2 ^ Z.of_nat 64 - 2 = 18446744073709551614) by reflexivity.
  exists (at_ (gpt lat 1 64) 0 1), (at_ (gpt lat 1 64) 0 0).
  split; [apply (R_call 64 64 (sobol_of 64 64) 1 (at_ (gpt lat 1 64) 0 0) _ (value (Z.of_nat 1) (gpt lat 1 64) 0 0));
    [apply R_new; apply q_new_ok; (assumption || lia)|exact (call_in _ _ _ _ _ 0 HD1 0 0 ltac:(rewrite P; lia) ltac:(lia))]|].
  split; [unfold position; cbn [at_ q_seq q_curr]; lia|].
  split; [exact (wrapped_discard 64 64 1 lat HW HD HN 0 ltac:(rewrite P; lia) eq_refl)|unfold position; cbn [at_ q_seq q_curr]; lia].
Qed.
Print Assumptions C38_discard_all_refuted.

(* ---- C39 ---- *)

(* writing e and reading it into an engine t restores e exactly, when t has the
   same dimension, or is at a different point *)
Theorem C39_restore : forall (W w : nat) lattice D lat D' lat' e t, (1 <= w <= W)%nat -> (W <= 64)%nat ->
  (1 <= D)%nat -> Z.of_nat D < 2 ^ 63 -> lattice (Z.of_nat D) = Some lat -> length lat = (w * D)%nat ->
  (1 <= D')%nat -> Z.of_nat D' < 2 ^ 63 -> lattice (Z.of_nat D') = Some lat' -> length lat' = (w * D')%nat ->
  reach W w lattice D e -> reach W w lattice D' t -> (D = D' \/ q_seq t <> q_seq e) ->
  q_read (Z.of_nat W) (gray_ops (Z.of_nat W) (Z.of_nat w)) (fun _ => lattice) 0 t (q_print e) = Ret e tt.
Proof. exact read_ok. Qed.
Print Assumptions C39_restore.

Example C39_restore_ex :
  match ex_run ex_new 5, q_new (sobol_of 32 8) 3 with
  | Some (e, _), Some (Ret t _) => q_print e = (2, 2, 1) /\ q_dim t = 3 /\ q_read 32 ex_ops (fun _ => sobol_of 32 8) 0 t (q_print e) = Ret e tt
  | _, _ => False
  end.
Proof. vm_compute. repeat split. Qed.

(* otherwise the state vector is not recomputed: a fresh engine of dimension 1
   that reads a fresh engine of dimension 2 compares equal to it, and then
   delivers 0 instead of 0.5 for the second coordinate *)
Theorem C39_restore_all_refuted : exists e t t', reach 32 8 (sobol_of 32 8) 2 e /\ reach 32 8 (sobol_of 32 8) 1 t /\
  q_read 32 (gray_ops 32 8) (fun _ => sobol_of 32 8) 0 t (q_print e) = Ret t' tt /\ q_eq t' e = true /\
  option_map snd (calls (vcall 32 (gray_ops 32 8)) 2 e) = Some [128; 128] /\
  option_map snd (calls (vcall 32 (gray_ops 32 8)) 2 t') = Some [128; 0].
Proof.
  exists ex_new, (match q_new (sobol_of 32 8) 1 with Some (Ret e _) => e | _ => Qe 0 0 [] [] end).
  eexists. split; [exact ex_reach|]. split; [apply R_new; vm_compute; reflexivity|]. split; [vm_compute; reflexivity|]. vm_compute. repeat split.
Qed.
Print Assumptions C39_restore_all_refuted.

(* engines of one dimension compare equal exactly when they deliver the same values *)
Theorem C39_equal : forall (W w : nat) lattice D lat, (1 <= w <= W)%nat -> (W <= 64)%nat -> (1 <= D)%nat -> Z.of_nat D < 2 ^ 63 ->
  lattice (Z.of_nat D) = Some lat -> length lat = (w * D)%nat ->
  forall x y, reach W w lattice D x -> reach W w lattice D y ->
  let call := vcall (Z.of_nat W) (gray_ops (Z.of_nat W) (Z.of_nat w)) in
  q_eq x y = true <-> forall z, option_map snd (calls call z x) = option_map snd (calls call z y).
Proof. intros W w lattice D lat H1 H2 H3 H4 H5 H6. exact (q_eq_outputs W w lattice D lat (conj H1 H2) (conj H3 H4) H5 H6). Qed.
Print Assumptions C39_equal.

Example C39_equal_ex :
  match ex_run ex_new 4, g_seed 32 8 ex_new 2, ex_run ex_new 5 with
  | Some (x, _), Ret y _, Some (z, _) => q_seq x <> q_seq y /\ q_eq x y = true /\ q_eq x z = false
  | _, _, _ => False
  end.
Proof. vm_compute. repeat split; discriminate. Qed.

(* an 8 bit UIntType is written as a character.  The text is read back correctly
   when this character is not whitespace ... *)
Theorem C39_uchar_text : forall L V (e : qeng L V), q_dim e < 2 ^ 64 -> 0 <= q_curr e < 2 ^ 64 -> is_ws (q_seq e) = false ->
  q_scan8 (q_text8 e) = Some (q_print e).
Proof. exact scan8_ok. Qed.
Print Assumptions C39_uchar_text.

Example C39_uchar_text_ex : q_text8 (Qe 2 65 tt [0; 0]) = [50; 32; 65; 32; 50] /\ is_ws 65 = false.
Proof. vm_compute. split; reflexivity. Qed.

(* ... and not read at all when it is: sobol_engine<uint8_t, 8>(1) at point 32 *)
Theorem C39_uchar_text_refuted : exists e t, reach 8 8 (sobol_of 8 8) 1 e /\ reach 8 8 (sobol_of 8 8) 1 t /\
  q_read8 8 (sobol_of 8 8) t (q_text8 e) = Ret t tt /\ q_eq t e = false.
Proof.
  set (t := match q_new (sobol_of 8 8) 1 with Some (Ret e _) => e | _ => Qe 0 0 [] [] end).
  set (e := match g_seed 8 8 t 32 with Ret e _ => e | _ => t end).
  assert (Rt : reach 8 8 (sobol_of 8 8) 1 t) by (apply R_new; vm_compute; reflexivity).
  assert (Re : reach 8 8 (sobol_of 8 8) 1 e) by (apply (R_seed 8 8 (sobol_of 8 8) 1 t e 32 Rt); [cbn; lia|vm_compute; reflexivity]).
  exists e, t. split; [exact Re|]. split; [exact Rt|]. vm_compute. split; reflexivity.
Qed.
Print Assumptions C39_uchar_text_refuted.
