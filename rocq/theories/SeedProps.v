(* Property C34: seeding from iterator ranges, detail/seed_impl.hpp and the engines *)
From Verif Require Import Base ArithSpec ArithModel LcgModel RingModel SwcSpec SwcModel LfSpec LfModel MtSpec MtModel
  LfsSpec LfsModel AdaptModel MixModel SeedSpec SeedModel SeedProofs Seed2Proofs.

(* The number of elements needed is the same whichever way it is computed. *)
Theorem C34_words_agree :
  forall w k, 0 < w -> words_for (2 ^ w) k -> words_per w k.
Proof. exact words_for_pow2. Qed.
Print Assumptions C34_words_agree.

(* linear congruential engine, for every modulus of a 32 or 64 bit type.
   Partial: with a signed type the elements must be representable in it. *)
Theorem C34_lcg_range_partial :
  forall t a c m l, bits t = 32 \/ bits t = 64 -> lcg_wf t a c m ->
  Forall (fun e => word e /\ e <= imax t) l ->
  exists k, words_for (cmod t m) k /\
  ((k <= length l)%nat ->
     lcg_seed_range t a c m l = Some (Some (lcg_seed_spec c (cmod t m) (le_value (firstn k l))), skipn k l)) /\
  ((length l < k)%nat -> lcg_seed_range t a c m l = Some (None, [])).
Proof. exact lcg_range_ok. Qed.
Print Assumptions C34_lcg_range_partial.
(* two elements for rand48's modulus 2^48, an element is left over *)
Example C34_lcg_case : lcg_wf u64 25214903917 11 (2 ^ 48) /\
  Forall (fun e => word e /\ e <= imax u64) [4294967295; 4294967295; 7] /\
  lcg_seed_range u64 25214903917 11 (2 ^ 48) [4294967295; 4294967295; 7] = Some (Some (2 ^ 48 - 1), [7]) /\
  lcg_seed_range u64 25214903917 11 (2 ^ 48) [4294967295] = Some (None, []).
Proof.
  split; [vm_compute; intuition congruence|]. split; [|vm_compute; split; reflexivity].
  repeat constructor; vm_compute; congruence.
Qed.

(* the full statement is false for a signed type: elements above its maximum
   are converted to negative numbers *)
Theorem C34_lcg_range_signed_refuted :
  exists a m l x, lcg_wf i32 a 0 m /\ Forall word l /\
    lcg_seed_range i32 a 0 m l = Some (Some x, []) /\ words_for m 1 /\ length l = 1%nat /\
    x <> lcg_seed_spec 0 m (le_value l).
Proof.
  exists 16807, 2147483647, [4294967295], 2147483646.
  split; [vm_compute; intuition congruence|]. split; [repeat constructor; vm_compute; congruence|].
  split; [vm_compute; reflexivity|]. split; [split; [lia|vm_compute; split; congruence]|].
  split; [reflexivity|]. vm_compute. congruence.
Qed.
Print Assumptions C34_lcg_range_signed_refuted.

(* seed sequences: the first three words are skipped *)
Theorem C34_lcg_seed_seq_partial :
  forall t a c m gen, bits t = 32 \/ bits t = 64 -> lcg_wf t a c m ->
  (forall n, length (gen n) = n /\ Forall (fun e => word e /\ e <= imax t) (gen n)) ->
  exists k, words_for (cmod t m) k /\
    lcg_seed_seq t a c m gen = Some (lcg_seed_spec c (cmod t m) (le_value (firstn k (skipn 3 (gen (k + 3)%nat))))).
Proof. exact lcg_seq_ok. Qed.
Print Assumptions C34_lcg_seed_seq_partial.
Example C34_lcg_seq_case : lcg_seed_seq u32 16807 0 2147483647 (fun n => firstn n [1; 2; 3; 2147483649; 5]) = Some 2.
Proof. vm_compute. reflexivity. Qed.

(* inversive congruential engine *)
Theorem C34_icg_range_partial :
  forall t a b p l, bits t = 32 \/ bits t = 64 -> lcg_wf t a b p ->
  Forall (fun e => word e /\ e <= imax t) l ->
  exists k, words_for (cmod t p) k /\
  ((k <= length l)%nat ->
     icg_seed_range t a b p l = Some (Some (lcg_seed_spec b (cmod t p) (le_value (firstn k l))), skipn k l)) /\
  ((length l < k)%nat -> icg_seed_range t a b p l = Some (None, [])).
Proof. exact icg_range_ok. Qed.
Print Assumptions C34_icg_range_partial.
Example C34_icg_case : icg_seed_range u32 9102 2147483610 2147483647 [4294967295; 5] = Some (Some 1, [5]).
Proof. vm_compute. reflexivity. Qed.

(* linear feedback shift engine *)
Theorem C34_lfs_range :
  forall p l, lfs_params p -> lW p = 32 \/ lW p = 64 -> lw p - lk p <= 30 -> Forall word l ->
  forall c, words_per (lw p) c ->
  ((c <= length l)%nat -> exists v, lfs_seed_range p l = Some (Some v, skipn c l) /\ ~ lfs_dead p v /\
     (v = le_value (firstn c l) mod 2 ^ lw p \/ v = le_value (firstn c l) mod 2 ^ lw p + 2 ^ (lw p - lk p))) /\
  ((length l < c)%nat -> lfs_seed_range p l = Some (None, [])).
Proof. exact lfs_range_ok. Qed.
Print Assumptions C34_lfs_range.
(* a component of taus88; the second seed is too small and is moved *)
Example C34_lfs_case : lfs_params (Lfp 32 32 31 13 12) /\ words_per 32 1 /\
  lfs_seed_range (Lfp 32 32 31 13 12) [12345; 6] = Some (Some 12345, [6]) /\
  lfs_seed_range (Lfp 32 32 31 13 12) [1; 6] = Some (Some 3, [6]).
Proof. split; [vm_compute; intuition congruence|]. vm_compute. intuition congruence. Qed.

(* arrays of words: exact result, exact consumption; on a short range the
   elements that could be made are stored, the others keep their old values *)
Theorem C34_fill_array :
  forall W w c x l, 0 < w <= W -> words_per w c ->
  ((c * length x <= length l)%nat ->
     fill_array_int W w x l = (chunks c w (length x) l, Some (skipn (c * length x) l))) /\
  ((length l < c * length x)%nat ->
     fill_array_int W w x l = (chunks c w (length l / c) l ++ skipn (length l / c) x, None)).
Proof. exact array_ok. Qed.
Print Assumptions C34_fill_array.
(* 48-bit words from pairs of elements *)
Example C34_fill_case : words_per 48 2 /\
  fill_array_int 64 48 [0; 0] [1; 65538; 3; 4; 5] = ([1 + 2 ^ 32 * 2; 3 + 2 ^ 32 * 4], Some [5]) /\
  fill_array_int 64 48 [0; 9] [1; 65538; 3] = ([1 + 2 ^ 32 * 2; 9], None).
Proof. vm_compute. intuition congruence. Qed.

(* the floating point version (fractions with w binary digits) *)
Theorem C34_fill_array_real :
  forall w c x l, 0 < w -> words_per w c -> Forall word l ->
  ((c * length x <= length l)%nat ->
     fill_array_real w x l = (chunks c w (length x) l, Some (skipn (c * length x) l))) /\
  ((length l < c * length x)%nat ->
     fill_array_real w x l = (chunks c w (length l / c) l ++ skipn (length l / c) x, None)).
Proof. exact array_real_ok. Qed.
Print Assumptions C34_fill_array_real.
Example C34_fill_real_case : fill_array_real 48 [0; 0] [1; 65538; 3; 4; 5] = ([1 + 2 ^ 32 * 2; 3 + 2 ^ 32 * 4], Some [5]) /\
  fill_array_real 32 [0; 0] [1; 65538; 3] = ([1; 65538], Some [3]).
Proof. vm_compute. split; reflexivity. Qed.

(* the same from a seed sequence *)
Theorem C34_seed_array :
  forall W w n gen c, 0 < w <= W -> words_per w c -> length (gen (c * n)%nat) = (c * n)%nat ->
  seed_array_int W w n gen = Some (chunks c w n (gen (c * n)%nat)).
Proof. exact array_seq_ok. Qed.
Print Assumptions C34_seed_array.
Example C34_seed_array_case : seed_array_int 64 48 2 (fun n => map Z.of_nat (seq 1 n)) = Some [1 + 2 ^ 32 * 2; 3 + 2 ^ 32 * 4].
Proof. vm_compute. reflexivity. Qed.

(* subtract-with-carry engine *)
Theorem C34_swc_range :
  forall W w c r st l, 0 < w <= W -> words_per w c -> (1 <= r)%nat -> length (xs st) = r ->
  ((c * r <= length l)%nat -> exists st',
     swc_seed_range W w r st l = Some (st', Some (skipn (c * r) l)) /\ swc_wf w r st' /\
     xs st' = chunks c w r l /\ kk st' = 0%nat /\ (cy st' = 1 <-> nth (r - 1) (chunks c w r l) 0 = 0)) /\
  ((length l < c * r)%nat -> exists st', swc_seed_range W w r st l = Some (st', None)).
Proof. exact swc_range_ok. Qed.
Print Assumptions C34_swc_range.
Example C34_swc_case : swc_seed_range 32 24 2 (Swc [5; 6] 1 0) [2 ^ 24 + 3; 2 ^ 25; 8] = Some (Swc [3; 0] 0 1, Some [8]).
Proof. vm_compute. reflexivity. Qed.

Theorem C34_swc01_range :
  forall w c r st l, 0 < w -> words_per w c -> (1 <= r)%nat -> length (xs st) = r -> Forall word l ->
  ((c * r <= length l)%nat -> exists st',
     swc01_seed_range w r st l = Some (st', Some (skipn (c * r) l)) /\ swc_wf w r st' /\
     xs st' = chunks c w r l /\ kk st' = 0%nat /\ (cy st' = 1 <-> nth (r - 1) (chunks c w r l) 0 = 0)) /\
  ((length l < c * r)%nat -> exists st', swc01_seed_range w r st l = Some (st', None)).
Proof. exact swc01_range_ok. Qed.
Print Assumptions C34_swc01_range.
Example C34_swc01_case : swc01_seed_range 24 2 (Swc [5; 6] 1 0) [2 ^ 24 + 3; 2 ^ 25; 8] = Some (Swc [3; 0] 0 1, Some [8]).
Proof. vm_compute. reflexivity. Qed.

(* seed(value): the words are terms of a multiplicative congruential sequence *)
Theorem C34_swc_value :
  forall W w c r value, 0 < w <= W -> words_per w c -> (1 <= r)%nat ->
  let x := lcg_seed_spec 0 2147483563 ((if value =? 0 then 19780503 else value) mod 2 ^ 32) in
  let y := chunks c w r (mlcg_words 40014 2147483563 x (c * r)) in
  exists st, swc_seed_value W w r value = Some st /\ swc_wf w r st /\
    xs st = y /\ kk st = 0%nat /\ (cy st = 1 <-> nth (r - 1) y 0 = 0).
Proof. exact swc_value_ok. Qed.
Print Assumptions C34_swc_value.
Example C34_swc_value_case : swc_seed_value 32 24 2 1 =
  Some (Swc [40014; 40014 * 40014 mod 2 ^ 24] 0 0).
Proof. vm_compute. reflexivity. Qed.

(* lagged Fibonacci engines *)
Theorem C34_lf_range :
  forall W w c p st l, 0 < w <= W -> words_per w c -> Z.of_nat p < 2 ^ 32 -> length (lx st) = p ->
  ((c * p <= length l)%nat ->
     lf_seed_range W w p st l = (Lf (Z.of_nat p) (chunks c w p l), Some (skipn (c * p) l)) /\
     lf_wf w p (Lf (Z.of_nat p) (chunks c w p l))) /\
  ((length l < c * p)%nat -> snd (lf_seed_range W w p st l) = None).
Proof. exact lf_range_ok. Qed.
Print Assumptions C34_lf_range.
Example C34_lf_case : lf_seed_range 32 32 2 (Lf 1 [5; 6]) [3; 2 ^ 25; 8] = (Lf 2 [3; 2 ^ 25], Some [8]).
Proof. vm_compute. reflexivity. Qed.

Theorem C34_lf01_range :
  forall w c p st l, 0 < w -> words_per w c -> Z.of_nat p < 2 ^ 32 -> length (lx st) = p -> Forall word l ->
  ((c * p <= length l)%nat ->
     lf01_seed_range w p st l = (Lf (Z.of_nat p) (chunks c w p l), Some (skipn (c * p) l)) /\
     lf_wf w p (Lf (Z.of_nat p) (chunks c w p l))) /\
  ((length l < c * p)%nat -> snd (lf01_seed_range w p st l) = None).
Proof. exact lf01_range_ok. Qed.
Print Assumptions C34_lf01_range.
Example C34_lf01_case : lf01_seed_range 48 1 (Lf 1 [5]) [3; 2 ^ 25 + 1; 8] = (Lf 1 [3 + 2 ^ 32], Some [8]).
Proof. vm_compute. reflexivity. Qed.

Theorem C34_lf_value :
  forall W w c p value, 0 < w <= W -> words_per w c -> Z.of_nat p < 2 ^ 32 ->
  let x := lcg_seed_spec 0 2147483647 (value mod 2 ^ 32) in
  let y := chunks c w p (mlcg_words 16807 2147483647 x (c * p)) in
  lf_seed_value W w p value = Some (Lf (Z.of_nat p) y) /\ lf_wf w p (Lf (Z.of_nat p) y).
Proof. exact lf_value_ok. Qed.
Print Assumptions C34_lf_value.
Example C34_lf_value_case : lf_seed_value 64 48 1 331 = Some (Lf 1 [(331 * 16807 + 2 ^ 32 * (331 * 16807 * 16807 mod 2147483647)) mod 2 ^ 48]).
Proof. vm_compute. reflexivity. Qed.

(* Mersenne twister: the words are the terms that precede the first output *)
Theorem C34_mt_range :
  forall p c st l, mt_params p -> mt_temper_params p -> mt_reversible p -> words_per (mw p) c ->
  length (mx st) = mn p ->
  let y := chunks c (mw p) (mn p) l in
  ((c * mn p <= length l)%nat -> exists st', mt_seed_range p st l = Some (Some st', skipn (c * mn p) l) /\
     mt_wf p st' /\ (exists v, In v (mx st') /\ v <> 0) /\
     ((exists v, In v (tl y) /\ v <> 0) \/ nth 0 y 0 / 2 ^ mr p <> 0 ->
      exists X, mt_sequence p y X /\ forall k, mt_outputs p k st' = Some (map (fun j => tempered p (X j)) (seq (mn p) k)))) /\
  ((length l < c * mn p)%nat -> mt_seed_range p st l = Some (None, [])).
Proof. exact mt_range_ok. Qed.
Print Assumptions C34_mt_range.
Theorem C34_mt_seed_seq :
  forall p c gen, mt_params p -> mt_temper_params p -> mt_reversible p -> words_per (mw p) c ->
  length (gen (c * mn p)%nat) = (c * mn p)%nat ->
  let y := chunks c (mw p) (mn p) (gen (c * mn p)%nat) in
  exists st', mt_seed_seq p gen = Some st' /\ mt_wf p st' /\ (exists v, In v (mx st') /\ v <> 0) /\
     ((exists v, In v (tl y) /\ v <> 0) \/ nth 0 y 0 / 2 ^ mr p <> 0 ->
      exists X, mt_sequence p y X /\ forall k, mt_outputs p k st' = Some (map (fun j => tempered p (X j)) (seq (mn p) k))).
Proof. exact mt_seq_ok. Qed.
Print Assumptions C34_mt_seed_seq.
(* a small twister, seeded with three words *)
Definition c34_mt : mtp := Mtp 32 32 3 2 19 0xccab8ee7 11 0xffffffff 7 0x31b6ab00 15 0xffe50000 17 1812433253.
Example C34_mt_case : mt_params c34_mt /\ mt_temper_params c34_mt /\ mt_reversible c34_mt /\ words_per (mw c34_mt) 1 /\
  (r <- mt_seed_range c34_mt (Mt [0; 0; 0] 0) [1; 2; 3; 4];; Some (snd r)) = Some [4] /\
  mt_seed_range c34_mt (Mt [0; 0; 0] 0) [1; 2] = Some (None, []).
Proof.
  unfold mt_params, mt_temper_params, mt_reversible, words_per, c34_mt. cbn [mW mw mn mm mr ma mu md ms mb mt_ mc ml mf].
  repeat split; try lia; vm_compute; reflexivity.
Qed.

(* mixmax: the four identifiers *)
Theorem C34_mixmax_range :
  forall l, Forall word l ->
  match l with
  | a :: b :: c :: d :: rest => mx_seed_range l = (Some (mx_seed4 a b c d), rest)
  | _ => mx_seed_range l = (None, [])
  end.
Proof. exact mx_range_ok. Qed.
Print Assumptions C34_mixmax_range.
Example C34_mixmax_case : mx_seed_range [0; 0; 0] = (None, []) /\ snd (mx_seed_range [0; 0; 0; 0; 8; 9]) = [8; 9].
Proof. split; vm_compute; reflexivity. Qed.

(* combined engines: the second engine continues where the first one stopped *)
Theorem C34_pair_range :
  forall A B (f : list Z -> option (option A * list Z)) (g : list Z -> option (option B * list Z))
    (F : list Z -> A) (G : list Z -> B) i j l,
  (forall l, (i <= length l)%nat -> f l = Some (Some (F (firstn i l)), skipn i l)) ->
  (forall l, (length l < i)%nat -> f l = Some (None, [])) ->
  (forall l, (j <= length l)%nat -> g l = Some (Some (G (firstn j l)), skipn j l)) ->
  (forall l, (length l < j)%nat -> g l = Some (None, [])) ->
  ((i + j <= length l)%nat ->
     pair_seed_range f g l = Some (Some (F (firstn i l), G (firstn j (skipn i l))), skipn (i + j) l)) /\
  ((length l < i + j)%nat -> pair_seed_range f g l = Some (None, [])).
Proof. exact pair_range_ok. Qed.
Print Assumptions C34_pair_range.
(* ecuyer1988 *)
Example C34_pair_case :
  pair_seed_range (lcg_seed_range u32 40014 0 2147483563) (lcg_seed_range u32 40692 0 2147483399) [2147483564; 2147483402; 7] =
    Some (Some (1, 3), [7]).
Proof. vm_compute. reflexivity. Qed.
