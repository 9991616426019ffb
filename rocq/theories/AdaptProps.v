(* C25, C27, C28, C48: engine adaptors *)
From Coq Require Import Permutation.
From Verif Require Import Base StreamModel LfsModel LfsSpec LfsProofs AdaptModel AdaptSpec AdaptProofs ShufProofs AdaptIoProofs.

(* ================= C25: xor_combine_engine ================= *)

(* the value, if nothing is shifted out; all integer types *)
Theorem C25_xor_combine_value :
  forall t1 s1 t2 s2 x1 x2, 1 <= bits t1 -> 1 <= bits t2 ->
  0 <= s1 < bits t1 -> 0 <= s2 < bits t2 -> 0 <= x1 -> 0 <= x2 ->
  x1 * 2 ^ s1 <= imax t1 -> x2 * 2 ^ s2 <= imax t2 -> x2 * 2 ^ s2 <= imax t1 ->
  xc_val t1 s1 t2 s2 x1 x2 = Some (Z.lxor (x1 * 2 ^ s1) (x2 * 2 ^ s2)).
Proof. exact xc_val_ok. Qed.
Print Assumptions C25_xor_combine_value.

(* the value for all outputs and shifts, for engines with the same unsigned type *)
Theorem C25_xor_combine_value_unsigned :
  forall W s1 s2 x1 x2, 1 <= W -> 0 <= s1 < W -> 0 <= s2 < W ->
  xc_val (Ity W false) s1 (Ity W false) s2 x1 x2 =
    Some (Z.lxor ((x1 * 2 ^ s1) mod 2 ^ W) ((x2 * 2 ^ s2) mod 2 ^ W)).
Proof. exact xc_val_unsigned. Qed.
Print Assumptions C25_xor_combine_value_unsigned.
Example C25_value_case : xc_val u32 4 u32 0 10 7 = Some 167.
Proof. vm_compute. reflexivity. Qed.

(* Partial: both ranges start at 0, the larger maximum is 2^b-1, and the shifted
   values do not need more than b digits (or b is the width of the type).
   Refuted without these conditions. *)
Theorem C25_xor_combine_range_partial :
  forall W s1 s2 max1 max2 b x1 x2,
  1 <= W -> 0 <= s1 < W -> 0 <= s2 < W -> 0 <= b <= W ->
  Z.max max1 max2 = 2 ^ b - 1 ->
  (max1 * 2 ^ s1 < 2 ^ b \/ b = W) -> (max2 * 2 ^ s2 < 2 ^ b \/ b = W) ->
  0 <= x1 <= max1 -> 0 <= x2 <= max2 ->
  exists v, xc_val (Ity W false) s1 (Ity W false) s2 x1 x2 = Some v /\
    xc_min (Ity W false) (Ity W false) 0 0 <= v <= xc_max (Ity W false) (Ity W false) max1 max2.
Proof. exact xc_range. Qed.
Print Assumptions C25_xor_combine_range_partial.
Example C25_range_case : Z.max (2 ^ 16 - 1) (2 ^ 31 - 1) = 2 ^ 31 - 1 /\ (2 ^ 16 - 1) * 2 ^ 15 < 2 ^ 31.
Proof. vm_compute. split; reflexivity. Qed.

(* maxima 4 and 3: the output 7 *)
Theorem C25_xor_combine_max_refuted :
  exists x1 x2 v, 0 <= x1 <= 4 /\ 0 <= x2 <= 3 /\ xc_val u32 0 u32 0 x1 x2 = Some v /\ xc_max u32 u32 4 3 < v.
Proof. exact xc_max_wrong. Qed.
Print Assumptions C25_xor_combine_max_refuted.
(* shifts are ignored by max() *)
Theorem C25_xor_combine_shift_refuted :
  exists x1 x2 v, 0 <= x1 <= 2 ^ 8 - 1 /\ 0 <= x2 <= 2 ^ 8 - 1 /\
  xc_val u32 8 u32 0 x1 x2 = Some v /\ xc_max u32 u32 (2 ^ 8 - 1) (2 ^ 8 - 1) < v.
Proof. exact xc_shift_wrong. Qed.
Print Assumptions C25_xor_combine_shift_refuted.
(* minstd_rand twice: 0 is below min() = 1 *)
Theorem C25_xor_combine_min_refuted :
  exists x1 x2 v, 1 <= x1 <= 2147483646 /\ 1 <= x2 <= 2147483646 /\
  xc_val u32 0 u32 0 x1 x2 = Some v /\ v < xc_min u32 u32 1 1.
Proof. exact xc_min_wrong. Qed.
Print Assumptions C25_xor_combine_min_refuted.
(* the deprecated class xor_combine takes the minimum of the first engine for its maximum *)
Theorem C25_xor_combine_old_max_refuted :
  exists x1 x2 v, 0 <= x1 <= 3 /\ 0 <= x2 <= 1 /\
  xc_val u32 0 u32 0 x1 x2 = Some v /\ v <= xc_max u32 u32 3 1 /\ xc_old_max 0 1 < v.
Proof. exact xc_old_max_wrong. Qed.
Print Assumptions C25_xor_combine_old_max_refuted.

(* taus88: one step, all states of three 32-bit words *)
Theorem C25_taus88_step :
  forall s, t88_ok s ->
  exists v s', taus88_next s = Some (v, s') /\ t88_ok s' /\ taus88_min <= v <= taus88_max /\
    s' = ((lfs_next t88_a (fst (fst s)), lfs_next t88_b (snd (fst s))), lfs_next t88_c (snd s)) /\
    v = Z.lxor (Z.lxor (fst (fst s')) (snd (fst s'))) (snd s').
Proof. exact taus88_ok. Qed.
Print Assumptions C25_taus88_step.
(* which is the published algorithm, for all states of three 32-bit words *)
Theorem C25_taus88_published : forall s, t88_ok s -> taus88_next s = Some (taus88_published s).
Proof. exact taus88_published_ok. Qed.
Print Assumptions C25_taus88_published.
Example C25_taus88_published_case : t88_ok ((4000000000, 3000000000), 5) /\
  fst (taus88_published ((4000000000, 3000000000), 5)) = 2676355409.
Proof. split; [unfold t88_ok; cbn; lia|vm_compute; reflexivity]. Qed.
(* any number of steps *)
Theorem C25_taus88_range :
  forall n s, t88_ok s -> exists l s', run taus88_next n s = Some (l, s') /\ t88_ok s' /\
  Forall (fun v => taus88_min <= v <= taus88_max) l.
Proof. exact taus88_run. Qed.
Print Assumptions C25_taus88_range.
(* any seed *)
Theorem C25_taus88_seed :
  forall v, exists s, taus88_seed v = Some s /\ t88_ok s /\
  ~ lfs_dead t88_a (fst (fst s)) /\ ~ lfs_dead t88_b (snd (fst s)) /\ ~ lfs_dead t88_c (snd s).
Proof. exact taus88_seed_ok. Qed.
Print Assumptions C25_taus88_seed.
Example C25_taus88_run_case : (s <- taus88_seed 341;; option_map fst (run taus88_next 3 s)) = Some [45438212; 1409544450; 3980732798].
Proof. vm_compute. reflexivity. Qed.

(* discard(z) of the combination is z calls if that holds for the two engines *)
Theorem C25_xor_combine_discard :
  forall S1 S2 t1 h1 t2 h2 (f1 : S1 -> option (Z * S1)) (f2 : S2 -> option (Z * S2)) d1 d2 z s l s',
  (forall n a l a', run f1 n a = Some (l, a') -> d1 n a = a') ->
  (forall n a l a', run f2 n a = Some (l, a') -> d2 n a = a') ->
  run (xc_next t1 h1 t2 h2 f1 f2) z s = Some (l, s') -> xc_discard d1 d2 z s = s'.
Proof. exact xc_discard_ok. Qed.
Print Assumptions C25_xor_combine_discard.

(* ================= C27: discard_block_engine ================= *)

Theorem C27_discard_block_output :
  forall S (f : S -> Z * S) p r s n, 1 <= r <= p -> p < 2 ^ 64 ->
  eng_out (db_next p r f) (db_init s) n = eng_out f s (Z.to_nat (p * (Z.of_nat n / r) + Z.of_nat n mod r)).
Proof. exact db_output. Qed.
Print Assumptions C27_discard_block_output.

Theorem C27_discard_block_range :
  forall S (f : S -> Z * S) P bmin bmax p r s n, 1 <= r <= p -> p < 2 ^ 64 -> ranged f P bmin bmax -> P s ->
  db_min bmin <= eng_out (db_next p r f) (db_init s) n <= db_max bmax.
Proof. exact db_range. Qed.
Print Assumptions C27_discard_block_range.

(* discard(z) is z calls, from any state *)
Theorem C27_discard_block_discard :
  forall S (f : S -> Z * S) p r z d n,
  eng_out (db_next p r f) (db_discard p r f z d) n = eng_out (db_next p r f) d (z + n).
Proof. exact db_discard_ok. Qed.
Print Assumptions C27_discard_block_discard.

(* the counting engine 0, 1, 2, ...: with p = 7, r = 3 *)
Example C27_case : map (eng_out (db_next 7 3 (fun s => (s, s + 1))) (db_init 0)) (seq 0 9) = [0; 1; 2; 7; 8; 9; 14; 15; 16].
Proof. vm_compute. reflexivity. Qed.
Example C27_ranged_case : ranged (lfs_step t88_a) (fun v => 0 <= v < 2 ^ 32) 0 (2 ^ 32 - 1).
Proof.
  intros s H. pose proof (next_range t88_a s (proj1 t88_params) H) as HN. cbn [lW t88_a] in HN.
  unfold lfs_step. cbn [fst snd]. split; [|exact HN]. destruct HN as [A B]. split; [exact A|]. apply Z.lt_le_pred. exact B.
Qed.

(* ================= C28: shuffle_order_engine ================= *)

(* the table index is in bounds for all ranges and values; k up to 2^32-2 *)
Theorem C28_shuffle_index_bounds :
  forall tb bmin bmax k y, type_ok tb bmin bmax -> bmin <= y <= bmax -> 1 <= k <= 2 ^ 32 - 2 ->
  exists j, so_index tb bmin bmax k y = Some j /\ 0 <= j < k.
Proof. exact index_bounds. Qed.
Print Assumptions C28_shuffle_index_bounds.

(* Partial: engines with fewer than 2^64 values, and tables with no more entries
   than the result type has values *)
Theorem C28_shuffle_index_partial :
  forall tb bmin bmax k y, type_ok tb bmin bmax -> bmin <= y <= bmax -> 1 <= k <= 2 ^ 32 - 2 ->
  k <= 2 ^ bits tb -> bmax - bmin + 1 < 2 ^ 64 \/ k = 1 ->
  so_index tb bmin bmax k y = Some (k * (y - bmin) / (bmax - bmin + 1)).
Proof. exact index_formula. Qed.
Print Assumptions C28_shuffle_index_partial.
Example C28_knuth_b_case : type_ok u32 1 2147483646 /\ so_index u32 1 2147483646 256 2000000000 = Some 238.
Proof. split; [unfold type_ok, inT; cbn; lia|vm_compute; reflexivity]. Qed.
Example C28_wide_case : type_ok u64 1 (2 ^ 61 - 2) /\ so_index u64 1 (2 ^ 61 - 2) 97 (2 ^ 60) = Some 48.
Proof. split; [unfold type_ok, inT; cbn; lia|vm_compute; reflexivity]. Qed.

(* full 64-bit engines: only entries 0 and k/2 of the table are ever used *)
Theorem C28_shuffle_index_full64_refuted :
  exists k y, 1 <= k /\ 0 <= y < 2 ^ 64 /\ so_index u64 0 (2 ^ 64 - 1) k y <> Some (k * y / 2 ^ 64).
Proof. exact index_full64_wrong. Qed.
Print Assumptions C28_shuffle_index_full64_refuted.
Theorem C28_shuffle_index_full64 :
  forall k y, 2 <= k <= 2 ^ 32 - 2 -> 0 <= y < 2 ^ 64 ->
  so_index u64 0 (2 ^ 64 - 1) k y = Some ((y mod 2) * k / 2).
Proof. exact index_full64. Qed.
Print Assumptions C28_shuffle_index_full64.
(* an 8-bit engine with 1000 table entries: the index is truncated to 8 bits *)
Theorem C28_shuffle_index_narrow_refuted :
  exists tb bmin bmax k y, type_ok tb bmin bmax /\ bmin <= y <= bmax /\ 1 <= k <= 2 ^ 32 - 2 /\
  bmax - bmin + 1 < 2 ^ 64 /\ so_index tb bmin bmax k y <> Some (k * (y - bmin) / (bmax - bmin + 1)).
Proof. exact index_narrow_wrong. Qed.
Print Assumptions C28_shuffle_index_narrow_refuted.

(* one call replaces the entry with that index by the next base output and returns it *)
Theorem C28_shuffle_step_partial :
  forall St (f : St -> Z * St) P tb bmin bmax o,
  ranged f P bmin bmax -> type_ok tb bmin bmax -> sho_ok P bmin bmax o ->
  1 <= Z.of_nat (length (so_v o)) <= 2 ^ 32 - 2 -> Z.of_nat (length (so_v o)) <= 2 ^ bits tb -> bmax - bmin + 1 < 2 ^ 64 ->
  let k := Z.of_nat (length (so_v o)) in
  let j := Z.to_nat (k * (so_y o - bmin) / (bmax - bmin + 1)) in
  exists y l1 l2, so_v o = l1 ++ y :: l2 /\ length l1 = j /\
    so_next tb bmin bmax k f o = Some (y, Sho (snd (f (so_base o))) (l1 ++ fst (f (so_base o)) :: l2) y).
Proof. exact so_step. Qed.
Print Assumptions C28_shuffle_step_partial.

(* no undefined access in any run; outputs are base outputs, in the base range,
   and the first k+1+n base outputs are the initial y, the n outputs and the table *)
Theorem C28_shuffle_run :
  forall St (f : St -> Z * St) P tb bmin bmax k s n,
  ranged f P bmin bmax -> type_ok tb bmin bmax -> (1 <= k)%nat -> Z.of_nat k <= 2 ^ 32 - 2 -> P s ->
  exists outs o, run (so_next tb bmin bmax (Z.of_nat k) f) n (so_init f k s) = Some (outs, o) /\
    length outs = n /\ Forall (fun v => bmin <= v <= bmax) outs /\
    Permutation (eng_outs f s (k + 1 + n)) (so_y (so_init f k s) :: outs ++ so_v o).
Proof. exact so_run. Qed.
Print Assumptions C28_shuffle_run.
Example C28_run_case :
  option_map (fun r => (fst r, so_v (snd r))) (run (so_next u32 0 10 3 (fun s => (s, (s * 4 + 3) mod 11))) 5
    (so_init (fun s => (s, (s * 4 + 3) mod 11)) 3 1)) = Some ([7; 5; 1; 1; 9], [6; 7; 9]).
Proof. vm_compute. reflexivity. Qed.

(* ================= C48: text save/restore of adaptors ================= *)

Theorem C48_lfs_restores : forall p, restores lfs_write (lfs_read p) lfs_eq (fun v => 0 <= v < 2 ^ lW p).
Proof. exact lfs_restores. Qed.
Print Assumptions C48_lfs_restores.
Theorem C48_xor_combine_restores :
  forall S1 S2 wr1 wr2 rd1 rd2 eq1 eq2 (P1 : S1 -> Prop) (P2 : S2 -> Prop),
  restores wr1 rd1 eq1 P1 -> restores wr2 rd2 eq2 P2 ->
  restores (xc_write wr1 wr2) (xc_read rd1 rd2) (xc_eq eq1 eq2) (fun s => P1 (fst s) /\ P2 (snd s)).
Proof. exact xc_restores. Qed.
Print Assumptions C48_xor_combine_restores.
Theorem C48_discard_block_restores :
  forall S wr rd eq (P : S -> Prop), restores wr rd eq P ->
  restores (db_write wr) (db_read rd) (db_eq eq) (fun d => P (db_base d) /\ 0 <= db_n d < 2 ^ 64).
Proof. exact db_restores. Qed.
Print Assumptions C48_discard_block_restores.
Theorem C48_shuffle_order_restores :
  forall S tb wr rd eq (P : S -> Prop) s old ts, restores wr rd eq P ->
  P (so_base s) -> inT tb (so_y s) -> (forall u, In u (so_v s) -> inT tb u) -> length (so_v old) = length (so_v s) ->
  exists s', so_read tb rd old (good_in (so_write wr s ++ ts)) = (s', good_in ts) /\ so_eq eq s' s = true /\
    so_v s' = so_v s /\ so_y s' = so_y s.
Proof. exact so_restores. Qed.
Print Assumptions C48_shuffle_order_restores.

(* discard(z) is z calls *)
Theorem C48_lfs_discard :
  forall p z v n, eng_out (lfs_step p) (lfs_discard p z v) n = eng_out (lfs_step p) v (z + n).
Proof. exact lfs_discard_ok. Qed.
Print Assumptions C48_lfs_discard.
Theorem C48_shuffle_order_discard :
  forall S tb bmin bmax k (f : S -> Z * S) z o o',
  so_discard tb bmin bmax k f z o = Some o' <-> exists outs, run (so_next tb bmin bmax k f) z o = Some (outs, o').
Proof. exact so_discard_ok. Qed.
Print Assumptions C48_shuffle_order_discard.

(* engines that compare equal produce the same outputs *)
Theorem C48_xor_combine_equal :
  forall S1 S2 t1 h1 t2 h2 (f1 : S1 -> option (Z * S1)) (f2 : S2 -> option (Z * S2)) eq1 eq2,
  eq_sound_opt eq1 f1 -> eq_sound_opt eq2 f2 ->
  eq_sound_opt (xc_eq eq1 eq2) (xc_next t1 h1 t2 h2 f1 f2).
Proof. exact xc_eq_outputs. Qed.
Print Assumptions C48_xor_combine_equal.
Example C48_xor_combine_equal_case : eq_sound_opt lfs_eq (lfs_eng t88_a) /\ eq_sound_opt lfs_eq (lfs_eng t88_b).
Proof. split; apply lfs_eq_opt. Qed.
Theorem C48_discard_block_equal :
  forall S (f : S -> Z * S) eq p r,
  eq_sound eq f (fun _ => True) -> eq_sound (db_eq eq) (db_next p r f) (fun _ => True).
Proof. exact db_eq_sound. Qed.
Print Assumptions C48_discard_block_equal.
Theorem C48_shuffle_order_equal :
  forall S (f : S -> Z * S) eq tb bmin bmax k n x y,
  eq_sound eq f (fun _ => True) -> length (so_v x) = length (so_v y) -> so_eq eq x y = true ->
  option_map fst (run (so_next tb bmin bmax k f) n x) = option_map fst (run (so_next tb bmin bmax k f) n y).
Proof. exact so_eq_outputs. Qed.
Print Assumptions C48_shuffle_order_equal.
Example C48_taus88_case : restores (xc_write (xc_write lfs_write lfs_write) lfs_write)
  (xc_read (xc_read (lfs_read t88_a) (lfs_read t88_b)) (lfs_read t88_c)) (xc_eq (xc_eq lfs_eq lfs_eq) lfs_eq)
  (fun s => (0 <= fst (fst s) < 2 ^ 32 /\ 0 <= snd (fst s) < 2 ^ 32) /\ 0 <= snd s < 2 ^ 32).
Proof. exact (xc_restores _ _ _ _ _ _ _ _ _ _ (xc_restores _ _ _ _ _ _ _ _ _ _ (lfs_restores t88_a) (lfs_restores t88_b)) (lfs_restores t88_c)). Qed.
Example C48_equal_case : eq_sound lfs_eq (lfs_step t88_a) (fun _ => True).
Proof. exact (lfs_eq_sound t88_a). Qed.
