(* C01-C05: uniform_int_distribution, uniform_smallint, random_number_generator *)
From Verif Require Import Base ProgModel ProgSpec UIntModel UIntSpec UInt4Proofs.

(* ================= C01: range ================= *)

(* Partial: excludes the inputs for which b-a+1 is a proper power of the number
   of engine values, unless a = 0 or [a,b] is the whole type ([ui_good]); the
   claim is refuted on the excluded inputs below.  "length ds < F" says that
   the rejection loops of the model have fuel for as many iterations as there
   are engine outputs. *)
Theorem C01_uniform_int_range_partial :
  forall tb bmin bmax t a b F ds,
  eng_wf tb bmin bmax -> ui_wf t a b -> ui_good bmin bmax t a b ->
  valid_draws bmin bmax ds -> (length ds < F)%nat ->
  exec (uniform_int F tb bmin bmax t a b) ds = OMore \/
  exists v rest, exec (uniform_int F tb bmin bmax t a b) ds = ORet v rest /\ a <= v <= b.
Proof. exact (fun tb bmin bmax t a b F ds H1 H2 H3 H4 H5 => ui_range tb bmin bmax H1 t a b H2 H3 F ds H5 H4). Qed.
Print Assumptions C01_uniform_int_range_partial.

(* no overflow, division by zero or endless recursion, for all inputs *)
Theorem C01_uniform_int_no_overflow :
  forall tb bmin bmax t a b F ds,
  eng_wf tb bmin bmax -> ui_wf t a b -> valid_draws bmin bmax ds -> (length ds < F)%nat ->
  exec (uniform_int F tb bmin bmax t a b) ds = OMore \/
  exists v rest, exec (uniform_int F tb bmin bmax t a b) ds = ORet v rest /\ inT t v.
Proof. exact (fun tb bmin bmax t a b F ds H1 H2 H4 H5 => ui_no_ub tb bmin bmax H1 t a b H2 F ds H5 H4). Qed.
Print Assumptions C01_uniform_int_no_overflow.

(* rolling a die with a 32-bit engine; the whole of int64 with a 32-bit engine *)
Example C01_die_case : eng_wf u32 0 (2 ^ 32 - 1) /\ ui_wf i32 1 6 /\ ui_good 0 (2 ^ 32 - 1) i32 1 6.
Proof. exact (conj mt_wf good_die). Qed.
Example C01_full_case : ui_wf i64 (- 2 ^ 63) (2 ^ 63 - 1) /\ ui_good 0 (2 ^ 32 - 1) i64 (- 2 ^ 63) (2 ^ 63 - 1) /\
  power_case 0 (2 ^ 32 - 1) (- 2 ^ 63) (2 ^ 63 - 1).
Proof. exact good_full64. Qed.
Example C01_die_run : exec (uniform_int 5 u32 0 (2 ^ 32 - 1) i32 1 6) [4294967295; 4294967290; 7] = ORet 6 [7].
Proof. vm_compute. reflexivity. Qed.

(* [5,20] from an engine with the four outputs 0..3 *)
Theorem C01_uniform_int_range_refuted :
  exists tb bmin bmax t a b ds v,
  eng_wf tb bmin bmax /\ ui_wf t a b /\ valid_draws bmin bmax ds /\
  exec (uniform_int 3 tb bmin bmax t a b) ds = ORet v [] /\ v < a.
Proof. exact ui_range_wrong. Qed.
Print Assumptions C01_uniform_int_range_refuted.

(* ================= C02: exact uniformity ================= *)

(* Partial in the same way as C01.  For every number n of engine outputs, the
   n-tuples after exactly which the distribution returns are equally many for
   all values of [a,b]. *)
Theorem C02_uniform_int_uniform_partial :
  forall tb bmin bmax t a b F n v1 v2,
  eng_wf tb bmin bmax -> ui_wf t a b -> ui_good bmin bmax t a b ->
  a <= v1 <= b -> a <= v2 <= b ->
  count bmin bmax (uniform_int F tb bmin bmax t a b) n v1 =
  count bmin bmax (uniform_int F tb bmin bmax t a b) n v2.
Proof. exact (fun tb bmin bmax t a b F n v1 v2 H1 H2 H3 => ui_uniform tb bmin bmax H1 t a b H2 H3 F n v1 v2). Qed.
Print Assumptions C02_uniform_int_uniform_partial.

(* the count is not always 0: each value has an accepted tuple of the least length *)
Theorem C02_uniform_int_onto_partial :
  forall tb bmin bmax t a b F n v,
  eng_wf tb bmin bmax -> ui_wf t a b -> ui_good bmin bmax t a b -> (0 < F)%nat -> a <= v <= b ->
  least_draws bmin bmax a b n ->
  exists ds, length ds = n /\ valid_draws bmin bmax ds /\
    exec (uniform_int F tb bmin bmax t a b) ds = ORet v [].
Proof. exact (fun tb bmin bmax t a b F n v H1 H2 H3 => ui_reach_good tb bmin bmax H1 t a b H2 H3 F n v). Qed.
Print Assumptions C02_uniform_int_onto_partial.

Example C02_case : map (fun v => count 0 3 (uniform_int 3 u32 0 3 i32 (-2) 7) 4 v) [-3; -2; 0; 7; 8] = [0; 3; 3; 3; 0]%nat.
Proof. vm_compute. reflexivity. Qed.

Theorem C02_uniform_int_uniform_refuted :
  exists tb bmin bmax t a b n v1 v2,
  eng_wf tb bmin bmax /\ ui_wf t a b /\ a <= v1 <= b /\ a <= v2 <= b /\
  count bmin bmax (uniform_int 3 tb bmin bmax t a b) n v1 <>
  count bmin bmax (uniform_int 3 tb bmin bmax t a b) n v2.
Proof. exact ui_uniform_wrong. Qed.
Print Assumptions C02_uniform_int_uniform_refuted.

(* ================= C03: number of draws, progress ================= *)

(* never fewer than the least number of draws that can produce b-a+1 values *)
Theorem C03_uniform_int_min_draws :
  forall tb bmin bmax t a b F ds n v rest,
  eng_wf tb bmin bmax -> ui_wf t a b -> valid_draws bmin bmax ds -> (length ds < F)%nat ->
  least_draws bmin bmax a b n -> exec (uniform_int F tb bmin bmax t a b) ds = ORet v rest ->
  (n <= length ds - length rest)%nat.
Proof.
  exact (fun tb bmin bmax t a b F ds n v rest H1 H2 H3 H4 => ui_min_draws tb bmin bmax H1 t a b H2 F ds n v rest H4 H3).
Qed.
Print Assumptions C03_uniform_int_min_draws.

(* a single attempt (no rejection allowed) never asks for more than that *)
Theorem C03_uniform_int_attempt :
  forall tb bmin bmax t a b ds n,
  eng_wf tb bmin bmax -> ui_wf t a b -> least_draws bmin bmax a b n ->
  valid_draws bmin bmax ds -> length ds = n ->
  exec (uniform_int 1 tb bmin bmax t a b) ds <> OMore.
Proof. exact ui_attempt_bound. Qed.
Print Assumptions C03_uniform_int_attempt.

(* some tuple of that length is accepted at the first attempt *)
Theorem C03_uniform_int_accepts :
  forall tb bmin bmax t a b F n,
  eng_wf tb bmin bmax -> ui_wf t a b -> (0 < F)%nat -> least_draws bmin bmax a b n ->
  exists ds v, length ds = n /\ valid_draws bmin bmax ds /\
    exec (uniform_int F tb bmin bmax t a b) ds = ORet v [].
Proof. exact (fun tb bmin bmax t a b F n H1 H2 => ui_reach tb bmin bmax H1 t a b H2 F n). Qed.
Print Assumptions C03_uniform_int_accepts.

(* and whatever was drawn so far, some continuation makes it return *)
Theorem C03_uniform_int_no_dead_end :
  forall tb bmin bmax t a b F ds,
  eng_wf tb bmin bmax -> ui_wf t a b -> valid_draws bmin bmax ds -> (length ds < F)%nat ->
  exists ds' v rest, valid_draws bmin bmax ds' /\
    exec (uniform_int F tb bmin bmax t a b) (ds ++ ds') = ORet v rest.
Proof. exact (fun tb bmin bmax t a b F ds H1 H2 H3 H4 => ui_extend tb bmin bmax H1 t a b H2 F ds H4 H3). Qed.
Print Assumptions C03_uniform_int_no_dead_end.

Theorem C03_least_draws_exists :
  forall tb bmin bmax t a b, eng_wf tb bmin bmax -> ui_wf t a b -> exists n, least_draws bmin bmax a b n.
Proof. exact (fun tb bmin bmax t a b H1 H2 => least_exists tb bmin bmax H1 t a b H2). Qed.
Print Assumptions C03_least_draws_exists.

Example C03_case : least_draws 0 (2 ^ 32 - 1) (- 2 ^ 63) (2 ^ 63 - 1) 2.
Proof. exact least_full64. Qed.

(* ================= C04: uniform_smallint ================= *)

Theorem C04_smallint_one_draw :
  forall tb bmin bmax t a b,
  2 <= bits tb -> inT tb bmin -> inT tb bmax -> bmin <= bmax -> ui_wf t a b ->
  exec (uniform_smallint tb bmin bmax t a b) [] = OMore /\
  forall v rest, bmin <= v <= bmax ->
    exists x, exec (uniform_smallint tb bmin bmax t a b) (v :: rest) = ORet x rest /\ a <= x <= b.
Proof.
  exact (fun tb bmin bmax t a b H1 H2 H3 H4 H5 =>
    conj (smallint_none tb bmin bmax t a b H1 H2 H3 H4 H5) (smallint_exec tb bmin bmax t a b H1 H2 H3 H4 H5)).
Qed.
Print Assumptions C04_smallint_one_draw.

Theorem C04_smallint_counts :
  forall tb bmin bmax t a b i,
  2 <= bits tb -> inT tb bmin -> inT tb bmax -> bmin <= bmax -> ui_wf t a b -> 0 <= i <= b - a ->
  Z.of_nat (count bmin bmax (uniform_smallint tb bmin bmax t a b) 1 (a + i)) =
  (bmax - bmin + 1) / (b - a + 1) + (if i <? (bmax - bmin + 1) mod (b - a + 1) then 1 else 0).
Proof.
  exact (fun tb bmin bmax t a b i H1 H2 H3 H4 H5 H6 => smallint_count tb bmin bmax t a b H1 H2 H3 H4 H5 i H6).
Qed.
Print Assumptions C04_smallint_counts.

Example C04_case : map (fun v => count (-8) 2 (uniform_smallint i32 (-8) 2 i32 (-1) 2) 1 v) [-2; -1; 0; 1; 2; 3] = [0; 3; 3; 3; 2; 0]%nat.
Proof. vm_compute. reflexivity. Qed.

(* ================= C05: random_number_generator ================= *)

Theorem C05_random_number_generator_range :
  forall tb bmin bmax t n F ds,
  eng_wf tb bmin bmax -> 2 <= bits t -> 0 < n -> inT t n ->
  (length ds < F)%nat -> valid_draws bmin bmax ds ->
  exec (random_number_generator F tb bmin bmax t n) ds = OMore \/
  exists v rest, exec (random_number_generator F tb bmin bmax t n) ds = ORet v rest /\ 0 <= v < n.
Proof. exact rng_range. Qed.
Print Assumptions C05_random_number_generator_range.

Theorem C05_random_number_generator_uniform :
  forall tb bmin bmax t n F m v1 v2,
  eng_wf tb bmin bmax -> 2 <= bits t -> inT t n -> 0 <= v1 < n -> 0 <= v2 < n ->
  count bmin bmax (random_number_generator F tb bmin bmax t n) m v1 =
  count bmin bmax (random_number_generator F tb bmin bmax t n) m v2.
Proof. exact rng_uniform. Qed.
Print Assumptions C05_random_number_generator_uniform.

Theorem C05_random_number_generator_onto :
  forall tb bmin bmax t n F v,
  eng_wf tb bmin bmax -> 2 <= bits t -> inT t n -> (0 < F)%nat -> 0 <= v < n ->
  exists ds, valid_draws bmin bmax ds /\ exec (random_number_generator F tb bmin bmax t n) ds = ORet v [].
Proof. exact rng_reach. Qed.
Print Assumptions C05_random_number_generator_onto.

Example C05_case : exec (random_number_generator 3 u32 0 3 i64 16) [3; 2] = ORet 11 [] /\
  exec (random_number_generator 3 u32 0 3 i64 1) [3; 2] = ORet 0 [3; 2].
Proof. vm_compute. split; reflexivity. Qed.
