(* C44: generate_int_float_pair. *)
From Coq Require Import Lqa.
From Verif Require Import Base ProgModel ProgSpec ProgProofs UIntModel UIntSpec FloatModel FloatSpec FloatProofs RealModel RealSpec RealProofs IfpModel IfpSpec IfpProofs Ifp2Proofs Ifp3Proofs Ifp4Proofs.
Open Scope Z_scope.

(* Integral engines.  If the last digit of the real number is not a full one,
   every run returns a bucket in [0,2^w) and a real number in [0,1), without
   undefined behaviour; and the real number is a multiple of 2^-digits.
   Partial: C44_shift_refuted shows that the hypothesis no_full_last is needed. *)
Theorem C44_range_partial : forall f md fuel tb bmin bmax w ds,
  fmt_ok f -> emin f + 64 <= 0 -> eng_wf tb bmin bmax -> 32 <= bits tb <= 64 -> 1 <= w <= 31 ->
  no_full_last (prec f) (digit_bits bmin bmax) w ->
  valid_draws bmin bmax ds -> (length ds < fuel)%nat ->
  exec (int_float_pair f md fuel w tb bmin bmax) ds = OMore \/
  exists q b rest, exec (int_float_pair f md fuel w tb bmin bmax) ds = ORet (q, b) rest /\
    0 <= b < 2 ^ w /\ (0 <= q /\ q < 1)%Q /\
    (digit_bits bmin bmax - w mod digit_bits bmin bmax <= prec f ->
     exists V, 0 <= V < 2 ^ prec f /\ (q == inject_Z V * p2 (- prec f))%Q).
Proof.
  intros f md fuel tb bmin bmax w ds Hf Hemin He HW Hw HN Hv Hl.
  exact (pair_run f md fuel tb bmin bmax w Hf Hemin He HW Hw HN ds Hv Hl).
Qed.
Print Assumptions C44_range_partial.

Example C44_range_example : no_full_last 53 (digit_bits 0 4294967295) 8 /\
  exists q, exec (int_float_pair ieee_double RNE 5 8 u32 0 4294967295) [513; 2; 7] = ORet (q, 1) [7] /\
    (q == inject_Z (2 * 2 ^ 24 + 2) * p2 (- 53))%Q.
Proof. split; [right; vm_compute; discriminate|]. eexists. split; [vm_compute; reflexivity|reflexivity]. Qed.

(* If the last digit is a full one, remaining = 0 and base_unsigned(2) is shifted
   by (std::size_t)(-1): the function never returns, whatever the engine yields. *)
Theorem C44_full_last_never_returns : forall f md fuel tb bmin bmax w ds x rest,
  fmt_ok f -> eng_wf tb bmin bmax -> 32 <= bits tb <= 64 -> 1 <= w <= 31 ->
  ~ no_full_last (prec f) (digit_bits bmin bmax) w ->
  valid_draws bmin bmax ds ->
  exec (int_float_pair f md fuel w tb bmin bmax) ds <> ORet x rest.
Proof.
  intros f md fuel tb bmin bmax w ds x rest Hf He HW Hw HN Hv.
  exact (pair_never f md fuel tb bmin bmax w Hf He HW Hw HN ds x rest Hv).
Qed.
Print Assumptions C44_full_last_never_returns.

Example C44_full_last_example : ~ no_full_last 64 (digit_bits 0 16777215) 8 /\ ~ no_full_last 24 (digit_bits 0 65535) 8.
Proof. split; intros [H|H]; vm_compute in H; congruence. Qed.

(* "No shift is by a negative amount" is false: x87 long double (64 digits)
   with a 24-bit engine such as ranlux, and float with a 16-bit engine; w = 8 as in
   normal_distribution and exponential_distribution. *)
Theorem C44_shift_refuted : exists f tb bmin bmax ds,
  fmt_ok f /\ eng_wf tb bmin bmax /\ valid_draws bmin bmax ds /\
  f = Fmt 64 (-16445) /\ bmin = 0 /\ bmax = 16777215 /\
  forall md, exec (int_float_pair f md 100 8 tb bmin bmax) ds = OUB.
Proof.
  exists (Fmt 64 (-16445)), u32, 0, 16777215, [1; 2; 3; 4].
  split; [split; vm_compute; discriminate|]. split; [unfold eng_wf, inT; vm_compute; intuition discriminate|].
  split; [repeat constructor; vm_compute; discriminate|]. repeat (split; [reflexivity|]).
  intros []; vm_compute; reflexivity.
Qed.
Print Assumptions C44_shift_refuted.

Theorem C44_shift_float_refuted : exists tb bmin bmax ds,
  eng_wf tb bmin bmax /\ valid_draws bmin bmax ds /\ bmin = 0 /\ bmax = 65535 /\
  forall md, exec (int_float_pair ieee_single md 100 8 tb bmin bmax) ds = OUB.
Proof.
  exists u32, 0, 65535, [1; 2; 3; 4].
  split; [unfold eng_wf, inT; vm_compute; intuition discriminate|].
  split; [repeat constructor; vm_compute; discriminate|]. repeat (split; [reflexivity|]).
  intros []; vm_compute; reflexivity.
Qed.
Print Assumptions C44_shift_float_refuted.

(* The bucket is independent of the real number, and uniform: for any set P of
   real numbers, each bucket comes with a member of P after equally many
   sequences of engine outputs. *)
Theorem C44_independent : forall f md fuel tb bmin bmax w n P b1 b2,
  fmt_ok f -> eng_wf tb bmin bmax -> 32 <= bits tb <= 64 -> 1 <= w <= 31 ->
  0 <= b1 < 2 ^ w -> 0 <= b2 < 2 ^ w ->
  pair_count bmin bmax (int_float_pair f md fuel w tb bmin bmax) n P b1 =
  pair_count bmin bmax (int_float_pair f md fuel w tb bmin bmax) n P b2.
Proof.
  intros f md fuel tb bmin bmax w n P b1 b2 Hf He HW Hw H1 H2.
  exact (pair_indep f md fuel tb bmin bmax w Hf He HW Hw n P b1 b2 H1 H2).
Qed.
Print Assumptions C44_independent.

(* a 3-digit format, an engine with 9 outputs and two-bit buckets: counts are not 0 *)
Example C44_independent_example :
  pair_count 0 8 (int_float_pair (Fmt 3 (-100)) RNE 10 2 u32 0 8) 2 (fun q => Qle_bool q (1 # 2)) 3 = 10%nat /\
  pair_count 0 8 (int_float_pair (Fmt 3 (-100)) RNE 10 2 u32 0 8) 2 (fun q => Qle_bool q (1 # 2)) 0 = 10%nat.
Proof. split; vm_compute; reflexivity. Qed.

(* If moreover the real number uses whole digits only, it is uniform on the
   multiples of 2^-digits, jointly with the bucket.  Partial: when one engine
   output has more bits than digits + w mod m, the real number is rounded. *)
Theorem C44_uniform_partial : forall f md fuel tb bmin bmax w n N1 N2 b1 b2,
  fmt_ok f -> emin f + 64 <= 0 -> eng_wf tb bmin bmax -> 32 <= bits tb <= 64 -> 1 <= w <= 31 ->
  no_full_last (prec f) (digit_bits bmin bmax) w ->
  digit_bits bmin bmax - w mod digit_bits bmin bmax <= prec f ->
  0 <= N1 < 2 ^ prec f -> 0 <= N2 < 2 ^ prec f -> 0 <= b1 < 2 ^ w -> 0 <= b2 < 2 ^ w ->
  pair_count bmin bmax (int_float_pair f md fuel w tb bmin bmax) n (same_fraction (prec f) N1) b1 =
  pair_count bmin bmax (int_float_pair f md fuel w tb bmin bmax) n (same_fraction (prec f) N2) b2.
Proof.
  intros f md fuel tb bmin bmax w n N1 N2 b1 b2 Hf Hemin He HW Hw HN HL H1 H2 H3 H4.
  exact (pair_uniform f md fuel tb bmin bmax w Hf Hemin He HW Hw HN HL n N1 N2 b1 b2 H1 H2 H3 H4).
Qed.
Print Assumptions C44_uniform_partial.

Example C44_uniform_example : no_full_last 3 (digit_bits 0 8) 2 /\
  pair_count 0 8 (int_float_pair (Fmt 3 (-100)) RNE 10 2 u32 0 8) 2 (same_fraction 3 5) 3 = 2%nat.
Proof. split; [right; vm_compute; discriminate|vm_compute; reflexivity]. Qed.

(* Floating-point engines whose outputs are the multiples of 2^-eb in [0,1): the
   same, for both parts. *)
Theorem C44_real_range : forall f md fuel w fe Wr eb val gmin gmax ds,
  fmt_ok f -> fmt_ok fe -> 1 <= w <= 30 -> 1 <= eb <= prec fe -> 2 <= Wr -> eb <= Wr ->
  (forall i, 0 <= i < 2 ^ eb -> (val i == inject_Z i * p2 (- eb))%Q) ->
  real_eng val 0 (2 ^ eb - 1) gmin gmax -> (0 < fround f md (fround fe md (gmax - gmin)))%Q ->
  valid_draws 0 (2 ^ eb - 1) ds -> (length ds < fuel)%nat ->
  exec (int_float_pair_real f md fuel w fe Wr eb val gmin gmax) ds = OMore \/
  exists q b rest, exec (int_float_pair_real f md fuel w fe Wr eb val gmin gmax) ds = ORet (q, b) rest /\
    0 <= b < 2 ^ w /\ (0 <= q /\ q < 1)%Q.
Proof.
  intros f md fuel w fe Wr eb val gmin gmax ds Hf Hfe Hw Heb HWr HebW Hval Hg Hpos Hv Hl.
  exact (r_run f md fuel w fe Wr eb val gmin gmax Hf Hfe Hw Heb HWr HebW Hval Hg Hpos ds Hv Hl).
Qed.
Print Assumptions C44_real_range.

Theorem C44_real_independent : forall f md fuel w fe Wr eb val gmin gmax n P b1 b2,
  fmt_ok f -> fmt_ok fe -> 1 <= w <= 30 -> 1 <= eb <= prec fe -> 2 <= Wr -> eb <= Wr ->
  (forall i, 0 <= i < 2 ^ eb -> (val i == inject_Z i * p2 (- eb))%Q) ->
  0 <= b1 < 2 ^ w -> 0 <= b2 < 2 ^ w ->
  pair_count 0 (2 ^ eb - 1) (int_float_pair_real f md fuel w fe Wr eb val gmin gmax) n P b1 =
  pair_count 0 (2 ^ eb - 1) (int_float_pair_real f md fuel w fe Wr eb val gmin gmax) n P b2.
Proof.
  intros f md fuel w fe Wr eb val gmin gmax n P b1 b2 Hf Hfe Hw Heb HWr HebW Hval H1 H2.
  exact (r_indep f md fuel w fe Wr eb val gmin gmax Hfe Hw Heb HWr HebW Hval n P b1 b2 H1 H2).
Qed.
Print Assumptions C44_real_independent.

(* the 48-bit lagged_fibonacci engines, with 64-bit result_type of uniform_int_float *)
Example C44_real_example :
  exists q, exec (int_float_pair_real ieee_double RNE 9 8 ieee_double 64 48 (fun i => inject_Z i * p2 (- 48))%Q 0 1)
    [2 ^ 48 - 1; 2 ^ 47; 5] = ORet (q, 255) [5] /\ (q == 1 # 2)%Q.
Proof. eexists. split; [vm_compute; reflexivity|reflexivity]. Qed.
