(* C43 bernoulli_distribution; C45 uniform_01, uniform_real and generate_canonical
   stay in their half-open ranges; C50 the bits generate_canonical delivers.

   f is the format of RealType, md the rounding direction. *)
From Coq Require Import Lqa.
From Verif Require Import Base ProgModel ProgSpec ProgProofs UIntModel UIntSpec UIntProofs FloatModel FloatSpec FloatProofs RealModel RealSpec RealProofs UniProofs Uni2Proofs Uni3Proofs CanonProofs Canon2Proofs.
Open Scope Q_scope.

(* the formats used in the examples *)
Example ieee_ok : fmt_ok ieee_single /\ fmt_ok ieee_double.
Proof. unfold fmt_ok; cbn; lia. Qed.

(* ================= C43 ================= *)

(* p = 0: false, and the engine is not used; p = 1: true for every output *)
Theorem C43_zero : forall f md tb bmin bmax p ds, p == 0 ->
  exec (bernoulli f md tb bmin bmax p) ds = ORet false ds.
Proof. exact bern_zero. Qed.
Print Assumptions C43_zero.

Theorem C43_one : forall f md tb bmin bmax p v ds, fmt_ok f -> eng_wf tb bmin bmax -> diff_fits tb bmin bmax ->
  p == 1 -> (bmin <= v <= bmax)%Z ->
  exec (bernoulli f md tb bmin bmax p) (v :: ds) = ORet true ds.
Proof. intros f md tb bmin bmax p v ds Hf He Hd. exact (bern_one f md Hf tb bmin bmax He Hd p v ds). Qed.
Print Assumptions C43_one.
Example C43_one_example : (* float, 32-bit engine: the range itself is rounded *)
  exec (bernoulli ieee_single RNE u32 0 4294967295 1) [4294967295%Z] = ORet true [].
Proof. reflexivity. Qed.

(* floating-point engines *)
Theorem C43_real_ends : forall f md fe val bmin bmax gmin gmax p v ds, fmt_ok f -> fmt_ok fe ->
  real_eng val bmin bmax gmin gmax -> (bmin <= v <= bmax)%Z ->
  (p == 0 -> exec (bernoulli_real f md fe val gmin gmax p) (v :: ds) = ORet false (v :: ds)) /\
  (p == 1 -> exec (bernoulli_real f md fe val gmin gmax p) (v :: ds) = ORet true ds).
Proof.
  intros f md fe val bmin bmax gmin gmax p v ds Hf Hfe [Hg Hval] Hv. specialize (Hval v Hv). unfold bernoulli_real. split; intros Hp.
  - apply Qeq_bool_iff in Hp. rewrite Hp. reflexivity.
  - assert (E: Qeq_bool p 0 = false) by (apply qeqb_false; lra). rewrite E. cbn. f_equal. apply Qle_bool_iff.
    apply repr_rnd_ge; [exact Hf|apply rnd_repr; exact Hf|]. rewrite Hp, Qmult_1_l.
    apply (rnd_mono f md Hf). apply (rnd_mono fe md Hfe). lra.
Qed.
Print Assumptions C43_real_ends.
Example C43_real_example : (* lagged_fibonacci-like outputs i/2^10 in [0,1] *)
  real_eng (fun i => inject_Z i / 1024) 0 1023 0 1 /\
  exec (bernoulli_real ieee_single RNE ieee_double (fun i => inject_Z i / 1024) 0 1 1) [1023%Z] = ORet true [] /\
  exec (bernoulli_real ieee_single RNE ieee_double (fun i => inject_Z i / 1024) 0 1 (1 # 4)) [257%Z] = ORet false [].
Proof.
  split; [|split; reflexivity]. split; [reflexivity|]. intros i Hi. assert (H1: inject_Z 0 <= inject_Z i) by (apply injZ_le; lia).
  assert (H2: inject_Z i <= inject_Z 1023) by (apply injZ_le; lia). change (inject_Z 0) with 0 in H1. change (inject_Z 1023) with 1023 in H2.
  unfold Qdiv. change (/ 1024) with (1 # 1024). lra.
Qed.

(* the number of outputs that give true is within 1 of p*(R+1): round to
   nearest, R at most 2^digits *)
Theorem C43_nearest_partial : forall f tb bmin bmax p, fmt_ok f -> eng_wf tb bmin bmax -> diff_fits tb bmin bmax ->
  representable f p -> 0 <= p -> p <= 1 -> (bmax - bmin <= 2 ^ prec f)%Z ->
  let n := inject_Z (Z.of_nat (trues bmin bmax (bernoulli f RNE tb bmin bmax p))) in
  p * inject_Z (bmax - bmin + 1) - 1 <= n /\ n <= p * inject_Z (bmax - bmin + 1) + 1.
Proof.
  intros f tb bmin bmax p Hf He Hd Hpr Hp0 Hp1 HR n.
  destruct (Qeq_dec p 0) as [E|E].
  - assert (N0: n == 0).
    { unfold n, trues. replace (filter _ (zrange bmin bmax)) with (@nil Z); [reflexivity|]. symmetry.
      induction (zrange bmin bmax) as [|v l IH]; [reflexivity|]. cbn [filter].
      rewrite (bern_zero f RNE tb bmin bmax p [v] E). exact IH. }
    rewrite N0, E. lra.
  - assert (Hpos: 0 < p) by lra. split.
    + exact (sharp_lower f RNE Hf tb bmin bmax He Hd p Hpos Hp1 HR).
    + exact (sharp_upper_near f tb bmin bmax p Hf He Hd Hpos Hp1 Hpr HR).
Qed.
Print Assumptions C43_nearest_partial.

(* the same for every rounding direction, R at most 2^(digits-1) *)
Theorem C43_directed_partial : forall f md tb bmin bmax p, fmt_ok f -> eng_wf tb bmin bmax -> diff_fits tb bmin bmax ->
  representable f p -> 0 < p -> p <= 1 -> (bmax - bmin <= 2 ^ (prec f - 1))%Z ->
  let n := inject_Z (Z.of_nat (trues bmin bmax (bernoulli f md tb bmin bmax p))) in
  p * inject_Z (bmax - bmin + 1) - 1 <= n /\ n <= p * inject_Z (bmax - bmin + 1) + 1.
Proof.
  intros f md tb bmin bmax p Hf He Hd Hpr Hp0 Hp1 HR n. split.
  - apply (sharp_lower f md Hf tb bmin bmax He Hd p Hp0 Hp1). destruct Hf as [HP _].
    assert (2 ^ (prec f - 1) <= 2 ^ prec f)%Z by (apply Z.pow_le_mono_r; lia). lia.
  - exact (sharp_upper f md Hf tb bmin bmax He Hd p Hp0 Hp1 Hpr HR).
Qed.
Print Assumptions C43_directed_partial.

(* for any range and rounding direction the error is 2 plus a relative error of
   5 units in the last place *)
Theorem C43_any_range_partial : forall f md tb bmin bmax p, fmt_ok f -> (3 <= prec f)%Z ->
  eng_wf tb bmin bmax -> diff_fits tb bmin bmax -> representable f p -> 0 < p -> p <= 1 ->
  let n := inject_Z (Z.of_nat (trues bmin bmax (bernoulli f md tb bmin bmax p))) in
  let e := p2 (1 - prec f) in
  p * inject_Z (bmax - bmin + 1) * (1 - 5 * e) - 2 <= n /\
  n <= p * inject_Z (bmax - bmin + 1) * (1 + 5 * e) + 2.
Proof.
  intros f md tb bmin bmax p Hf HP He Hd Hpr Hp0 Hp1. exact (any_range f md Hf tb bmin bmax He Hd p HP Hp0 Hp1 Hpr).
Qed.
Print Assumptions C43_any_range_partial.

(* double, a 32-bit engine, p = 3/8 *)
Example C43_example :
  fmt_ok ieee_double /\ eng_wf u32 0 4294967295 /\ diff_fits u32 0 4294967295 /\
  representable ieee_double (3 # 8) /\ (4294967295 - 0 <= 2 ^ prec ieee_double)%Z /\
  (4294967295 - 0 <= 2 ^ (prec ieee_double - 1))%Z /\
  exec (bernoulli ieee_double RNE u32 0 4294967295 (3 # 8)) [1610612735%Z] = ORet true [] /\
  exec (bernoulli ieee_double RNE u32 0 4294967295 (3 # 8)) [1610612736%Z] = ORet false [].
Proof.
  split; [apply ieee_ok|]. split; [unfold eng_wf, inT; cbn; lia|]. split; [unfold diff_fits; cbn; lia|].
  split; [exists 3%Z, (-3)%Z; cbn; repeat split; try lia; reflexivity|].
  split; [cbn; lia|]. split; [cbn; lia|]. split; reflexivity.
Qed.

Lemma wide_step : forall f md tb bmin bmax p c x, (c <= trueZ f md tb bmin bmax p)%Z -> x < inject_Z c ->
  x < inject_Z (Z.of_nat (trues bmin bmax (bernoulli f md tb bmin bmax p))).
Proof. intros f md tb bmin bmax p c x G Hx. apply injZ_le in G. unfold trueZ in G. lra. Qed.
(* with more outputs than the format has integers the bound of 1 does not hold:
   float, a 32-bit engine, p = 1/2 *)
Theorem C43_wide_refuted : exists f tb bmin bmax p,
  fmt_ok f /\ eng_wf tb bmin bmax /\ diff_fits tb bmin bmax /\ representable f p /\ 0 <= p /\ p <= 1 /\
  p * inject_Z (bmax - bmin + 1) + 1 <
  inject_Z (Z.of_nat (trues bmin bmax (bernoulli f RNE tb bmin bmax p))).
Proof.
  exists ieee_single, u32, 0%Z, 4294967295%Z, (1 # 2).
  assert (Hf: fmt_ok ieee_single) by apply ieee_ok.
  assert (He: eng_wf u32 0 4294967295) by (unfold eng_wf, inT; cbn; lia).
  assert (Hd: diff_fits u32 0 4294967295) by (unfold diff_fits; cbn; lia).
  split; [exact Hf|]. split; [exact He|]. split; [exact Hd|].
  split; [exists 1%Z, (-1)%Z; cbn; repeat split; try lia; reflexivity|]. split; [lra|]. split; [lra|].
  apply (wide_step ieee_single RNE u32 0 4294967295 (1 # 2) 2147483777); [|reflexivity].
  apply (trueZ_ge ieee_single RNE u32 0 4294967295 He Hd); [lra|lia|]. intros u Hu _.
  apply Qle_trans with (fround ieee_single RNE (inject_Z 2147483776)).
  - apply rnd_mono; [exact Hf|]. apply injZ_le. lia.
  - apply Qle_bool_iff. vm_compute. reflexivity.
Qed.
Print Assumptions C43_wide_refuted.

(* without [diff_fits]: eng() - min() overflows for a signed engine over all ints *)
Theorem C43_signed_refuted : exists tb bmin bmax v, eng_wf tb bmin bmax /\ (bmin <= v <= bmax)%Z /\
  exec (bernoulli ieee_double RNE tb bmin bmax (1 # 2)) [v] = OUB.
Proof.
  exists i32, (-2147483648)%Z, 2147483647%Z, 5%Z. split; [unfold eng_wf, inT; cbn; lia|]. split; [lia|]. reflexivity.
Qed.
Print Assumptions C43_signed_refuted.

(* ================= C45 ================= *)

(* uniform_01: all results lie in [0,1), nothing is undefined, and the result
   is the scaled engine output, to within five roundings *)
Theorem C45_uniform_01_partial : forall f md tb bmin bmax F ds, fmt_ok f -> eng_wf tb bmin bmax ->
  (bmax - bmin <= imax tb)%Z -> valid_draws bmin bmax ds -> (length ds < F)%nat ->
  exec (uniform_01 f md F tb bmin bmax) ds = OMore \/
  exists q rest, exec (uniform_01 f md F tb bmin bmax) ds = ORet q rest /\ 0 <= q /\ q < 1.
Proof.
  intros f md tb bmin bmax F ds Hf He HR Hv HF.
  destruct (wp_exec _ _ _ _ ds _ (u01_wp f md Hf tb bmin bmax He F (length ds) HF HR) Hv) as [E|(q & rest & E & (H1 & H2 & _) & _)];
    [left; exact E|right; exists q, rest; auto].
Qed.
Print Assumptions C45_uniform_01_partial.

Theorem C45_uniform_01_accurate : forall f md tb bmin bmax k F v ds, fmt_ok f -> (3 <= prec f)%Z ->
  eng_wf tb bmin bmax -> (bmax - bmin <= imax tb)%Z -> (bmin <= v <= bmax)%Z ->
  (0 <= k)%Z -> (bmax - bmin + 1 <= 2 ^ k)%Z -> (emin f + prec f + k + 1 <= 0)%Z ->
  let d := 1 - p2 (1 - prec f) in
  let u := inject_Z (v - bmin) in let n := inject_Z (bmax - bmin + 1) in
  exists q, d * d * d * d * d * u <= q * n /\ d * d * d * d * d * (q * n) <= u /\
    (q < 1 -> exec (uniform_01 f md (S F) tb bmin bmax) (v :: ds) = ORet q ds).
Proof.
  intros f md tb bmin bmax k F v ds Hf HP He HR Hv Hk HRk HE d u n. exists (u01_res f md bmin bmax v).
  destruct (u01_accurate f md Hf HP tb bmin bmax v k He Hv Hk HRk HE) as [A1 A2].
  split; [exact A1|]. split; [exact A2|]. apply (u01_first f md Hf tb bmin bmax He F v ds HR Hv).
Qed.
Print Assumptions C45_uniform_01_accurate.

(* the least output is always accepted, so the loop can end *)
Theorem C45_uniform_01_accepts : forall f md tb bmin bmax F ds, fmt_ok f -> eng_wf tb bmin bmax -> (bmax - bmin <= imax tb)%Z ->
  exists q, exec (uniform_01 f md (S F) tb bmin bmax) (bmin :: ds) = ORet q ds /\ q == 0.
Proof.
  intros f md tb bmin bmax F ds Hf He HR. exists (u01_res f md bmin bmax bmin). pose proof (res_min f md Hf bmin bmax) as E.
  split; [|exact E]. apply (u01_first f md Hf tb bmin bmax He F bmin ds HR); [destruct He as (_ & _ & _ & ?); lia|]. rewrite E. reflexivity.
Qed.
Print Assumptions C45_uniform_01_accepts.

(* the old interface; here eng() - min() is not converted back to result_type *)
Theorem C45_uniform_01_old_partial : forall f md tb bmin bmax F ds, fmt_ok f -> eng_wf tb bmin bmax ->
  diff_fits tb bmin bmax -> valid_draws bmin bmax ds -> (length ds < F)%nat ->
  exec (uniform_01_old f md F tb bmin bmax) ds = OMore \/
  exists q rest, exec (uniform_01_old f md F tb bmin bmax) ds = ORet q rest /\ 0 <= q /\ q < 1.
Proof.
  intros f md tb bmin bmax F ds Hf He HR Hv HF.
  destruct (wp_exec _ _ _ _ ds _ (u01_old_wp f md Hf tb bmin bmax He F (length ds) HF HR) Hv) as [E|(q & rest & E & (H1 & H2 & _) & _)];
    [left; exact E|right; exists q, rest; auto].
Qed.
Print Assumptions C45_uniform_01_old_partial.

(* floating-point engines whose range does not round to 0 *)
Theorem C45_uniform_01_real : forall f md fe val bmin bmax gmin gmax F ds, fmt_ok f -> fmt_ok fe ->
  real_eng val bmin bmax gmin gmax -> 0 < fround f md (fround fe md (gmax - gmin)) ->
  valid_draws bmin bmax ds -> (length ds < F)%nat ->
  exec (uniform_01_real f md F fe val gmin gmax) ds = OMore \/
  exists q rest, exec (uniform_01_real f md F fe val gmin gmax) ds = ORet q rest /\ 0 <= q /\ q < 1.
Proof.
  intros f md fe val bmin bmax gmin gmax F ds Hf Hfe Hg Hd Hv HF.
  destruct (wp_exec _ _ _ _ ds _ (u01_real_wp f md Hf fe val bmin bmax gmin gmax F (length ds) Hfe Hg Hd HF) Hv) as [E|(q & rest & E & (H1 & H2) & _)];
    [left; exact E|right; exists q, rest; auto].
Qed.
Print Assumptions C45_uniform_01_real.

(* float over 32 bits: the largest outputs round to 1 and are rejected *)
Example C45_uniform_01_example :
  fmt_ok ieee_single /\ eng_wf u32 0 4294967295 /\ (4294967295 - 0 <= imax u32)%Z /\
  (emin ieee_single + prec ieee_single + 32 + 1 <= 0)%Z /\
  exec (uniform_01 ieee_single RNE 3 u32 0 4294967295) [4294967295; 4294967168; 7]%Z = ORet (7 # 4294967296) [] /\
  exec (uniform_01_real ieee_single RNE 2 ieee_double (fun i => inject_Z i / 1024) 0 1) [1024; 5]%Z = ORet (5 # 1024) [].
Proof.
  split; [apply ieee_ok|]. split; [unfold eng_wf, inT; cbn; lia|]. split; [cbn; lia|]. split; [cbn; lia|]. split; reflexivity.
Qed.

(* result_type(eng() - min()) of a 16-bit signed engine is negative for half of
   its outputs, and so is the divisor; a 32-bit one overflows *)
Theorem C45_uniform_01_refuted : exists tb bmin bmax v q, eng_wf tb bmin bmax /\ (bmin <= v <= bmax)%Z /\
  exec (uniform_01 ieee_double RNE 1 tb bmin bmax) [v] = ORet q [] /\ q < 0.
Proof.
  exists (Ity 16 true), (-32768)%Z, 32766%Z, (-32763)%Z, (-(5)). split; [unfold eng_wf, inT; cbn; lia|]. split; [lia|].
  split; reflexivity.
Qed.
Print Assumptions C45_uniform_01_refuted.
Theorem C45_uniform_01_ub_refuted : exists tb bmin bmax v, eng_wf tb bmin bmax /\ (bmin <= v <= bmax)%Z /\
  exec (uniform_01 ieee_double RNE 1 tb bmin bmax) [v] = OUB.
Proof.
  exists i32, (-2147483648)%Z, 2147483647%Z, 5%Z. split; [unfold eng_wf, inT; cbn; lia|]. split; [lia|]. reflexivity.
Qed.
Print Assumptions C45_uniform_01_ub_refuted.

(* uniform_real(a,b): all results lie in [a,b); integral engines of any range *)
Theorem C45_uniform_real : forall f md tb bmin bmax fmax a b F ds, fmt_ok f -> (2 <= prec f)%Z -> is_fmax f fmax ->
  eng_wf tb bmin bmax -> representable f a -> representable f b -> - fmax <= a -> b <= fmax -> a < b ->
  valid_draws bmin bmax ds -> (length ds < F)%nat ->
  exec (uniform_real f md F tb bmin bmax fmax a b) ds = OMore \/
  exists q rest, exec (uniform_real f md F tb bmin bmax fmax a b) ds = ORet q rest /\ a <= q /\ q < b.
Proof.
  intros f md tb bmin bmax fmax a b F ds Hf HP Hm He Ha Hb Ha1 Hb1 Hab Hv HF.
  assert (W: wp bmin bmax (uniform_real f md F tb bmin bmax fmax a b) (length ds) (fun q _ => a <= q /\ q < b)).
  { apply (ur_wrap_wp f md Hf HP fmax Hm a b Hab Ha Hb Ha1 Hb1). intros a' b' H1 H2. apply ur_int_wp; assumption. }
  destruct (wp_exec _ _ _ _ ds _ W Hv) as [E|(q & rest & E & (H1 & H2) & _)]; [left; exact E|right; exists q, rest; auto].
Qed.
Print Assumptions C45_uniform_real.

Theorem C45_uniform_real_real : forall f md fe val bmin bmax gmin gmax fmax a b F ds, fmt_ok f -> (2 <= prec f)%Z -> fmt_ok fe ->
  is_fmax f fmax -> real_eng val bmin bmax gmin gmax -> 0 < fround f md (fround fe md (gmax - gmin)) ->
  representable f a -> representable f b -> - fmax <= a -> b <= fmax -> a < b ->
  valid_draws bmin bmax ds -> (length ds < F)%nat ->
  exec (uniform_real_real f md F fe val gmin gmax fmax a b) ds = OMore \/
  exists q rest, exec (uniform_real_real f md F fe val gmin gmax fmax a b) ds = ORet q rest /\ a <= q /\ q < b.
Proof.
  intros f md fe val bmin bmax gmin gmax fmax a b F ds Hf HP Hfe Hm Hg Hd Ha Hb Ha1 Hb1 Hab Hv HF.
  assert (W: wp bmin bmax (uniform_real_real f md F fe val gmin gmax fmax a b) (length ds) (fun q _ => a <= q /\ q < b)).
  { apply (ur_wrap_wp f md Hf HP fmax Hm a b Hab Ha Hb Ha1 Hb1). intros a' b' H1 H2. apply ur_real_wp; assumption. }
  destruct (wp_exec _ _ _ _ ds _ W Hv) as [E|(q & rest & E & (H1 & H2) & _)]; [left; exact E|right; exists q, rest; auto].
Qed.
Print Assumptions C45_uniform_real_real.

(* and the result is a + u/(R+1)*(b-a) when that needs no rounding *)
Theorem C45_uniform_real_exact : forall f md tb bmin bmax fmax a b v F ds, fmt_ok f -> (2 <= prec f)%Z -> is_fmax f fmax ->
  eng_wf tb bmin bmax -> (bmin <= v <= bmax)%Z -> (bmax - bmin + 1 <= 2 ^ prec f)%Z -> a < b ->
  representable f a -> representable f (a / 2) -> representable f (b / 2) -> b / 2 - a / 2 <= fmax / 2 ->
  representable f (b - a) ->
  let t := inject_Z (v - bmin) / inject_Z (bmax - bmin + 1) in
  representable f t -> representable f (t * (b - a)) -> representable f (t * (b - a) + a) ->
  exists q, exec (uniform_real f md (S F) tb bmin bmax fmax a b) (v :: ds) = ORet q ds /\ q == t * (b - a) + a.
Proof. exact ur_value. Qed.
Print Assumptions C45_uniform_real_exact.

Definition max_single : Q := inject_Z (2 ^ 24 - 1) * p2 104.
Example C45_uniform_real_example :
  is_fmax ieee_single max_single /\ eng_wf i32 (-2147483648) 2147483647 /\
  representable ieee_single (- max_single) /\ representable ieee_single max_single /\
  (* the branch that avoids overflow *)
  exec (uniform_real ieee_single RNE 3 i32 (-2147483648) 2147483647 max_single (- max_single) max_single) [2147483647; 0]%Z
    = ORet 0 [] /\
  exec (uniform_real ieee_single RNE 3 i32 (-2147483648) 2147483647 max_single 1 3) [-1073741824]%Z = ORet (3 # 2) [].
Proof.
  split; [exists 104%Z; cbn; split; [lia|reflexivity]|]. split; [unfold eng_wf, inT; cbn; lia|].
  split; [exists (- (2 ^ 24 - 1))%Z, 104%Z; cbn; repeat split; try lia; reflexivity|].
  split; [exists (2 ^ 24 - 1)%Z, 104%Z; cbn; repeat split; try lia; reflexivity|].
  split; vm_compute; reflexivity.
Qed.

(* generate_canonical: in [0,1) when R+1 is a power of two, when one output is
   enough, when the powers of R+1 are exact, or when rounding is downwards or
   towards zero; the engine's bounds must be exact *)
Theorem C45_canonical_partial : forall f md tb bmin bmax bits F ds, fmt_ok f -> eng_wf tb bmin bmax ->
  (bmin = 0 \/ Z.abs bmin <= 2 ^ prec f /\ Z.abs bmax <= 2 ^ prec f)%Z ->
  (0 <= bits)%Z ->
  (md = RDN \/ md = RZR \/
   (exists k, (0 <= k)%Z /\ bmax - bmin + 1 = 2 ^ k)%Z \/
   (2 ^ Z.min bits (prec f) <= bmax - bmin + 1)%Z \/
   (exists n, (0 <= n)%Z /\ 2 ^ Z.min bits (prec f) <= (bmax - bmin + 1) ^ n <= 2 ^ prec f)%Z) ->
  (1 <= F)%nat -> (Z.min bits (prec f) <= Z.of_nat F)%Z -> valid_draws bmin bmax ds ->
  exec (generate_canonical f md F bits tb bmin bmax) ds = OMore \/
  exists q rest, exec (generate_canonical f md F bits tb bmin bmax) ds = ORet q rest /\ 0 <= q /\ q < 1.
Proof.
  intros f md tb bmin bmax bits F ds Hf He Hex Hb HS HF1 HF Hv.
  destruct (wp_exec _ _ _ _ ds _ (gc_range f md Hf tb bmin bmax He Hex bits F (length ds) Hb HS HF1 HF) Hv) as [E|(q & rest & E & (H1 & H2) & _)];
    [left; exact E|right; exists q, rest; auto].
Qed.
Print Assumptions C45_canonical_partial.

Theorem C45_canonical_real : forall f md fe eb val bmin bmax bits F ds, fmt_ok f -> fmt_ok fe -> (1 <= eb)%Z -> (emin f <= - eb)%Z ->
  (forall i, (bmin <= i <= bmax)%Z ->
     representable fe (val i) /\ exists m, (0 <= m < 2 ^ eb)%Z /\ val i == inject_Z m * p2 (- eb)) ->
  (0 <= bits)%Z -> (1 <= F)%nat -> (Z.min bits (prec f) <= Z.of_nat F)%Z -> valid_draws bmin bmax ds ->
  exec (generate_canonical_real f md F bits eb fe val) ds = OMore \/
  exists q rest, exec (generate_canonical_real f md F bits eb fe val) ds = ORet q rest /\ 0 <= q /\ q < 1.
Proof.
  intros f md fe eb val bmin bmax bits F ds Hf Hfe Heb Hee Hval Hb HF1 HF Hv.
  destruct (wp_exec _ _ _ _ ds _ (gcr_range f md Hf fe eb val bmin bmax Hfe Heb Hee Hval bits F (length ds) Hb HF1 HF) Hv) as [E|(q & rest & E & (H1 & H2) & _)];
    [left; exact E|right; exists q, rest; auto].
Qed.
Print Assumptions C45_canonical_real.

(* float: the result that would be 1 is corrected; two outputs of a 32-bit engine for double *)
Example C45_canonical_example :
  exec (generate_canonical ieee_single RNE 24 24 u32 0 4294967295) [4294967295]%Z = ORet (16777215 # 16777216) [] /\
  exec (generate_canonical ieee_double RNE 53 53 u32 0 4294967295) [7; 2147483648]%Z = ORet (1 # 2) [] /\
  exec (generate_canonical ieee_double RNE 53 53 i32 1 2147483562) [2147483562; 2147483561]%Z <> OMore.
Proof. split; [vm_compute; reflexivity|]. split; [vm_compute; reflexivity|]. vm_compute. discriminate. Qed.

(* ecuyer1988 (1..2147483562), double: two maximal outputs give 1 + 2^-52 *)
Theorem C45_canonical_refuted : exists tb bmin bmax bits ds q,
  eng_wf tb bmin bmax /\ (Z.abs bmin <= 2 ^ prec ieee_double /\ Z.abs bmax <= 2 ^ prec ieee_double)%Z /\
  valid_draws bmin bmax ds /\
  exec (generate_canonical ieee_double RNE 53 bits tb bmin bmax) ds = ORet q [] /\ 1 < q.
Proof.
  exists i32, 1%Z, 2147483562%Z, 53%Z, [2147483562; 2147483562]%Z, (4503599627370497 # 4503599627370496).
  split; [unfold eng_wf, inT; cbn; lia|]. split; [cbn; lia|]. split; [repeat constructor; lia|].
  split; [vm_compute; reflexivity|reflexivity].
Qed.
Print Assumptions C45_canonical_refuted.
(* float, an engine whose bounds are not floats *)
Theorem C45_canonical_bounds_refuted : exists tb bmin bmax bits ds q,
  eng_wf tb bmin bmax /\ valid_draws bmin bmax ds /\
  (2 ^ Z.min bits (prec ieee_single) <= bmax - bmin + 1)%Z /\
  exec (generate_canonical ieee_single RNE 24 bits tb bmin bmax) ds = ORet q [] /\ 1 < q.
Proof.
  exists u32, 16777219%Z, 33554433%Z, 20%Z, [33554433]%Z, (8388609 # 8388608).
  split; [unfold eng_wf, inT; cbn; lia|]. split; [repeat constructor; lia|]. split; [cbn; lia|].
  split; [vm_compute; reflexivity|reflexivity].
Qed.
Print Assumptions C45_canonical_bounds_refuted.

(* ================= C50 ================= *)

(* The least number n of outputs that has at least 2^min(bits,digits) values is
   used, and if the format can hold all (R+1)^n values, the result is the number
   with these n digits over (R+1)^n, rounded once. *)
Theorem C50_digits : forall f md tb bmin bmax bits n ds F, fmt_ok f -> eng_wf tb bmin bmax ->
  (bmin = 0 \/ Z.abs bmin <= 2 ^ prec f /\ Z.abs bmax <= 2 ^ prec f)%Z ->
  (0 <= bits)%Z -> (1 <= n)%Z ->
  ((bmax - bmin + 1) ^ (n - 1) < 2 ^ Z.min bits (prec f))%Z ->
  (2 ^ Z.min bits (prec f) <= (bmax - bmin + 1) ^ n <= 2 ^ prec f)%Z ->
  valid_draws bmin bmax ds -> Z.of_nat (length ds) = n -> (length ds <= F)%nat ->
  exists q, exec (generate_canonical f md F bits tb bmin bmax) ds = ORet (gc_fix f md q) [] /\
    q == fround f md (inject_Z (evalr (bmax - bmin + 1) (map (fun v => v - bmin)%Z ds)) / inject_Z ((bmax - bmin + 1) ^ n)).
Proof.
  intros f md tb bmin bmax bits n ds F Hf He Hex Hb Hn Hl Hh. exact (gc_value f md Hf tb bmin bmax He Hex bits n Hb Hn Hl Hh ds F).
Qed.
Print Assumptions C50_digits.

(* exactly, when R+1 = 2^k: distinct tuples of outputs give distinct results *)
Theorem C50_power_of_two : forall f md tb bmin bmax bits n k ds F, fmt_ok f -> eng_wf tb bmin bmax ->
  (bmin = 0 \/ Z.abs bmin <= 2 ^ prec f /\ Z.abs bmax <= 2 ^ prec f)%Z ->
  (0 <= bits)%Z -> (1 <= n)%Z -> (0 <= k)%Z -> (bmax - bmin + 1 = 2 ^ k)%Z -> (emin f <= - (k * n))%Z ->
  ((bmax - bmin + 1) ^ (n - 1) < 2 ^ Z.min bits (prec f))%Z ->
  (2 ^ Z.min bits (prec f) <= (bmax - bmin + 1) ^ n <= 2 ^ prec f)%Z ->
  valid_draws bmin bmax ds -> Z.of_nat (length ds) = n -> (length ds <= F)%nat ->
  exists q, exec (generate_canonical f md F bits tb bmin bmax) ds = ORet q [] /\
    q == inject_Z (evalr (2 ^ k) (map (fun v => v - bmin)%Z ds)) * p2 (- (k * n)).
Proof.
  intros f md tb bmin bmax bits n k ds F Hf He Hex Hb Hn Hk HR Hem Hl Hh Hd HL HF. rewrite <- HR.
  exact (gc_value_pow2 f md Hf tb bmin bmax He Hex bits n Hb Hn Hl Hh k ds F Hk HR Hem Hd HL HF).
Qed.
Print Assumptions C50_power_of_two.

Example C50_example : (* 8-bit engine, 24 bits: three outputs *)
  exec (generate_canonical ieee_double RNE 24 24 u32 0 255) [1; 2; 3]%Z = ORet (197121 # 16777216) [] /\
  evalr 256 [1; 2; 3]%Z = 197121%Z.
Proof. split; [vm_compute; reflexivity|reflexivity]. Qed.

(* floating-point engines: the first output is not scaled by 2^eb, although the
   result is divided by it; so float from a 48-bit lagged_fibonacci engine is
   never more than 2^-48 *)
Theorem C50_real_refuted : exists f fe eb bits val bmin bmax,
  fmt_ok f /\ fmt_ok fe /\ bits = prec f /\ (bits <= eb)%Z /\
  (forall i, (bmin <= i <= bmax)%Z ->
     representable fe (val i) /\ exists m, (0 <= m < 2 ^ eb)%Z /\ val i == inject_Z m * p2 (- eb)) /\
  (forall m, (0 <= m < 2 ^ eb)%Z -> exists i, (bmin <= i <= bmax)%Z /\ val i == inject_Z m * p2 (- eb)) /\
  (forall md F v ds, (1 <= F)%nat -> (bmin <= v <= bmax)%Z ->
     exists q, exec (generate_canonical_real f md F bits eb fe val) (v :: ds) = ORet q ds /\ q <= p2 (- 48)).
Proof.
  exists ieee_single, ieee_double, 48%Z, 24%Z, (fun i => inject_Z i * p2 (- 48)), 0%Z, (2 ^ 48 - 1)%Z.
  destruct ieee_ok as [H1 H2].
  assert (HV: forall i, (0 <= i <= 2 ^ 48 - 1)%Z -> representable ieee_double (inject_Z i * p2 (- 48)) /\
     exists m, (0 <= m < 2 ^ 48)%Z /\ inject_Z i * p2 (- 48) == inject_Z m * p2 (- 48)).
  { intros i Hi. split.
    - exists i, (-48)%Z. split; [cbn; lia|]. split; [|reflexivity]. change (prec ieee_double) with 53%Z.
      assert (2 ^ 48 <= 2 ^ 53)%Z by (apply Z.pow_le_mono_r; lia). rewrite Z.abs_eq by lia. lia.
    - exists i. split; [lia|reflexivity]. }
  split; [exact H1|]. split; [exact H2|]. split; [reflexivity|]. split; [lia|]. split; [exact HV|].
  split; [intros m Hm; exists m; split; [lia|reflexivity]|].
  intros md F v ds HF Hv. assert (HE: (emin ieee_single <= - (48))%Z) by (cbn; lia).
  exact (gcr_tiny ieee_single md H1 ieee_double 48 _ 0 (2 ^ 48 - 1) H2 ltac:(lia) HE HV 24 F v ds ltac:(lia) HF ltac:(cbn; lia) Hv).
Qed.
Print Assumptions C50_real_refuted.
