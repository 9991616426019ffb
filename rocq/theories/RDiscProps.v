(* C55, C56: discrete_distribution with real weights *)
From Coq Require Import Lqa.
From Verif Require Import Base ProgModel ProgSpec ProgProofs UIntModel UIntSpec FloatModel FloatSpec FloatProofs RealModel RealSpec RealProofs UniProofs
  DiscModel DiscProofs Disc2Proofs Disc4Proofs RDiscModel RDiscSpec RDiscProofs RDisc2Proofs RDisc3Proofs RDisc4Proofs RDisc5Proofs RDisc6Proofs.
Open Scope Q_scope.

(* ================= C55 ================= *)

(* The constructors and param(): whatever the table held before, the new table
   splits n columns of height 1 so that the area of value i is n times its
   probability, to within n(8n+18) roundings. *)
Theorem C55_table : forall f md t ws old, fmt_ok f -> rweights_ok f t ws ->
  (qlen ws + 3) * p2 (1 - prec f) <= 1 # 8 ->
  exists tab h s, rd_init f md t old ws = Some tab /\ length tab = length ws /\
    (forall c v, (0 <= c < Z.of_nat (length ws))%Z -> v < 1 ->
       rd_select tab c v = Some (if qlt v (h c) then c else s c)) /\
    (forall c, (0 <= c < Z.of_nat (length ws))%Z -> 0 <= h c /\ h c <= 1 /\ (0 <= s c < Z.of_nat (length ws))%Z) /\
    (forall i, (0 <= i < Z.of_nat (length ws))%Z ->
       Qabs (area (length ws) h s i - qlen ws * qweight ws i / qtotal ws) <= qlen ws * (8 * qlen ws + 18) * p2 (1 - prec f)).
Proof. exact rd_table. Qed.
Print Assumptions C55_table.

(* Few enough values: those of weight 0 have area exactly 0 and are not selected. *)
Theorem C55_zero_partial : forall f md t ws old, fmt_ok f -> rweights_ok f t ws ->
  (qlen ws + 3) * p2 (1 - prec f) <= 1 # 8 -> qlen ws * (4 * qlen ws + 9) * p2 (1 - prec f) < 1 ->
  exists tab, rd_init f md t old ws = Some tab /\
    forall c v i, (0 <= c < Z.of_nat (length ws))%Z -> 0 <= v -> v < 1 -> rd_select tab c v = Some i ->
      (0 <= i < Z.of_nat (length ws))%Z /\ 0 < qweight ws i.
Proof. exact rd_zero. Qed.
Print Assumptions C55_zero_partial.

(* operator(): no undefined behaviour, results between min() and max(), and
   through [C55_zero_partial] of positive weight *)
Theorem C55_operator_range : forall f md t ws old tb bmin bmax, fmt_ok f -> rweights_ok f t ws ->
  (qlen ws + 3) * p2 (1 - prec f) <= 1 # 8 -> eng_wf tb bmin bmax -> (bmax - bmin <= imax tb)%Z ->
  exists tab, rd_init f md t old ws = Some tab /\ rd_max t tab = (Z.of_nat (length ws) - 1)%Z /\
    forall F ds, (length ds < F)%nat -> valid_draws bmin bmax ds ->
      exec (rd_op f md t F tb bmin bmax tab) ds = OMore \/
      exists i rest, exec (rd_op f md t F tb bmin bmax tab) ds = ORet i rest /\
        (0 <= i < Z.of_nat (length ws))%Z /\
        (qlen ws * (4 * qlen ws + 9) * p2 (1 - prec f) < 1 -> 0 < qweight ws i).
Proof. exact rd_op_range. Qed.
Print Assumptions C55_operator_range.

(* an empty vector of weights gives the default distribution *)
Theorem C55_empty : forall f md t old tb bmin bmax F v ds, fmt_ok f -> (2 <= bits t)%Z -> eng_wf tb bmin bmax ->
  (bmax - bmin <= imax tb)%Z -> valid_draws bmin bmax (v :: ds) -> (length (v :: ds) < F)%nat ->
  exists tab, rd_init f md t old [] = Some tab /\ rd_max t tab = 0%Z /\
    (exec (rd_op f md t F tb bmin bmax tab) (v :: ds) = OMore \/
     exists rest, exec (rd_op f md t F tb bmin bmax tab) (v :: ds) = ORet 0%Z rest).
Proof. exact rd_empty. Qed.
Print Assumptions C55_empty.

(* probabilities(): within (18n+25) roundings of the normalized weights, and 0
   for weights that are 0.  Partial: the second components left over from the
   previous contents of the table must be valid indices; a freshly constructed
   object has none *)
Theorem C55_probabilities_partial : forall f md t ws old, fmt_ok f -> rweights_ok f t ws ->
  (5 * qlen ws + 3) * p2 (1 - prec f) <= 1 # 8 ->
  Forall (fun x => (0 <= snd x < Z.of_nat (length ws))%Z) old ->
  exists tab ps, rd_init f md t old ws = Some tab /\ rd_probabilities f md tab = Some ps /\ length ps = length ws /\
    (forall i, (0 <= i < Z.of_nat (length ws))%Z ->
      Qabs (qweight ps i - qweight ws i / qtotal ws) <= (18 * qlen ws + 25) * p2 (1 - prec f)) /\
    (forall i, (0 <= i < Z.of_nat (length ws))%Z -> qweight ws i == 0 ->
      qlen ws * (4 * qlen ws + 9) * p2 (1 - prec f) < 1 -> qweight ps i == 0).
Proof. exact rd_prob. Qed.
Print Assumptions C55_probabilities_partial.

(* {0.5, 0, 3.25, 1} in double *)
Example C55_ex :
  let ws := [1 # 2; 0; 13 # 4; 1] in
  rweights_ok ieee_double i32 ws /\ (5 * qlen ws + 3) * p2 (1 - prec ieee_double) <= 1 # 8 /\
  qlen ws * (4 * qlen ws + 9) * p2 (1 - prec ieee_double) < 1 /\
  exists tab, rd_make ieee_double RNE i32 ws = Some tab /\
    map (fun v => rd_select tab 0 (v # 8)) [3; 4]%Z = [Some 0; Some 2]%Z /\
    map (fun c => rd_select tab c (1 # 8)) [1; 2; 3]%Z = [Some 2; Some 2; Some 3]%Z /\
    exec (rd_op ieee_double RNE i32 9 u32 0 4294967295 tab) [1073741824; 9]%Z = ORet 2%Z [].
Proof.
  cbn zeta. split; [|split; [vm_compute; discriminate|split; [reflexivity|]]].
  - unfold rweights_ok. split; [cbn; lia|]. split; [discriminate|]. split; [cbn; lia|]. split.
    + apply Forall_cons; [split; [exists 1%Z, (-1)%Z; split; [cbn; lia|split; [cbn; lia|reflexivity]]|discriminate]|].
      apply Forall_cons; [split; [exists 0%Z, 0%Z; split; [cbn; lia|split; [cbn; lia|reflexivity]]|discriminate]|].
      apply Forall_cons; [split; [exists 13%Z, (-2)%Z; split; [cbn; lia|split; [cbn; lia|reflexivity]]|discriminate]|].
      apply Forall_cons; [split; [exists 1%Z, 0%Z; split; [cbn; lia|split; [cbn; lia|reflexivity]]|discriminate]|]. apply Forall_nil.
    + vm_compute. discriminate.
  - eexists. split; [vm_compute; reflexivity|]. repeat split.
Qed.

Definition half := Fmt 11 (-24).

(* With 48 weights {2048, 3, ..., 3, 0} in half precision the rounding errors
   add up to more than 1: the last column is left over, and value 47, of weight
   0, is returned with probability 1/48.  (The same happens with float and
   {2^24, 3, ..., 3, 0}, 5002 weights.) *)
Theorem C55_zero_refuted : exists f t ws tab c, fmt_ok f /\ rweights_ok f t ws /\ (qlen ws + 3) * p2 (1 - prec f) <= 1 # 8 /\
  rd_make f RNE t ws = Some tab /\ qweight ws c == 0 /\ (0 <= c < Z.of_nat (length ws))%Z /\
  forall v, v < 1 -> rd_select tab c v = Some c.
Proof.
  exists half, i32, (2048 :: repeat 3 46 ++ [0]).
  assert (RZ: forall z, (Z.abs z <= 2 ^ 11)%Z -> representable half (inject_Z z)).
  { intros z Hz. exists z, 0%Z. split; [cbn; lia|]. split; [exact Hz|]. unfold p2. cbn. ring. }
  eexists. exists 47%Z. split; [split; cbn; lia|]. split.
  - unfold rweights_ok. split; [cbn; lia|]. split; [discriminate|]. split; [cbn; lia|]. split.
    + constructor; [split; [apply (RZ 2048%Z); cbn; lia|discriminate]|]. apply Forall_app. split.
      * apply Forall_forall. intros x Hx. apply repeat_spec in Hx. subst x. split; [apply (RZ 3%Z); cbn; lia|discriminate].
      * constructor; [|constructor]. split; [apply (RZ 0%Z); cbn; lia|discriminate].
    + vm_compute. discriminate.
  - split; [vm_compute; discriminate|]. split; [vm_compute; reflexivity|]. split; [reflexivity|]. split; [cbn; lia|].
    intros v Hv. unfold rd_select. match goal with |- (bind ?a _) = _ => replace a with (Some (1, 0%Z)) by (vm_compute; reflexivity) end.
    cbn [bind fst snd]. pose proof (qlt_spec v 1) as H. destruct (qlt v 1); [reflexivity|lra].
Qed.
Print Assumptions C55_zero_refuted.

(* param() with fewer weights leaves an index in the table that is too large:
   probabilities() writes outside its vector *)
Theorem C55_probabilities_refuted : exists ws0 ws1 tab0 tab1,
  rweights_ok ieee_double i32 ws0 /\ rweights_ok ieee_double i32 ws1 /\
  rd_make ieee_double RNE i32 ws0 = Some tab0 /\ rd_init ieee_double RNE i32 tab0 ws1 = Some tab1 /\
  rd_probabilities ieee_double RNE tab1 = None.
Proof.
  assert (RZ: forall z, (Z.abs z <= 2 ^ 53)%Z -> representable ieee_double (inject_Z z)).
  { intros z Hz. exists z, 0%Z. split; [cbn; lia|]. split; [exact Hz|]. unfold p2. cbn. ring. }
  exists [0; 0; 1], [1; 1]. do 2 eexists. split; [|split].
  - unfold rweights_ok. split; [cbn; lia|]. split; [discriminate|]. split; [cbn; lia|]. split; [|vm_compute; discriminate].
    repeat (apply Forall_cons; [split; [first [apply (RZ 0%Z); cbn; lia|apply (RZ 1%Z); cbn; lia]|discriminate]|]); apply Forall_nil.
  - unfold rweights_ok. split; [cbn; lia|]. split; [discriminate|]. split; [cbn; lia|]. split; [|vm_compute; discriminate].
    repeat (apply Forall_cons; [split; [first [apply (RZ 0%Z); cbn; lia|apply (RZ 1%Z); cbn; lia]|discriminate]|]); apply Forall_nil.
  - split; [vm_compute; reflexivity|]. split; [vm_compute; reflexivity|]. reflexivity.
Qed.
Print Assumptions C55_probabilities_refuted.

(* ================= C56 ================= *)

(* operator()(urng, parm): the results are the cells of a partition of [0,1) at
   points cs within (5n+2) roundings of the cumulated probabilities, except
   that the last cell is extended to 1 *)
Theorem C56_partition : forall f md t ws, fmt_ok f -> rweights_ok f t ws ->
  (qlen ws + 3) * p2 (1 - prec f) <= 1 # 8 -> (Z.of_nat (length ws) < 2 ^ 64)%Z ->
  exists ps cs, rp_make f md ws = Some ps /\ length ps = length ws /\ cs O == 0 /\
    (forall k, (k <= length ws)%nat -> Qabs (cs k - qtotal (firstn k ws) / qtotal ws) <= (5 * qlen ws + 2) * p2 (1 - prec f)) /\
    forall tb bmin bmax F ds, eng_wf tb bmin bmax -> (bmax - bmin <= imax tb)%Z -> (length ds < F)%nat -> valid_draws bmin bmax ds ->
      exec (rd_op_parm f md t F tb bmin bmax ps) ds = OMore \/
      exists v i rest, exec (uniform_01 f md F tb bmin bmax) ds = ORet v rest /\
        exec (rd_op_parm f md t F tb bmin bmax ps) ds = ORet (Z.of_nat i) rest /\ (i < length ws)%nat /\ cs i <= v /\
        (v < cs (i + 1)%nat /\ 0 < qweight ws (Z.of_nat i) \/ (i = length ws - 1)%nat /\ cs (length ws) <= v).
Proof.
  intros f md t ws Hf Hok Hsm H64. exists (map (pval f md ws) ws), (cums f md 0 (map (pval f md ws) ws)).
  split; [apply (rp_make_ok f md t Hf ws Hok Hsm)|]. split; [apply map_length|]. split; [reflexivity|]. split.
  - intros k Hk. apply (cums_err f md t Hf ws Hok Hsm k Hk).
  - intros tb bmin bmax F ds Hb HR HF Hd. apply (parm_run f md t Hf ws Hok Hsm H64 tb bmin bmax F ds Hb HR HF Hd).
Qed.
Print Assumptions C56_partition.

(* so a value of probability 0 is not returned, provided the last one is not 0 *)
Theorem C56_zero_partial : forall f md t ws tb bmin bmax F ds, fmt_ok f -> rweights_ok f t ws ->
  (qlen ws + 3) * p2 (1 - prec f) <= 1 # 8 -> (Z.of_nat (length ws) < 2 ^ 64)%Z ->
  eng_wf tb bmin bmax -> (bmax - bmin <= imax tb)%Z -> (length ds < F)%nat -> valid_draws bmin bmax ds ->
  0 < qweight ws (Z.of_nat (length ws) - 1) ->
  exists ps, rp_make f md ws = Some ps /\
    (exec (rd_op_parm f md t F tb bmin bmax ps) ds = OMore \/
     exists i rest, exec (rd_op_parm f md t F tb bmin bmax ps) ds = ORet i rest /\ 
       (0 <= i < Z.of_nat (length ws))%Z /\ 0 < qweight ws i).
Proof.
  intros f md t ws tb bmin bmax F ds Hf Hok Hsm H64 Hb HR HF Hd HW. exists (map (pval f md ws) ws).
  split; [apply (rp_make_ok f md t Hf ws Hok Hsm)|].
  destruct (parm_run f md t Hf ws Hok Hsm H64 tb bmin bmax F ds Hb HR HF Hd) as [E|(v & i & rest & _ & E & Hi & _ & [[_ W]|[-> _]])];
    [left; exact E|right|right].
  - exists (Z.of_nat i), rest. split; [exact E|]. split; [lia|exact W].
  - eexists. exists rest. split; [exact E|]. split; [lia|]. replace (Z.of_nat (length ws - 1)) with (Z.of_nat (length ws) - 1)%Z by lia. exact HW.
Qed.
Print Assumptions C56_zero_partial.

(* {1,1,1,1,1,1,0} in double: the six probabilities add up to 1 - 2^-53 or
   less, and with that value from uniform_01 the result is 6 *)
Theorem C56_zero_refuted : exists ws ps v, rweights_ok ieee_double i32 ws /\ rp_make ieee_double RNE ws = Some ps /\
  qweight ws 6 == 0 /\ (0 <= v < 2 ^ 64)%Z /\
  exec (rd_op_parm ieee_double RNE i32 2 u64 0 (2 ^ 64 - 1) ps) [v] = ORet 6%Z [].
Proof.
  assert (RZ: forall z, (Z.abs z <= 2 ^ 53)%Z -> representable ieee_double (inject_Z z)).
  { intros z Hz. exists z, 0%Z. split; [cbn; lia|]. split; [exact Hz|]. unfold p2. cbn. ring. }
  exists [1; 1; 1; 1; 1; 1; 0]. eexists. exists (2 ^ 64 - 2048)%Z. split; [|split; [vm_compute; reflexivity|split; [reflexivity|split; [lia|vm_compute; reflexivity]]]].
  unfold rweights_ok. split; [cbn; lia|]. split; [discriminate|]. split; [cbn; lia|]. split; [|vm_compute; discriminate].
  repeat (apply Forall_cons; [split; [first [apply (RZ 0%Z); cbn; lia|apply (RZ 1%Z); cbn; lia]|discriminate]|]); apply Forall_nil.
Qed.
Print Assumptions C56_zero_refuted.

(* "If first == last, equivalent to the default constructor": with parameters
   from an empty range the result is size() - 1, and not 0 *)
Theorem C56_empty_refuted : exists ps v, rp_make ieee_double RNE [] = Some ps /\ (0 <= v < 2 ^ 32)%Z /\
  exec (rd_op_parm ieee_double RNE i32 2 u32 0 (2 ^ 32 - 1) ps) [v] = ORet (-1)%Z [] /\
  exec (rd_op_parm ieee_double RNE i32 2 u32 0 (2 ^ 32 - 1) rp_default) [v] = ORet 0%Z [].
Proof. exists [], 5%Z. split; [reflexivity|]. split; [lia|]. split; reflexivity. Qed.
Print Assumptions C56_empty_refuted.

Example C56_ex : let ws := [1 # 2; 0; 13 # 4; 1] in
  exists ps, rp_make ieee_double RNE ws = Some ps /\ 0 < qweight ws (Z.of_nat (length ws) - 1) /\
    map (fun v => exec (rd_op_parm ieee_double RNE i32 2 u32 0 (2 ^ 32 - 1) ps) [v]) [0; 452101820; 452101821; 3390763654; 3390763655]%Z
      = [ORet 0 []; ORet 0 []; ORet 2 []; ORet 2 []; ORet 3 []]%Z.
Proof. cbn zeta. eexists. split; [vm_compute; reflexivity|]. split; [reflexivity|]. vm_compute. reflexivity. Qed.
