(* C64 and C65: exponential_distribution and normal_distribution. *)
From Coq Require Import Reals Lra Qreals.
From Verif Require Import Base ProgModel ProgSpec ProgProofs UIntModel UIntSpec FloatModel FloatSpec FloatProofs RealModel BinModel BinSpec IfpModel IfpSpec ZigTable ZigModel ZigSpec PoisRSpec Pois3Proofs Pois3Props Zig1Proofs Zig2Proofs Zig4Proofs Zig5Proofs Zig6Proofs Zig7Proofs.
Ltac Zify.zify_post_hook ::= idtac.
Open Scope R_scope.

(* The table of the exponential distribution: 256 layers of equal area with
   corners on the curve; the part of the first layer beyond x(1) has the area of
   the tail, which is exp(-x(1)). *)
Theorem C64_table : exists V, 394 / 100000 < V < 395 / 100000 /\ zig_table 256 fexp1 ex_x ex_y V (/ 2 ^ 53) /\ zig_close 256 fexp1 (fun x => x) ex_x ex_y (/ 2 ^ 53) /\
  let x i := Q2R (nth i ex_x 0%Q) in Rabs ((x 0%nat - x 1%nat) * Q2R (nth 1 ex_y 0%Q) - exp (- x 1%nat)) <= / 2 ^ 52.
Proof.
  exists (Q2R ex_V). split.
  - split; apply Rmult_lt_reg_r with 100000; try lra.
    + replace (394 / 100000 * 100000) with (Q2R 394) by (unfold Q2R; cbn; field). replace (Q2R ex_V * 100000) with (Q2R (ex_V * 100000)) by (rewrite Q2R_mult; f_equal; unfold Q2R; cbn; field). apply Qlt_Rlt. vm_compute. reflexivity.
    + replace (395 / 100000 * 100000) with (Q2R 395) by (unfold Q2R; cbn; field). replace (Q2R ex_V * 100000) with (Q2R (ex_V * 100000)) by (rewrite Q2R_mult; f_equal; unfold Q2R; cbn; field). apply Qlt_Rlt. vm_compute. reflexivity.
  - split; [rewrite <- d53_R; exact ex_table|]. split; [rewrite <- d53_R; apply ex_tables|]. cbv beta zeta. pose proof (tab_curve _ _ _ _ _ _ 1 ex_table ltac:(lia)) as C. rewrite d53_R in C.
    unfold fexp1, nx in C. change (Z.to_nat 1) with 1%nat in C. set (y1 := nth 1 ex_y 0%Q) in *. set (x1 := nth 1 ex_x 0%Q) in *.
    assert (B1: (- (1 # 1125899906842624) <= nth 0 ex_x 0 - x1 - 1)%Q) by (apply Qle_bool_iff; vm_compute; reflexivity).
    assert (B2: (nth 0 ex_x 0 - x1 - 1 <= 1 # 1125899906842624)%Q) by (apply Qle_bool_iff; vm_compute; reflexivity).
    assert (B3: (0 <= y1)%Q) by (apply Qle_bool_iff; vm_compute; reflexivity). assert (B4: (y1 <= 1 # 16)%Q) by (apply Qle_bool_iff; vm_compute; reflexivity).
    apply Q2R_le in B1, B2, B3, B4. rewrite Q2R_opp, !Q2R_minus, Q2R_1 in B1. rewrite !Q2R_minus, Q2R_1 in B2. rewrite Q2R_0 in B3.
    replace (Q2R (1 # 1125899906842624)) with (/ 2 ^ 50) in B1, B2 by (unfold Q2R; cbn; field). replace (Q2R (1 # 16)) with (/ 16) in B4 by (unfold Q2R; cbn; field).
    set (x0 := Q2R (nth 0 ex_x 0%Q)) in *. clearbody x0 x1 y1. apply Rabs_le_inv in C. set (d := x0 - Q2R x1 - 1) in *.
    replace (x0 - Q2R x1) with (1 + d) by (unfold d; ring). clearbody d.
    assert (P50: 0 < / 2 ^ 50) by (apply Rinv_0_lt_compat, pow_lt; lra). assert (A: Rabs (d * Q2R y1) <= / 2 ^ 50 * / 16) by (rewrite Rabs_mult; apply Rmult_le_compat; try apply Rabs_pos; apply Rabs_le; lra).
    apply Rabs_le_inv in A. assert (E1: / 2 ^ 50 * / 16 = / 2 ^ 54) by (cbn [pow]; field). assert (E2: / 2 ^ 53 = 2 * / 2 ^ 54) by (cbn [pow]; field). assert (E3: / 2 ^ 52 = 4 * / 2 ^ 54) by (cbn [pow]; field).
    assert (0 < / 2 ^ 54) by (apply Rinv_0_lt_compat, pow_lt; lra). rewrite E1 in A. rewrite E2 in C. rewrite E3. apply Rabs_le. lra.
Qed.
Print Assumptions C64_table.

(* A point of layer i right of x(i+1) is accepted exactly if it is below the curve, up to rounding. *)
Theorem C64_test : forall f md ex K i q t, fmt_ok f -> fmt_wide f -> (20 <= prec f)%Z -> 0 <= K -> exp_ok f K ex ->
  (1 <= i < 256)%Z -> (0 <= q <= 1)%Q -> (0 <= t <= 1)%Q ->
  let x := zg_x f md q (nth (Z.to_nat i) ex_x 0%Q) in (fround f md (nth (S (Z.to_nat i)) ex_x 0%Q) <= x)%Q ->
  exists ok, ez_test f md ex i x t = Some ok /\
    (ok = true -> height ex_y i t <= exp (- Q2R x) + (68 + K) * unit_err f) /\
    (ok = false -> exp (- Q2R x) - (68 + K) * unit_err f <= height ex_y i t).
Proof.
  intros f md ex K i q t Hf Hw Pf HK HE Hi Hq Ht x Hx. apply (ez_test_ok f md ex K Hf Hw Pf HK HE i q t Hi Hq Ht). rewrite nx_S by lia.
  change (zg_x f md q (nx ex_x i)) with x. destruct (qlt x _) eqn:E; [|reflexivity]. apply qlt_t in E. exfalso. apply (Qlt_not_le _ _ E Hx).
Qed.
Print Assumptions C64_test.

(* left of x(i+1) all of the layer is below the curve *)
Theorem C64_inside : forall f md i q t, fmt_ok f -> fmt_wide f -> (20 <= prec f)%Z -> (0 <= i < 256)%Z -> (0 <= q <= 1)%Q -> (0 <= t <= 1)%Q ->
  let x := zg_x f md q (nth (Z.to_nat i) ex_x 0%Q) in (x < fround f md (nth (S (Z.to_nat i)) ex_x 0%Q))%Q ->
  height ex_y i t <= exp (- Q2R x) + 10 * unit_err f.
Proof.
  intros f md i q t Hf Hw Pf Hi Hq Ht x Hx. apply (ez_fast f md Hf Hw Pf i q t Hi Hq Ht). rewrite nx_S by lia.
  change (zg_x f md q (nx ex_x i)) with x. destruct (qlt x _) eqn:E; [reflexivity|]. apply qlt_f in E. exfalso. exact (E Hx).
Qed.
Print Assumptions C64_inside.

(* operator() of exponential_distribution, from the engine on *)
Theorem C64_run : forall f md ex K lambda tb bmin bmax F ds, fmt_ok f -> fmt_wide f -> (20 <= prec f)%Z -> 0 <= K -> exp_ok f K ex ->
  eng_wf tb bmin bmax -> (32 <= bits tb <= 64)%Z -> (bmax - bmin <= imax tb)%Z -> no_full_last (prec f) (digit_bits bmin bmax) 8 ->
  ez_ctor lambda = true -> valid_draws bmin bmax ds -> (length ds < F)%nat ->
  let op := ez_op f md ex (int_float_pair f md F 8 tb bmin bmax) (uniform_01 f md F tb bmin bmax) F lambda in
  exec op ds = OMore \/
  exists v rest u, exec op ds = ORet v rest /\ (ez_min <= v)%Q /\ representable f v /\ v = fround f md (u / lambda) /\ ez_point f md ((68 + K) * unit_err f) 0 u.
Proof.
  intros f md ex K lambda tb bmin bmax F ds Hf Hw Pf HK HE He HB HR HN HL Hv HF op. apply qlt_t in HL.
  destruct (ez_op_run f md ex K Hf Hw Pf HK HE bmin bmax F _ _ (pair_src f md F tb bmin bmax Hf Hw Pf He HB HN) (u01_src f md F tb bmin bmax Hf He HR) F lambda ds HL Hv HF HF) as [E|(v & rest & u & E & _ & V0 & RV & PT & EV)]; [left; exact E|].
  right. exists v, rest, u. split; [exact E|]. split; [exact V0|]. split; [exact RV|]. split; [exact EV|exact PT].
Qed.
Print Assumptions C64_run.

(* hypotheses of the theorems: double, exp with a relative error of one epsilon, a 32 bit engine *)
Example C64_ex : let f := ieee_double in
  fmt_ok f /\ fmt_wide f /\ (20 <= prec f)%Z /\ exp_ok f 1 (fun y => appr (eps f) (exp (Q2R y))) /\
  eng_wf u32 0 (2 ^ 32 - 1) /\ (2 ^ 32 - 1 - 0 <= imax u32)%Z /\ no_full_last (prec f) (digit_bits 0 (2 ^ 32 - 1)) 8 /\ ez_ctor 2 = true /\
  valid_draws 0 (2 ^ 32 - 1) [4294967040; 4294967295; 1234567890; 5]%Z.
Proof.
  cbv zeta. split; [split; cbn; lia|]. split; [split; cbn; lia|]. split; [cbn; lia|].
  split. { intros y Y0 RY. pose proof (appr_ok (eps ieee_double) (exp (Q2R y)) (e_pos _)) as H. rewrite (Rabs_right (exp (Q2R y))) in H by (left; apply exp_pos). exact H. }
  split; [unfold eng_wf, inT; vm_compute; intuition discriminate|]. split; [vm_compute; discriminate|]. split; [right; vm_compute; discriminate|]. split; [reflexivity|].
  repeat apply Forall_cons; try apply Forall_nil; lia.
Qed.
(* layer 210 without a test; layer 0 once and then layer 210 *)
Example C64_ex_run :
  let op := ez_op ieee_double RNE (fun _ => 0%Q) (int_float_pair ieee_double RNE 9 8 u32 0 (2 ^ 32 - 1)) (uniform_01 ieee_double RNE 9 u32 0 (2 ^ 32 - 1)) 9 2 in
  map (fun ds => match exec op ds with ORet v r => Some (Qred v, r) | _ => None end) [[1234567890; 5]; [4294967040; 4294967295; 1234567890; 5]]%Z =
  [Some (1123862386977319 # 302231454903657293676544, []); Some (4333091925475355 # 1125899906842624, [])].
Proof. vm_compute. reflexivity. Qed.
(* layer 100, x between x(101) and x(100): both outcomes of the test *)
Example C64_ex_test :
  let x := zg_x ieee_double RNE (999 # 1000) (nth 100 ex_x 0%Q) in
  (fround ieee_double RNE (nth 101 ex_x 0%Q) <= x)%Q /\
  (ez_test ieee_double RNE (fun _ => 0%Q) 100 x (1 # 100), ez_test ieee_double RNE (fun _ => 0%Q) 100 x (9 # 10)) = (Some true, Some false).
Proof. cbv zeta. split; [apply Qle_bool_iff; vm_compute; reflexivity|vm_compute; reflexivity]. Qed.

(* The table of the normal distribution: 128 layers. *)
Theorem C65_table : exists V, 991 / 100000 < V < 992 / 100000 /\ zig_table 128 fnorm nm_x nm_y V (/ 2 ^ 53) /\ zig_close 128 fnorm (fun x => x * x) nm_x nm_y (/ 2 ^ 53).
Proof.
  exists (Q2R nm_V). split; [|rewrite <- d53_R; exact nm_tables].
  split; apply Rmult_lt_reg_r with 100000; try lra.
  + replace (991 / 100000 * 100000) with (Q2R 991) by (unfold Q2R; cbn; field). replace (Q2R nm_V * 100000) with (Q2R (nm_V * 100000)) by (rewrite Q2R_mult; f_equal; unfold Q2R; cbn; field). apply Qlt_Rlt. vm_compute. reflexivity.
  + replace (992 / 100000 * 100000) with (Q2R 992) by (unfold Q2R; cbn; field). replace (Q2R nm_V * 100000) with (Q2R (nm_V * 100000)) by (rewrite Q2R_mult; f_equal; unfold Q2R; cbn; field). apply Qlt_Rlt. vm_compute. reflexivity.
Qed.
Print Assumptions C65_table.

Theorem C65_test : forall f md ex K i q t, fmt_ok f -> fmt_wide f -> (20 <= prec f)%Z -> 0 <= K -> exp_ok f K ex ->
  (1 <= i < 128)%Z -> (0 <= q <= 1)%Q -> (0 <= t <= 1)%Q ->
  let x := zg_x f md q (nth (Z.to_nat i) nm_x 0%Q) in (nth (S (Z.to_nat i)) nm_x 0%Q <= x)%Q ->
  exists ok, nz_test f md ex i x t = Some ok /\
    (ok = true -> height nm_y i t <= exp (- (Q2R x * Q2R x / 2)) + (218 + K) * unit_err f) /\
    (ok = false -> exp (- (Q2R x * Q2R x / 2)) - (218 + K) * unit_err f <= height nm_y i t).
Proof.
  intros f md ex K i q t Hf Hw Pf HK HE Hi Hq Ht x Hx. apply (nz_test_ok f md ex K Hf Hw Pf HK HE i q t Hi Hq Ht). rewrite nx_S by lia.
  change (zg_x f md q (nx nm_x i)) with x. destruct (qlt x _) eqn:E; [|reflexivity]. apply qlt_t in E. exfalso. apply (Qlt_not_le _ _ E Hx).
Qed.
Print Assumptions C65_test.

Theorem C65_inside : forall f md i q t, fmt_ok f -> fmt_wide f -> (20 <= prec f)%Z -> (0 <= i < 128)%Z -> (0 <= q <= 1)%Q -> (0 <= t <= 1)%Q ->
  let x := zg_x f md q (nth (Z.to_nat i) nm_x 0%Q) in (x < nth (S (Z.to_nat i)) nm_x 0%Q)%Q ->
  height nm_y i t <= exp (- (Q2R x * Q2R x / 2)) + unit_err f.
Proof.
  intros f md i q t Hf Hw Pf Hi Hq Ht x Hx. apply (nz_fast f md Hf Pf i q t Hi Hq Ht). rewrite nx_S by lia.
  change (zg_x f md q (nx nm_x i)) with x. destruct (qlt x _) eqn:E; [reflexivity|]. apply qlt_f in E. exfalso. exact (E Hx).
Qed.
Print Assumptions C65_inside.

(* One pass of the loop: what is rejected is above the curve; what is returned is
   below it or in the tail, with the sign of bit 0 of the bucket. *)
Theorem C65_pass : forall f md ex K tb bmin bmax F ds, fmt_ok f -> fmt_wide f -> (20 <= prec f)%Z -> 0 <= K -> exp_ok f K ex ->
  eng_wf tb bmin bmax -> (32 <= bits tb <= 64)%Z -> (bmax - bmin <= imax tb)%Z -> no_full_last (prec f) (digit_bits bmin bmax) 8 ->
  valid_draws bmin bmax ds -> (length ds < F)%nat ->
  let pair := int_float_pair f md F 8 tb bmin bmax in
  let pass := nz_try f md ex pair (uniform_01 f md F tb bmin bmax) F in
  exec pass ds = OMore \/
  exists r rest q b r0, exec pass ds = ORet r rest /\ (length rest < length ds)%nat /\ exec pair ds = ORet (q, b) r0 /\
    match r with
    | Some v => exists m, nz_point f md ((218 + K) * unit_err f) m /\ (v == m * sgn b)%Q
    | None => nz_above f md ((218 + K) * unit_err f)
    end.
Proof.
  intros f md ex K tb bmin bmax F ds Hf Hw Pf HK HE He HB HR HN Hv HF pair pass.
  exact (try_run f md ex K Hf Hw Pf HK HE bmin bmax F _ _ (pair_src f md F tb bmin bmax Hf Hw Pf He HB HN) (u01_src f md F tb bmin bmax Hf He HR) F ds (le_n F) Hv HF).
Qed.
Print Assumptions C65_pass.

(* One pass of generate_tail: x and y are results of exponential distributions
   with the parameters x(1) and 1, and x(1)+x is returned exactly if y > x^2/2,
   up to rounding, that is, with probability exp(-x^2/2). *)
Theorem C65_tail : forall f md ex K start tb bmin bmax F ds, fmt_ok f -> fmt_wide f -> (20 <= prec f)%Z -> 0 <= K -> exp_ok f K ex ->
  eng_wf tb bmin bmax -> (32 <= bits tb <= 64)%Z -> (bmax - bmin <= imax tb)%Z -> no_full_last (prec f) (digit_bits bmin bmax) 8 ->
  (0 < start)%Q -> valid_draws bmin bmax ds -> (length ds < F)%nat ->
  let pair := int_float_pair f md F 8 tb bmin bmax in
  let u01 := uniform_01 f md F tb bmin bmax in
  let pass := nz_tail_try f md ex pair u01 F start in
  exec pass ds = OMore \/
  exists x y r r1 rest, exec (ez_op f md ex pair u01 F start) ds = ORet x r1 /\ exec (ez_op f md ex pair u01 F 1) r1 = ORet y rest /\
    exec pass ds = ORet r rest /\ (length rest < length ds)%nat /\ (0 <= x)%Q /\ (0 <= y)%Q /\
    match r with
    | Some v => v = fround f md (x + start) /\ Q2R x * Q2R x / 2 * (1 - eps f) <= Q2R y * (1 + eps f) + eps f
    | None => Q2R y * (1 - eps f) <= Q2R x * Q2R x / 2 * (1 + eps f) + eps f
    end.
Proof.
  intros f md ex K start tb bmin bmax F ds Hf Hw Pf HK HE He HB HR HN HS Hv HF pair u01 pass.
  exact (tail_try_run f md ex K Hf Hw Pf HK HE bmin bmax F _ _ (pair_src f md F tb bmin bmax Hf Hw Pf He HB HN) (u01_src f md F tb bmin bmax Hf He HR) F start ds (le_n F) HS Hv HF).
Qed.
Print Assumptions C65_tail.
(* the density that remains is the normal one beyond x(1) *)
Lemma tail_density : forall a x, exp (- (a * x)) * exp (- (x * x / 2)) * fnorm a = fnorm (a + x).
Proof. intros a x. unfold fnorm. rewrite <- !exp_plus. f_equal. field. Qed.

(* generate_tail: the result is that of an accepting pass with start x(1). *)
Theorem C65_tail_run : forall f md ex K tb bmin bmax F ds v rest, fmt_ok f -> fmt_wide f -> (20 <= prec f)%Z -> 0 <= K -> exp_ok f K ex ->
  eng_wf tb bmin bmax -> (32 <= bits tb <= 64)%Z -> (bmax - bmin <= imax tb)%Z -> no_full_last (prec f) (digit_bits bmin bmax) 8 ->
  valid_draws bmin bmax ds -> (length ds < F)%nat ->
  let pair := int_float_pair f md F 8 tb bmin bmax in
  let u01 := uniform_01 f md F tb bmin bmax in
  let start := fround f md (nth 1 nm_x 0%Q) in
  exec (nz_tail f md ex pair u01 F) ds = ORet v rest ->
  exists pre ds' x y r1, ds = pre ++ ds' /\ exec (ez_op f md ex pair u01 F start) ds' = ORet x r1 /\ exec (ez_op f md ex pair u01 F 1) r1 = ORet y rest /\
    v = fround f md (x + start) /\ Q2R x * Q2R x / 2 * (1 - eps f) <= Q2R y * (1 + eps f) + eps f.
Proof.
  intros f md ex K tb bmin bmax F ds v rest Hf Hw Pf HK HE He HB HR HN Hv HF pair u01 start E. unfold nz_tail in E. rewrite (nm_tx 1) in E by lia. cbn [plift pbind] in E. cbv zeta in E.
  destruct (retry_last _ _ _ _ _ _ E) as (pre & ds' & D & E').
  assert (S0: (0 < start)%Q) by (apply (Qlt_le_trans _ 1); [reflexivity|exact (s1 f md Hf)]).
  assert (V': valid_draws bmin bmax ds') by (rewrite D in Hv; apply Forall_app in Hv; apply Hv).
  assert (L': (length ds' < F)%nat) by (rewrite D, app_length in HF; lia).
  destruct (tail_try_run f md ex K Hf Hw Pf HK HE bmin bmax F _ _ (pair_src f md F tb bmin bmax Hf Hw Pf He HB HN) (u01_src f md F tb bmin bmax Hf He HR) F start ds' (le_n F) S0 V' L')
    as [M|(x & y & r & r1 & rest' & A & B & M & _ & _ & _ & PT)]; [pose proof (eq_trans (eq_sym E') M) as M'; discriminate M'|].
  pose proof (eq_trans (eq_sym E') M) as M'; clear M.
  injection M' as <- <-. destruct PT as [PV PT]. exists pre, ds', x, y, r1. repeat split; assumption.
Qed.
Print Assumptions C65_tail_run.

(* operator() of normal_distribution *)
Theorem C65_run : forall f md ex K mean sigma tb bmin bmax F ds, fmt_ok f -> fmt_wide f -> (20 <= prec f)%Z -> 0 <= K -> exp_ok f K ex ->
  eng_wf tb bmin bmax -> (32 <= bits tb <= 64)%Z -> (bmax - bmin <= imax tb)%Z -> no_full_last (prec f) (digit_bits bmin bmax) 8 ->
  valid_draws bmin bmax ds -> (length ds < F)%nat ->
  let op := nz_op f md ex (int_float_pair f md F 8 tb bmin bmax) (uniform_01 f md F tb bmin bmax) F mean sigma in
  exec op ds = OMore \/
  exists v rest u m, exec op ds = ORet v rest /\ v = fround f md (fround f md (u * sigma) + mean) /\
    nz_point f md ((218 + K) * unit_err f) m /\ (u == m \/ u == - m)%Q.
Proof.
  intros f md ex K mean sigma tb bmin bmax F ds Hf Hw Pf HK HE He HB HR HN Hv HF op. unfold op, nz_op. rewrite Disc4Proofs.exec_bind_eq.
  destruct (unit_run f md ex K Hf Hw Pf HK HE bmin bmax F _ _ (pair_src f md F tb bmin bmax Hf Hw Pf He HB HN) (u01_src f md F tb bmin bmax Hf He HR) F ds (le_n F) Hv HF) as [E|(u & rest & E & _ & m & PT & EV)]; rewrite E; [left; reflexivity|].
  right. eexists. exists rest, u, m. split; [reflexivity|]. split; [reflexivity|]. split; [exact PT|exact EV].
Qed.
Print Assumptions C65_run.

(* layer 105, negative and positive; the tail *)
Example C65_ex_run :
  let op := nz_op ieee_double RNE (fun _ => 0%Q) (int_float_pair ieee_double RNE 9 8 u32 0 (2 ^ 32 - 1)) (uniform_01 ieee_double RNE 9 u32 0 (2 ^ 32 - 1)) 9 10 2 in
  map (fun ds => match exec op ds with ORet v r => Some (Qred v, r) | _ => None end) [[1234567890; 5]; [1234567891; 5]; [4294967040; 4294967295; 1234567890; 5; 1234568146; 7]]%Z =
  [Some (5629499523691141 # 562949953421312, []); Some (5629499544735099 # 562949953421312, []); Some (438363539183057 # 140737488355328, [])].
Proof. vm_compute. reflexivity. Qed.
(* a convex layer, the one with the inflection point, a concave one; both outcomes of the test *)
Example C65_ex_test :
  map (fun i => let x := zg_x ieee_double RNE (999 # 1000) (nth i nm_x 0%Q) in
         (Qle_bool (nth (S i) nm_x 0%Q) x, map (fun t => nz_test ieee_double RNE (fun _ => 0%Q) (Z.of_nat i) x t) [1 # 1000; 9 # 10]))
    [20; 75; 100]%nat =
  [(true, [Some true; Some false]); (true, [Some true; Some false]); (true, [Some true; Some false])].
Proof. vm_compute. reflexivity. Qed.
