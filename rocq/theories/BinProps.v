(* C59, C60: binomial_distribution *)
From Coq Require Import Lqa.
From Verif Require Import Base ProgModel ProgSpec ProgProofs UIntModel UIntSpec FloatModel FloatSpec FloatProofs RealModel RealSpec RealProofs UniProofs
  Disc4Proofs RDiscProofs BinModel BinSpec BinProofs Bin2Proofs Bin3Proofs Bin4Proofs Bin5Proofs Bin6Proofs Bin7Proofs.
Open Scope Q_scope.

(* With a mean below about 11 the result is the point where the distribution
   function of the binomial distribution passes the uniform number drawn, up to
   rounding.  Above p = 1/2 the failures are counted. *)
Theorem C59_inversion : forall f g ti pw sq lg K t p d tb bmin bmax F ds,
  fmt_ok f -> fmt_wide f -> 0 <= K -> pow_ok f K pw ->
  (32 <= bits ti)%Z -> sgn ti = true -> eng_wf tb bmin bmax -> (bmax - bmin <= imax tb)%Z ->
  (0 <= t < imax ti)%Z -> (t + 1 <= 2 ^ prec f)%Z ->
  representable f p -> 0 <= p -> p <= 1 -> (p == 0 \/ p2 (emin f + prec f) <= p) ->
  (K + qZ t + 10 * (qZ (t + 1) * qZ (t + 1))) * p2 (1 - prec f) <= 1 # 8 ->
  bn_init f g RNE ti pw sq t p = Some d -> bn_inversion (bn_m d) = true ->
  valid_draws bmin bmax ds -> (length ds < F)%nat -> (Z.to_nat t + 1 < F)%nat ->
  let u01 := uniform_01 f RNE F tb bmin bmax in
  exec u01 ds = OMore /\ exec (bn_op f g RNE ti lg F u01 d) ds = OMore \/
  exists u rest k, exec u01 ds = ORet u rest /\ exec (bn_op f g RNE ti lg F u01 d) ds = ORet k rest /\
    let x := if Qle_bool p (1 # 2) then k else (t - k)%Z in
    (0 <= x <= t + 1)%Z /\
    inverts (Z.to_nat t) (psmall p)
      ((2 * (K + qZ t) + 40 * qZ (t + 1) * psmall p + 6 * (qZ x + 1)) * p2 (1 - prec f)) u (Z.to_nat x).
Proof.
  intros. cbv zeta. eapply bn_accuracy; eassumption.
Qed.
Print Assumptions C59_inversion.

(* Without any condition on the number of trials: the loop ends within t+1
   turns, no operation overflows, and the result is in [min(), max()+1], or in
   [min()-1, max()] when failures are counted.  The full claim, a result in
   [min(), max()], is refuted below. *)
Theorem C59_range_partial : forall f g ti pw sq lg t p d q0 tb bmin bmax F ds,
  fmt_ok f -> fmt_wide f -> (32 <= bits ti)%Z -> sgn ti = true -> eng_wf tb bmin bmax -> (bmax - bmin <= imax tb)%Z ->
  (0 <= t < imax ti)%Z -> (t + 1 <= 2 ^ prec f)%Z ->
  representable f p -> 0 <= p -> p <= 1 -> (p == 0 \/ p2 (emin f + prec f) <= p) ->
  bn_init f g RNE ti pw sq t p = Some d -> bn_u d = UInv q0 -> representable f q0 -> p2 (emin f + prec f) <= q0 ->
  valid_draws bmin bmax ds -> (length ds < F)%nat -> (Z.to_nat t + 1 < F)%nat ->
  let op := bn_op f g RNE ti lg F (uniform_01 f RNE F tb bmin bmax) d in
  exec op ds = OMore \/
  exists k rest, exec op ds = ORet k rest /\
    (if Qle_bool p (1 # 2) then (bn_min d <= k <= bn_max d + 1)%Z else (bn_min d - 1 <= k <= bn_max d)%Z).
Proof.
  intros. cbv zeta. eapply bn_range; eassumption.
Qed.
Print Assumptions C59_range_partial.

(* the correctly rounded power *)
Definition pw_cr (f : fmt) (b n : Q) : Q := fround f RNE (Qpower b (Qfloor n)).

(* Two trials can give three successes, or minus one. *)
Theorem C59_range_refuted : exists t p1 p3 ds d1 d2 k1 k2,
  bn_init ieee_double ieee_double RNE i32 (pw_cr ieee_double) (fun x => x) t p1 = Some d1 /\
  bn_init ieee_double ieee_double RNE i32 (pw_cr ieee_double) (fun x => x) t p3 = Some d2 /\
  0 <= p1 /\ p1 <= 1 # 2 /\ 1 # 2 < p3 /\ p3 <= 1 /\ valid_draws 0 (2 ^ 64 - 1) ds /\
  exec (bn_op ieee_double ieee_double RNE i32 (fun x => x) 9 (uniform_01 ieee_double RNE 9 u64 0 (2 ^ 64 - 1)) d1) ds = ORet k1 [] /\
  exec (bn_op ieee_double ieee_double RNE i32 (fun x => x) 9 (uniform_01 ieee_double RNE 9 u64 0 (2 ^ 64 - 1)) d2) ds = ORet k2 [] /\
  (bn_max d1 < k1)%Z /\ (k2 < bn_min d2)%Z.
Proof.
  exists 2%Z, (3 # 8), (5 # 8), [2 ^ 64 - 2 ^ 11]%Z. eexists. eexists. exists 3%Z, (-1)%Z.
  split; [vm_compute; reflexivity|]. split; [vm_compute; reflexivity|].
  split; [discriminate|]. split; [discriminate|]. split; [reflexivity|]. split; [discriminate|].
  split; [apply Forall_cons; [lia|apply Forall_nil]|].
  split; [vm_compute; reflexivity|]. split; [vm_compute; reflexivity|]. split; vm_compute; reflexivity.
Qed.
Print Assumptions C59_range_refuted.

(* The precondition is t >= 0 and 0 <= p <= 1; the largest int overflows. *)
Theorem C59_max_refuted : exists t p, inT i32 t /\ (0 <= t)%Z /\ 0 <= p /\ p <= 1 /\
  forall f g md pw sq, bn_init f g md i32 pw sq t p = None.
Proof.
  exists (2 ^ 31 - 1)%Z, (1 # 4). split; [split; vm_compute; discriminate|]. split; [lia|]. split; [discriminate|]. split; [discriminate|].
  intros. unfold bn_init. replace (addT i32 (2 ^ 31 - 1) 1) with (@None Z) by reflexivity. reflexivity.
Qed.
Print Assumptions C59_max_refuted.

Lemma pw_cr_ok : forall f, fmt_ok f -> fmt_wide f -> pow_ok f 1 (pw_cr f).
Proof.
  intros f Hf Hw b n B0 B1 N0 HN. unfold pw_cr, qZ. rewrite Qfloor_Z. split; [apply rnd_repr; exact Hf|].
  pose proof (p2_pos (emin f + prec f)). assert (HM: p2 (emin f + prec f - 1) <= Qpower b n).
  { apply Qle_trans with (p2 (emin f + prec f)); [apply p2_le; lia|exact HN]. }
  pose proof (rnd_err f RNE (Qpower b n)) as [A B]. pose proof (ulp_rel f (Qpower b n) HM) as U.
  apply Qabs_Qle_condition. split; lra.
Qed.

(* 20 trials of probability 1/4, and of probability 3/4 *)
Example C59_ex :
  let f := ieee_double in
  fmt_ok f /\ fmt_wide f /\ pow_ok f 1 (pw_cr f) /\ eng_wf u64 0 (2 ^ 64 - 1) /\ (20 < imax i32)%Z /\
  representable f (1 # 4) /\ representable f (3 # 4) /\ p2 (emin f + prec f) <= 1 # 4 /\
  (1 + qZ 20 + 10 * (qZ (20 + 1) * qZ (20 + 1))) * p2 (1 - prec f) <= 1 # 8 /\
  exists d1 d2 q0, bn_init f f RNE i32 (pw_cr f) (fun x => x) 20 (1 # 4) = Some d1 /\
    bn_init f f RNE i32 (pw_cr f) (fun x => x) 20 (3 # 4) = Some d2 /\
    bn_inversion (bn_m d1) = true /\ bn_inversion (bn_m d2) = true /\ bn_u d1 = UInv q0 /\ bn_u d2 = UInv q0 /\
    representable f q0 /\ p2 (emin f + prec f) <= q0 /\
    map (fun x => (exec (bn_op f f RNE i32 (fun x => x) 22 (uniform_01 f RNE 22 u64 0 (2 ^ 64 - 1)) d1) [x],
                   exec (bn_op f f RNE i32 (fun x => x) 22 (uniform_01 f RNE 22 u64 0 (2 ^ 64 - 1)) d2) [x]))
        [0; 2 ^ 62; 2 ^ 63; 15 * 2 ^ 60]%Z
      = [(ORet 0 [], ORet 20 []); (ORet 4 [], ORet 16 []); (ORet 5 [], ORet 15 []); (ORet 8 [], ORet 12 [])]%Z.
Proof.
  cbn zeta. assert (Hf: fmt_ok ieee_double) by (split; cbn; lia). assert (Hw: fmt_wide ieee_double) by (split; cbn; lia).
  split; [exact Hf|]. split; [exact Hw|]. split; [apply pw_cr_ok; assumption|]. split; [repeat split; vm_compute; discriminate|].
  split; [reflexivity|]. split; [exists 1%Z, (-2)%Z; split; [cbn; lia|split; [cbn; lia|reflexivity]]|].
  split; [exists 3%Z, (-2)%Z; split; [cbn; lia|split; [cbn; lia|reflexivity]]|].
  split; [vm_compute; discriminate|]. split; [vm_compute; discriminate|].
  eexists. eexists. exists (pw_cr ieee_double (3 # 4) (inject_Z 20)).
  split; [vm_compute; reflexivity|]. split; [vm_compute; reflexivity|]. split; [reflexivity|]. split; [reflexivity|].
  split; [vm_compute; reflexivity|]. split; [vm_compute; reflexivity|]. split; [apply rnd_repr; exact Hf|].
  split; [vm_compute; discriminate|]. vm_compute. reflexivity.
Qed.

(* ================= C60 ================= *)

(* With a larger mean the rejection algorithm is used: every result is in
   [min(), max()].  The behaviour can be undefined only in one conversion, that
   of line 321, and only if us * INT_MAX < t; the full claim, that it is never
   undefined, is refuted below. *)
Theorem C60_range_partial : forall f g md ti pw sq lg t p d b tb bmin bmax F ds,
  fmt_ok f -> fmt_ok g -> fmt_wide f -> (20 <= prec f)%Z -> (prec f <= prec g)%Z -> (emin g <= emin f)%Z -> sqrt_ok sq ->
  (32 <= bits ti)%Z -> sgn ti = true -> eng_wf tb bmin bmax -> (bmax - bmin <= imax tb)%Z -> (0 <= t < imax ti)%Z ->
  representable f p -> 0 <= p -> p <= 1 -> (p == 0 \/ p2 (emin f + prec f) <= p) ->
  bn_init f g md ti pw sq t p = Some d -> bn_u d = UBtrd b -> valid_draws bmin bmax ds -> (length ds < F)%nat ->
  match exec (bn_op f g md ti lg F (uniform_01 f md F tb bmin bmax) d) ds with
  | ORet k _ => (bn_min d <= k <= bn_max d)%Z
  | OUB => exists u, Qabs u <= 1 # 2 /\
      let us := fround f md (fround g md ((1 # 2) - Qabs u)) in bn_hat f md ti b u us = None /\ us * qZ (imax ti) < qZ t
  | _ => True
  end.
Proof.
  intros f g md ti pw sq lg t p d b tb bmin bmax F ds Hf Hg Hw Pf Pg Eg Hsq Hti Hs He HR [T0 T1] Rp P0 P1 Pn HI HU Hv HF.
  destruct (init_btrd f g md ti pw sq t p Hf Hg Hw Pf Pg Eg Hti T0 T1 Rp P0 P1 Pn Hsq d b HI HU) as (E & _).
  unfold bn_min, bn_max. rewrite E. eapply btrd_op; eassumption.
Qed.
Print Assumptions C60_range_partial.

(* Within 15 of the mode, k is accepted when v is at most P(X=k)/P(X=m), up to rounding. *)
Theorem C60_accept_near : forall f g ti pw sq t p d b k v,
  fmt_ok f -> fmt_ok g -> fmt_wide f -> (20 <= prec f)%Z -> (prec f <= prec g)%Z -> (emin g <= emin f)%Z -> sqrt_ok sq ->
  (32 <= bits ti)%Z -> sgn ti = true -> (0 <= t < imax ti)%Z -> (t + 1 <= 2 ^ prec f)%Z ->
  representable f p -> 0 <= p -> p <= 1 -> (p == 0 \/ p2 (emin f + prec f) <= p) ->
  bn_init f g RNE ti pw sq t p = Some d -> bn_u d = UBtrd b ->
  (0 <= k <= t)%Z -> (Z.abs (k - bn_m d) <= 15)%Z -> 0 <= v ->
  let w := qZ (t + 1) / qZ (t + 1 - Z.max (bn_m d) k) * p2 (1 - prec f) in
  let B i := bpmf (Z.to_nat t) (psmall p) (Z.to_nat i) in
  300 * w <= 1 ->
  (forall i, (Z.min (bn_m d) k <= i <= Z.max (bn_m d) k)%Z ->
     if (bn_m d <=? k)%Z then p2 (emin f + prec f) * B (bn_m d) <= B i else v == 0 \/ p2 (emin f + prec f) * B k <= v * B i) ->
  exists ok, bn_accept_near f RNE ti (b_r b) (b_nr b) (bn_m d) k v = PRet ok /\
    if ok then (1 - 150 * w) * (v * B (bn_m d)) <= B k else (1 - 150 * w) * B k <= v * B (bn_m d).
Proof.
  intros f g ti pw sq t p d b k v Hf Hg Hw Pf Pg Eg Hsq Hti Hs [T0 T1] TP Rp P0 P1 Pn HI HU Hk HA V0 w B HW HB.
  destruct (init_btrd f g RNE ti pw sq t p Hf Hg Hw Pf Pg Eg Hti T0 T1 Rp P0 P1 Pn Hsq d b HI HU) as (E1 & E2 & M & NN & SP & S1 & SR & SE & BF).
  destruct BF as [_ _ _ _ _ _ _ _ _ _ _ BR BN]. set (ps := bn_small f RNE p) in *. pose proof (p2_pos (emin f + prec f)) as NP.
  set (m := bn_m d) in *. set (tn := Z.to_nat t) in *. assert (TE: t = Z.of_nat tn) by (unfold tn; lia).
  assert (WE: w == qn (S tn) / (qn (S tn) - qn (Nat.max (Z.to_nat m) (Z.to_nat k))) * p2 (1 - prec f)).
  { unfold w, qZ, qn. apply Qmult_comp; [|reflexivity]. replace (Z.of_nat (S tn)) with (t + 1)%Z by lia.
    replace (Z.of_nat (Nat.max (Z.to_nat m) (Z.to_nat k))) with (Z.max m k) by lia.
    unfold Qdiv. apply Qmult_comp; [reflexivity|]. apply Qinv_comp. rewrite (inject_Z_plus t 1). unfold Z.sub. rewrite !inject_Z_plus, inject_Z_opp. ring. }
  assert (BE: forall i, B i == bpmf tn ps (Z.to_nat i)) by (intro i; unfold B; apply bpmf_compat; symmetry; exact SE).
  destruct (accept_ok f Hf Hw ps tn ti SR ltac:(lra) S1 ltac:(right; exact SP) Hti ltac:(lia) ltac:(lia) (Z.to_nat m) (Z.to_nat k) v) as (ok & O1 & O2); try lra; try lia.
  - intros j Hj. specialize (HB (Z.of_nat j) ltac:(lia)).
    destruct (Z.leb_spec m k); destruct (Nat.leb_spec (Z.to_nat m) (Z.to_nat k)); try lia.
    + rewrite !BE, Nat2Z.id in HB. exact HB.
    + destruct HB as [HB|HB]; [left; exact HB|right]. rewrite !BE, Nat2Z.id in HB. exact HB.
  - exists ok. rewrite BN, BR. rewrite <- TE in O1. rewrite !Z2Nat.id in O1 by lia. split; [exact O1|].
    destruct ok; rewrite !BE, WE; set (G := qn (S tn) / _) in *; lra.
Qed.
Print Assumptions C60_accept_near.

(* the square root with 60 binary places *)
Definition sq_ex (x : Q) : Q := inject_Z (Z.sqrt (Qfloor (x * inject_Z (2 ^ 120)))) / inject_Z (2 ^ 60).

(* A uniform number 0, or 2^-40, makes the conversion of line 321 overflow. *)
Theorem C60_cast_refuted : exists d ds1 ds2, bn_init ieee_double ieee_double RNE i32 (pw_cr ieee_double) sq_ex 100 (1 # 2) = Some d /\
  valid_draws 0 (2 ^ 64 - 1) ds1 /\ valid_draws 0 (2 ^ 64 - 1) ds2 /\ ~ In 0%Z ds2 /\
  forall lg F, exec (bn_op ieee_double ieee_double RNE i32 lg (S F) (uniform_01 ieee_double RNE 9 u64 0 (2 ^ 64 - 1)) d) ds1 = OUB /\
    exec (bn_op ieee_double ieee_double RNE i32 lg (S F) (uniform_01 ieee_double RNE 9 u64 0 (2 ^ 64 - 1)) d) ds2 = OUB.
Proof.
  eexists. exists [2 ^ 64 - 2 ^ 11; 0]%Z, [2 ^ 64 - 2 ^ 11; 2 ^ 24]%Z. split; [vm_compute; reflexivity|].
  split; [apply Forall_cons; [lia|apply Forall_cons; [lia|apply Forall_nil]]|]. split; [apply Forall_cons; [lia|apply Forall_cons; [lia|apply Forall_nil]]|].
  split; [intros [C|[C|[]]]; lia|].
  intros lg F. split; vm_compute; reflexivity.
Qed.
Print Assumptions C60_cast_refuted.

Lemma sq_ex_ok : sqrt_ok sq_ex.
Proof.
  intros x Hx. unfold sq_ex. set (B := (2 ^ 60)%Z). replace (2 ^ 120)%Z with (B * B)%Z by reflexivity.
  set (n := Qfloor (x * inject_Z (B * B))). set (s := Z.sqrt n).
  assert (BB: inject_Z (B * B) == inject_Z B * inject_Z B) by (rewrite inject_Z_mult; reflexivity).
  assert (B0: 10000 <= inject_Z B) by (vm_compute; discriminate).
  assert (XB: inject_Z (B * B) <= x * inject_Z (B * B)).
  { assert (1 * inject_Z (B * B) <= x * inject_Z (B * B)); [|lra]. apply Qmult_le_compat_r; [exact Hx|vm_compute; discriminate]. }
  assert (N1: (B * B <= n)%Z) by (unfold n; rewrite <- (Qfloor_Z (B * B)) at 1; apply Qfloor_resp_le; exact XB).
  assert (S1: (s * s <= n < (s + 1) * (s + 1))%Z) by (apply Z.sqrt_spec; unfold B in *; lia).
  assert (S2: (B <= s)%Z) by (unfold s; rewrite <- (Z.sqrt_square B) by (unfold B; lia); apply Z.sqrt_le_mono; exact N1).
  assert (S3: (10000 * s <= s * s)%Z) by (apply Z.mul_le_mono_nonneg_r; unfold B in *; lia).
  pose proof (floor_bounds (x * inject_Z (B * B))) as [F1 F2]. fold n in F1, F2.
  assert (L: (2 * s + 2 <= (n / 1000))%Z) by (apply Z.div_le_lower_bound; unfold B in *; lia).
  assert (Q1: inject_Z s * inject_Z s <= inject_Z n) by (rewrite <- inject_Z_mult; apply injZ_le; lia).
  assert (Q2: inject_Z n - inject_Z s * inject_Z s <= (1 # 1000) * inject_Z n - 1).
  { assert (Z1: inject_Z n <= inject_Z (s * s) + (inject_Z (n / 1000) - 1)).
    { change 1 with (inject_Z 1). unfold Qminus. rewrite <- inject_Z_opp, <- !inject_Z_plus. apply injZ_le. lia. }
    assert (Z2: 1000 * inject_Z (n / 1000) <= inject_Z n). { change 1000 with (inject_Z 1000). rewrite <- inject_Z_mult. apply injZ_le. apply Z.mul_div_le. lia. }
    rewrite inject_Z_mult in Z1. lra. }
  assert (E: inject_Z s / inject_Z B * (inject_Z s / inject_Z B) == inject_Z s * inject_Z s * / inject_Z (B * B)) by (rewrite BB; field; lra).
  assert (E2: x == x * inject_Z (B * B) * / inject_Z (B * B)) by (field; vm_compute; discriminate).
  split. { apply Qle_shift_div_l; [lra|]. rewrite Qmult_0_l. change 0 with (inject_Z 0). apply injZ_le. unfold B in *; lia. }
  rewrite E. set (i := / inject_Z (B * B)) in *. assert (I0: 0 <= i) by (vm_compute; discriminate).
  assert (M1: inject_Z s * inject_Z s * i <= x * inject_Z (B * B) * i) by (apply Qmult_le_compat_r; [lra|exact I0]).
  assert (M2: (x * inject_Z (B * B) - inject_Z s * inject_Z s) * i <= (1 # 1000) * (x * inject_Z (B * B)) * i).
  { apply Qmult_le_compat_r; [|exact I0]. lra. }
  clearbody i. apply Qabs_Qle_condition. split; lra.
Qed.

(* 100 trials of probability 1/2, and of probability 3/4 *)
Example C60_ex :
  let f := ieee_double in
  let run d ds := exec (bn_op f f RNE i32 (fun x => x) 9 (uniform_01 f RNE 9 u64 0 (2 ^ 64 - 1)) d) ds in
  fmt_ok f /\ fmt_wide f /\ sqrt_ok sq_ex /\ representable f (1 # 2) /\ representable f (3 # 4) /\
  exists d1 d2 b1 b2, bn_init f f RNE i32 (pw_cr f) sq_ex 100 (1 # 2) = Some d1 /\ bn_init f f RNE i32 (pw_cr f) sq_ex 100 (3 # 4) = Some d2 /\
    bn_u d1 = UBtrd b1 /\ bn_u d2 = UBtrd b2 /\ bn_m d1 = 50%Z /\
    map (run d1) [[0]; [2 ^ 62]; [2 ^ 63]; [2 ^ 63 + 2 ^ 62 + 2 ^ 60; 2 ^ 62]; [2 ^ 63 + 2 ^ 62 + 2 ^ 60; 2 ^ 63 - 2 ^ 60]]%Z
      = [ORet 41 []; ORet 50 []; ORet 57 []; ORet 46 []; ORet 49 []]%Z /\
    map (run d2) [[0]; [2 ^ 62]; [2 ^ 63 - 2 ^ 60]]%Z = [ORet 83 []; ORet 75 []; ORet 70 []]%Z /\
    300 * (qZ (100 + 1) / qZ (100 + 1 - Z.max (bn_m d1) 51) * p2 (1 - prec f)) <= 1 /\
    (forall i, (50 <= i <= 51)%Z -> p2 (emin f + prec f) * bpmf 100 (psmall (1 # 2)) 50 <= bpmf 100 (psmall (1 # 2)) (Z.to_nat i)) /\
    bn_accept_near f RNE i32 (b_r b1) (b_nr b1) 50 51 (97 # 100) = PRet true /\
    bn_accept_near f RNE i32 (b_r b1) (b_nr b1) 50 51 (99 # 100) = PRet false.
Proof.
  cbn zeta. assert (Hf: fmt_ok ieee_double) by (split; cbn; lia). assert (Hw: fmt_wide ieee_double) by (split; cbn; lia).
  split; [exact Hf|]. split; [exact Hw|]. split; [exact sq_ex_ok|].
  split; [exists 1%Z, (-1)%Z; split; [cbn; lia|split; [cbn; lia|reflexivity]]|].
  split; [exists 3%Z, (-2)%Z; split; [cbn; lia|split; [cbn; lia|reflexivity]]|].
  eexists. eexists. eexists. eexists.
  split; [vm_compute; reflexivity|]. split; [vm_compute; reflexivity|]. split; [reflexivity|]. split; [reflexivity|]. split; [reflexivity|].
  split; [vm_compute; reflexivity|]. split; [vm_compute; reflexivity|]. split; [vm_compute; discriminate|].
  split; [|split; vm_compute; reflexivity].
  intros i Hi. change (psmall (1 # 2)) with (1 # 2). pose proof (bpmf_nonneg (1 # 2) ltac:(lra) ltac:(lra) 100 50) as B0.
  assert (NU: p2 (emin ieee_double + prec ieee_double) <= 1 # 2) by (vm_compute; discriminate).
  assert (X: p2 (emin ieee_double + prec ieee_double) * bpmf 100 (1 # 2) 50 <= (1 # 2) * bpmf 100 (1 # 2) 50) by (apply Qmult_le_compat_r; assumption).
  assert (i = 50 \/ i = 51)%Z as [-> | ->] by lia.
  - change (Z.to_nat 50) with 50%nat. lra.
  - change (Z.to_nat 51) with 51%nat. pose proof (B_ratio ieee_double (1 # 2) 100 ltac:(lra) 50 ltac:(lia)) as R.
    set (A := bpmf 100 (1 # 2) 50) in *. set (C := bpmf 100 (1 # 2) 51) in *. clearbody A C.
    assert (D: 1 # 2 <= (1 # 2) / (1 - (1 # 2)) * (qn 101 - qn 51) / qn 51) by (vm_compute; discriminate).
    assert ((1 # 2) * A <= (1 # 2) / (1 - (1 # 2)) * (qn 101 - qn 51) / qn 51 * A) by (apply Qmult_le_compat_r; assumption). lra.
Qed.
