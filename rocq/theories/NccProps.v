(* C77: the non-central chi squared distribution. *)
From Coq Require Import Lqa Reals Lra Qreals Rpower.
From Verif Require Import Base ProgModel ProgSpec ProgProofs UIntSpec FloatModel FloatSpec FloatProofs RealModel RealProofs UniProofs Disc4Proofs BinModel BinSpec PoisRSpec Pois3Proofs Pois3Props IfpModel IfpSpec InvModel InvSpec Inv1Proofs InvProps ZigModel ZigSpec Zig6Proofs Zig7Proofs GamModel GamSpec GamProps Gam2Props SphSpec SphProofs Sph2Proofs Sph5Proofs NccModel NccSpec NccProofs.
Ltac Zify.zify_post_hook ::= idtac.
Open Scope R_scope.
Ltac ql := Lqa.lra.

(* Both branches of operator() sample the distribution with this moment generating
   function: a Poisson(lambda/2) mixture of chi squared laws with k + 2p degrees of
   freedom ... *)
Theorem C77_mixture : forall k lambda t, t < 1 / 2 ->
  infinite_sum (fun p => ppmf (lambda / 2) p * chi_mgf (k + 2 * INR p) t) (ncc_mgf k lambda t).
Proof.
  intros k lam t T. unfold ncc_mgf. replace (lam * t / (1 - 2 * t)) with (lam / 2 * (/ (1 - 2 * t) - 1)) by (field; lra).
  rewrite Rmult_comm. pose proof (mix_sum (lam / 2) (/ (1 - 2 * t)) (Rpower (1 - 2 * t) (- (k / 2)))) as H.
  intros ep He. destruct (H ep He) as [N HN]. exists N. intros n Hn. rewrite (sum_eq _ (fun p => ppmf (lam / 2) p * (Rpower (1 - 2 * t) (- (k / 2)) * (/ (1 - 2 * t)) ^ p))); [apply HN, Hn|].
  intros i _. rewrite mgf_step by exact T. reflexivity.
Qed.
Print Assumptions C77_mixture.
(* ... and the sum of the square of a shifted normal variate and a chi squared
   variate with k - 1 degrees of freedom: exp(t (z+a)^2) times the normal density is
   a multiple of another normal density, and the factors multiply to the function. *)
Theorem C77_shift : forall k lambda t, 0 <= lambda -> t < 1 / 2 ->
  (forall z, exp (t * ((z + sqrt lambda) * (z + sqrt lambda))) * gauss 0 1 z =
    ncc_mgf 1 lambda t * gauss (2 * t * sqrt lambda / (1 - 2 * t)) (Rpower (1 - 2 * t) (- (1 / 2))) z) /\
  ncc_mgf 1 lambda t * chi_mgf (k - 1) t = ncc_mgf k lambda t.
Proof.
  intros k lam t L T. split.
  - intro z. pose proof (square_gauss (sqrt lam) t z T) as H. rewrite sqrt_sqrt in H by exact L. exact H.
  - unfold ncc_mgf, chi_mgf. rewrite Rmult_assoc, <- Rpower_plus. f_equal. f_equal. field.
Qed.
Print Assumptions C77_shift.
Example C77_ex_law : (1 / 4 < 1 / 2)%R /\ ncc_mgf 2 0 (1 / 4) = 2.
Proof.
  split; [lra|]. unfold ncc_mgf. replace (0 * (1 / 4) / (1 - 2 * (1 / 4))) with 0 by field. rewrite exp_0, Rmult_1_l. replace (- (2 / 2)) with (- (1)) by field.
  rewrite Rpower_Ropp, Rpower_1 by lra. field.
Qed.

Section S.
Variables (f : fmt) (md : rmode).
Hypothesis Hf : fmt_ok f.
Hypothesis Hd : fmt_deep f.
Lemma deep7 : (7 <= prec f)%Z /\ (emin f + 2 * prec f <= -1)%Z.
Proof. destruct Hd. lia. Qed.
Lemma chi_ctor : forall n, representable f n -> (p2 (emin f + prec f) <= n)%Q -> nc_chi f md n = Some n.
Proof. intros n RN NL. destruct deep7 as [P7 _]. destruct (C71_chi f md n Hf P7 RN NL) as (_ & _ & C & _). unfold nc_chi. rewrite C. reflexivity. Qed.
Lemma deg_ok : forall k p, representable f k -> (0 < k)%Q -> (k <= 1)%Q -> (0 <= p < 2 ^ 31)%Z ->
  let n := nc_deg f md k p in representable f n /\ (k <= n)%Q /\ (n <= p2 33)%Q /\ Rabs (Q2R n - (Q2R k + 2 * IZR p)) <= 4 * eps f * (Q2R k + 2 * IZR p) + tiny f.
Proof.
  intros k p RK K0 K1 HP n. destruct Hd as [D20 DE]. set (a := fround f md (inject_Z p)). set (b := fround f md (2 * a)).
  assert (P0: (0 <= inject_Z p)%Q) by (rewrite <- (Zle_Qle 0); lia). assert (P1: (inject_Z p <= p2 31)%Q) by (rewrite p2_Z by lia; rewrite <- Zle_Qle; lia).
  assert (A0: (0 <= a)%Q) by (apply rnd_nonneg; exact P0). assert (A1: (a <= p2 31)%Q) by (apply repr_rnd_le; [exact Hf|apply repr_p2; [exact Hf|lia]|exact P1]).
  assert (T: (p2 32 == 2 * p2 31)%Q) by reflexivity. assert (T': (p2 33 == 2 * p2 32)%Q) by reflexivity. assert (T1: (1 <= p2 32)%Q) by (vm_compute; discriminate).
  assert (B0: (0 <= b)%Q) by (apply rnd_nonneg; ql). assert (B1: (b <= p2 32)%Q) by (apply repr_rnd_le; [exact Hf|apply repr_p2; [exact Hf|lia]|ql]).
  split; [apply rnd_repr; exact Hf|]. split; [apply repr_rnd_ge; [exact Hf|exact RK|unfold nc_deg; fold a; fold b; ql]|].
  split; [apply repr_rnd_le; [exact Hf|apply repr_p2; [exact Hf|lia]|fold a; fold b; ql]|].
  (* integers are not small, so the conversion and the product have relative errors *)
  assert (BA: forall q, (q == 0)%Q \/ (1 <= q)%Q -> big f q). { intros q [Z|Q]; [left; exact Z|right]. apply Qle_trans with 1%Q; [apply Qle_trans with (p2 0); [apply p2_le; lia|discriminate]|rewrite Qabs_pos by ql; exact Q]. }
  assert (PA: (inject_Z p == 0)%Q \/ (1 <= inject_Z p)%Q). { destruct (Z.eq_dec p 0) as [->|Z]; [left; reflexivity|right; rewrite <- (Zle_Qle 1); lia]. }
  assert (AA: (a == 0)%Q \/ (1 <= a)%Q).
  { destruct PA as [Z|Q]; [left|right; apply repr_rnd_ge; [exact Hf|apply repr_1; exact Hf|exact Q]]. unfold a. rewrite (rnd_compat f md Hf _ _ Z). apply rnd_fix; [exact Hf|apply repr_0; exact Hf]. }
  assert (A2: (2 * a == 0)%Q \/ (1 <= 2 * a)%Q) by (destruct AA as [Z|Z]; [left|right]; ql).
  pose proof (rnd_rel f md Hf _ (BA _ PA)) as R1. pose proof (rnd_rel f md Hf _ (BA _ A2)) as R2. fold a in R1. fold b in R2. pose proof (rt f md (k + b)) as R3.
  change (fround f md (k + b)) with n in R3. rewrite Q2R_mult in R2. rewrite Q2R_plus in R3. replace (Q2R 2) with 2 in R2 by (unfold Q2R; cbn; field).
  replace (Q2R (inject_Z p)) with (IZR p) in R1 by (unfold Q2R; cbn; field). apply Qlt_Rlt in K0. apply Qle_Rle in A0, B0. rewrite RMicromega.Q2R_0 in *. assert (PR: 0 <= IZR p) by (apply (IZR_le 0); lia).
  set (A := Q2R a) in *. set (B := Q2R b) in *. set (KK := Q2R k) in *. set (PP := IZR p) in *. set (V := Q2R n) in *. clearbody A B KK PP V. clear - R1 R2 R3 K0 A0 B0 PR Hd.
  rewrite (Rabs_pos_eq PP) in R1 by exact PR. rewrite (Rabs_pos_eq (2 * A)) in R2 by lra. rewrite (Rabs_pos_eq (KK + B)) in R3 by lra.
  pose proof (e_pos' f) as E0. pose proof (e_small f Hd) as E1. apply Rb' in R1. apply Rb' in R2. apply Rb' in R3. set (e := eps f) in *. clearbody e.
  assert (EP: 0 <= e * PP) by (apply Rmult_le_pos; lra). assert (EK: 0 <= e * KK) by (apply Rmult_le_pos; lra).
  assert (L1: e * A <= e * (PP + e * PP)) by (apply Rmult_le_compat_l; lra). assert (EEP: e * (e * PP) <= 1 / 16 * (e * PP)) by (apply Rmult_le_compat_r; lra).
  replace (e * (2 * A)) with (2 * (e * A)) in R2 by ring. replace (e * (PP + e * PP)) with (e * PP + e * (e * PP)) in L1 by ring.
  assert (L2: B <= 2 * PP + 5 * (e * PP)) by lra. assert (L3: e * (KK + B) <= e * (KK + (2 * PP + 5 * (e * PP)))) by (apply Rmult_le_compat_l; lra).
  replace (e * (KK + (2 * PP + 5 * (e * PP)))) with (e * KK + 2 * (e * PP) + 5 * (e * (e * PP))) in L3 by ring.
  replace (4 * e * (KK + 2 * PP)) with (4 * (e * KK) + 8 * (e * PP)) by ring. apply Rb. lra.
Qed.
End S.

(* k > 1: one normal variate z and one chi squared variate x with k - 1 (rounded)
   degrees of freedom, in this order; the result is (z + sqrt(lambda))^2 + x up to
   rounding and at least 0. *)
Theorem C77_sum : forall f g md tn sq ex lg pw K k lambda normal poisson bmin bmax F u01 ez ds, fmt_ok f -> fmt_deep f -> 0 <= K -> K * eps f <= 1 / 16 ->
  sqrt_all f K sq -> exp_all f K ex -> log_ok f K lg -> pow_any f K pw ->
  representable f k -> representable f lambda -> (1 < k)%Q -> (k <= p2 (- (emin f + 2 * prec f)))%Q -> (0 < lambda)%Q ->
  source bmin bmax F normal (representable f) ->
  source bmin bmax F u01 (fun u => 0 <= u /\ u < 1 /\ representable f u)%Q -> source bmin bmax F ez (fun y => 0 <= y /\ representable f y)%Q ->
  valid_draws bmin bmax ds -> (length ds < F)%nat ->
  let chi n := ch_op f md (gm_op f md tn sq ex lg pw F u01 ez (ch_alpha f md n) 1) in
  let op := nc_op f g md sq normal chi poisson k lambda in
  exec op ds = OMore \/
  exists n z x v r rest, exec op ds = ORet v rest /\ exec normal ds = ORet z r /\ exec (chi n) r = ORet x rest /\
    (0 <= x)%Q /\ (0 <= v)%Q /\ representable f v /\ representable f n /\ Rabs (Q2R n - (Q2R k - 1)) <= eps f * (Q2R k - 1) /\
    Rabs (Q2R v - ((Q2R z + sqrt (Q2R lambda)) * (Q2R z + sqrt (Q2R lambda)) + Q2R x)) <=
      (21 + 3 * K) * eps f * ((1 + Rabs (Q2R z) + sqrt (Q2R lambda)) * (1 + Rabs (Q2R z) + sqrt (Q2R lambda)) + Q2R x).
Proof.
  intros f g md tn sq ex lg pw K k lam normal poisson bmin bmax F u01 ez ds Hf Hd HK HKe HS HE HL HP RK RL K1 KB L0 HN HU HZ Hv HF chi op.
  destruct (deep7 f Hd) as [P7 P2]. destruct (sub_ok f md Hf Hd k RK K1) as (NL & NK & NE). set (n := fround f md (k - 1)) in *.
  assert (RN: representable f n) by (apply rnd_repr; exact Hf). assert (NL': (p2 (emin f + prec f) <= n)%Q). { eapply Qle_trans; [|exact NL]. apply p2_le. destruct Hd. lia. }
  unfold op, nc_op. assert (QK: qlt 1 k = true) by (apply qlt_iff; exact K1). rewrite QK. unfold nc_sum. fold n. rewrite (chi_ctor f md Hf Hd n RN NL'). cbn [plift pbind]. rewrite exec_bind_eq.
  destruct (HN ds Hv HF) as [E|(z & r & E & LR & RZ)]; rewrite E; [left; reflexivity|]. destruct (exec_suffix _ _ _ _ _ bmin bmax E Hv) as [Hv' _]. rewrite exec_bind_eq.
  pose proof (ch_src f md tn sq ex lg pw K n bmin bmax F u01 ez Hf P7 P2 HK HKe HS HE HL HP RN NL' ltac:(eapply Qle_trans; [exact NK|exact KB]) HU HZ r Hv' ltac:(lia)) as HC. fold (chi n) in HC.
  destruct HC as [EC|(x & rest & EC & LC & X0 & RX & _)]; rewrite EC; [left; reflexivity|]. right.
  unfold fsqrt. destruct (qlt lam 0) eqn:Q; [apply qlt_iff in Q; exfalso; ql|]. cbn [plift pbind exec]. cbv zeta. exists n, z, x. eexists. exists r, rest.
  split; [reflexivity|]. split; [reflexivity|]. split; [exact EC|]. split; [exact X0|].
  set (t := fround f md (z + sq lam)).
  assert (T0: (0 <= t * t)%Q). { unfold Qle, Qmult; cbn. rewrite Z.mul_1_r. apply Z.square_nonneg. }
  pose proof (rnd_nonneg f md _ T0) as W0. split; [apply rnd_nonneg; ql|]. split; [apply rnd_repr; exact Hf|]. split; [exact RN|]. split; [exact NE|].
  apply (sum_ok f md Hd K z (Q2R lam) (sq lam) x HK HKe); [apply Qle_Rle in X0; rewrite RMicromega.Q2R_0 in X0; exact X0|apply HS; [ql|exact RL]].
Qed.
Print Assumptions C77_sum.
(* normal_distribution() over an engine is such a program *)
Theorem C77_engine : forall f md ex K tb bmin bmax F, fmt_ok f -> fmt_wide f -> (20 <= prec f)%Z -> 0 <= K -> exp_ok f K ex ->
  eng_wf tb bmin bmax -> (32 <= bits tb <= 64)%Z -> (bmax - bmin <= imax tb)%Z -> no_full_last (prec f) (digit_bits bmin bmax) 8 ->
  source bmin bmax F (nz_op f md ex (int_float_pair f md F 8 tb bmin bmax) (uniform_01 f md F tb bmin bmax) F 0 1) (representable f).
Proof.
  intros f md ex K tb bmin bmax F Hf Hw Pf HK HE He HB HR HN ds Hv HF. unfold nz_op. rewrite exec_bind_eq.
  destruct (unit_run f md ex K Hf Hw Pf HK HE bmin bmax F _ _ (pair_src f md F tb bmin bmax Hf Hw Pf He HB HN) (u01_src f md F tb bmin bmax Hf He HR) F ds (le_n F) Hv HF) as [E|(u & rest & E & L & _)]; rewrite E; [left; reflexivity|].
  right. eexists. exists rest. split; [reflexivity|]. split; [exact L|apply rnd_repr; exact Hf].
Qed.
Print Assumptions C77_engine.

(* k <= 1: a Poisson variate p with mean lambda / 2, then one chi squared variate
   with k + 2p (rounded) degrees of freedom, which is the result. *)
Theorem C77_mix : forall f g md tn sq ex lg pw K k lambda normal poisson bmin bmax F u01 ez ds, fmt_ok f -> fmt_deep f -> fmt_ok g -> 0 <= K -> K * eps f <= 1 / 16 ->
  sqrt_all f K sq -> exp_all f K ex -> log_ok f K lg -> pow_any f K pw ->
  representable f k -> representable f lambda -> (p2 (emin f + prec f) <= k)%Q -> (k <= 1)%Q ->
  (p2 (emin f + prec f) <= lambda)%Q -> representable g (lambda / 2) ->
  (forall m, (0 < m)%Q -> zsource bmin bmax F (poisson m) 0 (2 ^ 31 - 1)) ->
  source bmin bmax F u01 (fun u => 0 <= u /\ u < 1 /\ representable f u)%Q -> source bmin bmax F ez (fun y => 0 <= y /\ representable f y)%Q ->
  valid_draws bmin bmax ds -> (length ds < F)%nat ->
  let chi n := ch_op f md (gm_op f md tn sq ex lg pw F u01 ez (ch_alpha f md n) 1) in
  let op := nc_op f g md sq normal chi poisson k lambda in
  exec op ds = OMore \/
  exists m p n v r rest, exec op ds = ORet v rest /\ (m == lambda / 2)%Q /\ exec (poisson m) ds = ORet p r /\ exec (chi n) r = ORet v rest /\
    (0 <= v)%Q /\ representable f v /\ representable f n /\ (0 < n)%Q /\
    Rabs (Q2R n - (Q2R k + 2 * IZR p)) <= 4 * eps f * (Q2R k + 2 * IZR p) + tiny f.
Proof.
  intros f g md tn sq ex lg pw K k lam normal poisson bmin bmax F u01 ez ds Hf Hd Hg HK HKe HS HE HL HP RK RL KL K1 LL RG HPo HU HZ Hv HF chi op.
  destruct (deep7 f Hd) as [P7 P2]. pose proof (p2_pos (emin f + prec f)) as PP.
  unfold op, nc_op. destruct (qlt 1 k) eqn:Q; [apply qlt_iff in Q; exfalso; ql|]. unfold nc_mix, nc_mean. cbv zeta. set (m := fround g md (fround f md (lam / 2))).
  assert (EM: (m == lam / 2)%Q).
  { destruct (C71_chi f md lam Hf P7 RL LL) as (_ & EA & _). unfold ch_alpha in EA. unfold m. rewrite (rnd_compat g md Hg _ _ EA). apply rnd_fix; assumption. }
  assert (M0: (0 < m)%Q) by (rewrite EM; apply Qlt_shift_div_l; ql).
  assert (QM: qlt 0 m = true) by (apply qlt_iff; exact M0). rewrite QM. cbn [plift pbind]. rewrite exec_bind_eq.
  destruct (HPo m M0 ds Hv HF) as [E|(p & r & E & LR & HR)]; rewrite E; [left; reflexivity|]. destruct (exec_suffix _ _ _ _ _ bmin bmax E Hv) as [Hv' _].
  destruct (deg_ok f md Hf Hd k p RK ltac:(ql) K1 ltac:(lia)) as (RN & NK & NB & NE). set (n := nc_deg f md k p) in *.
  assert (NL: (p2 (emin f + prec f) <= n)%Q) by (eapply Qle_trans; [exact KL|exact NK]). rewrite (chi_ctor f md Hf Hd n RN NL). cbn [plift pbind].
  assert (NB': (n <= p2 (- (emin f + 2 * prec f)))%Q). { eapply Qle_trans; [exact NB|apply p2_le; destruct Hd; lia]. }
  pose proof (ch_src f md tn sq ex lg pw K n bmin bmax F u01 ez Hf P7 P2 HK HKe HS HE HL HP RN NL NB' HU HZ r Hv' ltac:(lia)) as HC. fold (chi n) in HC.
  destruct HC as [EC|(x & rest & EC & LC & X0 & RX & _)]; [left; rewrite EC; reflexivity|right]. exists m, p, n, x, r, rest.
  split; [rewrite EC; reflexivity|]. split; [exact EM|]. split; [exact E|]. split; [exact EC|]. split; [exact X0|]. split; [exact RX|]. split; [exact RN|]. split; [ql|exact NE].
Qed.
Print Assumptions C77_mix.

(* The documentation requires k > 0 and lambda > 0 only.  The least positive lambda
   with k <= 1 gives the mean 0, against the assertion of poisson_distribution; the
   least positive k with a Poisson variate 0 gives chi_squared_distribution(k), whose
   gamma parameter is 0, against the assertion of gamma_distribution. *)
Theorem C77_refuted : forall md' sq normal chi poisson ds r, md' = RNE -> (forall m, exec (poisson m) ds = ORet 0%Z r) ->
  let f := ieee_double in let least := p2 (emin f) in
  nc_ctor 1 least = true /\ exec (nc_op f f md' sq normal chi poisson 1 least) ds = OUB /\
  nc_ctor least 1 = true /\ exec (nc_op f f md' sq normal chi poisson least 1) ds = OUB.
Proof.
  intros md' sq normal chi poisson ds r -> HPo f least. split; [vm_compute; reflexivity|]. split; [vm_compute; reflexivity|]. split; [vm_compute; reflexivity|].
  unfold nc_op. replace (qlt 1 least) with false by (vm_compute; reflexivity). unfold nc_mix. destruct (nc_mean f f RNE 1) as [m|] eqn:E; [|vm_compute in E; discriminate].
  cbn [plift pbind]. rewrite exec_bind_eq, HPo. replace (nc_chi f RNE (nc_deg f RNE least 0)) with (@None Q) by (vm_compute; reflexivity). reflexivity.
Qed.
Print Assumptions C77_refuted.
(* the two branches on double, with programs that return the next number drawn *)
Definition C77_draw (s : Q) : prog Q := PDraw (fun z => PRet (inject_Z z * s)%Q).
Example C77_ex_run : let op k l := nc_op ieee_double ieee_double RNE zsqrt (C77_draw (1 # 4)) C77_draw (fun m => PDraw (fun z => PRet z)) k l in
  match exec (op 4 9)%Q [6; 5; 1]%Z with ORet v [1]%Z => (v == ((3 # 2) + 3) * ((3 # 2) + 3) + 15)%Q | _ => False end /\
  match exec (op 1 9)%Q [6; 5; 1]%Z with ORet v [1]%Z => (v == 5 * (1 + 2 * 6))%Q | _ => False end.
Proof. vm_compute. split; reflexivity. Qed.
Example C77_ex : fmt_deep ieee_double /\ representable ieee_double (5 # 2) /\ (5 # 2 <= p2 (- (emin ieee_double + 2 * prec ieee_double)))%Q /\
  zsource 0 9 5 (PDraw (fun z => PRet z)) 0 (2 ^ 31 - 1).
Proof.
  split; [split; vm_compute; discriminate|]. split; [exists 5%Z, (-1)%Z; repeat split; vm_compute; discriminate|]. split; [vm_compute; discriminate|].
  intros [|d ds] Hv HF; [left; reflexivity|right]. exists d, ds. split; [reflexivity|]. split; [cbn; lia|]. inversion Hv; subst. cbn; lia.
Qed.
