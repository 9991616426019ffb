(* Lemmas about the non-central chi squared distribution. *)
From Coq Require Import Lqa Reals Lra Qreals Rpower.
From Verif Require Import Base FloatModel FloatSpec FloatProofs RealModel UniProofs PoisRSpec Pois3Proofs InvModel InvSpec Inv1Proofs GamModel SphSpec SphProofs Sph2Proofs NccModel NccSpec.
Ltac Zify.zify_post_hook ::= idtac.
Open Scope R_scope.
Ltac ql := Lqa.lra.

(* ---- the law ---- *)

Lemma mgf_step : forall k t p, t < 1 / 2 -> chi_mgf (k + 2 * INR p) t = Rpower (1 - 2 * t) (- (k / 2)) * (/ (1 - 2 * t)) ^ p.
Proof.
  intros k t p T. unfold chi_mgf. replace (- ((k + 2 * INR p) / 2)) with (- (k / 2) + - INR p) by field. rewrite Rpower_plus. f_equal.
  rewrite Rpower_Ropp, Rpower_pow by lra. rewrite pow_inv. reflexivity.
Qed.
Lemma mix_sum : forall m q c, infinite_sum (fun p => ppmf m p * (c * q ^ p)) (c * exp (m * (q - 1))).
Proof.
  intros m q c. unfold exp at 1. replace (m * (q - 1)) with (- m + m * q) by ring.
  pose proof (proj2_sig (exist_exp (m * q))) as H. fold (exp (m * q)) in H. 
  assert (G: infinite_sum (fun i => / INR (fact i) * (m * q) ^ i) (exp (m * q))) by exact H. clear H.
  assert (E: exist_exp (- m + m * q) = exist_exp (- m + m * q)) by reflexivity. clear E.
  fold (exp (- m + m * q)). rewrite exp_plus. set (C := exp (- m)) in *.
  intros ep He. destruct (Req_dec (c * C) 0) as [Z|Z].
  - exists 0%nat. intros n _. replace (c * (C * exp (m * q))) with 0 by (rewrite <- Rmult_assoc, Z; ring).
    replace (sum_f_R0 (fun p => ppmf m p * (c * q ^ p)) n) with 0; [unfold R_dist; rewrite Rminus_0_r, Rabs_R0; exact He|].
    symmetry. rewrite (sum_eq _ (fun _ => 0)); [rewrite sum_cte; ring|]. intros i _. unfold ppmf. fold C. unfold Rdiv. replace (C * m ^ i * / INR (fact i) * (c * q ^ i)) with ((c * C) * (m ^ i * / INR (fact i) * q ^ i)) by ring. rewrite Z. ring.
  - assert (A: 0 < Rabs (c * C)) by (apply Rabs_pos_lt; exact Z). destruct (G (ep / Rabs (c * C))) as [N HN]; [apply Rdiv_lt_0_compat; assumption|].
    exists N. intros n Hn. specialize (HN n Hn). unfold R_dist in *.
    replace (sum_f_R0 (fun p => ppmf m p * (c * q ^ p)) n) with ((c * C) * sum_f_R0 (fun i => / INR (fact i) * (m * q) ^ i) n).
    + replace (c * C * sum_f_R0 (fun i => / INR (fact i) * (m * q) ^ i) n - c * (C * exp (m * q))) with ((c * C) * (sum_f_R0 (fun i => / INR (fact i) * (m * q) ^ i) n - exp (m * q))) by ring.
      rewrite Rabs_mult. replace ep with (Rabs (c * C) * (ep / Rabs (c * C))) by (field; lra). apply Rmult_lt_compat_l; assumption.
    + rewrite scal_sum. apply sum_eq. intros i _. unfold ppmf. fold C. rewrite Rpow_mult_distr. unfold Rdiv. ring.
Qed.
Lemma square_gauss : forall a t z, t < 1 / 2 ->
  exp (t * ((z + a) * (z + a))) * gauss 0 1 z =
  ncc_mgf 1 (a * a) t * gauss (2 * t * a / (1 - 2 * t)) (Rpower (1 - 2 * t) (- (1 / 2))) z.
Proof.
  intros a t z T. unfold gauss, ncc_mgf. assert (W: 0 < 1 - 2 * t) by lra. set (w := 1 - 2 * t) in *.
  assert (P: Rpower w (- (1 / 2)) * Rpower w (- (1 / 2)) = / w).
  { rewrite <- Rpower_plus. replace (- (1 / 2) + - (1 / 2)) with (- (1)) by field. rewrite Rpower_Ropp, Rpower_1 by exact W. reflexivity. }
  assert (R0: 0 < Rpower w (- (1 / 2))) by apply exp_pos. set (r := Rpower w (- (1 / 2))) in *.
  assert (S: 0 < sqrt (2 * PI)) by (apply sqrt_lt_R0; pose proof PI_RGT_0; lra). set (s := sqrt (2 * PI)) in *.
  rewrite P. unfold Rdiv. rewrite <- (Rmult_assoc (exp (t * _))), <- exp_plus.
  replace (exp (a * a * t * / w) * r * (exp (- ((z - 2 * t * a * / w) * (z - 2 * t * a * / w) * / (2 * / w))) * / (r * s)))
    with (exp (a * a * t * / w) * exp (- ((z - 2 * t * a * / w) * (z - 2 * t * a * / w) * / (2 * / w))) * / s) by (field; lra).
  rewrite <- exp_plus, !Rmult_1_l. f_equal. f_equal. replace t with ((1 - w) / 2) by (unfold w; field). field. lra.
Qed.

(* ---- the arithmetic ---- *)
Section A.
Variables (f : fmt) (md : rmode).
Hypothesis Hf : fmt_ok f.
Hypothesis Hd : fmt_deep f.
Local Notation rnd := (fround f md).
Local Notation e := (eps f).

Lemma tiny_e : tiny f <= e.
Proof. destruct Hd. apply Qle_Rle, p2_le. lia. Qed.
Lemma Rb : forall x y, - y <= x <= y -> Rabs x <= y.
Proof. intros. apply Rabs_le. assumption. Qed.
Lemma Rb' : forall x y, Rabs x <= y -> - y <= x <= y.
Proof. intros x y H. pose proof (Rle_abs x). pose proof (Rle_abs (- x)). rewrite Rabs_Ropp in *. lra. Qed.
Lemma sq_diff : forall t T d M, Rabs (t - T) <= d -> Rabs T <= M -> 0 <= M -> d <= M -> Rabs (t * t - T * T) <= 3 * (d * M) /\ t * t <= 4 * (M * M).
Proof.
  intros t T d M H1 H2 H3 H4. assert (D0: 0 <= d) by (eapply Rle_trans; [apply Rabs_pos|exact H1]).
  assert (S: Rabs (t + T) <= 3 * M). { apply Rb. apply Rb' in H1. apply Rb' in H2. lra. }
  split.
  - replace (t * t - T * T) with ((t - T) * (t + T)) by ring. rewrite Rabs_mult. replace (3 * (d * M)) with (d * (3 * M)) by ring. apply Rmult_le_compat; try apply Rabs_pos; assumption.
  - assert (A: Rabs t <= 2 * M). { apply Rb. apply Rb' in H1. apply Rb' in H2. lra. }
    replace (t * t) with (Rabs t * Rabs t) by (unfold Rabs; destruct (Rcase_abs t); ring). replace (4 * (M * M)) with ((2 * M) * (2 * M)) by ring. apply Rmult_le_compat; try apply Rabs_pos; assumption.
Qed.
Lemma sum_ok : forall K z lam s x, 0 <= K -> K * e <= 1 / 16 -> 0 <= Q2R x -> Rabs (Q2R s - sqrt lam) <= K * e * sqrt lam ->
  let t := rnd (z + s) in let v := rnd (rnd (t * t) + x) in
  Rabs (Q2R v - ((Q2R z + sqrt lam) * (Q2R z + sqrt lam) + Q2R x)) <= (21 + 3 * K) * e * ((1 + Rabs (Q2R z) + sqrt lam) * (1 + Rabs (Q2R z) + sqrt lam) + Q2R x).
Proof.
  intros K z lam s x HK HKe X0 HS t v. pose proof tiny_e as TE. pose proof (e_pos' f) as E0. pose proof (e_small f Hd) as E1. pose proof (tiny_pos f) as T0.
  pose proof (sqrt_pos lam) as S0. set (S := sqrt lam) in *. clearbody S. pose proof (Rabs_pos (Q2R z)) as Z0.
  set (M := 1 + Rabs (Q2R z) + S). assert (M1: 1 <= M) by (unfold M; lra). set (X := Q2R x) in *.
  assert (KE0: 0 <= K * e) by (apply Rmult_le_pos; lra).
  assert (KS: 0 <= K * e * S) by (apply Rmult_le_pos; lra). assert (KS1: K * e * S <= S) by (rewrite <- (Rmult_1_l S) at 2; apply Rmult_le_compat_r; lra).
  apply Rb' in HS.
  assert (B1: Rabs (Q2R t - (Q2R z + S)) <= (2 + K) * e * M).
  { pose proof (rt f md (z + s)) as R1. fold t in R1. rewrite Q2R_plus in R1.
    assert (Ra: Rabs (Q2R z + Q2R s) <= Rabs (Q2R z) + 2 * S). { eapply Rle_trans; [apply Rabs_triang|]. apply Rplus_le_compat_l. apply Rb. lra. }
    assert (R2: e * Rabs (Q2R z + Q2R s) <= e * (Rabs (Q2R z) + 2 * S)) by (apply Rmult_le_compat_l; lra).
    replace ((2 + K) * e * M) with (e * (Rabs (Q2R z) + 2 * S) + e * (2 + Rabs (Q2R z)) + (K * e * S + K * e * (1 + Rabs (Q2R z)))) by (unfold M; ring).
    assert (0 <= e * (1 + Rabs (Q2R z))) by (apply Rmult_le_pos; lra). assert (0 <= K * e * (1 + Rabs (Q2R z))) by (apply Rmult_le_pos; lra).
    replace (e * (2 + Rabs (Q2R z))) with (e + e * (1 + Rabs (Q2R z))) by ring. apply Rb' in R1. apply Rb. lra. }
  assert (D1: (2 + K) * e * M <= M). { rewrite <- (Rmult_1_l M) at 2. apply Rmult_le_compat_r; lra. }
  assert (TM: Rabs (Q2R z + S) <= M). { eapply Rle_trans; [apply Rabs_triang|]. rewrite (Rabs_pos_eq S) by exact S0. unfold M. lra. }
  destruct (sq_diff _ _ _ _ B1 TM ltac:(lra) D1) as [B2 B3]. set (T := Q2R z + S) in *. clearbody T M.
  set (tt := Q2R t * Q2R t) in *. assert (TT0: 0 <= tt) by (unfold tt; apply Rle_0_sqr). assert (MM: 1 <= M * M) by (rewrite <- (Rmult_1_l 1); apply Rmult_le_compat; lra).
  pose proof (rt f md (t * t)) as R3. rewrite Q2R_mult in R3. fold tt in R3. rewrite (Rabs_pos_eq tt) in R3 by exact TT0.
  pose proof (rt f md (rnd (t * t) + x)) as R4. fold v in R4. rewrite Q2R_plus in R4. fold X in R4. set (w := Q2R (rnd (t * t))) in *. clearbody w X tt.
  replace (3 * ((2 + K) * e * M * M)) with (6 * (e * (M * M)) + 3 * (K * (e * (M * M)))) in B2 by ring.
  set (N := M * M) in *. clearbody N. set (V := Q2R v) in *. clearbody V.
  assert (ET: e * tt <= e * (4 * N)) by (apply Rmult_le_compat_l; lra). assert (EN: e <= e * N) by (rewrite <- (Rmult_1_r e) at 1; apply Rmult_le_compat_l; lra).
  assert (R3': Rabs (w - tt) <= 5 * (e * N)) by lra. assert (EN1: e * N <= 1 / 16 * N) by (apply Rmult_le_compat_r; lra).
  apply Rb' in R3'. assert (WA: Rabs (w + X) <= 9 * N + X) by (apply Rb; lra).
  assert (EW: e * Rabs (w + X) <= e * (9 * N + X)) by (apply Rmult_le_compat_l; lra).
  apply Rb' in R4. apply Rb' in B2.
  assert (0 <= e * X) by (apply Rmult_le_pos; lra). assert (0 <= K * (e * X)) by (apply Rmult_le_pos; lra).
  replace ((21 + 3 * K) * e * (N + X)) with (21 * (e * N) + 3 * (K * (e * N)) + 21 * (e * X) + 3 * (K * (e * X))) by ring.
  replace (e * (9 * N + X)) with (9 * (e * N) + e * X) in EW by ring. apply Rb. lra.
Qed.

(* the two numbers of degrees of freedom *)
Lemma sub_ok : forall k, representable f k -> (1 < k)%Q -> (p2 (- prec f) <= rnd (k - 1))%Q /\ (rnd (k - 1) <= k)%Q /\ Rabs (Q2R (rnd (k - 1)) - (Q2R k - 1)) <= e * (Q2R k - 1).
Proof.
  intros k RK K1. destruct Hd as [D20 DE]. assert (B: (p2 (- prec f) <= k - 1)%Q).
  { destruct (diff_big f Hd k RK ltac:(ql)) as [Z|B]; [exfalso; ql|]. rewrite Qabs_pos in B by ql. exact B. }
  split; [apply repr_rnd_ge; [exact Hf|apply repr_p2; [exact Hf|lia]|exact B]|]. split; [apply repr_rnd_le; [exact Hf|exact RK|ql]|].
  assert (BG: big f (k - 1)). { right. rewrite Qabs_pos by ql. eapply Qle_trans; [|exact B]. apply p2_le. lia. }
  pose proof (rnd_rel f md Hf _ BG) as R. rewrite Q2R_minus in R. replace (Q2R 1) with 1 in R by (unfold Q2R; cbn; field).
  apply Qlt_Rlt in K1. replace (Q2R 1) with 1 in K1 by (unfold Q2R; cbn; field). rewrite (Rabs_pos_eq (Q2R k - 1)) in R by lra. exact R.
Qed.
End A.
