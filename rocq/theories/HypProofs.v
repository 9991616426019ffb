(* Lemmas for HypProps.v *)
From Coq Require Import Lqa.
From Verif Require Import Base ProgModel ProgSpec ProgProofs UIntModel UIntSpec FloatModel FloatSpec FloatProofs RealModel RealSpec RealProofs UniProofs
  DiscModel DiscProofs Disc2Proofs Disc4Proofs RDiscModel RDiscSpec RDiscProofs RDisc2Proofs RDisc3Proofs RDisc4Proofs RDisc5Proofs RDisc6Proofs HypModel.
Open Scope Q_scope.

Lemma rint_even : forall x z, Z.even z = true -> inject_Z z - (1 # 2) <= x -> x <= inject_Z z + (1 # 2) -> rint RNE x = z.
Proof.
  intros x z HE H1 H2. pose proof (floor_bounds x) as [F1 F2]. cbn [rint]. set (k := Qfloor x) in *.
  assert (A: (z - 1 <= k)%Z). { assert (z - 1 < k + 1)%Z; [|lia]. rewrite Zlt_Qlt, inject_Z_plus. unfold Z.sub. rewrite inject_Z_plus. change (inject_Z 1) with 1. change (inject_Z (- (1))) with (-1). lra. }
  assert (B: (k <= z)%Z). { assert (k < z + 1)%Z; [|lia]. rewrite Zlt_Qlt, inject_Z_plus. change (inject_Z 1) with 1. lra. }
  destruct (Z.eq_dec k z) as [E|E].
  - rewrite E in *. destruct (Qcompare (x - inject_Z z) (1 # 2)) eqn:C; [rewrite HE; reflexivity|reflexivity|]. apply Qgt_alt in C. exfalso. lra.
  - assert (K: k = (z - 1)%Z) by lia. rewrite K. rewrite K in *. unfold Z.sub in *. rewrite inject_Z_plus in *. change (inject_Z (-(1))) with (-1) in *.
    destruct (Qcompare (x - (inject_Z z + -1)) (1 # 2)) eqn:C; [|apply Qlt_alt in C; exfalso; lra|lia].
    replace (Z.even (z + - (1))) with false; [lia|]. change (- (1))%Z with (-1)%Z. rewrite Z.even_add, HE. reflexivity.
Qed.

Section N.
Variables (f : fmt) (md : rmode).
Hypothesis Hf : fmt_ok f.
Local Notation rnd := (fround f md).
Local Notation P := (prec f).

Lemma qlog2_unique : forall x k, p2 k <= x -> x < p2 (k + 1) -> qlog2 x = k.
Proof using.
  intros x k H1 H2. pose proof (p2_pos k) as P0. destruct (qlog2_spec x ltac:(lra)) as [A B].
  assert (k < qlog2 x + 1)%Z by (apply p2_lt_inv; lra). assert (qlog2 x < k + 1)%Z by (apply p2_lt_inv; lra). lia.
Qed.
Lemma fexp_in : forall x k, p2 k <= x -> x < p2 (k + 1) -> (emin f <= k - P + 1)%Z -> fexp f x = (k - P + 1)%Z.
Proof using.
  intros x k H1 H2 H3. pose proof (p2_pos k) as P0. pose proof (Qabs_pos x ltac:(lra)) as A. rewrite fexp_nz by lra. rewrite (qlog2_unique (Qabs x) k) by lra. lia.
Qed.

Lemma round_even : forall x k z, p2 k <= x -> x < p2 (k + 1) -> (emin f <= k - P + 1)%Z -> Z.even z = true ->
  Qabs (x - inject_Z z * p2 (k - P + 1)) <= p2 (k - P + 1) / 2 -> fround f RNE x == inject_Z z * p2 (k - P + 1).
Proof using.
  intros x k z H1 H2 H3 HE H. unfold fround. rewrite Qred_correct. rewrite (fexp_in x k H1 H2 H3). set (u := p2 (k - P + 1)) in *. assert (U: 0 < u) by apply p2_pos.
  apply abs_le_inv in H. destruct H as [L1 L2].
  assert (X: rint RNE (x / u) = z); [|rewrite X; reflexivity]. apply rint_even; [exact HE| |].
  - apply Qle_shift_div_l; [exact U|]. assert (X: (inject_Z z - (1 # 2)) * u == inject_Z z * u - u / 2) by field. rewrite X. lra.
  - apply Qle_shift_div_r; [exact U|]. assert (X: (inject_Z z + (1 # 2)) * u == inject_Z z * u + u / 2) by field. rewrite X. lra.
Qed.

(* Sterbenz *)
Lemma one_minus_exact : forall S, representable f S -> 1 # 2 <= S -> S <= 2 -> representable f (1 - S).
Proof using Hf.
  intros S (m & e & He & Hm & E) H1 H2. destruct Hf as [HP HE].
  assert (G: exists k, S == inject_Z k * p2 (- P)).
  { destruct (Z.le_gt_cases (- P) e) as [L|L].
    - exists (m * 2 ^ (e + P))%Z. rewrite E, inject_Z_mult, <- p2_Z by lia. replace e with ((e + P) + (- P))%Z at 1 by lia. rewrite p2_add. ring.
    - assert (M: inject_Z m <= p2 P). { rewrite p2_Z by lia. apply injZ_le. lia. }
      assert (U: S <= p2 P * p2 e). { rewrite E. apply Qmult_le_compat_r; [exact M|]. pose proof (p2_pos e). lra. }
      rewrite <- p2_add in U. assert (p2 (P + e) <= p2 (-1)) by (apply p2_le; lia). change (p2 (-1)) with (1 # 2) in *.
      exists (2 ^ (P - 1))%Z. rewrite <- p2_Z by lia. rewrite <- p2_add. replace (P - 1 + - P)%Z with (-1)%Z by lia. change (p2 (-1)) with (1 # 2). lra. }
  destruct G as [k G]. exists (2 ^ P - k)%Z, (- P)%Z. split; [lia|]. pose proof (p2_pos (- P)) as U.
  assert (ONE: p2 P * p2 (- P) == 1) by (rewrite <- p2_add; replace (P + - P)%Z with 0%Z by lia; reflexivity).
  split.
  - apply Z.abs_le. assert (X1: inject_Z k <= 2 * p2 P). { apply Qmult_le_r with (p2 (- P)); [exact U|]. rewrite <- G. rewrite <- Qmult_assoc, ONE. lra. }
    assert (X2: 0 <= inject_Z k). { apply Qmult_le_r with (p2 (- P)); [exact U|]. rewrite <- G. lra. }
    rewrite p2_Z in X1 by lia. change 2 with (inject_Z 2) in X1 at 1. rewrite <- inject_Z_mult, <- Zle_Qle in X1. change 0 with (inject_Z 0) in X2. rewrite <- Zle_Qle in X2. lia.
  - unfold Z.sub. rewrite inject_Z_plus, inject_Z_opp, <- p2_Z by lia. rewrite G. rewrite Qmult_plus_distr_l, ONE. ring.
Qed.

(* the last probability makes the sum 1 *)
Lemma sum_one : forall S, (2 <= P)%Z -> representable f S -> 0 <= S -> S <= 2 -> fround f RNE (S + fround f RNE (1 - S)) == 1.
Proof using Hf.
  intros S H2 RS S0 S2. pose proof Hf as [HP HE]. assert (R1: representable f 1) by (apply repr_1; exact Hf).
  destruct (Qlt_le_dec S (1 # 2)) as [L|L].
  - destruct (Qlt_le_dec 0 S) as [Z|Z].
    + pose proof (rnd_err_half f (1 - S)) as [E1 E2].
      assert (FE: fexp f (1 - S) = (-1 - P + 1)%Z) by (apply fexp_in; [change (p2 (-1)) with (1 # 2); lra|change (p2 (-1 + 1)) with 1; lra|lia]). rewrite FE in E1, E2.
      replace (-1 - P + 1)%Z with (- P)%Z in E1, E2 by lia. set (l := fround f RNE (1 - S)) in *. clearbody l. set (y := S + l). assert (YE: y == S + l) by reflexivity. clearbody y.
      assert (UH: p2 (- P) / 2 == (1 # 2) * p2 (- P)) by field. rewrite UH in E1, E2. pose proof (p2_pos (- P)) as U. assert (U4: p2 (- P) <= 1 # 4) by (change (1 # 4) with (p2 (-2)); apply p2_le; lia).
      destruct (Qlt_le_dec y 1) as [Y|Y].
      * rewrite (round_even y (-1) (2 ^ P)).
        -- replace (-1 - P + 1)%Z with (- P)%Z by lia. rewrite <- p2_Z by lia. rewrite <- p2_add. replace (P + - P)%Z with 0%Z by lia. reflexivity.
        -- change (p2 (-1)) with (1 # 2). lra.
        -- change (p2 (-1 + 1)) with 1. exact Y.
        -- lia.
        -- rewrite Z.even_pow by lia. reflexivity.
        -- replace (-1 - P + 1)%Z with (- P)%Z by lia. rewrite <- p2_Z by lia. rewrite <- p2_add. replace (P + - P)%Z with 0%Z by lia. change (p2 0) with 1. rewrite UH. apply abs_le; lra.
      * rewrite (round_even y 0 (2 ^ (P - 1))).
        -- replace (0 - P + 1)%Z with (1 - P)%Z by lia. rewrite <- p2_Z by lia. rewrite <- p2_add. replace (P - 1 + (1 - P))%Z with 0%Z by lia. reflexivity.
        -- change (p2 0) with 1. exact Y.
        -- change (p2 (0 + 1)) with 2. lra.
        -- lia.
        -- rewrite Z.even_pow by lia. reflexivity.
        -- replace (0 - P + 1)%Z with (1 - P)%Z by lia. rewrite <- p2_Z by lia. rewrite <- p2_add. replace (P - 1 + (1 - P))%Z with 0%Z by lia. change (p2 0) with 1.
           assert (UU: p2 (1 - P) == 2 * p2 (- P)) by (replace (1 - P)%Z with (1 + - P)%Z by lia; rewrite p2_add; reflexivity). assert (UV: p2 (1 - P) / 2 == p2 (- P)) by (rewrite UU; field). rewrite UV. apply abs_le; lra.
    + assert (S == 0) by lra. rewrite (rnd_compat f RNE Hf (S + fround f RNE (1 - S)) 1); [apply rnd_fix; assumption|].
      rewrite (rnd_compat f RNE Hf (1 - S) 1) by lra. rewrite rnd_fix by assumption. lra.
  - rewrite (rnd_compat f RNE Hf (S + fround f RNE (1 - S)) 1); [apply rnd_fix; assumption|].
    rewrite rnd_fix; [ring|exact Hf|]. apply one_minus_exact; assumption.
Qed.

Lemma hx_loop_eq : forall sum l x fs, ~ sum == 0 ->
  hx_loop f md sum fs (l ++ [x]) = Some (map (fun w => rnd (w / sum)) l ++ [rnd (1 - fold_left (fun s x => rnd (s + x)) (map (fun w => rnd (w / sum)) l) fs)]).
Proof using.
  intros sum l x fs H. revert fs. induction l as [|w l IH]; intro fs; [reflexivity|].
  cbn [app hx_loop]. destruct (l ++ [x]) as [|a r] eqn:E; [destruct l; discriminate|]. rewrite fdiv_ok by exact H. cbn [bind]. rewrite IH. cbn [bind]. reflexivity.
Qed.

Lemma fold_ge : forall l s, Forall (fun w => representable f w /\ 0 <= w) l -> representable f s -> 0 <= s ->
  s <= fold_left (fun s x => rnd (s + x)) l s /\ forall w, In w l -> w <= fold_left (fun s x => rnd (s + x)) l s.
Proof using Hf.
  induction l as [|x l IH]; intros s HF RS S0; [cbn; split; [lra|contradiction]|].
  pose proof (Forall_inv HF) as [RX X0]. apply Forall_inv_tail in HF. cbn [fold_left].
  assert (A: s <= rnd (s + x)) by (apply repr_rnd_ge; [exact Hf|exact RS|lra]). assert (B: x <= rnd (s + x)) by (apply repr_rnd_ge; [exact Hf|exact RX|lra]).
  destruct (IH (rnd (s + x)) HF ltac:(apply rnd_repr; exact Hf) ltac:(lra)) as [I1 I2]. split; [lra|].
  intros w [E|E]; [subst w; lra|apply I2; exact E].
Qed.

Lemma div_unit : forall w s, 0 <= w -> w <= s -> 0 < s -> 0 <= rnd (w / s) /\ rnd (w / s) <= 1.
Proof using Hf.
  intros w s W0 WS S0. split; [apply rnd_nonneg; apply Qle_shift_div_l; lra|]. apply repr_rnd_le; [exact Hf|apply repr_1; exact Hf|]. apply Qle_shift_div_r; lra.
Qed.
End N.

Lemma nth_first : forall A (d : A) l k j, (j < k)%nat -> nth j (firstn k l) d = nth j l d.
Proof. intros A d. induction l as [|x l IH]; intros [|k] [|j] H; try lia; try reflexivity. cbn [firstn nth]. apply IH. lia. Qed.

Section W.
Variables (f : fmt) (md : rmode) (t : ity).
Hypothesis Hf : fmt_ok f.
Variable ws : list Q.
Hypothesis Hok : rweights_ok f t ws.
Hypothesis Hsm : (qlen ws + 3) * p2 (1 - prec f) <= 1 # 8.
Local Notation rnd := (fround f md).
Local Notation n := (qlen ws).
Local Notation e := (p2 (1 - prec f)).
Local Notation pv := (pval f md ws).
Local Notation N1 := (length ws - 1)%nat.
Local Notation S := (cums f md 0 (map pv ws) N1).

Lemma ws_split : exists x, ws = firstn N1 ws ++ [x] /\ x = qweight ws (Z.of_nat N1).
Proof using Hok.
  destruct Hok as (_ & Hne & _). exists (last ws 0). split.
  - replace N1 with (Init.Nat.pred (length ws)) by lia. rewrite <- removelast_firstn_len. apply app_removelast_last. exact Hne.
  - unfold qweight. rewrite Nat2Z.id. clear. induction ws as [|a [|b l] IH]; [reflexivity|reflexivity|]. cbn [last length]. replace (Datatypes.S (Datatypes.S (length l)) - 1)%nat with (Datatypes.S (Datatypes.S (length l) - 1)) by lia. cbn [nth]. exact IH.
Qed.

Lemma hx_norm_eq : hx_normalize f md ws = Some (map pv (firstn N1 ws) ++ [rnd (1 - S)]).
Proof using Hf Hok Hsm.
  destruct ws_split as (x & E & _). destruct (total_near f md t Hf ws Hok Hsm) as (_ & A & _).
  assert (H: hx_normalize f md ws = hx_loop f md (racc f md ws) 0 ws). { unfold hx_normalize. destruct Hok as (_ & Hne & _). destruct ws; [congruence|reflexivity]. }
  rewrite H. rewrite E at 2. rewrite hx_loop_eq by lra. unfold cums. rewrite firstn_map. reflexivity.
Qed.

Lemma S_bounds : 0 <= S /\ S <= 2 /\ representable f S /\ Qabs (1 - S - qweight ws (Z.of_nat N1) / qtotal ws) <= (5 * n + 2) * e.
Proof using Hf Hok Hsm.
  destruct (cums_err f md t Hf ws Hok Hsm N1 ltac:(lia)) as (A & B & C). pose proof (n_ge1 f t ws Hok) as G. destruct (e_pos f Hf) as [E0 _].
  destruct (total_near f md t Hf ws Hok Hsm) as (T0 & _ & _). destruct ws_split as (x & E & EX).
  assert (T: qtotal ws == qtotal (firstn N1 ws) + x). { rewrite E at 1. clear. induction (firstn N1 ws) as [|a l IH]; cbn [app qtotal]; [lra|]. rewrite IH. ring. }
  assert (FR: qtotal (firstn N1 ws) / qtotal ws == 1 - x / qtotal ws) by (rewrite T at 2; field_simplify; [|lra|lra]; rewrite <- T; field; lra).
  assert (X0: 0 <= x). { destruct Hok as (_ & _ & _ & HF & _). rewrite E, Forall_app in HF. destruct HF as [_ HF]. apply Forall_inv in HF. apply HF. }
  assert (XT: 0 <= x / qtotal ws) by (apply Qle_shift_div_l; lra).
  rewrite FR in A. pose proof (abs_le_inv _ _ A) as [A1 A2]. split; [exact C|]. split; [lra|]. split; [exact B|]. rewrite <- EX. apply abs_le; lra.
Qed.

Lemma hx_ok : exists ps, hx_normalize f md ws = Some ps /\ length ps = length ws /\
  (forall i, (0 <= i < Z.of_nat (length ws))%Z -> Qabs (qweight ps i - qweight ws i / qtotal ws) <= (5 * n + 3) * e /\ qweight ps i <= 1) /\
  (forall i, (0 <= i < Z.of_nat (length ws) - 1)%Z -> 0 <= qweight ps i).
Proof using Hf Hok Hsm.
  exists (map pv (firstn N1 ws) ++ [rnd (1 - S)]). split; [exact hx_norm_eq|]. destruct S_bounds as (B1 & B2 & B3 & B4). pose proof (n_ge1 f t ws Hok) as G. destruct (e_pos f Hf) as [E0 E1].
  destruct (total_near f md t Hf ws Hok Hsm) as (T0 & A0 & _).
  assert (LN: (0 < length ws)%nat) by (destruct Hok as (_ & Hne & _); destruct ws; [congruence|cbn; lia]).
  assert (LF: length (firstn N1 ws) = N1) by (rewrite firstn_length; lia).
  assert (FG: forall w, In w ws -> w <= racc f md ws). { destruct Hok as (_ & _ & _ & HF & _). apply (fold_ge f md Hf ws 0 HF); [apply repr_0; exact Hf|lra]. }
  assert (HN: forall w, In w ws -> 0 <= w). { destruct Hok as (_ & _ & _ & HF & _). rewrite Forall_forall in HF. intros w Hw. apply HF, Hw. }
  assert (FST: forall i, (0 <= i < Z.of_nat (length ws) - 1)%Z -> qweight (map pv (firstn N1 ws) ++ [rnd (1 - S)]) i = pv (qweight ws i) /\ In (qweight ws i) ws).
  { intros i Hi. split; [|unfold qweight; apply nth_In; lia]. unfold qweight. rewrite app_nth1 by (rewrite map_length, LF; lia).
    rewrite (nth_indep _ 0 (pv 0)) by (rewrite map_length, LF; lia). rewrite map_nth. f_equal. apply nth_first. lia. }
  assert (NE: 0 <= n * e) by (apply Qmult_le_0_compat; lra).
  split; [rewrite app_length, map_length, LF; cbn; lia|]. split.
  - intros i Hi. destruct (Z.eq_dec i (Z.of_nat N1)) as [Q|Q].
    + subst i. assert (L: qweight (map pv (firstn N1 ws) ++ [rnd (1 - S)]) (Z.of_nat N1) = rnd (1 - S)).
      { unfold qweight. rewrite Nat2Z.id, app_nth2 by (rewrite map_length, LF; lia). rewrite map_length, LF, Nat.sub_diag. reflexivity. }
      rewrite L. split; [|apply repr_rnd_le; [exact Hf|apply repr_1; exact Hf|lra]].
      assert (RE: Qabs (rnd (1 - S) - (1 - S)) <= e).
      { destruct (Qlt_le_dec S 1) as [C|C].
        - pose proof (rnd_err f md (1 - S)) as [R1 R2]. pose proof (ulp_gen f (1 - S) ltac:(lra)) as U. pose proof (delta_le f Hf) as D.
          destruct (Qlt_le_dec S (1 # 2)) as [CC|CC].
          + destruct (Qlt_le_dec 0 S) as [Z|Z].
            * assert (FE: fexp f (1 - S) = (-1 - prec f + 1)%Z) by (apply (fexp_in f); [change (p2 (-1)) with (1 # 2); lra|change (p2 (-1 + 1)) with 1; lra|destruct Hf; lia]). rewrite FE in R1, R2.
              assert (p2 (-1 - prec f + 1) <= e) by (apply p2_le; lia). apply abs_le; lra.
            * assert (S == 0) by lra. assert (K: rnd (1 - S) == 1) by (rewrite (rnd_compat f md Hf (1 - S) 1) by lra; apply rnd_fix; [exact Hf|apply repr_1; exact Hf]). rewrite K. apply abs_le; lra.
          + rewrite rnd_fix; [apply abs_le; lra|exact Hf|apply one_minus_exact; try assumption; lra].
        - rewrite rnd_fix; [apply abs_le; lra|exact Hf|apply one_minus_exact; try assumption; lra]. }
      apply abs_le_inv in RE. apply abs_le_inv in B4. apply abs_le; lra.
    + destruct (FST i ltac:(lia)) as [L I]. rewrite L. destruct (pval_err f md t Hf ws Hok Hsm (qweight ws i) (HN _ I)) as [_ V]. split.
      * assert (QT: qweight ws i / qtotal ws <= 1).
        { apply Qle_shift_div_r; [exact T0|]. rewrite Qmult_1_l. assert (AA: forall l w, (forall w, In w l -> 0 <= w) -> In w l -> w <= qtotal l).
          { clear. induction l as [|a l IH]; intros w H W; [contradiction|]. cbn [qtotal]. pose proof (H a (or_introl eq_refl)). assert (0 <= qtotal l). { clear - H. assert (H': forall w, In w l -> 0 <= w) by (intros; apply H; right; assumption). clear H. induction l as [|b l IH]; cbn [qtotal]; [lra|]. pose proof (H' b (or_introl eq_refl)). specialize (IH (fun w Hw => H' w (or_intror Hw))). lra. }
            destruct W as [W|W]; [subst; lra|]. specialize (IH w (fun w Hw => H w (or_intror Hw)) W). lra. }
          apply AA; assumption. }
        assert (Q0: 0 <= qweight ws i / qtotal ws) by (apply Qle_shift_div_l; [exact T0|]; specialize (HN _ I); lra).
        assert (M: 2 * (n + 1) * e * (qweight ws i / qtotal ws) <= 2 * (n + 1) * e * 1). { rewrite (Qmult_comm _ (qweight ws i / qtotal ws)), (Qmult_comm _ 1). apply Qmult_le_compat_r; [exact QT|]. lra. }
        lra.
      * apply (div_unit f md Hf _ _ (HN _ I) (FG _ I) A0).
  - intros i Hi. destruct (FST i Hi) as [L I]. rewrite L. apply (div_unit f md Hf _ _ (HN _ I) (FG _ I) A0).
Qed.
End W.
