(* Stirling's series with three terms, error at most 10^-10 from 10 on. *)
From Coq Require Import Reals Lra Lia ZArith QArith Qreals.
From Verif Require Import RExpProofs.
Open Scope R_scope.

Lemma ln_div : forall x y, 0 < x -> 0 < y -> ln (x / y) = ln x - ln y.
Proof. intros x y X Y. unfold Rdiv. rewrite ln_mult; [|exact X|apply Rinv_0_lt_compat; exact Y]. rewrite ln_Rinv by exact Y. ring. Qed.

(* a function with a derivative that is not negative on [0,b] *)
Lemma inc_0 : forall (h h' : R -> R) b, (forall y, 0 <= y <= b -> derivable_pt_lim h y (h' y)) -> (forall y, 0 <= y <= b -> 0 <= h' y) ->
  h 0 = 0 -> forall y, 0 <= y <= b -> 0 <= h y.
Proof.
  intros h h' b D P Z y [Y0 Y1]. destruct (Req_dec y 0) as [->|N]; [lra|].
  destruct (MVT_cor2 h h' 0 y) as (c & Hc & C1 & C2); [lra|intros c Hc; apply D; lra|]. rewrite Z, !Rminus_0_r in Hc. rewrite Hc.
  apply Rmult_le_pos; [apply P; lra|lra].
Qed.

Definition art (a : R) (y : R) : R := 2 * (y + y ^ 3 / 3 + y ^ 5 / 5 + y ^ 7 / 7 + a * y ^ 9).
Definition art' (a : R) (y : R) : R := 2 * (1 + y ^ 2 + y ^ 4 + y ^ 6 + a * (9 * y ^ 8)).
Lemma art_lim : forall a y, derivable_pt_lim (art a) y (art' a y).
Proof.
  intros a y. unfold art, art'. 
  assert (P: forall n c, derivable_pt_lim (fun y => c * y ^ n) y (c * (INR n * y ^ pred n))).
  { intros n c. apply (derivable_pt_lim_scal (fun y => y ^ n) c y). apply derivable_pt_lim_pow. }
  pose proof (derivable_pt_lim_plus _ _ _ _ _ (derivable_pt_lim_plus _ _ _ _ _ (derivable_pt_lim_plus _ _ _ _ _ (derivable_pt_lim_plus _ _ _ _ _ (P 1%nat 2) (P 3%nat (2 / 3))) (P 5%nat (2 / 5))) (P 7%nat (2 / 7))) (P 9%nat (2 * a))) as D.
  assert (E: 2 * (1 + y ^ 2 + y ^ 4 + y ^ 6 + a * (9 * y ^ 8)) =
    2 * (INR 1 * y ^ pred 1) + 2 / 3 * (INR 3 * y ^ pred 3) + 2 / 5 * (INR 5 * y ^ pred 5) + 2 / 7 * (INR 7 * y ^ pred 7) + 2 * a * (INR 9 * y ^ pred 9)).
  { cbn [pred]. rewrite !INR_IZR_INZ. cbn [Z.of_nat Pos.of_succ_nat Pos.succ]. field. }
  rewrite E. revert D. unfold derivable_pt_lim, plus_fct. intros D eps He. destruct (D eps He) as [dl Hd]. exists dl. intros h H0 H1. specialize (Hd h H0 H1).
  match type of Hd with Rabs (?A / h - ?B) < _ => match goal with |- Rabs (?C / h - ?B') < _ => replace C with A; [exact Hd|field] end end.
Qed.
Lemma lnq_lim : forall y, 0 <= y < 1 -> derivable_pt_lim (fun y => ln (1 + y) - ln (1 - y)) y (/ (1 + y) + / (1 - y)).
Proof.
  intros y Hy.
  pose proof (derivable_pt_lim_plus (fct_cte 1) id y 0 1 (derivable_pt_lim_const 1 y) (derivable_pt_lim_id y)) as A.
  pose proof (derivable_pt_lim_minus (fct_cte 1) id y 0 1 (derivable_pt_lim_const 1 y) (derivable_pt_lim_id y)) as B.
  pose proof (derivable_pt_lim_comp _ _ _ _ _ A (derivable_pt_lim_ln (1 + y) ltac:(lra))) as C1.
  pose proof (derivable_pt_lim_comp _ _ _ _ _ B (derivable_pt_lim_ln (1 - y) ltac:(lra))) as C2.
  pose proof (derivable_pt_lim_minus _ _ _ _ _ C1 C2) as D.
  replace (/ (1 + y) + / (1 - y)) with (/ (1 + y) * (0 + 1) - / (1 - y) * (0 - 1)) by ring. exact D.
Qed.
Lemma lnq_eq : forall y, 0 <= y < 1 -> / (1 + y) + / (1 - y) = 2 / (1 - y ^ 2).
Proof. intros y Hy. field. split; [|split]; try lra. assert (0 <= y * y < 1) by nra. cbn. lra. Qed.

Lemma lnq_bounds : forall y, 0 <= y <= 1 / 21 -> art 0 y <= ln (1 + y) - ln (1 - y) /\ ln (1 + y) - ln (1 - y) <= art (1 / 8) y.
Proof.
  intros y Hy.
  assert (Q: forall z, 0 <= z <= 1 / 21 -> 0 <= z ^ 2 <= 1 / 441) by (intros z Hz; cbn; nra).
  assert (Q8: forall z, 0 <= z ^ 8). { intro z. replace (z ^ 8) with ((z ^ 4) * (z ^ 4)) by ring. nra. }
  assert (F: forall z, 0 <= z <= 1 / 21 -> 2 / (1 - z ^ 2) - art' 0 z = 2 * z ^ 8 / (1 - z ^ 2)).
  { intros z Hz. specialize (Q z Hz). unfold art'. field. lra. }
  split.
  - assert (0 <= ln (1 + y) - ln (1 - y) - art 0 y); [|lra].
    apply inc_0 with (h := fun y => (ln (1 + y) - ln (1 - y)) - art 0 y) (h' := fun z => (/ (1 + z) + / (1 - z)) - art' 0 z) (b := 1 / 21); [| | |exact Hy].
    + intros z Hz. apply (derivable_pt_lim_minus (fun y => ln (1 + y) - ln (1 - y)) (art 0)); [apply lnq_lim; lra|apply art_lim].
    + intros z Hz. rewrite lnq_eq, F by lra. specialize (Q z Hz). specialize (Q8 z). apply Rmult_le_pos; [lra|]. apply Rlt_le, Rinv_0_lt_compat. lra.
    + unfold art. rewrite Rplus_0_r, Rminus_0_r, ln_1. field.
  - assert (0 <= art (1 / 8) y - (ln (1 + y) - ln (1 - y))); [|lra].
    apply inc_0 with (h := fun y => art (1 / 8) y - (ln (1 + y) - ln (1 - y))) (h' := fun z => art' (1 / 8) z - (/ (1 + z) + / (1 - z))) (b := 1 / 21); [| | |exact Hy].
    + intros z Hz. apply (derivable_pt_lim_minus (art (1 / 8)) (fun y => ln (1 + y) - ln (1 - y))); [apply art_lim|apply lnq_lim; lra].
    + intros z Hz. rewrite lnq_eq by lra. specialize (F z Hz). specialize (Q z Hz). specialize (Q8 z).
      assert (art' (1 / 8) z = art' 0 z + 9 / 4 * z ^ 8) by (unfold art'; field).
      assert (2 * z ^ 8 / (1 - z ^ 2) <= 9 / 4 * z ^ 8); [|lra].
      apply Rmult_le_reg_r with (1 - z ^ 2); [lra|]. unfold Rdiv at 1. rewrite Rmult_assoc, Rinv_l by lra.
      assert (0 <= z ^ 8 * (1 / 4 - 9 / 4 * z ^ 2)) by (apply Rmult_le_pos; lra). lra.
    + unfold art. rewrite Rplus_0_r, Rminus_0_r, ln_1. field.
Qed.

(* the series *)
Definition st (x : R) : R := 1 / (12 * x) - 1 / (360 * x ^ 3) + 1 / (1260 * x ^ 5).
Definition lnfact (k : nat) : R := ln (INR (fact k)).
(* difference to Stirling's series without the constant *)
Definition sD (k : nat) : R := lnfact k - ((INR k + 1 / 2) * ln (INR k) - INR k + st (INR k)).

Lemma lnfact_S : forall k, lnfact (S k) = lnfact k + ln (INR (S k)).
Proof.
  intro k. unfold lnfact. rewrite fact_simpl, mult_INR, ln_mult; [ring|apply INR_S_pos|apply lt_0_INR, lt_O_fact].
Qed.

(* the factorial in Z *)
Fixpoint zfact (n : nat) : Z := match n with O => 1%Z | S k => (Z.of_nat n * zfact k)%Z end.
Lemma zfact_eq : forall n, INR (fact n) = IZR (zfact n).
Proof. induction n as [|n IH]; [reflexivity|]. rewrite fact_simpl, mult_INR, IH. cbn [zfact]. rewrite mult_IZR, INR_IZR_INZ. reflexivity. Qed.

Lemma pos_poly : forall t n, 0 <= t -> 0 <= t ^ n.
Proof. intros. apply pow_le. assumption. Qed.

Section K.
Variable t : R.
Hypothesis T0 : 0 <= t.
Let k := 10 + t.
Let y := 1 / (2 * k + 1).
Let hi := - (y ^ 2 / 3 + y ^ 4 / 5 + y ^ 6 / 7) + (st k - st (k + 1)).
Lemma lo_eq : hi - y ^ 8 / 8 = (43202319709122 * t ^ 0 + 41147420114682 * t ^ 1 + 17635501578267 * t ^ 2 + 4479055271649 * t ^ 3 + 746537374386 * t ^ 4 + 85321232766 * t ^ 5 + 6771695988 * t ^ 6 + 368534586 * t ^ 7 + 13162114 * t ^ 8 + 278565 * t ^ 9 + 2653 * t ^ 10) / (2520 * (2 * k + 1) ^ 8 * k ^ 5 * (k + 1) ^ 5).
Proof. unfold hi, y, st, k. field. repeat split; lra. Qed.
Lemma hi_eq : 1 / 1000 * (1 / k ^ 7 - 1 / (k + 1) ^ 7) - hi = (18147608714617533 * t ^ 0 + 20592547746209397 * t ^ 1 + 10716308373350475 * t ^ 2 + 3381929757373671 * t ^ 3 + 720876256513350 * t ^ 4 + 109338129552834 * t ^ 5 + 12100143926456 * t ^ 6 + 984465217722 * t ^ 7 + 58441907047 * t ^ 8 + 2468740785 * t ^ 9 + 70440391 * t ^ 10 + 1218924 * t ^ 11 + 9674 * t ^ 12) / (63000 * (2 * k + 1) ^ 6 * k ^ 7 * (k + 1) ^ 7).
Proof. unfold hi, y, st, k. field. repeat split; lra. Qed.
Lemma k_pos : 0 < k /\ 0 < k + 1 /\ 0 < 2 * k + 1.
Proof. unfold k. lra. Qed.
Ltac poly := repeat (apply Rplus_le_le_0_compat); (apply Rmult_le_pos; [lra|apply pow_le; exact T0]).
Lemma lo_pos : 0 <= hi - y ^ 8 / 8.
Proof.
  rewrite lo_eq. pose proof k_pos as (A & B & C). apply Rmult_le_pos; [poly|].
  apply Rlt_le, Rinv_0_lt_compat. repeat apply Rmult_lt_0_compat; try lra; apply pow_lt; assumption.
Qed.
Lemma hi_le : hi <= 1 / 1000 * (1 / k ^ 7 - 1 / (k + 1) ^ 7).
Proof.
  assert (0 <= 1 / 1000 * (1 / k ^ 7 - 1 / (k + 1) ^ 7) - hi); [|lra].
  rewrite hi_eq. pose proof k_pos as (A & B & C). apply Rmult_le_pos; [poly|].
  apply Rlt_le, Rinv_0_lt_compat. repeat apply Rmult_lt_0_compat; try lra; apply pow_lt; assumption.
Qed.
Lemma step_ok : let d := 1 - (k + 1 / 2) * (ln (k + 1) - ln k) - (st (k + 1) - st k) in
  0 <= d /\ d <= 1 / 1000 * (1 / k ^ 7 - 1 / (k + 1) ^ 7).
Proof.
  intro d. pose proof k_pos as (A & B & C). pose proof lo_pos as LO. pose proof hi_le as HI.
  assert (Y0: 0 < y) by (unfold y; apply Rmult_lt_0_compat; [lra|apply Rinv_0_lt_compat; exact C]).
  assert (Y1: y <= 1 / 21). { unfold y, Rdiv. apply Rmult_le_compat_l; [lra|]. apply Rinv_le_contravar; unfold k; lra. }
  assert (E: ln (k + 1) - ln k = ln (1 + y) - ln (1 - y)).
  { replace (1 + y) with (2 * (k + 1) / (2 * k + 1)) by (unfold y; field; lra). replace (1 - y) with (2 * k / (2 * k + 1)) by (unfold y; field; lra).
    rewrite !ln_div, !ln_mult by lra. ring. }
  destruct (lnq_bounds y ltac:(lra)) as [L1 L2]. rewrite <- E in L1, L2. set (L := ln (k + 1) - ln k) in *.
  assert (KY: k + 1 / 2 = / (2 * y)) by (unfold y; field; lra).
  assert (F: forall a, (k + 1 / 2) * art a y = 1 + y ^ 2 / 3 + y ^ 4 / 5 + y ^ 6 / 7 + a * y ^ 8).
  { intro a. rewrite KY. unfold art. field. lra. }
  assert (M1: (k + 1 / 2) * art 0 y <= (k + 1 / 2) * L) by (apply Rmult_le_compat_l; lra).
  assert (M2: (k + 1 / 2) * L <= (k + 1 / 2) * art (1 / 8) y) by (apply Rmult_le_compat_l; lra).
  rewrite F in M1, M2. unfold hi in LO, HI. unfold d. split; lra.
Qed.
End K.

Lemma sD_step : forall n, (10 <= n)%nat -> 0 <= sD (S n) - sD n /\ sD (S n) - sD n <= 1 / 1000 * (1 / INR n ^ 7 - 1 / INR (S n) ^ 7).
Proof.
  intros n Hn. assert (T: 0 <= INR n - 10). { apply le_INR in Hn. rewrite (INR_IZR_INZ 10) in Hn. cbn in Hn. lra. }
  pose proof (step_ok (INR n - 10) T) as S. cbv zeta in S. replace (10 + (INR n - 10)) with (INR n) in S by ring.
  assert (E: sD (Datatypes.S n) - sD n = 1 - (INR n + 1 / 2) * (ln (INR n + 1) - ln (INR n)) - (st (INR n + 1) - st (INR n))).
  { unfold sD. rewrite lnfact_S, S_INR. field. }
  rewrite E, S_INR. exact S.
Qed.
Lemma sD_tele : forall j, 0 <= sD (10 + j) - sD 10 /\ sD (10 + j) - sD 10 <= 1 / 1000 * (1 / INR 10 ^ 7 - 1 / INR (10 + j) ^ 7).
Proof.
  induction j as [|j [I1 I2]]; [rewrite Nat.add_0_r; lra|]. replace (10 + S j)%nat with (S (10 + j)) by lia.
  destruct (sD_step (10 + j) ltac:(lia)) as [A B]. lra.
Qed.

Definition c2pi : Q := (91893853320467267 # 100000000000000000)%Q.
Lemma sD_10 : - (6 / 10 ^ 11) <= sD 10 - Q2R c2pi /\ sD 10 - Q2R c2pi <= - (5 / 10 ^ 11).
Proof.
  assert (A: ln_chk (2 ^ 100) 30 4 3628800 1196694854022124490675895906063 1196694854022124490675898005264 = true) by (vm_compute; reflexivity).
  assert (B: ln_chk (2 ^ 100) 30 4 10 182429585950654714090128889006 182429585950654714090130988207 = true) by (vm_compute; reflexivity).
  apply ln_chk_ok in A, B. 
  assert (E1: Q2R 3628800 = INR (fact 10)) by (rewrite zfact_eq; replace (zfact 10) with 3628800%Z by reflexivity; unfold Q2R; cbn; field).
  assert (E2: Q2R 10 = INR 10) by (rewrite INR_IZR_INZ; unfold Q2R; cbn; field).
  rewrite E1 in A. rewrite E2 in B. fold (lnfact 10) in A. unfold sD. replace (INR 10 + 1 / 2) with (21 / 2) by (rewrite INR_IZR_INZ; cbn; field).
  assert (S: st (INR 10) = 1 / 120 - 1 / 360000 + 1 / 126000000) by (rewrite INR_IZR_INZ; unfold st; cbn; field). rewrite S.
  assert (C: Q2R c2pi = 91893853320467267 / 100000000000000000) by reflexivity. rewrite C.
  set (l := ln (INR 10)) in *. set (m := lnfact 10) in *. rewrite INR_IZR_INZ. cbn [Z.of_nat Pos.of_succ_nat Pos.succ].
  cbn [pow] in A, B. rewrite !Rmult_1_r in A, B. lra.
Qed.

Theorem stirling : forall k, (10 <= k)%nat ->
  Rabs (lnfact k - ((INR k + 1 / 2) * ln (INR k) - INR k + Q2R c2pi + st (INR k))) <= 1 / 10 ^ 10.
Proof.
  intros k Hk. destruct (sD_tele (k - 10)) as [A B]. replace (10 + (k - 10))%nat with k in A, B by lia. destruct sD_10 as [C D].
  assert (P: 0 < 1 / INR k ^ 7). { apply Rmult_lt_0_compat; [lra|]. apply Rinv_0_lt_compat. apply pow_lt. apply lt_0_INR. lia. }
  assert (E: 1 / INR 10 ^ 7 = 1 / 10 ^ 7) by (rewrite INR_IZR_INZ; reflexivity). rewrite E in B.
  clear Hk. set (x := sD 10) in *. unfold sD in A, B. set (z := 1 / INR k ^ 7) in *. clearbody x z. apply Rabs_le. split; lra.
Qed.
