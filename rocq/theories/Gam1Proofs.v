(* The hat functions of the gamma distribution, in the real numbers. *)
From Coq Require Import Reals Lra Rpower.
From Verif Require Import Base GamSpec.
Open Scope R_scope.

Section H.
Variables (A s : R).
Hypothesis HA : 0 < A.
Hypothesis HS : s * s = 2 * A + 1.
Hypothesis S0 : 0 < s.
Let g (y : R) : R := ln (1 + y * y) + A * ln (A + s * y) - s * y.
Let g' (y : R) : R := / (1 + y * y) * (0 + (1 * y + y * 1)) + A * (/ (A + s * y) * (0 + s * 1)) - s * 1.
Lemma g_deriv : forall y, 0 < A + s * y -> derivable_pt_lim g y (g' y).
Proof.
  intros y H. unfold g, g'. apply derivable_pt_lim_minus; [apply derivable_pt_lim_plus|].
  - apply (derivable_pt_lim_comp (fun y => 1 + y * y) ln).
    + apply derivable_pt_lim_plus; [apply derivable_pt_lim_const|]. apply (derivable_pt_lim_mult id id); apply derivable_pt_lim_id.
    + apply derivable_pt_lim_ln. pose proof (Rle_0_sqr y) as Q. unfold Rsqr in Q. lra.
  - apply derivable_pt_lim_scal. apply (derivable_pt_lim_comp (fun y => A + s * y) ln).
    + apply derivable_pt_lim_plus; [apply derivable_pt_lim_const|]. apply derivable_pt_lim_scal. apply derivable_pt_lim_id.
    + apply derivable_pt_lim_ln. exact H.
  - apply derivable_pt_lim_scal. apply derivable_pt_lim_id.
Qed.
Lemma g'_eq : forall y, 0 < A + s * y -> g' y = - (y * ((1 - s * y) * (1 - s * y) * / ((1 + y * y) * (A + s * y)))).
Proof.
  intros y H. unfold g'. pose proof (Rle_0_sqr y) as Q. unfold Rsqr in Q.
  assert (E: / (1 + y * y) * (0 + (1 * y + y * 1)) + A * (/ (A + s * y) * (0 + s * 1)) - s * 1 =
    y * (2 * A + 2 * (s * y) - s * s * (1 + y * y)) * / ((1 + y * y) * (A + s * y))) by (field; lra).
  rewrite E. rewrite HS at 1. replace (2 * A + 2 * (s * y) - (2 * A + 1) * (1 + y * y)) with (- ((1 - s * y) * (1 - s * y)) + (s * s - (2 * A + 1)) * (y * y)) by ring.
  rewrite HS. ring.
Qed.
Lemma hat_log : forall y, 0 < A + s * y -> ln (1 + y * y) + A * ln ((A + s * y) / A) - s * y <= 0.
Proof.
  intros y H. assert (G: g y <= g 0).
  { destruct (Rtotal_order 0 y) as [P|[P|P]].
    - destruct (MVT_cor2 g g' 0 y P) as (c & E & C).
      { intros c C. apply g_deriv. pose proof (Rmult_le_pos s c). lra. }
      assert (AC: 0 < A + s * c) by (pose proof (Rmult_le_pos s c); lra). rewrite (g'_eq c AC) in E.
      pose proof (Rle_0_sqr c) as Q. pose proof (Rle_0_sqr (1 - s * c)) as Q2. unfold Rsqr in Q, Q2. assert (I: 0 < / ((1 + c * c) * (A + s * c))) by (apply Rinv_0_lt_compat, Rmult_lt_0_compat; lra).
      pose proof (Rmult_le_pos _ _ Q2 (Rlt_le _ _ I)) as M. pose proof (Rmult_le_pos c _ ltac:(lra) M) as M2. pose proof (Rmult_le_pos _ (y - 0) M2 ltac:(lra)). lra.
    - rewrite P. lra.
    - destruct (MVT_cor2 g g' y 0 P) as (c & E & C).
      { intros c C. apply g_deriv. pose proof (Rmult_le_compat_l s y c ltac:(lra) ltac:(lra)). lra. }
      assert (AC: 0 < A + s * c) by (pose proof (Rmult_le_compat_l s y c ltac:(lra) ltac:(lra)); lra). rewrite (g'_eq c AC) in E.
      pose proof (Rle_0_sqr c) as Q. pose proof (Rle_0_sqr (1 - s * c)) as Q2. unfold Rsqr in Q, Q2. assert (I: 0 < / ((1 + c * c) * (A + s * c))) by (apply Rinv_0_lt_compat, Rmult_lt_0_compat; lra).
      pose proof (Rmult_le_pos _ _ Q2 (Rlt_le _ _ I)) as M. pose proof (Rmult_le_pos (- c) _ ltac:(lra) M) as M2. pose proof (Rmult_le_pos _ (0 - y) M2 ltac:(lra)). lra. }
  unfold g in G. replace (1 + 0 * 0) with 1 in G by ring. rewrite ln_1, Rmult_0_r, Rplus_0_r in G. unfold Rdiv. rewrite ln_mult by (try apply Rinv_0_lt_compat; assumption). rewrite ln_Rinv by exact HA. lra.
Qed.
End H.

(* the logarithm of density over density at alpha-1 *)
Lemma gd_ratio : forall A x, 0 < A -> 0 < x -> gdens (A + 1) x / gdens (A + 1) A = exp (A * ln (x / A) - (x - A)).
Proof.
  intros A x HA HX. unfold gdens. replace (A + 1 - 1) with A by ring. unfold Rpower, Rdiv. rewrite Rinv_mult_distr by (apply Rgt_not_eq, exp_pos).
  rewrite <- !exp_Ropp. rewrite ln_mult by (try apply Rinv_0_lt_compat; assumption). rewrite ln_Rinv by exact HA. rewrite <- !exp_plus. f_equal. ring.
Qed.
