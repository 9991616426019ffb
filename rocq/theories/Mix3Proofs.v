(* mixmax: apply_bigskip computes A^(2^512 id) e_0 *)
From Verif Require Import Base MixSpec MixSkipModel MixModel MixProofs Mix2Proofs WinProofs.
From Coq Require Import Setoid Morphisms Znumtheory.
Ltac Zify.zify_post_hook ::= idtac.

(* u + c v *)
Fixpoint axpy (c : Z) (u v : list Z) : list Z :=
  match u, v with a :: u', b :: v' => a + c * b :: axpy c u' v' | _, _ => [] end.

Lemma axpy_length : forall c u v, length u = length v -> length (axpy c u v) = length u.
Proof. induction u as [|a u IH]; intros [|b v] H; try discriminate; [reflexivity|]. cbn [axpy length]. f_equal. apply IH. cbn in H. lia. Qed.
Lemma axpy_red : forall c d u u' v v', cg c d -> red u = red u' -> red v = red v' -> red (axpy c u v) = red (axpy d u' v').
Proof.
  intros c d u. induction u as [|a u IH]; intros [|a' u'] v v' C Hu Hv; try discriminate; [reflexivity|].
  destruct v as [|b v], v' as [|b' v']; try discriminate; [reflexivity|].
  apply red_cons_inv in Hu, Hv. destruct Hu as [U1 U2], Hv as [V1 V2]. cbn [axpy].
  apply red_cons; [rewrite U1, V1, C; reflexivity|]. apply IH; assumption.
Qed.
Lemma dot_axpy : forall c u v f, length u = length v -> dot f (axpy c u v) = dot f u + c * dot f v.
Proof.
  intros c u. induction u as [|a u IH]; intros [|b v] f H; try discriminate; [cbn; ring|].
  cbn [axpy dot]. rewrite IH by (cbn in H; lia). ring.
Qed.
Lemma apply_axpy : forall s c u v, length u = length v ->
  red (mm_apply s (axpy c u v)) = red (axpy c (mm_apply s u) (mm_apply s v)).
Proof.
  intros s c u v H. rewrite apply_is_red. unfold mm_apply. rewrite axpy_length, <- H by exact H.
  generalize (seq 0 (length u)). induction l as [|i l IH]; [reflexivity|]. cbn [map axpy]. unfold red. cbn [map]. f_equal; [|exact IH].
  apply cg_mod. rewrite dot_axpy by exact H. rewrite !cg_mod_l. reflexivity.
Qed.

(* sum of the q_j A^j v, added to u *)
Fixpoint pact (s : Z) (q u v : list Z) : list Z :=
  match q with [] => u | c :: q' => pact s q' (axpy c u v) (mm_apply s v) end.

Lemma pact_length : forall s q u v, length u = length v -> length (pact s q u v) = length v.
Proof.
  induction q as [|c q IH]; intros u v H; [exact H|]. cbn [pact]. rewrite IH.
  - apply apply_length.
  - rewrite apply_length, axpy_length by exact H. exact H.
Qed.
Lemma pact_red : forall s q u u' v v', length u = length v -> red u = red u' -> red v = red v' -> red (pact s q u v) = red (pact s q u' v').
Proof.
  induction q as [|c q IH]; intros u u' v v' HL Hu Hv; [exact Hu|]. cbn [pact]. apply IH.
  - rewrite axpy_length, apply_length by exact HL. exact HL.
  - apply axpy_red; [reflexivity|exact Hu|exact Hv].
  - rewrite (apply_red s v v' Hv). reflexivity.
Qed.
Lemma pact_apply : forall s q u v, length u = length v ->
  red (mm_apply s (pact s q u v)) = red (pact s q (mm_apply s u) (mm_apply s v)).
Proof.
  induction q as [|c q IH]; intros u v H; [reflexivity|]. cbn [pact].
  assert (HL: length (axpy c u v) = length (mm_apply s v)) by (rewrite axpy_length, apply_length by exact H; exact H).
  rewrite IH by exact HL. apply pact_red.
  - rewrite !apply_length. rewrite axpy_length by exact H. exact H.
  - apply apply_axpy, H.
  - reflexivity.
Qed.
Lemma axpy4 : forall k c d u w v, length u = length v -> length w = length v ->
  axpy (c + k * d) (axpy k u w) v = axpy k (axpy c u v) (axpy d w v).
Proof.
  intros k c d u. induction u as [|a u IH]; intros [|b w] [|x v] H1 H2; try discriminate; [reflexivity|].
  cbn [axpy]. f_equal; [ring|]. apply IH; cbn in *; lia.
Qed.
Lemma pact_lin : forall s k q r u w v, length q = length r -> length u = length v -> length w = length v ->
  red (pact s (axpy k q r) (axpy k u w) v) = red (axpy k (pact s q u v) (pact s r w v)).
Proof.
  intros s k q. induction q as [|c q IH]; intros [|d r] u w v H0 H1 H2; try discriminate; [reflexivity|].
  cbn [axpy pact]. rewrite axpy4 by assumption. apply IH.
  - cbn in H0. lia.
  - rewrite axpy_length, apply_length; assumption.
  - rewrite axpy_length, apply_length; assumption.
Qed.
Lemma axpy_comm3 : forall c d u w v, length u = length v -> length w = length v ->
  axpy c (axpy d u w) v = axpy d (axpy c u v) w.
Proof.
  intros c d u. induction u as [|a u IH]; intros [|b w] [|x v] H1 H2; try discriminate; [reflexivity|].
  cbn [axpy]. f_equal; [ring|]. apply IH; cbn in *; lia.
Qed.
(* a summand can be taken out *)
Lemma pact_shift : forall s d q u w v, length u = length v -> length w = length v ->
  red (pact s q (axpy d u w) v) = red (axpy d (pact s q u v) w).
Proof.
  intros s d q. induction q as [|c q IH]; intros u w v H1 H2; [reflexivity|]. cbn [pact].
  rewrite axpy_comm3 by assumption. apply IH.
  - rewrite axpy_length, apply_length; assumption.
  - rewrite apply_length; assumption.
Qed.
Lemma pact_app : forall s q t u v, pact s (q ++ [t]) u v = axpy t (pact s q u v) (iter (length q) (mm_apply s) v).
Proof. induction q as [|c q IH]; intros t u v; [reflexivity|]. cbn [app pact length iter]. apply IH. Qed.

Definition zv (n : nat) : list Z := repeat 0 n.
Lemma zv_length : forall n, length (zv n) = n.
Proof. apply repeat_length. Qed.
Lemma apply_zv : forall s n, mm_apply s (zv n) = zv n.
Proof.
  intros s n. unfold mm_apply. rewrite zv_length.
  assert (D: forall m c, dot c (zv m) = 0).
  { induction m as [|m IH]; intros c; [reflexivity|]. unfold zv in *. cbn [repeat dot]. rewrite IH. ring. }
  unfold zv at 2. rewrite (map_ext _ (fun _ => 0)); [|intros i; rewrite D; reflexivity].
  rewrite <- (seq_length n 0) at 2. generalize (seq 0 n). induction l as [|a l IH]; [reflexivity|]. cbn. f_equal. exact IH.
Qed.
Lemma axpy0 : forall u v, length u = length v -> axpy 0 u v = u.
Proof. induction u as [|a u IH]; intros [|b v] H; try discriminate; [reflexivity|]. cbn [axpy]. f_equal; [ring|]. apply IH. cbn in H. lia. Qed.
Lemma axpy_zv : forall k n, axpy k (zv n) (zv n) = zv n.
Proof. intros k. induction n as [|n IH]; [reflexivity|]. unfold zv in *. cbn [repeat axpy]. f_equal; [ring|exact IH]. Qed.

(* the polynomial q at A, applied to v *)
Definition pa (s : Z) (q v : list Z) : list Z := pact s q (zv (length v)) v.
Lemma pa_length : forall s q v, length (pa s q v) = length v.
Proof. intros. apply pact_length. apply zv_length. Qed.
Lemma pa_red : forall s q v v', red v = red v' -> red (pa s q v) = red (pa s q v').
Proof. intros s q v v' H. unfold pa. rewrite (red_eq_length v v' H). apply pact_red; [rewrite zv_length; symmetry; apply red_eq_length, H|reflexivity|exact H]. Qed.
Lemma pa_apply : forall s q v, red (pa s q (mm_apply s v)) = red (mm_apply s (pa s q v)).
Proof. intros s q v. unfold pa. rewrite pact_apply by apply zv_length. rewrite apply_zv, apply_length. reflexivity. Qed.
Lemma red_apply : forall s u v, red u = red v -> red (mm_apply s u) = red (mm_apply s v).
Proof. intros s u v H. rewrite (apply_red s u v H). reflexivity. Qed.
Lemma pa_iter : forall s q k v, red (pa s q (iter k (mm_apply s) v)) = red (iter k (mm_apply s) (pa s q v)).
Proof.
  intros s q k. induction k as [|k IH]; intros v; [reflexivity|]. cbn [iter]. rewrite IH. apply iter_red. apply pa_apply.
Qed.
Lemma pa_lin : forall s k q r v, length q = length r -> red (pa s (axpy k q r) v) = red (axpy k (pa s q v) (pa s r v)).
Proof.
  intros s k q r v H. unfold pa. rewrite <- (axpy_zv k (length v)) at 1. apply pact_lin; [exact H|apply zv_length|apply zv_length].
Qed.
Lemma pa_cons : forall s c q v, red (pa s (c :: q) v) = red (axpy c (mm_apply s (pa s q v)) v).
Proof.
  intros s c q v. unfold pa at 1. cbn [pact]. rewrite pact_shift.
  - apply axpy_red; [reflexivity| |reflexivity]. rewrite <- pa_apply. unfold pa. rewrite apply_length. reflexivity.
  - rewrite apply_length. apply zv_length.
  - rewrite apply_length. reflexivity.
Qed.
Lemma pa_0cons : forall s q v, red (pa s (0 :: q) v) = red (mm_apply s (pa s q v)).
Proof. intros s q v. rewrite pa_cons. rewrite axpy0; [reflexivity|]. rewrite apply_length. apply pa_length. Qed.
Lemma pa_mod : forall s q v, red (pa s (red q) v) = red (pa s q v).
Proof.
  intros s q v. induction q as [|c q IH]; [reflexivity|]. unfold red at 2. cbn [map]. fold (red q).
  rewrite !pa_cons. apply axpy_red; [apply cg_mod_l| |reflexivity]. apply red_apply. exact IH.
Qed.

(* arithmetic modulo a polynomial that annihilates e *)
Section Modulo.
Variable s : Z.
Variable e : list Z.
Variable ch : list Z.
Hypothesis CH : red (iter (length ch) (mm_apply s) e) = red (axpy (-1) (zv (length e)) (pa s ch e)).

Definition pshift (r : list Z) : list Z := axpy (- last r 0) (0 :: removelast r) ch.

Lemma removelast_length : forall (r : list Z), r <> [] -> S (length (removelast r)) = length r.
Proof. intros r H. rewrite (app_removelast_last 0 H) at 2. rewrite app_length. cbn. lia. Qed.

Lemma axpy_assoc : forall t u w z, length u = length w -> length z = length w ->
  axpy t u (axpy (-1) z w) = axpy (- t) (axpy t u z) w.
Proof.
  intros t u. induction u as [|a u IH]; intros [|b w] [|x z] H1 H2; try discriminate; [reflexivity|].
  cbn [axpy]. f_equal; [ring|]. apply IH; cbn in *; lia.
Qed.
Lemma axpy_z : forall t u, axpy t u (zv (length u)) = u.
Proof. intros t. induction u as [|a u IH]; [reflexivity|]. unfold zv in *. cbn [length repeat axpy]. f_equal; [ring|exact IH]. Qed.

Lemma pshift_ok : forall r, length r = length ch -> r <> [] ->
  red (pa s (pshift r) e) = red (mm_apply s (pa s r e)).
Proof.
  intros r HL HN. unfold pshift. pose proof (removelast_length r HN) as HR.
  rewrite pa_lin by (cbn [length]; lia). rewrite <- pa_0cons.
  rewrite (app_removelast_last 0 HN) at 3. rewrite app_comm_cons. unfold pa at 3. rewrite pact_app.
  fold (pa s (0 :: removelast r) e).
  transitivity (red (axpy (last r 0) (pa s (0 :: removelast r) e) (axpy (-1) (zv (length e)) (pa s ch e)))).
  - rewrite axpy_assoc by (rewrite !pa_length, ?zv_length; reflexivity).
    f_equal. f_equal. rewrite <- (pa_length s (0 :: removelast r) e). rewrite axpy_z. reflexivity.
  - apply axpy_red; [reflexivity|reflexivity|]. cbn [length]. rewrite HR, HL. symmetry. exact CH.
Qed.

Lemma pshift_length : forall r, length r = length ch -> r <> [] -> length (pshift r) = length ch.
Proof.
  intros r HL HN. unfold pshift. pose proof (removelast_length r HN). rewrite axpy_length; cbn [length]; lia.
Qed.
End Modulo.

Lemma pa_redq : forall s q q' v, red q = red q' -> red (pa s q v) = red (pa s q' v).
Proof. intros s q q' v H. rewrite <- (pa_mod s q), <- (pa_mod s q'), H. reflexivity. Qed.
Lemma nonnil : forall r : list Z, (1 <= length r)%nat -> r <> [].
Proof. intros [|a r] H; [cbn in H; lia|discriminate]. Qed.
Lemma pa_zv : forall s n v, red (pa s (zv n) v) = red (zv (length v)).
Proof.
  intros s n v. unfold pa.
  assert (Z0: forall u w, length u = length w -> red (pact s (zv n) u w) = red u).
  { induction n as [|n IHn]; intros u w Huw; [reflexivity|]. unfold zv in *. cbn [repeat pact].
    rewrite axpy0 by exact Huw. apply IHn. rewrite apply_length. exact Huw. }
  apply Z0. apply zv_length.
Qed.
