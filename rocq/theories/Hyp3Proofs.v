(* Lemmas for HypProps.v: normalizing again, mixtures *)
From Coq Require Import Lqa Reals Lra Qreals.
From Verif Require Import Base ProgModel ProgSpec ProgProofs UIntModel UIntSpec FloatModel FloatSpec FloatProofs RealModel RealSpec RealProofs UniProofs
  DiscModel DiscProofs Disc2Proofs Disc4Proofs RDiscModel RDiscSpec RDiscProofs RDisc2Proofs RDisc3Proofs RDisc4Proofs RDisc5Proofs RDisc6Proofs HypModel HypSpec HypProofs.
Ltac Zify.zify_post_hook ::= idtac.
Open Scope Q_scope.
Ltac ql := Lqa.lra.

Section I.
Variables (f : fmt) (t : ity).
Hypothesis Hf : fmt_ok f.
Variable ws : list Q.
Hypothesis Hok : rweights_ok f t ws.
Hypothesis Hsm : (qlen ws + 3) * p2 (1 - prec f) <= 1 # 8.
Hypothesis H2 : (2 <= prec f)%Z.
Local Notation rnd := (fround f RNE).

Lemma hx_sum : forall ps, hx_normalize f RNE ws = Some ps -> racc f RNE ps == 1.
Proof using Hf Hok Hsm H2.
  intros ps E. rewrite (hx_norm_eq f RNE t Hf ws Hok Hsm) in E. inversion E. subst ps. unfold racc. rewrite fold_left_app. cbn [fold_left].
  destruct (S_bounds f RNE t Hf ws Hok Hsm) as (B1 & B2 & B3 & _). unfold cums in *. rewrite firstn_map in *. apply sum_one; assumption.
Qed.

Lemma fold_compat : forall l m s s', s == s' -> Forall2 Qeq l m -> fold_left (fun s x => rnd (s + x)) l s == fold_left (fun s x => rnd (s + x)) m s'.
Proof using Hf.
  intros l m s s' Hs H. revert s s' Hs. induction H as [|x y l m E H IH]; intros s s' Hs; [exact Hs|]. cbn [fold_left]. apply IH. apply rnd_compat; [exact Hf|]. rewrite Hs, E. reflexivity.
Qed.

Lemma hx_idem : forall ps, hx_normalize f RNE ws = Some ps -> exists qs, hx_normalize f RNE ps = Some qs /\ Forall2 Qeq qs ps.
Proof using Hf Hok Hsm H2.
  intros ps E. pose proof (hx_sum ps E) as HS. rewrite (hx_norm_eq f RNE t Hf ws Hok Hsm) in E. set (l := map (pval f RNE ws) (firstn (length ws - 1) ws)) in *. set (z := rnd _) in E.
  assert (EP: ps = l ++ [z]) by congruence. clear E. subst ps.
  assert (H: hx_normalize f RNE (l ++ [z]) = hx_loop f RNE (racc f RNE (l ++ [z])) 0 (l ++ [z])) by (unfold hx_normalize; destruct l; reflexivity).
  set (s := racc f RNE (l ++ [z])) in *. rewrite H. rewrite hx_loop_eq by (rewrite HS; discriminate). eexists. split; [reflexivity|].
  assert (FL: Forall2 Qeq (map (fun w => rnd (w / s)) l) l).
  { assert (RL: Forall (representable f) l) by (unfold l; apply Forall_forall; intros x Hx; apply in_map_iff in Hx; destruct Hx as (w & W & _); subst x; apply rnd_repr; exact Hf).
    clear H. clearbody s. clear z. induction l as [|a l' IH]; [constructor|]. cbn [map]. constructor; [|apply IH; apply Forall_inv_tail in RL; exact RL].
    apply Forall_inv in RL. rewrite (rnd_compat f RNE Hf _ a); [apply rnd_fix; assumption|]. rewrite HS. field. }
  apply Forall2_app; [exact FL|]. constructor; [|constructor]. unfold z. apply rnd_compat; [exact Hf|]. unfold cums. rewrite firstn_map. fold l.
  rewrite (fold_compat _ l 0 0 ltac:(reflexivity) FL). reflexivity.
Qed.
End I.

Lemma hx_length : forall f md v l, hx_normalize f md v = Some l -> length l = length v.
Proof.
  intros f md v l. unfold hx_normalize. destruct v as [|a v]; [intro E; inversion E; reflexivity|]. generalize (racc f md (a :: v)) as s. intro s.
  generalize 0 as fs. generalize (a :: v) as w. intro w. revert l. induction w as [|x w IH]; intros l fs; cbn [hx_loop]; [intro E; inversion E; reflexivity|].
  destruct w as [|y w]; [intro E; inversion E; reflexivity|]. destruct (fdiv f md x s) as [q|]; [|discriminate]. cbn [bind]. destruct (hx_loop f md s _ (y :: w)) as [r|] eqn:E; [|discriminate]. cbn [bind].
  intro H. inversion H. cbn [length]. rewrite (IH r _ E). reflexivity.
Qed.

Open Scope R_scope.
Lemma mix_err : forall d ps qs rs x, length ps = length rs -> length qs = length rs -> 0 <= d -> (forall i, (i < length rs)%nat -> Rabs (nth i ps 0 - nth i qs 0) <= d) ->
  Forall (fun r => 0 < r) rs -> 0 <= x -> Rabs (mix_cdf ps rs x - mix_cdf qs rs x) <= INR (length rs) * d.
Proof.
  intros d. induction ps as [|p ps IH]; intros [|q qs] [|r rs] x L1 L2 D H HR X0; try discriminate.
  - cbn. rewrite Rminus_0_r, Rabs_R0. lra.
  - cbn [mix_cdf]. cbn [length] in L1, L2. pose proof (Forall_inv HR) as R0. apply Forall_inv_tail in HR.
    specialize (IH qs rs x ltac:(lia) ltac:(lia) D (fun i Hi => H (S i) ltac:(cbn [length]; lia)) HR X0).
    assert (A: 0 <= r * x) by (apply Rmult_le_pos; lra).
    assert (B: 0 <= 1 - exp (- (r * x)) <= 1). { pose proof (exp_pos (- (r * x))). split; [|lra]. assert (exp (- (r * x)) <= exp 0); [|rewrite exp_0 in *; lra]. destruct (Req_dec (r * x) 0) as [Z|Z]; [rewrite Z, Ropp_0; lra|]. left. apply exp_increasing. lra. }
    set (c := 1 - exp (- (r * x))) in *. pose proof (H 0%nat ltac:(cbn [length]; lia)) as HH. cbn [nth] in HH.
    replace (p * c + mix_cdf ps rs x - (q * c + mix_cdf qs rs x)) with ((p - q) * c + (mix_cdf ps rs x - mix_cdf qs rs x)) by ring.
    eapply Rle_trans; [apply Rabs_triang|]. rewrite Rabs_mult, (Rabs_pos_eq c) by lra. cbn [length]. rewrite S_INR.
    assert (M: Rabs (p - q) * c <= d * 1) by (apply Rmult_le_compat; [apply Rabs_pos|lra|exact HH|lra]). lra.
Qed.
