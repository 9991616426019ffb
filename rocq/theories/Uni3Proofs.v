(* uniform_real when nothing is rounded. *)
From Coq Require Import Lqa.
From Verif Require Import Base ProgModel ProgSpec ProgProofs UIntModel UIntSpec UIntProofs FloatModel FloatSpec FloatProofs RealModel RealSpec RealProofs UniProofs Uni2Proofs.
Open Scope Q_scope.
Ltac Zify.zify_post_hook ::= idtac.

Lemma ur_value : forall f md tb bmin bmax fmax a b v F ds, fmt_ok f -> (2 <= prec f)%Z -> is_fmax f fmax ->
  eng_wf tb bmin bmax -> (bmin <= v <= bmax)%Z -> (bmax - bmin + 1 <= 2 ^ prec f)%Z -> a < b ->
  representable f a -> representable f (a / 2) -> representable f (b / 2) -> b / 2 - a / 2 <= fmax / 2 ->
  representable f (b - a) ->
  let t := inject_Z (v - bmin) / inject_Z (bmax - bmin + 1) in
  representable f t -> representable f (t * (b - a)) -> representable f (t * (b - a) + a) ->
  exists q, exec (uniform_real f md (S F) tb bmin bmax fmax a b) (v :: ds) = ORet q ds /\ q == t * (b - a) + a.
Proof.
  intros f md tb bmin bmax fmax a b v F ds Hf HP2 Hm He Hv HR Hab Ra Ra2 Rb2 HG Rba t Rt Rtb Rr.
  unfold uniform_real. cbn [ur_wrap].
  assert (G: qlt (fround f md (fmax / 2)) (fround f md (fround f md (b / 2) - fround f md (a / 2))) = false).
  { apply qlt_false. apply rnd_mono; [exact Hf|]. rewrite (rnd_fix f md Hf _ Rb2), (rnd_fix f md Hf _ Ra2). exact HG. }
  rewrite G. unfold ur_int, draw. cbn [retry pbind exec]. destruct He as (H1 & H2 & H3 & H4).
  assert (inT tb v) by (unfold inT in *; lia).
  rewrite (usub_ok tb v bmin) by (try assumption; lia). rewrite (usub_ok tb bmax bmin) by (try assumption; lia). cbn [plift pbind].
  assert (E1: fround f md (inject_Z (v - bmin)) == inject_Z (v - bmin)).
  { apply rnd_fix; [exact Hf|]. apply repr_Z; [exact Hf|]. rewrite Z.abs_eq by lia. lia. }
  assert (E2: fround f md (fround f md (inject_Z (bmax - bmin)) + 1) == inject_Z (bmax - bmin + 1)).
  { rewrite (rnd_compat f md Hf _ (inject_Z (bmax - bmin + 1))).
    - apply rnd_fix; [exact Hf|]. apply repr_Z; [exact Hf|]. rewrite Z.abs_eq by lia. lia.
    - rewrite (rnd_fix f md Hf (inject_Z (bmax - bmin))); [rewrite inject_Z_plus; reflexivity|].
      apply repr_Z; [exact Hf|]. rewrite Z.abs_eq by lia. lia. }
  assert (N1: 1 <= inject_Z (bmax - bmin + 1)) by (change 1 with (inject_Z 1); apply injZ_le; lia).
  unfold ur_tail. rewrite fdiv_ok by (rewrite E2; lra). cbn [bind].
  match goal with |- context [qlt ?x b] => set (q := x) end.
  assert (EQ: q == t * (b - a) + a).
  { unfold q. assert (T: fround f md (fround f md (inject_Z (v - bmin)) / fround f md (fround f md (inject_Z (bmax - bmin)) + 1)) == t).
    { rewrite (rnd_compat f md Hf _ t) by (rewrite E1, E2; reflexivity). apply rnd_fix; assumption. }
    rewrite (rnd_compat f md Hf _ (t * (b - a) + a)); [apply rnd_fix; assumption|].
    rewrite (rnd_compat f md Hf _ (t * (b - a))); [rewrite (rnd_fix f md Hf _ Rtb); reflexivity|].
    rewrite T, (rnd_fix f md Hf _ Rba). reflexivity. }
  assert (T1: t < 1).
  { unfold t. apply Qlt_shift_div_r; [lra|]. rewrite Qmult_1_l. rewrite <- Zlt_Qlt. lia. }
  assert (L: qlt q b = true) by (apply qlt_iff; rewrite EQ; nra).
  rewrite L. cbn [plift pbind exec]. exists q. split; [reflexivity|exact EQ].
Qed.
