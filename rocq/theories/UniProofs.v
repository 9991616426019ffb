(* uniform_01 and uniform_real stay in range. *)
From Coq Require Import Lqa.
From Verif Require Import Base ProgModel ProgSpec ProgProofs UIntModel UIntSpec UIntProofs FloatModel FloatSpec FloatProofs RealModel RealSpec RealProofs.
Open Scope Q_scope.
Ltac Zify.zify_post_hook ::= idtac.

Section U.
Variables (f : fmt) (md : rmode).
Hypothesis Hf : fmt_ok f.
Local Notation P := (prec f).
Local Notation rnd := (fround f md).

Lemma fdiv_ok : forall a b, ~ b == 0 -> fdiv f md a b = Some (rnd (a / b)).
Proof using. intros a b H. unfold fdiv. rewrite (qeqb_false b 0 H). reflexivity. Qed.

Lemma div_nonneg : forall a b, 0 <= a -> 0 < b -> 0 <= a / b.
Proof using. intros a b Ha Hb. apply Qle_shift_div_l; lra. Qed.

Lemma rnd_ge_1 : forall x, 1 <= x -> 1 <= rnd x.
Proof using Hf. intros x H. apply repr_rnd_ge; [exact Hf|apply repr_1; exact Hf|exact H]. Qed.

(* ---- integral engines ---- *)
Section I.
Variables (tb : ity) (bmin bmax : Z).
Hypothesis He : eng_wf tb bmin bmax.
Local Notation R := (bmax - bmin)%Z.

Section conv.
Variable conv : Z -> Z.
Hypothesis Hd : diff_fits tb bmin bmax.
Hypothesis Hc : forall z, (0 <= z <= R)%Z -> conv z = z.

Definition u01_fac : Q := rnd (1 / rnd (rnd (inject_Z R) + 1)).

Lemma fac_div_pos : 1 <= rnd (rnd (inject_Z R) + 1).
Proof using Hf He.
  apply rnd_ge_1. assert (0 <= rnd (inject_Z R)); [|lra]. apply rnd_nonneg. change 0 with (inject_Z 0). apply injZ_le.
  destruct He as (_ & _ & _ & ?). lia.
Qed.

Lemma factor_ok : u01_factor f md conv tb bmin bmax = Some u01_fac.
Proof using Hf He Hd Hc.
  unfold u01_factor. destruct He as (H1 & H2 & H3 & H4).
  rewrite (psub_ok tb bmin bmax bmax He Hd) by lia. cbn [bind]. rewrite Hc by lia.
  rewrite fdiv_ok; [reflexivity|]. pose proof fac_div_pos. lra.
Qed.

Lemma fac_nonneg : 0 <= u01_fac.
Proof using Hf He. unfold u01_fac. apply (rnd_nonneg f md). apply div_nonneg; [lra|]. pose proof fac_div_pos. lra. Qed.

Definition u01_res (v : Z) : Q := rnd (rnd (inject_Z (v - bmin)) * u01_fac).

Lemma scale_ok : forall v, (bmin <= v <= bmax)%Z ->
  u01_scale f md conv tb bmin u01_fac v = Some (if qlt (u01_res v) 1 then Some (u01_res v) else None).
Proof using Hf He Hd Hc.
  intros v Hv. unfold u01_scale. rewrite (psub_ok tb bmin bmax v He Hd Hv). cbn [bind]. rewrite Hc by lia. reflexivity.
Qed.

Lemma res_nonneg : forall v, (bmin <= v)%Z -> 0 <= u01_res v.
Proof using Hf He.
  intros v Hv. unfold u01_res. apply (rnd_nonneg f md). apply Qmult_le_0_compat; [|exact fac_nonneg]. apply rnd_nonneg.
  change 0 with (inject_Z 0). apply injZ_le. lia.
Qed.

Lemma res_min : u01_res bmin == 0.
Proof using Hf.
  unfold u01_res. replace (bmin - bmin)%Z with 0%Z by lia. change (inject_Z 0) with 0.
  rewrite <- (rnd_fix f md Hf 0 (repr_0 f Hf)) at 2. apply rnd_compat; [exact Hf|].
  rewrite (rnd_fix f md Hf 0 (repr_0 f Hf)). ring.
Qed.
End conv.

Lemma plift_some : forall A (x : A), plift (Some x) = PRet x.
Proof using. reflexivity. Qed.

Lemma fits_diff : (R <= imax tb)%Z -> diff_fits tb bmin bmax.
Proof using He.
  intros H. unfold diff_fits. destruct (Z.ltb_spec (bits tb) 32) as [L|L]; [|exact H].
  destruct He as (Hb & _). assert (imax tb <= 2 ^ 31 - 1)%Z; [|lia]. unfold imax. destruct (sgn tb).
  - assert (2 ^ (bits tb - 1) <= 2 ^ 31)%Z by (apply Z.pow_le_mono_r; lia). lia.
  - assert (2 ^ (bits tb) <= 2 ^ 31)%Z by (apply Z.pow_le_mono_r; lia). lia.
Qed.

Lemma cast_R : (R <= imax tb)%Z -> forall z, (0 <= z <= R)%Z -> cast tb z = z.
Proof using He.
  intros H z Hz. destruct He as (Hb & _). apply cast_in; [lia|]. unfold inT. split; [|lia].
  unfold imin. destruct (sgn tb); [|lia]. pose proof (Z.pow_nonneg 2 (bits tb - 1)). lia.
Qed.

(* one pass of the loop *)
Lemma u01_wp : forall F n, (n < F)%nat -> (R <= imax tb)%Z ->
  wp bmin bmax (uniform_01 f md F tb bmin bmax) n
     (fun q _ => 0 <= q /\ q < 1 /\ exists v, (bmin <= v <= bmax)%Z /\ q = u01_res v).
Proof using Hf He.
  intros F n Hn HR. pose proof (fits_diff HR) as Hd. pose proof (cast_R HR) as Hc.
  unfold uniform_01. apply wp_retry; [|exact Hn]. intro m.
  rewrite (factor_ok (cast tb) Hd Hc), plift_some. unfold draw. cbn [pbind wp]. destruct m as [|m]; [exact I|].
  intros v Hv. rewrite (scale_ok (cast tb) Hd Hc v Hv), plift_some. cbn [wp]. split; [lia|].
  intros a. destruct (qlt (u01_res v) 1) eqn:E; [|discriminate]. intro EE.
  assert (u01_res v = a) as <- by congruence. apply qlt_iff in E.
  split; [apply res_nonneg; lia|]. split; [exact E|]. exists v. split; [exact Hv|reflexivity].
Qed.

Lemma u01_old_wp : forall F n, (n < F)%nat -> diff_fits tb bmin bmax ->
  wp bmin bmax (uniform_01_old f md F tb bmin bmax) n
     (fun q _ => 0 <= q /\ q < 1 /\ exists v, (bmin <= v <= bmax)%Z /\ q = u01_res v).
Proof using Hf He.
  intros F n Hn Hd. assert (Hc: forall z, (0 <= z <= R)%Z -> (fun z => z) z = z) by reflexivity.
  unfold uniform_01_old. rewrite (factor_ok _ Hd Hc), plift_some. cbn [pbind]. apply wp_retry; [|exact Hn]. intro m.
  unfold draw. cbn [pbind wp]. destruct m as [|m]; [exact I|].
  intros v Hv. rewrite (scale_ok _ Hd Hc v Hv), plift_some. cbn [wp]. split; [lia|].
  intros a. destruct (qlt (u01_res v) 1) eqn:E; [|discriminate]. intro EE.
  assert (u01_res v = a) as <- by congruence. apply qlt_iff in E.
  split; [apply res_nonneg; lia|]. split; [exact E|]. exists v. split; [exact Hv|reflexivity].
Qed.

(* the first output is used whenever it scales to less than 1; the least output does *)
Lemma u01_first : forall F v ds, (R <= imax tb)%Z -> (bmin <= v <= bmax)%Z -> u01_res v < 1 ->
  exec (uniform_01 f md (S F) tb bmin bmax) (v :: ds) = ORet (u01_res v) ds.
Proof using Hf He.
  intros F v ds HR Hv H. pose proof (fits_diff HR) as Hd. pose proof (cast_R HR) as Hc.
  unfold uniform_01. cbn [retry]. rewrite (factor_ok (cast tb) Hd Hc), plift_some. unfold draw. cbn [pbind exec].
  rewrite (scale_ok (cast tb) Hd Hc v Hv), plift_some. cbn [pbind]. apply qlt_iff in H. rewrite H. reflexivity.
Qed.
End I.

(* ---- uniform_real ---- *)
Lemma tail_ok : forall num dvs a b, 0 <= num -> 0 < dvs -> a < b -> representable f a ->
  exists q, ur_tail f md num dvs a b = Some (if qlt q b then Some q else None) /\ a <= q.
Proof using Hf.
  intros num dvs a b H1 H2 H3 H4. unfold ur_tail. rewrite fdiv_ok by lra. cbn [bind].
  exists (rnd (rnd (rnd (num / dvs) * rnd (b - a)) + a)). split; [reflexivity|].
  apply repr_rnd_ge; [exact Hf|exact H4|].
  assert (0 <= rnd (rnd (num / dvs) * rnd (b - a))); [|lra].
  apply rnd_nonneg. apply Qmult_le_0_compat; apply rnd_nonneg; [apply div_nonneg; assumption|lra].
Qed.

Definition in_range (a b q : Q) : Prop := a <= q /\ q < b /\ representable f q.

Lemma tail_repr : forall num dvs a b q, ur_tail f md num dvs a b = Some (Some q) -> representable f q.
Proof using Hf.
  intros num dvs a b q. unfold ur_tail. destruct (fdiv f md num dvs) as [d|]; [|discriminate]. cbn [bind].
  destruct (qlt _ b); [|discriminate]. intro E.
  assert (rnd (rnd (d * rnd (b - a)) + a) = q) as <- by congruence. apply rnd_repr. exact Hf.
Qed.

Lemma ur_int_wp : forall tb bmin bmax F n a b, eng_wf tb bmin bmax -> (n < F)%nat ->
  a < b -> representable f a ->
  wp bmin bmax (ur_int f md F tb bmin bmax a b) n (fun q _ => in_range a b q).
Proof using Hf.
  intros tb bmin bmax F n a b He Hn Hab Ha. unfold ur_int. apply wp_retry; [|exact Hn]. intro m.
  unfold draw. cbn [pbind wp]. destruct m as [|m]; [exact I|]. intros v Hv.
  destruct He as (H1 & H2 & H3 & H4).
  assert (inT tb v) by (unfold inT in *; lia).
  rewrite (usub_ok tb v bmin) by (try assumption; lia). rewrite (usub_ok tb bmax bmin) by (try assumption; lia).
  cbn [plift pbind].
  assert (N0: 0 <= rnd (inject_Z (v - bmin))) by (apply rnd_nonneg; change 0 with (inject_Z 0); apply injZ_le; lia).
  assert (D0: 0 < rnd (rnd (inject_Z (bmax - bmin)) + 1)).
  { assert (1 <= rnd (rnd (inject_Z (bmax - bmin)) + 1)); [|lra]. apply rnd_ge_1.
    assert (0 <= rnd (inject_Z (bmax - bmin))); [|lra]. apply rnd_nonneg; change 0 with (inject_Z 0); apply injZ_le; lia. }
  destruct (tail_ok _ _ a b N0 D0 Hab Ha) as (q & Eq & Hq).
  pose proof (tail_repr (rnd (inject_Z (v - bmin))) (rnd (rnd (inject_Z (bmax - bmin)) + 1)) a b) as TR.
  rewrite Eq in *. cbn [plift wp]. split; [lia|].
  intros a0. destruct (qlt q b) eqn:E; [|discriminate]. intro EE. assert (q = a0) as <- by congruence.
  apply qlt_iff in E. split; [exact Hq|]. split; [exact E|]. apply TR. reflexivity.
Qed.

(* floating-point engines *)
Lemma ur_real_wp : forall fe val bmin bmax gmin gmax F n a b, fmt_ok fe ->
  real_eng val bmin bmax gmin gmax -> 0 < rnd (fround fe md (gmax - gmin)) -> (n < F)%nat ->
  a < b -> representable f a ->
  wp bmin bmax (ur_real f md F fe val gmin gmax a b) n (fun q _ => in_range a b q).
Proof using Hf.
  intros fe val bmin bmax gmin gmax F n a b Hfe (Hg & Hv0) D0 Hn Hab Ha. unfold ur_real. apply wp_retry; [|exact Hn]. intro m.
  unfold draw. cbn [pbind wp]. destruct m as [|m]; [exact I|]. intros v Hv. destruct (Hv0 v Hv) as [V1 V2].
  assert (N0: 0 <= rnd (fround fe md (val v - gmin))) by (apply rnd_nonneg, rnd_nonneg; lra).
  destruct (tail_ok _ _ a b N0 D0 Hab Ha) as (q & Eq & Hq).
  pose proof (tail_repr (rnd (fround fe md (val v - gmin))) (rnd (fround fe md (gmax - gmin))) a b) as TR.
  rewrite Eq in *. cbn [plift wp]. split; [lia|].
  intros a0. destruct (qlt q b) eqn:E; [|discriminate]. intro EE. assert (q = a0) as <- by congruence.
  apply qlt_iff in E. split; [exact Hq|]. split; [exact E|]. apply TR. reflexivity.
Qed.

Lemma u01_real_wp : forall fe val bmin bmax gmin gmax F n, fmt_ok fe ->
  real_eng val bmin bmax gmin gmax -> 0 < rnd (fround fe md (gmax - gmin)) -> (n < F)%nat ->
  wp bmin bmax (uniform_01_real f md F fe val gmin gmax) n (fun q _ => 0 <= q /\ q < 1).
Proof using Hf.
  intros fe val bmin bmax gmin gmax F n Hfe (Hg & Hv0) D0 Hn. unfold uniform_01_real. apply wp_retry; [|exact Hn]. intro m.
  set (d := rnd (fround fe md (gmax - gmin))) in *.
  assert (D1: 0 < rnd (d + 0)).
  { rewrite (rnd_compat f md Hf (d + 0) d) by ring. unfold d. rewrite (rnd_idem f md Hf). exact D0. }
  rewrite fdiv_ok by lra. unfold draw. cbn [plift pbind wp]. destruct m as [|m]; [exact I|].
  intros v Hv. destruct (Hv0 v Hv) as [V1 V2]. split; [lia|].
  intros a. match goal with |- (if qlt ?x 1 then _ else _) = _ -> _ => set (y := x) end.
  destruct (qlt y 1) eqn:E; [|discriminate]. intro EE. assert (y = a) as <- by congruence.
  apply qlt_iff in E. split; [|exact E]. unfold y. apply rnd_nonneg. apply Qmult_le_0_compat.
  - apply rnd_nonneg, rnd_nonneg. lra.
  - apply rnd_nonneg. apply div_nonneg; [lra|exact D1].
Qed.
End U.
