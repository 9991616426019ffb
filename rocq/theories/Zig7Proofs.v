(* generate_int_float_pair draws at least once. *)
From Verif Require Import Base ProgModel ProgSpec ProgProofs UIntModel UIntSpec IbModel FloatModel FloatSpec FloatProofs RealModel UniProofs Disc4Proofs Bin4Proofs BinSpec IfpModel IfpSpec IfpProps.
Ltac Zify.zify_post_hook ::= idtac.
Open Scope Z_scope.

Lemma gen_digit_nil : forall fuel tb bmin bmax m a r, exec (gen_digit fuel tb bmin bmax m) [] <> ORet a r.
Proof.
  intros fuel tb bmin bmax m a r. unfold gen_digit. destruct (usub tb bmax bmin) as [rg|]; cbn [plift pbind exec]; [|discriminate].
  destruct (shlU (bits tb) 2 (m - 1)) as [s|]; cbn [plift pbind exec]; [|discriminate]. destruct fuel as [|n]; cbn; discriminate.
Qed.
Lemma bind_nil : forall A B (p : prog A) (k : A -> prog B), (forall a r, exec p [] <> ORet a r) -> forall b r, exec (pbind p k) [] <> ORet b r.
Proof. intros A B p k H b r. rewrite exec_bind_eq. destruct (exec p []) as [a r0| | |] eqn:E; try discriminate. exfalso. exact (H a r0 eq_refl). Qed.
Lemma pair_nil : forall f md fuel w tb bmin bmax x r, exec (int_float_pair f md fuel w tb bmin bmax) [] <> ORet x r.
Proof.
  intros f md fuel w tb bmin bmax x r. unfold int_float_pair. destruct (usub tb bmax bmin) as [rg|]; cbn [plift pbind exec]; [|discriminate]. cbv zeta.
  set (m := ifp_m (bits tb) rg). destruct (m =? 0); cbn [exec]; [discriminate|].
  destruct (Z.to_nat (w / m)) as [|c]; cbn [ifp_full pbind].
  - apply bind_nil. intros. apply gen_digit_nil.
  - apply bind_nil. intros. apply bind_nil. intros. apply gen_digit_nil.
Qed.
Lemma pair_src : forall f md fuel tb bmin bmax, fmt_ok f -> fmt_wide f -> 20 <= prec f -> eng_wf tb bmin bmax -> 32 <= bits tb <= 64 -> no_full_last (prec f) (digit_bits bmin bmax) 8 ->
  forall ds, valid_draws bmin bmax ds -> (length ds < fuel)%nat -> exec (int_float_pair f md fuel 8 tb bmin bmax) ds = OMore \/
  exists q b rest, exec (int_float_pair f md fuel 8 tb bmin bmax) ds = ORet (q, b) rest /\ 0 <= b < 256 /\ (0 <= q <= 1)%Q /\ (length rest < length ds)%nat.
Proof.
  intros f md fuel tb bmin bmax Hf Hw Pf He HB HN ds Hv HF. assert (EM: emin f + 64 <= 0) by (destruct Hw; lia).
  destruct (C44_range_partial f md fuel tb bmin bmax 8 ds Hf EM He HB ltac:(lia) HN Hv HF) as [E|(q & b & rest & E & B & [Q0 Q1] & _)]; [left; exact E|right].
  exists q, b, rest. split; [exact E|]. split; [exact B|]. split; [split; [exact Q0|apply Qlt_le_weak; exact Q1]|].
  destruct (exec_rest _ _ _ _ _ E) as (u & -> & HU). destruct u as [|z u]; [exfalso; exact (pair_nil _ _ _ _ _ _ _ _ _ (HU []))|]. rewrite app_length. cbn [length]. lia.
Qed.
Lemma u01_src : forall f md fuel tb bmin bmax, fmt_ok f -> eng_wf tb bmin bmax -> bmax - bmin <= imax tb ->
  forall ds, valid_draws bmin bmax ds -> (length ds < fuel)%nat -> exec (uniform_01 f md fuel tb bmin bmax) ds = OMore \/
  exists u rest, exec (uniform_01 f md fuel tb bmin bmax) ds = ORet u rest /\ (0 <= u <= 1)%Q.
Proof.
  intros f md fuel tb bmin bmax Hf He HR ds Hv HF. destruct (u01_run f md tb bmin bmax fuel ds Hf He HR Hv HF) as [E|(u & rest & E & U0 & U1)]; [left; exact E|right].
  exists u, rest. split; [exact E|]. split; [exact U0|apply Qlt_le_weak; exact U1].
Qed.
