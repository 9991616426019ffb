(* the states of an engine derived from qrng_base, in general *)
From Verif Require Import Base QrngModel QrngSpec UIntProofs QrngProofs.
Ltac Zify.zify_post_hook ::= idtac.

(* all the states of an engine: constructed, then called, advanced and seeded, also after exceptions *)
Inductive qreach {L V} (Ws : Z) (d : dops L V) (new : option (res (qeng L V) unit)) : qeng L V -> Prop :=
  | Q_new : forall e, new = Some (Ret e tt) -> qreach Ws d new e
  | Q_call : forall e e' v, qreach Ws d new e -> q_call Ws d e = Ret e' v -> qreach Ws d new e'
  | Q_call_throw : forall e e', qreach Ws d new e -> q_call Ws d e = Thr e' -> qreach Ws d new e'
  | Q_discard : forall e e' z, qreach Ws d new e -> 0 <= z < 2 ^ 64 -> q_discard Ws d e z = Ret e' tt -> qreach Ws d new e'
  | Q_discard_throw : forall e e' z, qreach Ws d new e -> 0 <= z < 2 ^ 64 -> q_discard Ws d e z = Thr e' -> qreach Ws d new e'
  | Q_seed : forall e e' n, qreach Ws d new e -> 0 <= n < 2 ^ Ws -> d_seed d e n = Ret e' tt -> qreach Ws d new e'
  | Q_seed_throw : forall e e' n, qreach Ws d new e -> 0 <= n < 2 ^ Ws -> d_seed d e n = Thr e' -> qreach Ws d new e'.

Section Reach.
Context {L V : Type} (Ws : Z) (d : dops L V) (D last : Z) (pt : Z -> L * list V) (v0 : V) (new : option (res (qeng L V) unit)).
Hypothesis HD : derived_ok Ws d D last pt.
Hypothesis HN : new = Some (Ret (at_ pt 0 0) tt).
Local Notation at' := (at_ pt).
Local Notation callsz := (calls (vcall Ws d)).

Lemma wrapped_gen : forall n, 0 <= n <= last -> D = 1 -> q_discard Ws d (at' n 1) (2 ^ 64 - 1) = Ret (at' n 0) tt.
Proof using HD.
  intros n Hn E. unfold q_discard. rewrite (q_dim_at Ws d D last pt HD) by exact Hn. rewrite E.
  change (q_curr (at' n 1)) with 1. change ((2 ^ 64 - 1) mod 1) with 0. change ((2 ^ 64 - 1) / 1) with (2 ^ 64 - 1).
  change (wrap 64 (1 + 0)) with 1. change (1 / 1) with 1. change (1 mod 1) with 0. change (wrap 64 (2 ^ 64 - 1 + 1)) with 0.
  change (0 =? 0) with true. cbn [andb negb]. change (wrap 64 (0 - 0)) with 0.
  rewrite (discard_vector_ok Ws d D last pt HD) by lia. rewrite Z.add_0_r. destruct (Z.leb_spec n last); [|lia]. reflexivity.
Qed.

Lemma at_end : forall n c, 0 <= n <= last -> 0 <= c <= D -> n * D + c < ends D last \/ (n = last /\ c = D).
Proof using HD.
  intros n c Hn Hc. pose proof HD as (D0 & _). destruct (Z.eq_dec (n * D + c) (ends D last)) as [E|E].
  - right. unfold ends in E. assert (n * D <= last * D) by (apply Z.mul_le_mono_nonneg_r; lia).
    assert (c = D) by lia. subst c. split; [|lia]. assert (E1 : n * D = last * D) by lia. apply Z.mul_cancel_r in E1; lia.
  - left. unfold ends in *. assert (n * D <= last * D) by (apply Z.mul_le_mono_nonneg_r; lia). lia.
Qed.

Lemma qreach_at : forall e, qreach Ws d new e -> exists n c, 0 <= n <= last /\ 0 <= c <= D /\ e = at' n c.
Proof using HD HN v0.
  intros e R. pose proof HD as (D0 & D1 & D2 & D3 & D4 & D5 & D6 & D7).
  induction R as [e H|e e' v _ IH H|e e' _ IH H|e e' z _ IH Hz H|e e' z _ IH Hz H|e e' n _ IH Hn H|e e' n _ IH Hn H].
  - exists 0, 0. split; [lia|]. split; [lia|]. congruence.
  - destruct IH as (n & c & Hn & Hc & ->). destruct (at_end n c Hn Hc) as [HP|[-> ->]].
    + pose proof (vcall_ok Ws d D last pt v0 HD n c Hn Hc HP) as V1. unfold vcall in V1. rewrite H in V1.
      destruct (after_pos Ws d D last pt HD (n * D + c + 1)) as (n1 & c1 & E1 & Hn1 & Hc1 & P1).
      { split; [|lia]. pose proof (Z.mul_nonneg_nonneg n D). lia. }
      exists n1, c1. split; [exact Hn1|]. split; [lia|]. rewrite <- E1. congruence.
    + rewrite (call_end Ws d D last pt HD) in H. discriminate.
  - destruct IH as (n & c & Hn & Hc & ->). destruct (at_end n c Hn Hc) as [HP|[-> ->]].
    + pose proof (vcall_ok Ws d D last pt v0 HD n c Hn Hc HP) as V1. unfold vcall in V1. rewrite H in V1. discriminate.
    + rewrite (call_end Ws d D last pt HD) in H. exists last, D. split; [lia|]. split; [lia|]. congruence.
  - destruct IH as (n & c & Hn & Hc & ->).
    destruct (Z.eq_dec D 1) as [E1|E1]; [destruct (Z.eq_dec c 1) as [E2|E2]; [destruct (Z.eq_dec z (2 ^ 64 - 1)) as [E3|E3]|]|].
    1:{ subst c z. rewrite wrapped_gen in H by assumption. exists n, 0. split; [exact Hn|]. split; [lia|]. congruence. }
    all: rewrite (discard_ok Ws d D last pt HD) in H by lia;
      match type of H with context [if ?b then _ else _] => destruct b eqn:Eb end; [|discriminate];
      apply Z.leb_le in Eb; destruct (Z.eqb_spec z 0) as [Ez|Ez]; [exists n, c; split; [exact Hn|]; split; [exact Hc|]; congruence|];
      destruct (after_pos Ws d D last pt HD (n * D + c + z)) as (n1 & c1 & Ea & Hn1 & Hc1 & P1);
      [pose proof (Z.mul_nonneg_nonneg n D); lia|];
      exists n1, c1; split; [exact Hn1|]; split; [lia|]; rewrite <- Ea; congruence.
  - destruct IH as (n & c & Hn & Hc & ->).
    destruct (Z.eq_dec D 1) as [E1|E1]; [destruct (Z.eq_dec c 1) as [E2|E2]; [destruct (Z.eq_dec z (2 ^ 64 - 1)) as [E3|E3]|]|].
    1:{ subst c z. rewrite wrapped_gen in H by assumption. discriminate. }
    all: rewrite (discard_ok Ws d D last pt HD) in H by lia;
      match type of H with context [if ?b then _ else _] => destruct b eqn:Eb end; [discriminate|];
      exists n, c; split; [exact Hn|]; split; [exact Hc|]; congruence.
  - destruct IH as (m & c & Hm & Hc & ->). destruct (Z.le_gt_cases n last) as [Le|Gt].
    + rewrite (D6 m n c Hm) in H by lia. exists n, 0. split; [lia|]. split; [lia|]. congruence.
    + rewrite (D7 m n c Hm) in H by lia. discriminate.
  - destruct IH as (m & c & Hm & Hc & ->). destruct (Z.le_gt_cases n last) as [Le|Gt].
    + rewrite (D6 m n c Hm) in H by lia. discriminate.
    + rewrite (D7 m n c Hm) in H by lia. exists m, c. split; [exact Hm|]. split; [exact Hc|]. congruence.
Qed.

Lemma qdiscard_calls : forall e z, qreach Ws d new e -> 0 <= z < 2 ^ 64 -> ~ (D = 1 /\ q_curr e = 1 /\ z = 2 ^ 64 - 1) ->
  match q_discard Ws d e z with
  | Ret e' _ => exists l, callsz (Z.to_nat z) e = Some (e', l)
  | Thr e' => e' = e /\ callsz (Z.to_nat z) e = None
  | Bad => False
  end.
Proof using HD HN v0.
  intros e z R Hz HX. destruct (qreach_at e R) as (n & c & Hn & Hc & ->). cbn [at_ q_curr] in HX.
  rewrite (discard_ok Ws d D last pt HD) by lia.
  rewrite (calls_ok Ws d D last pt v0 HD) by assumption. rewrite Z2Nat.id by lia.
  destruct (Z.leb_spec (n * D + c + z) (ends D last)); [|split; reflexivity].
  destruct (Z.eqb_spec z 0) as [->|N]; [eexists; reflexivity|]. destruct (Nat.eqb_spec (Z.to_nat z) 0); [lia|]. eexists; reflexivity.
Qed.

(* the position: number of values delivered since construction *)
Definition qposition (e : qeng L V) : Z := q_seq e * D + q_curr e.

Lemma qpos_bound : forall n c, 0 <= n <= last -> 0 <= c <= D -> 0 <= n * D + c <= (last + 1) * D.
Proof using HD.
  intros n c Hn Hc. pose proof HD as (D0 & _). assert (n * D <= last * D) by (apply Z.mul_le_mono_nonneg_r; lia).
  pose proof (Z.mul_nonneg_nonneg n D). lia.
Qed.

(* the outputs from a state depend on its position alone *)
Lemma qoutputs_at : forall e z, qreach Ws d new e ->
  0 <= qposition e <= (last + 1) * D /\
  option_map snd (callsz z e) =
  if qposition e + Z.of_nat z <=? (last + 1) * D
  then Some (map (fun i => value D pt v0 (qposition e + Z.of_nat i)) (seq 0 z))
  else None.
Proof using HD HN v0.
  intros e z R. destruct (qreach_at e R) as (n & c & Hn & Hc & ->). unfold qposition. cbn [at_ q_seq q_curr].
  split; [apply qpos_bound; assumption|]. rewrite (calls_ok Ws d D last pt v0 HD) by assumption. unfold ends.
  destruct (Z.leb_spec (n * D + c + Z.of_nat z) ((last + 1) * D)); reflexivity.
Qed.

Lemma qseed_calls : forall e e0 n, qreach Ws d new e -> new = Some (Ret e0 tt) -> 0 <= n <= last ->
  exists e1 e2 l, d_seed d e n = Ret e1 tt /\ callsz (Z.to_nat n * Z.to_nat D) e0 = Some (e2, l) /\ q_eq e1 e2 = true /\
    forall z, option_map snd (callsz z e1) = option_map snd (callsz z e2).
Proof using HD HN v0.
  intros e e0 n R E0 Hn. pose proof HD as (D0 & D1 & D2 & D3 & D4 & D5 & D6 & D7).
  assert (e0 = at' 0 0) by congruence. subst e0. clear E0.
  destruct (qreach_at e R) as (m & c & Hm & Hc & ->).
  assert (HP : 0 * D + 0 + Z.of_nat (Z.to_nat n * Z.to_nat D) = n * D) by (rewrite Nat2Z.inj_mul, !Z2Nat.id by lia; ring).
  assert (HB : n * D + D <= ends D last).
  { unfold ends. assert (n * D <= last * D) by (apply Z.mul_le_mono_nonneg_r; lia). lia. }
  pose proof (calls_ok Ws d D last pt v0 HD (Z.to_nat n * Z.to_nat D) 0 0 ltac:(lia) ltac:(lia)) as C. rewrite HP in C.
  destruct (Z.leb_spec (n * D) (ends D last)); [|lia].
  assert (A : exists n2 c2, (if (Z.to_nat n * Z.to_nat D =? 0)%nat then at' 0 0 else after D pt (n * D)) = at' n2 c2 /\
     0 <= n2 <= last /\ 0 <= c2 <= D /\ n2 * D + c2 = n * D).
  { destruct (Nat.eqb_spec (Z.to_nat n * Z.to_nat D) 0) as [E|E].
    - exists 0, 0. split; [reflexivity|]. assert (n = 0) by (apply Nat.eq_mul_0 in E; lia). subst n. lia.
    - assert (n <> 0) by (intros ->; apply E; reflexivity).
      destruct (after_pos Ws d D last pt HD (n * D)) as (n1 & c1 & Ea & Hn1 & Hc1 & P1); [pose proof (Z.mul_pos_pos n D); lia|].
      exists n1, c1. split; [exact Ea|]. lia. }
  destruct A as (n2 & c2 & EA & Hn2 & Hc2 & P2). rewrite EA in C.
  eexists (at' n 0), (at' n2 c2), _. split; [exact (D6 m n c Hm Hn)|]. split; [exact C|]. split.
  - apply (q_eq_ok Ws d D last pt HD); lia.
  - intros z. rewrite !(calls_ok Ws d D last pt v0 HD) by lia.
    rewrite P2, Z.add_0_r. match goal with |- context [if ?b then _ else _] => destruct b end; reflexivity.
Qed.

Lemma qcall_throws : forall e, qreach Ws d new e ->
  if qposition e <? (last + 1) * D then exists e' v, q_call Ws d e = Ret e' v /\ qposition e' = qposition e + 1 else q_call Ws d e = Thr e.
Proof using HD HN v0.
  intros e R. destruct (qreach_at e R) as (n & c & Hn & Hc & ->). unfold qposition. cbn [at_ q_seq q_curr].
  pose proof (qpos_bound n c Hn Hc) as B. destruct (at_end n c Hn Hc) as [H|[-> ->]].
  - unfold ends in H. destruct (Z.ltb_spec (n * D + c) ((last + 1) * D)); [|lia]. pose proof (vcall_ok Ws d D last pt v0 HD n c Hn Hc H) as V1. unfold vcall in V1.
    destruct (q_call Ws d (at' n c)) as [e' v|e'|]; try discriminate.
    destruct (after_pos Ws d D last pt HD (n * D + c + 1)) as (n1 & c1 & Ea & Hn1 & Hc1 & P1); [unfold ends; lia|].
    exists e', v. split; [reflexivity|]. assert (E : e' = at' n1 c1) by (rewrite <- Ea; congruence). rewrite E. cbn [at_ q_seq q_curr]. lia.
  - destruct (Z.ltb_spec (last * D + D) ((last + 1) * D)); [lia|]. apply (call_end Ws d D last pt HD).
Qed.

Lemma qdiscard_throws : forall e z, qreach Ws d new e -> 0 <= z < 2 ^ 64 -> ~ (D = 1 /\ q_curr e = 1 /\ z = 2 ^ 64 - 1) ->
  if qposition e + z <=? (last + 1) * D then exists e', q_discard Ws d e z = Ret e' tt /\ qposition e' = qposition e + z else q_discard Ws d e z = Thr e.
Proof using HD HN v0.
  intros e z R Hz HX. destruct (qreach_at e R) as (n & c & Hn & Hc & ->). cbn [at_ q_curr] in HX.
  unfold qposition. cbn [at_ q_seq q_curr]. rewrite (discard_ok Ws d D last pt HD) by lia. unfold ends.
  pose proof (qpos_bound n c Hn Hc) as B.
  destruct (Z.leb_spec (n * D + c + z) ((last + 1) * D)) as [H|H]; [|reflexivity]. eexists. split; [reflexivity|].
  destruct (Z.eqb_spec z 0) as [->|N]; [cbn [at_ q_seq q_curr]; lia|].
  destruct (after_pos Ws d D last pt HD (n * D + c + z)) as (n1 & c1 & Ea & Hn1 & Hc1 & P1); [unfold ends; lia|].
  rewrite Ea. cbn [at_ q_seq q_curr]. lia.
Qed.

Lemma qeq_outputs : forall x y, qreach Ws d new x -> qreach Ws d new y ->
  q_eq x y = true <-> forall z, option_map snd (callsz z x) = option_map snd (callsz z y).
Proof using HD HN v0.
  intros x y Rx Ry.
  assert (E : q_eq x y = true <-> qposition x = qposition y).
  { destruct (qreach_at x Rx) as (n & c & Hn & Hc & ->). destruct (qreach_at y Ry) as (m & e & Hm & He & ->). unfold qposition. cbn [at_ q_seq q_curr].
    apply (q_eq_ok Ws d D last pt HD); assumption. }
  rewrite E. set (total := (last + 1) * D). split.
  - intros P z. rewrite (proj2 (qoutputs_at x z Rx)), (proj2 (qoutputs_at y z Ry)), P. reflexivity.
  - intros H. assert (T : forall z, (qposition x + Z.of_nat z <=? total) = (qposition y + Z.of_nat z <=? total)).
    { intros z. specialize (H z). rewrite (proj2 (qoutputs_at x z Rx)), (proj2 (qoutputs_at y z Ry)) in H. fold total in H.
      destruct (qposition x + Z.of_nat z <=? total), (qposition y + Z.of_nat z <=? total); try reflexivity; discriminate. }
    pose proof (proj1 (qoutputs_at x 0 Rx)) as B1. pose proof (proj1 (qoutputs_at y 0 Ry)) as B2. fold total in B1, B2.
    pose proof (T (Z.to_nat (total - qposition x))) as T1. pose proof (T (Z.to_nat (total - qposition y))) as T2. rewrite Z2Nat.id in T1, T2 by lia.
    destruct (Z.leb_spec (qposition x + (total - qposition x)) total), (Z.leb_spec (qposition y + (total - qposition x)) total); try discriminate; try lia.
Qed.

(* reading the text of point n, element c, by an engine whose seed(n) gives point n *)
Lemma qread_ok : forall resize zero n c t e1, 0 <= n <= last -> 0 <= c <= D ->
  (if q_dim t =? D then Some t else match resize (q_lat t) D with Some lat => Some (Qe (q_curr t) (q_seq t) lat (vresize zero (Z.to_nat D) (q_st t))) | None => None end) = Some e1 ->
  d_seed d e1 n = Ret (at' n 0) tt ->
  q_read Ws d resize zero t (q_print (at' n c)) = Ret (at' n c) tt.
Proof using HD.
  intros resize zero n c t e1 Hn Hc E1 ES. pose proof HD as (D0 & _). unfold q_read, q_print. rewrite (q_dim_at Ws d D last pt HD) by exact Hn.
  cbn [at_ q_seq q_curr]. destruct (Z.eqb_spec D 0); [lia|]. rewrite E1, ES. destruct (Z.eqb_spec c 0) as [->|N]; [reflexivity|].
  fold (at' n 0). rewrite (discard_ok Ws d D last pt HD) by lia. rewrite Z.add_0_r.
  destruct (Z.leb_spec (n * D + c) (ends D last)) as [H|H].
  - destruct (Z.eqb_spec c 0); [contradiction|]. unfold after. destruct (pos_pred Ws d D last pt HD n c ltac:(lia) ltac:(lia)) as [-> ->]. reflexivity.
  - exfalso. destruct (at_end n c Hn Hc) as [H'|[-> ->]]; [lia|unfold ends in H; lia].
Qed.
End Reach.
