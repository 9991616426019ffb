(* the states an engine can get into, and the statements about them *)
From Verif Require Import Base QrngModel QrngSpec UIntProofs QrngProofs Qrng2Proofs.
Ltac Zify.zify_post_hook ::= idtac.

(* all the states of an engine of dimension D: constructed, then called,
   advanced and seeded, also after exceptions *)
Inductive reach (W w : nat) (lattice : Z -> option (list Z)) (D : nat) : geng -> Prop :=
  | R_new : forall e, q_new lattice (Z.of_nat D) = Some (Ret e tt) -> reach W w lattice D e
  | R_call : forall e e' v, reach W w lattice D e ->
      q_call (Z.of_nat W) (gray_ops (Z.of_nat W) (Z.of_nat w)) e = Ret e' v -> reach W w lattice D e'
  | R_call_throw : forall e e', reach W w lattice D e ->
      q_call (Z.of_nat W) (gray_ops (Z.of_nat W) (Z.of_nat w)) e = Thr e' -> reach W w lattice D e'
  | R_discard : forall e e' z, reach W w lattice D e -> 0 <= z < 2 ^ 64 ->
      q_discard (Z.of_nat W) (gray_ops (Z.of_nat W) (Z.of_nat w)) e z = Ret e' tt -> reach W w lattice D e'
  | R_discard_throw : forall e e' z, reach W w lattice D e -> 0 <= z < 2 ^ 64 ->
      q_discard (Z.of_nat W) (gray_ops (Z.of_nat W) (Z.of_nat w)) e z = Thr e' -> reach W w lattice D e'
  | R_seed : forall e e' n, reach W w lattice D e -> 0 <= n < 2 ^ Z.of_nat W ->
      g_seed (Z.of_nat W) (Z.of_nat w) e n = Ret e' tt -> reach W w lattice D e'
  | R_seed_throw : forall e e' n, reach W w lattice D e -> 0 <= n < 2 ^ Z.of_nat W ->
      g_seed (Z.of_nat W) (Z.of_nat w) e n = Thr e' -> reach W w lattice D e'.

Section Reach.
Context (W w : nat) (lattice : Z -> option (list Z)) (D : nat) (lat : list Z).
Hypothesis HW : (1 <= w <= W)%nat /\ (W <= 64)%nat.
Hypothesis HD : (1 <= D)%nat /\ Z.of_nat D < 2 ^ 63.
Hypothesis HLat : lattice (Z.of_nat D) = Some lat.
Hypothesis HLen : length lat = (w * D)%nat.
Let Ws := Z.of_nat W.
Let ops := gray_ops Ws (Z.of_nat w).
Let last := 2 ^ Z.of_nat w - 2.
Let at' := at_ (gpt lat D w).

Lemma der : derived_ok Ws ops (Z.of_nat D) last (gpt lat D w).
Proof using HW HD HLen. apply gray_derived; lia. Qed.

Lemma wrapped_discard : forall n, 0 <= n <= last -> Z.of_nat D = 1 ->
  q_discard Ws ops (at' n 1) (2 ^ 64 - 1) = Ret (at' n 0) tt.
Proof using HW HD HLen.
  intros n Hn E. pose proof der as HD1. unfold q_discard. rewrite (q_dim_at Ws ops (Z.of_nat D) last (gpt lat D w) HD1) by exact Hn. rewrite E.
  change (q_curr (at' n 1)) with 1. change ((2 ^ 64 - 1) mod 1) with 0. change ((2 ^ 64 - 1) / 1) with (2 ^ 64 - 1).
  change (wrap 64 (1 + 0)) with 1. change (1 / 1) with 1. change (1 mod 1) with 0. change (wrap 64 (2 ^ 64 - 1 + 1)) with 0.
  change (0 =? 0) with true. cbn [andb negb]. change (wrap 64 (0 - 0)) with 0.
  unfold at' in *. rewrite (discard_vector_ok Ws ops (Z.of_nat D) last (gpt lat D w) HD1) by lia. rewrite Z.add_0_r. destruct (Z.leb_spec n last); [|lia]. reflexivity.
Qed.

Lemma reach_at : forall e, reach W w lattice D e -> exists n c, 0 <= n <= last /\ 0 <= c <= Z.of_nat D /\ e = at' n c.
Proof using HW HD HLat HLen.
  intros e R. pose proof der as HD1. pose proof HD1 as (D0 & D1 & D2 & D3 & D4 & D5 & D6 & D7).
  fold Ws in R. induction R as [e H|e e' v _ IH H|e e' _ IH H|e e' z _ IH Hz H|e e' z _ IH Hz H|e e' n _ IH Hn H|e e' n _ IH Hn H].
  - rewrite (q_new_ok lattice lat D w) in H by (assumption || lia). exists 0, 0. split; [unfold last in *; lia|]. split; [lia|]. unfold at'. congruence.
  - destruct IH as (n & c & Hn & Hc & ->). fold Ws in H. fold ops in H.
    destruct (Z.eq_dec (n * Z.of_nat D + c) (ends (Z.of_nat D) last)) as [E|E].
    + assert (n = last /\ c = Z.of_nat D) as [-> ->].
      { unfold ends in E. assert (n * Z.of_nat D <= last * Z.of_nat D) by (apply Z.mul_le_mono_nonneg_r; lia).
        assert (c = Z.of_nat D) by lia. subst c. split; [|lia]. assert (n * Z.of_nat D = last * Z.of_nat D) by lia. apply Z.mul_cancel_r in H1; lia. }
      unfold at' in H. rewrite (call_end Ws ops (Z.of_nat D) last (gpt lat D w) HD1) in H. discriminate.
    + assert (HP : n * Z.of_nat D + c < ends (Z.of_nat D) last). { unfold ends in *. assert (n * Z.of_nat D <= last * Z.of_nat D) by (apply Z.mul_le_mono_nonneg_r; lia). lia. }
      pose proof (vcall_ok Ws ops (Z.of_nat D) last (gpt lat D w) 0 HD1 n c Hn Hc HP) as V. unfold vcall in V. unfold at' in H. rewrite H in V.
      destruct (after_pos Ws ops (Z.of_nat D) last (gpt lat D w) HD1 (n * Z.of_nat D + c + 1)) as (n1 & c1 & E1 & Hn1 & Hc1 & P1).
      { split; [|lia]. pose proof (Z.mul_nonneg_nonneg n (Z.of_nat D)). lia. }
      exists n1, c1. split; [exact Hn1|]. split; [lia|]. unfold at'. rewrite <- E1. congruence.
  - destruct IH as (n & c & Hn & Hc & ->). fold Ws in H. fold ops in H.
    destruct (Z.eq_dec (n * Z.of_nat D + c) (ends (Z.of_nat D) last)) as [E|E].
    + assert (n = last /\ c = Z.of_nat D) as [-> ->].
      { unfold ends in E. assert (n * Z.of_nat D <= last * Z.of_nat D) by (apply Z.mul_le_mono_nonneg_r; lia).
        assert (c = Z.of_nat D) by lia. subst c. split; [|lia]. assert (n * Z.of_nat D = last * Z.of_nat D) by lia. apply Z.mul_cancel_r in H1; lia. }
      unfold at' in H. rewrite (call_end Ws ops (Z.of_nat D) last (gpt lat D w) HD1) in H. exists last, (Z.of_nat D). split; [lia|]. split; [lia|]. unfold at'. congruence.
    + assert (HP : n * Z.of_nat D + c < ends (Z.of_nat D) last). { unfold ends in *. assert (n * Z.of_nat D <= last * Z.of_nat D) by (apply Z.mul_le_mono_nonneg_r; lia). lia. }
      pose proof (vcall_ok Ws ops (Z.of_nat D) last (gpt lat D w) 0 HD1 n c Hn Hc HP) as V. unfold vcall in V. unfold at' in H. rewrite H in V. discriminate.
  - destruct IH as (n & c & Hn & Hc & ->). fold Ws in H. fold ops in H.
    destruct (Z.eq_dec (Z.of_nat D) 1) as [E1|E1]; [destruct (Z.eq_dec c 1) as [E2|E2]; [destruct (Z.eq_dec z (2 ^ 64 - 1)) as [E3|E3]|]|].
    1:{ subst c z. rewrite wrapped_discard in H by assumption. exists n, 0. split; [exact Hn|]. split; [lia|]. congruence. }
    all: unfold at' in H; rewrite (discard_ok Ws ops (Z.of_nat D) last (gpt lat D w) HD1) in H by lia;
      match type of H with context [if ?b then _ else _] => destruct b eqn:Eb end; [|discriminate];
      apply Z.leb_le in Eb; destruct (Z.eqb_spec z 0) as [Ez|Ez]; [exists n, c; split; [exact Hn|]; split; [exact Hc|]; unfold at'; congruence|];
      destruct (after_pos Ws ops (Z.of_nat D) last (gpt lat D w) HD1 (n * Z.of_nat D + c + z)) as (n1 & c1 & Ea & Hn1 & Hc1 & P1);
      [pose proof (Z.mul_nonneg_nonneg n (Z.of_nat D)); lia|];
      exists n1, c1; split; [exact Hn1|]; split; [lia|]; unfold at'; rewrite <- Ea; congruence.
  - destruct IH as (n & c & Hn & Hc & ->). fold Ws in H. fold ops in H.
    destruct (Z.eq_dec (Z.of_nat D) 1) as [E1|E1]; [destruct (Z.eq_dec c 1) as [E2|E2]; [destruct (Z.eq_dec z (2 ^ 64 - 1)) as [E3|E3]|]|].
    1:{ subst c z. rewrite wrapped_discard in H by assumption. discriminate. }
    all: unfold at' in H; rewrite (discard_ok Ws ops (Z.of_nat D) last (gpt lat D w) HD1) in H by lia;
      match type of H with context [if ?b then _ else _] => destruct b eqn:Eb end; [discriminate|];
      exists n, c; split; [exact Hn|]; split; [exact Hc|]; unfold at'; congruence.
  - destruct IH as (m & c & Hm & Hc & ->). destruct (Z.le_gt_cases n last) as [L|L].
    + pose proof (D6 m n c Hm ltac:(lia)) as S1. cbn [ops gray_ops d_seed] in S1. fold Ws in H. unfold at' in H. rewrite H in S1.
      exists n, 0. split; [lia|]. split; [lia|]. unfold at'. congruence.
    + pose proof (D7 m n c Hm ltac:(unfold Ws; lia)) as S1. cbn [ops gray_ops d_seed] in S1. fold Ws in H. unfold at' in H. rewrite H in S1. discriminate.
  - destruct IH as (m & c & Hm & Hc & ->). destruct (Z.le_gt_cases n last) as [L|L].
    + pose proof (D6 m n c Hm ltac:(lia)) as S1. cbn [ops gray_ops d_seed] in S1. fold Ws in H. unfold at' in H. rewrite H in S1. discriminate.
    + pose proof (D7 m n c Hm ltac:(unfold Ws; lia)) as S1. cbn [ops gray_ops d_seed] in S1. fold Ws in H. unfold at' in H. rewrite H in S1.
      exists m, c. split; [exact Hm|]. split; [exact Hc|]. unfold at'. congruence.
Qed.

Definition ocalls (z : nat) (e : geng) : option (geng * list Z) := calls (vcall Ws ops) z e.

Lemma discard_calls : forall e z, reach W w lattice D e -> 0 <= z < 2 ^ 64 -> ~ (D = 1%nat /\ q_curr e = 1 /\ z = 2 ^ 64 - 1) ->
  match q_discard Ws ops e z with
  | Ret e' _ => exists l, ocalls (Z.to_nat z) e = Some (e', l)
  | Thr e' => e' = e /\ ocalls (Z.to_nat z) e = None
  | Bad => False
  end.
Proof using HW HD HLat HLen.
  intros e z R Hz HN. pose proof der as HD1. destruct (reach_at e R) as (n & c & Hn & Hc & ->). cbn [at' at_ q_curr] in HN.
  unfold ocalls, at'. rewrite (discard_ok Ws ops (Z.of_nat D) last (gpt lat D w) HD1) by lia.
  rewrite (calls_ok Ws ops (Z.of_nat D) last (gpt lat D w) 0 HD1) by assumption. rewrite Z2Nat.id by lia.
  destruct (Z.leb_spec (n * Z.of_nat D + c + z) (ends (Z.of_nat D) last)); [|split; reflexivity].
  destruct (Z.eqb_spec z 0) as [->|N]; [eexists; reflexivity|]. destruct (Nat.eqb_spec (Z.to_nat z) 0); [lia|]. eexists; reflexivity.
Qed.

(* the position: number of values delivered since construction *)
Definition position (e : geng) : Z := q_seq e * Z.of_nat D + q_curr e.
Definition total : Z := (2 ^ Z.of_nat w - 1) * Z.of_nat D.

Lemma total_ends : ends (Z.of_nat D) last = total.
Proof using. unfold ends, total, last. ring. Qed.

Lemma pos_bound : forall n c, 0 <= n <= last -> 0 <= c <= Z.of_nat D -> 0 <= n * Z.of_nat D + c <= total.
Proof using HW HD HLen.
  intros n c Hn Hc. rewrite <- total_ends. unfold ends. assert (n * Z.of_nat D <= last * Z.of_nat D) by (apply Z.mul_le_mono_nonneg_r; lia).
  pose proof (Z.mul_nonneg_nonneg n (Z.of_nat D)). lia.
Qed.

(* the outputs from a state depend on its position alone *)
Lemma outputs_at : forall e z, reach W w lattice D e ->
  0 <= position e <= total /\
  option_map snd (ocalls z e) =
  if position e + Z.of_nat z <=? total
  then Some (map (fun i => let p := position e + Z.of_nat i in coord lat D w (p / Z.of_nat D + 1) (Z.to_nat (p mod Z.of_nat D))) (seq 0 z))
  else None.
Proof using HW HD HLat HLen.
  intros e z R. pose proof der as HD1. destruct (reach_at e R) as (n & c & Hn & Hc & ->). unfold position. cbn [at' at_ q_seq q_curr].
  split; [apply pos_bound; assumption|]. unfold ocalls. rewrite (calls_ok Ws ops (Z.of_nat D) last (gpt lat D w) 0 HD1) by assumption. rewrite total_ends.
  destruct (Z.leb_spec (n * Z.of_nat D + c + Z.of_nat z) total); [|reflexivity]. cbn [option_map snd]. f_equal. apply map_ext. intros i.
  unfold value. cbn [gpt snd]. unfold point. pose proof (Z.mod_pos_bound (n * Z.of_nat D + c + Z.of_nat i) (Z.of_nat D) ltac:(lia)).
  rewrite nth_indep with (d' := coord lat D w ((n * Z.of_nat D + c + Z.of_nat i) / Z.of_nat D + 1) 0%nat) by (rewrite map_length, seq_length; lia).
  rewrite map_nth, seq_nth by lia. reflexivity.
Qed.

Lemma seed_calls : forall e e0 n, reach W w lattice D e -> q_new lattice (Z.of_nat D) = Some (Ret e0 tt) -> 0 <= n < 2 ^ Z.of_nat w - 1 ->
  exists e1 e2 l, g_seed Ws (Z.of_nat w) e n = Ret e1 tt /\ ocalls (Z.to_nat n * D) e0 = Some (e2, l) /\ q_eq e1 e2 = true /\
    forall z, option_map snd (ocalls z e1) = option_map snd (ocalls z e2).
Proof using HW HD HLat HLen.
  intros e e0 n R E0 Hn. pose proof der as HD1. pose proof HD1 as (D0 & D1 & D2 & D3 & D4 & D5 & D6 & D7).
  rewrite (q_new_ok lattice lat D w) in E0 by (assumption || lia). assert (e0 = at' 0 0) by (unfold at'; congruence). subst e0. clear E0.
  destruct (reach_at e R) as (m & c & Hm & Hc & ->).
  assert (HP : 0 * Z.of_nat D + 0 + Z.of_nat (Z.to_nat n * D) = n * Z.of_nat D) by lia.
  assert (HB : n * Z.of_nat D + Z.of_nat D <= ends (Z.of_nat D) last).
  { unfold ends. assert (n * Z.of_nat D <= last * Z.of_nat D) by (apply Z.mul_le_mono_nonneg_r; unfold last; lia). lia. }
  pose proof (calls_ok Ws ops (Z.of_nat D) last (gpt lat D w) 0 HD1 (Z.to_nat n * D) 0 0 ltac:(lia) ltac:(lia)) as C. rewrite HP in C.
  destruct (Z.leb_spec (n * Z.of_nat D) (ends (Z.of_nat D) last)); [|lia].
  assert (A : exists n2 c2, (if (Z.to_nat n * D =? 0)%nat then at' 0 0 else after (Z.of_nat D) (gpt lat D w) (n * Z.of_nat D)) = at' n2 c2 /\
     0 <= n2 <= last /\ 0 <= c2 <= Z.of_nat D /\ n2 * Z.of_nat D + c2 = n * Z.of_nat D).
  { destruct (Nat.eqb_spec (Z.to_nat n * D) 0) as [E|E].
    - exists 0, 0. split; [reflexivity|]. lia.
    - destruct (after_pos Ws ops (Z.of_nat D) last (gpt lat D w) HD1 (n * Z.of_nat D)) as (n1 & c1 & Ea & Hn1 & Hc1 & P1); [lia|].
      exists n1, c1. split; [exact Ea|]. lia. }
  destruct A as (n2 & c2 & EA & Hn2 & Hc2 & P2). fold at' in C. unfold at' in C at 2. fold (at' 0 0) in C. rewrite EA in C.
  eexists (at' n 0), (at' n2 c2), _. split; [exact (D6 m n c Hm ltac:(unfold last; lia))|]. split; [exact C|]. split.
  - apply (q_eq_ok Ws ops (Z.of_nat D) last (gpt lat D w) HD1); unfold last in *; lia.
  - intros z. unfold ocalls, at'. rewrite !(calls_ok Ws ops (Z.of_nat D) last (gpt lat D w) 0 HD1) by (unfold last in *; lia).
    rewrite P2, Z.add_0_r. match goal with |- context [if ?b then _ else _] => destruct b end; reflexivity.
Qed.

Lemma call_throws : forall e, reach W w lattice D e ->
  if position e <? total then exists e' v, q_call Ws ops e = Ret e' v /\ position e' = position e + 1 else q_call Ws ops e = Thr e.
Proof using HW HD HLat HLen.
  intros e R. pose proof der as HD1. destruct (reach_at e R) as (n & c & Hn & Hc & ->). unfold position. cbn [at' at_ q_seq q_curr].
  pose proof (pos_bound n c Hn Hc) as B. pose proof HD1 as (D0 & _). destruct (Z.ltb_spec (n * Z.of_nat D + c) total) as [H|H].
  - pose proof (vcall_ok Ws ops (Z.of_nat D) last (gpt lat D w) 0 HD1 n c Hn Hc ltac:(rewrite total_ends; exact H)) as V. unfold vcall in V. fold at' in V.
    destruct (q_call Ws ops (at' n c)) as [e' v|e'|]; try discriminate.
    destruct (after_pos Ws ops (Z.of_nat D) last (gpt lat D w) HD1 (n * Z.of_nat D + c + 1)) as (n1 & c1 & Ea & Hn1 & Hc1 & P1); [rewrite total_ends; lia|].
    exists e', v. split; [reflexivity|]. assert (E : e' = at' n1 c1) by (unfold at'; rewrite <- Ea; congruence). rewrite E. cbn [at' at_ q_seq q_curr]. lia.
  - assert (E : n = last /\ c = Z.of_nat D).
    { assert (n * Z.of_nat D <= last * Z.of_nat D) by (apply Z.mul_le_mono_nonneg_r; lia). rewrite <- total_ends in *. unfold ends in *.
      assert (c = Z.of_nat D) by lia. subst c. split; [|lia]. assert (E : n * Z.of_nat D = last * Z.of_nat D) by lia. apply Z.mul_cancel_r in E; lia. }
    destruct E as [-> ->]. apply (call_end Ws ops (Z.of_nat D) last (gpt lat D w) HD1).
Qed.

Lemma discard_throws : forall e z, reach W w lattice D e -> 0 <= z < 2 ^ 64 -> ~ (D = 1%nat /\ q_curr e = 1 /\ z = 2 ^ 64 - 1) ->
  if position e + z <=? total then exists e', q_discard Ws ops e z = Ret e' tt /\ position e' = position e + z else q_discard Ws ops e z = Thr e.
Proof using HW HD HLat HLen.
  intros e z R Hz HN. pose proof der as HD1. destruct (reach_at e R) as (n & c & Hn & Hc & ->). cbn [at' at_ q_curr] in HN.
  unfold position. cbn [at' at_ q_seq q_curr]. rewrite (discard_ok Ws ops (Z.of_nat D) last (gpt lat D w) HD1) by lia. rewrite total_ends.
  pose proof (pos_bound n c Hn Hc) as B.
  destruct (Z.leb_spec (n * Z.of_nat D + c + z) total) as [H|H]; [|reflexivity]. eexists. split; [reflexivity|].
  destruct (Z.eqb_spec z 0) as [->|N]; [cbn [at_ q_seq q_curr]; lia|].
  destruct (after_pos Ws ops (Z.of_nat D) last (gpt lat D w) HD1 (n * Z.of_nat D + c + z)) as (n1 & c1 & Ea & Hn1 & Hc1 & P1); [rewrite total_ends; lia|].
  rewrite Ea. cbn [at_ q_seq q_curr]. lia.
Qed.

Lemma seed_throws : forall e n, reach W w lattice D e -> 0 <= n < 2 ^ Z.of_nat W ->
  if n <? 2 ^ Z.of_nat w - 1 then exists e', g_seed Ws (Z.of_nat w) e n = Ret e' tt /\ position e' = n * Z.of_nat D else g_seed Ws (Z.of_nat w) e n = Thr e.
Proof using HW HD HLat HLen.
  intros e n R Hn. pose proof der as HD1. pose proof HD1 as (D0 & D1 & D2 & D3 & D4 & D5 & D6 & D7). destruct (reach_at e R) as (m & c & Hm & Hc & ->).
  destruct (Z.ltb_spec n (2 ^ Z.of_nat w - 1)) as [H|H].
  - eexists. split; [exact (D6 m n c Hm ltac:(unfold last; lia))|]. unfold position. cbn [at_ q_seq q_curr]. lia.
  - apply (D7 m n c Hm). unfold last, Ws. lia.
Qed.

Lemma q_eq_outputs : forall x y, reach W w lattice D x -> reach W w lattice D y ->
  q_eq x y = true <-> forall z, option_map snd (ocalls z x) = option_map snd (ocalls z y).
Proof using HW HD HLat HLen.
  intros x y Rx Ry. pose proof der as HD1.
  assert (E : q_eq x y = true <-> position x = position y).
  { destruct (reach_at x Rx) as (n & c & Hn & Hc & ->). destruct (reach_at y Ry) as (m & e & Hm & He & ->). unfold position. cbn [at' at_ q_seq q_curr].
    apply (q_eq_ok Ws ops (Z.of_nat D) last (gpt lat D w) HD1); assumption. }
  rewrite E. split.
  - intros P z. rewrite (proj2 (outputs_at x z Rx)), (proj2 (outputs_at y z Ry)), P. reflexivity.
  - intros H. assert (T : forall z, (position x + Z.of_nat z <=? total) = (position y + Z.of_nat z <=? total)).
    { intros z. specialize (H z). rewrite (proj2 (outputs_at x z Rx)), (proj2 (outputs_at y z Ry)) in H.
      destruct (position x + Z.of_nat z <=? total), (position y + Z.of_nat z <=? total); try reflexivity; discriminate. }
    pose proof (proj1 (outputs_at x 0 Rx)) as B1. pose proof (proj1 (outputs_at y 0 Ry)) as B2.
    pose proof (T (Z.to_nat (total - position x))) as T1. pose proof (T (Z.to_nat (total - position y))) as T2. rewrite Z2Nat.id in T1, T2 by lia.
    destruct (Z.leb_spec (position x + (total - position x)) total), (Z.leb_spec (position y + (total - position x)) total); try discriminate; try lia.
Qed.
End Reach.
