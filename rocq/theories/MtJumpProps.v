(* C23: mersenne_twister_engine::discard *)
From Coq Require Import NArith.
From Verif Require Import Base RingModel MtModel MtSpec MtProofs Mt3Proofs MtWit PolyModel PolySpec PolyProofs Poly4Proofs Poly6Proofs PolyProps MtJumpModel MtJumpSpec MtJump2Proofs MtJump4Proofs.
Open Scope nat_scope.
Ltac Zify.zify_post_hook ::= idtac.

(* Up to the threshold discard(z) leaves the state that z calls leave. *)
Theorem C23_discard_short : forall D thr p z st, (0 <= z <= thr)%Z ->
  mt_discard D thr p z st = (r <- run (mt_next p) (Z.to_nat z) st;; Some (snd r)).
Proof. intros D thr p z st H. unfold mt_discard. destruct (Z.ltb_spec thr z); [lia|]. apply mt_discard_run. Qed.
Print Assumptions C23_discard_short.
Example C23_discard_short_case : exists st, mt_discard 64 10000000 (pm 2 2 3) 5 (Mt [1; 2; 3; 4]%Z 4) = Some st /\ mi st = 1.
Proof. eexists. split; [vm_compute; reflexivity|reflexivity]. Qed.

(* a call leaves i >= 1 *)
Lemma run_index : forall p c st l st', run (mt_next p) c st = Some (l, st') -> 1 <= mi st' \/ st' = st.
Proof.
  intros p c. induction c as [|c IH]; intros st l st' H; cbn [run] in H; [right; congruence|]. left.
  destruct (mt_next p st) as [[v s]|] eqn:E; [|discriminate]. cbn [bind fst snd] in H. destruct (run (mt_next p) c s) as [[l2 s2]|] eqn:E2; [|discriminate]. cbn [bind fst snd] in H.
  assert (s2 = st') by congruence. subst s2. destruct (IH s l2 st' E2) as [| ->]; [assumption|]. unfold mt_next in E.
  destruct (if mi st =? mn p then x <- mt_twist p (mx st);; Some (Mt x 0) else Some st) as [u|]; [|discriminate]. cbn [bind] in E. destruct (get (mx u) (mi u)); [|discriminate]. cbn [bind] in E.
  assert (s = Mt (mx u) (S (mi u))) by congruence. subst s. cbn [mi]. lia.
Qed.

(* Full statement: for all parameters, states and z, discard(z) is equivalent to z
   calls.  It holds when UIntType has w bits, 2 <= m, and the arrays of mod_pow_x
   are long enough (a condition on the polynomial only, see C46); the exceptions
   are shown below.  A state with i = 0 is only left by the jump itself, which
   leaves normal states. *)
Theorem C23_discard_partial : forall D thr p z st, D = 32 \/ D = 64 -> (0 <= thr)%Z -> (0 <= z < 2 ^ 64)%Z ->
  mt_params p -> mt_temper_params p -> mt_jump_params p ->
  (forall b, gap (mt_polynomial p) (mt_degree p) b ->
     division_fits D (2 * ceil (mt_degree p + 1) D) (mt_degree p) b (2 * mt_degree p + 1)) ->
  mt_wf p st -> (1 <= mi st \/ mt_normal p (mx st)) ->
  exists st1 outs st2, mt_discard D thr p z st = Some st1 /\ run (mt_next p) (Z.to_nat z) st = Some (outs, st2) /\
    mt_wf p st1 /\ (1 <= mi st1 \/ mt_normal p (mx st1)) /\ mt_same_future p st1 st2.
Proof.
  intros D thr p z st HD Ht Hz HP HT HJ HF HW HN. pose proof HW as [Hx Hi]. destruct (mt_run_sq p HP (Z.to_nat z) st Hx Hi) as (st2 & E2 & X2 & I2 & Q2 & qq & A1 & A2).
  unfold mt_discard. destruct (Z.ltb_spec thr z) as [L|L].
  - destruct (jump_ok D ltac:(destruct HD; lia) p HP HT HJ (Z.to_N z) st HD HW HN ltac:(lia) HF) as (st1 & E1 & W1 & N1 & Q1).
    exists st1, (map (fun k => mt_temper p (msq p (mx st) k)) (seq (mi st) (Z.to_nat z))), st2. split; [exact E1|]. split; [exact E2|]. split; [exact W1|]. split; [right; exact N1|].
    apply same_future_sq; [exact HP|exact HT|exact W1|split; assumption|]. intro j. rewrite Q1, Q2. f_equal. lia.
  - rewrite mt_discard_run, E2. cbn [bind snd]. eexists st2, _, st2. split; [reflexivity|]. split; [reflexivity|]. split; [split; assumption|]. split; [|intro; reflexivity].
    destruct (run_index p _ _ _ _ E2) as [| ->]; [left; assumption|exact HN].
Qed.
Print Assumptions C23_discard_partial.

(* The engines of the library: discard(z) is equivalent to z calls, whatever the
   width of unsigned long (32 or 64) and the threshold. *)
Lemma gap_unique : forall M d b0, 1 <= b0 <= d -> N.shiftr M (N.of_nat (d - b0)) = N.lxor (N.shiftl 1 (N.of_nat b0)) 1 -> forall b, gap M d b -> b = b0.
Proof.
  intros M d b0 H1 E. assert (C: forall i, coef M (i + (d - b0)) = xorb (i =? b0) (i =? 0)).
  { intro i. rewrite <- coef_shr, E, coef_xor. fold (X b0). change 1%N with (X 0) at 1. rewrite !coef_X. reflexivity. }
  assert (C0: coef M (d - b0) = true). { pose proof (C 0) as C1. cbn [plus] in C1. rewrite C1. destruct b0; [lia|reflexivity]. }
  assert (CM: forall k, d - b0 < k < d -> coef M k = false).
  { intros k Hk. replace k with (k - (d - b0) + (d - b0)) by lia. rewrite C. destruct (Nat.eqb_spec (k - (d - b0)) b0); [lia|]. destruct (Nat.eqb_spec (k - (d - b0)) 0); [lia|reflexivity]. }
  intros b [[-> G]|(G1 & G2 & G3)]; [rewrite G in C0 by lia; discriminate|].
  destruct (Nat.lt_trichotomy b b0) as [L|[L|L]]; [rewrite CM in G2 by lia; discriminate|exact L|rewrite G3 in C0 by lia; discriminate].
Qed.
Lemma fits19937 : forall d b, Z.of_nat d = 19937%Z -> b = 623 \/ b = 311 -> division_fits 64 (2 * ceil (d + 1) 64) d b (2 * d + 1).
Proof.
  intros d b Hd Hb t. cbn zeta. set (x := Nat.max (2 * d + 1 - t * b) d). set (s := Nat.max (2 * d + 1 - S t * b) d). intro HL.
  pose proof (ceil_lt s 64 ltac:(lia)) as C1. pose proof (ceil_lt (x - s) 64 ltac:(lia)) as C2. pose proof (ceil_ge (d + 1) 64 ltac:(lia)) as C3.
  assert (Hs: s <= x) by (unfold s, x; cbn [Nat.mul]; generalize (t * b); intro; lia).
  assert (HB: 311 <= b) by lia.
  destruct t as [|t].
  - assert (Ex: Z.of_nat x = 39875%Z) by (unfold x; lia). assert (Es: (Z.of_nat s = 39875 - Z.of_nat b)%Z) by (unfold s; lia). clearbody x s. destruct Hb; subst b; lia.
  - assert (x + 311 <= 2 * d + 1). { unfold x. cbn [Nat.mul]. generalize (t * b). intro. lia. } clearbody x s. lia.
Qed.
Definition typedefs : list mtp := [mt11213b; mt19937; mt19937_64].
Theorem C23_discard_typedefs : forall p D thr z st, In p typedefs -> D = 32 \/ D = 64 -> (0 <= thr)%Z -> (0 <= z < 2 ^ 64)%Z ->
  mt_wf p st -> (1 <= mi st \/ mt_normal p (mx st)) ->
  exists st1 outs st2, mt_discard D thr p z st = Some st1 /\ run (mt_next p) (Z.to_nat z) st = Some (outs, st2) /\
    mt_wf p st1 /\ (1 <= mi st1 \/ mt_normal p (mx st1)) /\ mt_same_future p st1 st2.
Proof.
  intros p D thr z st Hp HD Ht Hz HW HN. assert (HP: mt_params p /\ mt_temper_params p) by (destruct (typedef_params p) as (A & B & _); [exact Hp|auto]). destruct HP as [HP HT].
  apply C23_discard_partial; try assumption.
  - unfold mt_jump_params. destruct Hp as [<-|[<-|[<-|[]]]]; cbn; (split; [reflexivity|split; [lia|right; reflexivity]]).
  - intros b Hb. assert (B1: 1 <= b) by (destruct Hb; lia). set (d := mt_degree p) in *.
    assert (Ed: Z.of_nat d = (mw p * Z.of_nat (mn p) - mr p)%Z). { unfold d, mt_degree. destruct HP as (_ & H1 & H2 & H3 & _). assert (mr p < mw p * Z.of_nat (mn p))%Z by nia. lia. } clearbody d.
    destruct Hp as [<-|[<-|[<-|[]]]]; cbn [mw mn mr mt11213b mt19937 mt19937_64] in Ed; destruct HD; subst D; match goal with |- context [ceil ?a ?w] => pose proof (ceil_ge a w ltac:(lia)) end.
    1-3, 5: apply C46_division_fits_room; [lia|exact B1|lia].
    + apply fits19937; [lia|]. left. apply (gap_unique (mt_polynomial mt19937) d 623); [lia| |exact Hb]. replace (N.of_nat (d - 623)) with 19314%N by lia. vm_compute. reflexivity.
    + apply fits19937; [lia|]. right. apply (gap_unique (mt_polynomial mt19937_64) d 311); [lia| |exact Hb]. replace (N.of_nat (d - 311)) with 19626%N by lia. vm_compute. reflexivity.
Qed.
Print Assumptions C23_discard_typedefs.
(* the hypotheses hold after seeding *)
Lemma seed_index : forall p v st, mt_seed p v = Some st -> mi st = mn p.
Proof. intros p v st E. unfold mt_seed in E. destruct (mt_normalize _ _) as [x|] in E; [|discriminate]. cbn [bind] in E. assert (E' : st = Mt x (mn p)) by congruence. rewrite E'. reflexivity. Qed.
Example C23_discard_typedefs_case : exists st, mt_seed mt19937_64 1 = Some st /\ mt_wf mt19937_64 st /\ 1 <= mi st.
Proof.
  destruct (typedef_params mt19937_64) as (A & B & C & H3); [simpl; auto|]. destruct (seed_value_normal mt19937_64 1 A B C) as (st & E & F & _). exists st. split; [exact E|]. split; [exact F|].
  rewrite (seed_index _ _ _ E). lia.
Qed.

(* ... and discard(z) compares equal to z calls, from a state that the generator
   can be in (mt_normal, see C22). *)
Theorem C23_discard_equal : forall p D thr z st, In p typedefs -> D = 32 \/ D = 64 -> (0 <= thr)%Z -> (0 <= z < 2 ^ 64)%Z ->
  mt_wf p st -> mt_normal p (mx st) ->
  exists st1 outs st2, mt_discard D thr p z st = Some st1 /\ run (mt_next p) (Z.to_nat z) st = Some (outs, st2) /\
    mt_eq p st1 st2 = Some true.
Proof.
  intros p D thr z st Hp HD Ht Hz HW HN. destruct (typedef_params p Hp) as (HP & HT & HR & _).
  destruct (C23_discard_typedefs p D thr z st Hp HD Ht Hz HW (or_intror HN)) as (st1 & outs & st2 & E1 & E2 & W1 & N1 & F). exists st1, outs, st2. split; [exact E1|]. split; [exact E2|].
  destruct (mt_step_normal p st _ _ _ HP HR HW HN E2) as [W2 N2].
  assert (N1': mt_normal p (mx st1)).
  { destruct N1 as [N1|N1]; [|exact N1]. unfold mt_discard in E1. destruct (Z.ltb_spec thr z) as [L|L].
    - unfold mt_discard_many, reconstruct_state in E1. exfalso.
      repeat match type of E1 with bind ?o _ = Some _ => destruct o; [|discriminate]; cbn [bind] in E1 end. assert (mi st1 = 0) by (inversion E1; reflexivity). lia.
    - rewrite mt_discard_run, E2 in E1. cbn [bind snd] in E1. assert (st2 = st1) by congruence. subst st2. exact N2. }
  destruct (mt_eq_iff p st1 st2 HP HT HR W1 W2 N1' N2) as (e & Ee & He). rewrite Ee. f_equal. apply He. exact F.
Qed.
Print Assumptions C23_discard_equal.

(* A small generator: words of 32 bits, output function z xor (z >> 31). *)
Definition small (w : Z) (n m : nat) (r a : Z) := Mtp 32 w n m r a 1 0 1 0 1 0 31 5.
Lemma small_params : forall w n m r a, (2 <= w <= 32)%Z -> 1 <= m < n -> (1 <= r < w)%Z -> (0 <= a < 2 ^ w)%Z -> mt_params (small w n m r a) /\ mt_temper_params (small w n m r a).
Proof. intros w n m r a H1 H2 H3 H4. assert (0 < 2 ^ w)%Z by (apply Z.pow_pos_nonneg; lia). unfold mt_params, mt_temper_params, small; cbn [mW mw mn mm mr ma mu md ms mb mt_ mc ml mf]. repeat split; try lia. Qed.
(* the top bit of a need not be set, and m may be n - 1 *)
Example C23_discard_partial_case : let p := small 32 3 2 31 5 in let st := Mt [1; 2; 3]%Z 2 in
  mt_params p /\ mt_temper_params p /\ mt_jump_params p /\ mt_wf p st /\ mt_degree p = 65 /\
  (forall b, gap (mt_polynomial p) (mt_degree p) b -> division_fits 32 (2 * ceil (mt_degree p + 1) 32) (mt_degree p) b (2 * mt_degree p + 1)).
Proof.
  cbn zeta. split; [apply small_params; cbn; lia|]. split; [apply small_params; cbn; lia|]. split; [split; [reflexivity|split; [cbn; lia|right; reflexivity]]|].
  split; [split; [solve_words|cbn; lia]|]. split; [reflexivity|]. intros b Hb. apply C46_division_fits_room; [lia|destruct Hb; lia|]. vm_compute. lia.
Qed.

(* UIntType wider than w bits: the reconstructed words have more than w bits. *)
Theorem C23_discard_wide_refuted : exists p z st st1 outs st2, mt_params p /\ mt_temper_params p /\ 2 <= mm p /\ mm p + 2 <= mn p /\ (mw p < mW p)%Z /\
  mt_seed p 1 = Some st /\ (0 <= z < 2 ^ 64)%Z /\ mt_discard 64 0 p z st = Some st1 /\ ~ mt_wf p st1 /\
  run (mt_next p) (Z.to_nat z) st = Some (outs, st2) /\ ~ mt_same_future p st1 st2.
Proof.
  exists (small 5 4 2 2 21), 1%Z. eexists. exists (Mt [3649; 341; 1108; 224]%Z 0). eexists _, _. split; [apply small_params; cbn; lia|]. split; [apply small_params; cbn; lia|]. split; [cbn; lia|]. split; [cbn; lia|]. split; [cbn; lia|].
  split; [vm_compute; reflexivity|]. split; [lia|]. split; [vm_compute; reflexivity|]. split; [|split; [vm_compute; reflexivity|]].
  - intros [[_ H] _]. specialize (H 3649%Z (or_introl eq_refl)). cbn in H. lia.
  - intro H. specialize (H 2). vm_compute in H. discriminate.
Qed.
Print Assumptions C23_discard_wide_refuted.

(* m = 1: the assertion in get_characteristic_polynomial fails. *)
Theorem C23_discard_m1_refuted : exists p z st, mt_params p /\ mt_temper_params p /\ mw p = mW p /\ mm p = 1 /\
  mt_wf p st /\ 1 <= mi st /\ (0 <= z < 2 ^ 64)%Z /\ characteristic_polynomial 64 p = None /\ mt_discard 64 0 p z st = None.
Proof.
  exists (small 32 3 1 31 0x9908b0df), 1%Z, (Mt [1; 2; 3]%Z 2). split; [apply small_params; cbn; lia|]. split; [apply small_params; cbn; lia|]. split; [reflexivity|]. split; [reflexivity|].
  split; [split; [solve_words|cbn; lia]|]. split; [cbn; lia|]. split; [lia|].
  assert (E: characteristic_polynomial 64 (small 32 3 1 31 0x9908b0df) = None) by (vm_compute; reflexivity). split; [exact E|]. unfold mt_discard, mt_discard_many. cbn [Z.ltb Z.compare]. rewrite E. reflexivity.
Qed.
Print Assumptions C23_discard_m1_refuted.

(* mod_pow_x writes outside its arrays (C46_overrun_refuted) for a generator with all
   the other conditions. *)
Theorem C23_discard_overrun_refuted : exists p z st, mt_params p /\ mt_temper_params p /\ mt_jump_params p /\
  mt_wf p st /\ 1 <= mi st /\ (0 <= z < 2 ^ 64)%Z /\ mt_discard 32 0 p z st = None.
Proof.
  exists (small 32 3 2 1 0x9908b0df), 2%Z, (Mt [1; 2; 3]%Z 3). split; [apply small_params; cbn; lia|]. split; [apply small_params; cbn; lia|]. split; [split; [reflexivity|split; [cbn; lia|right; reflexivity]]|].
  split; [split; [solve_words|cbn; lia]|]. split; [cbn; lia|]. split; [lia|]. vm_compute. reflexivity.
Qed.
Print Assumptions C23_discard_overrun_refuted.
