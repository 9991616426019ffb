(* Witnesses: parameters and states outside the range of the theorems. *)
From Verif Require Import Base StreamModel RingModel RingProofs WinProofs BitsProofs MtModel MtSpec MtProofs TemperProofs Mt2Proofs Mt3Proofs.

(* a four word generator of 4 bit words, output function z xor (z >> 31) *)
Definition pm (m : nat) (r a : Z) := Mtp 32 4 4 m r a 1 0 1 0 1 0 31 5.

Ltac solve_words := split; [reflexivity|]; let u := fresh in let Hu := fresh in intros u Hu; repeat (destruct Hu as [<-|Hu]; [vm_compute; split; congruence|]); destruct Hu.

Lemma pm_params : mt_params (pm 1 2 9) /\ mt_temper_params (pm 1 2 9).
Proof. unfold mt_params, mt_temper_params, pm; cbn; repeat split; try lia. Qed.
Lemma pm2_params : mt_params (pm 2 2 3) /\ mt_temper_params (pm 2 2 3).
Proof. unfold mt_params, mt_temper_params, pm; cbn; repeat split; try lia. Qed.

Lemma wit_r0 : exists p st v st', 32 <= mW p <= 64 /\ 2 <= mw p <= mW p /\ (1 <= mm p < mn p)%nat /\ mr p = 0 /\
  0 <= ma p < 2 ^ mw p /\ mt_temper_params p /\ mt_wf p st /\ mt_next p st = Some (v, st') /\
  forall X, mt_sequence p (mx st) X -> v <> tempered p (X (mi st)).
Proof.
  exists (pm 1 0 9), (Mt [1; 2; 3; 4] 4).
  destruct (mt_next (pm 1 0 9) (Mt [1; 2; 3; 4] 4)) as [[v st']|] eqn:E; [|vm_compute in E; discriminate].
  exists v, st'. split; [cbn; lia|]. split; [cbn; lia|]. split; [cbn; lia|]. split; [reflexivity|]. split; [cbn; lia|].
  split; [unfold mt_temper_params, pm; cbn; repeat split; lia|].
  split; [split; [solve_words|cbn; lia]|]. split; [reflexivity|].
  intros X [X1 X2]. specialize (X2 O). cbn [mx mi Nat.add pm mn mm] in *. rewrite X2.
  rewrite !X1 by (cbn; lia). clear X X1 X2. vm_compute in E. apply Some_eq_inj in E. apply (f_equal fst) in E. cbn [fst] in E. subst v.
  vm_compute. discriminate.
Qed.

Lemma wit_read : exists p st ts st' i v st'', mt_params p /\ mt_temper_params p /\ mt_wf p st /\
  mt_read p st (good_in ts) = (st', i) /\ failb i = false /\ mt_next p st' = Some (v, st'') /\ ~ (0 <= v <= 2 ^ mw p - 1).
Proof.
  exists (pm 1 2 9), (Mt [1; 2; 3; 4] 4), [TInt 100; TInt 200; TInt 300; TInt 400].
  do 4 eexists. split; [apply pm_params|]. split; [apply pm_params|]. split; [split; [solve_words|cbn; lia]|].
  split; [vm_compute; reflexivity|]. split; [reflexivity|]. split; [vm_compute; reflexivity|]. vm_compute. intros [_ H]. apply H. reflexivity.
Qed.

(* m = 1: all words zero except for redundant bits is not detected *)
Lemma wit_zero : exists p arr st, mt_params p /\ mt_temper_params p /\ 2 ^ (mw p - 1) <= ma p /\ mt_words p arr /\
  mt_seed_array p arr = Some st /\ forall n, mt_outputs p n st = Some (repeat 0 n).
Proof.
  exists (pm 1 2 9), [1; 0; 0; 0], (Mt [2; 0; 0; 0] 4). destruct pm_params as [HP HT].
  split; [exact HP|]. split; [exact HT|]. split; [cbn; lia|]. split; [solve_words|]. split; [vm_compute; reflexivity|].
  intro n. assert (Hx: inw (mn (pm 1 2 9)) (mV (pm 1 2 9)) [2; 0; 0; 0]) by solve_words.
  rewrite outputs_sq by (try assumption; cbn; lia). cbn [mx mi]. f_equal.
  assert (E: forall k, sqn (mG (pm 1 2 9)) [2; 0; 0; 0] (4 + k) = 0).
  { intro k. unfold sqn. rewrite iter_plus. replace (iter 4 (wst (mG (pm 1 2 9))) [2; 0; 0; 0]) with (repeat 0 (mn (pm 1 2 9))) by (vm_compute; reflexivity).
    rewrite zeros_iter by exact HP. reflexivity. }
  change (mn (pm 1 2 9)) with 4%nat.
  transitivity (map (fun k => 0) (seq 4 n)).
  - apply map_ext_in. intros k Hk. apply in_seq in Hk. replace k with (4 + (k - 4))%nat by lia. rewrite E. apply tempered_0.
  - generalize 4%nat. induction n as [|n IH]; intro j; [reflexivity|]. cbn [seq map repeat]. f_equal. apply IH.
Qed.

(* m = 1, or a without its top bit: save/restore gives an engine that compares
   equal but has another future *)
Lemma wit_save : forall p v, (p, v) = (pm 1 2 9, 0) \/ (p, v) = (pm 2 2 3, 2) ->
  exists st0 outs st text c i, mt_seed p v = Some st0 /\ run (mt_next p) 1 st0 = Some (outs, st) /\
    mt_write p st = Some text /\ mt_read p st (good_in text) = (c, i) /\ failb i = false /\
    mt_eq p st c = Some true /\ ~ mt_same_future p st c.
Proof.
  intros p v [E|E].
  - assert (E1: p = pm 1 2 9) by exact (f_equal fst E). assert (E2: v = 0) by exact (f_equal snd E). clear E. subst p v.
    do 6 eexists. split; [vm_compute; reflexivity|]. split; [vm_compute; reflexivity|]. split; [vm_compute; reflexivity|].
    split; [vm_compute; reflexivity|]. split; [reflexivity|]. split; [vm_compute; reflexivity|].
    intro H. specialize (H 6%nat). vm_compute in H. discriminate.
  - assert (E1: p = pm 2 2 3) by exact (f_equal fst E). assert (E2: v = 2) by exact (f_equal snd E). clear E. subst p v.
    do 6 eexists. split; [vm_compute; reflexivity|]. split; [vm_compute; reflexivity|]. split; [vm_compute; reflexivity|].
    split; [vm_compute; reflexivity|]. split; [reflexivity|]. split; [vm_compute; reflexivity|].
    intro H. specialize (H 6%nat). vm_compute in H. discriminate.
Qed.

Lemma pm29_params : mt_params (pm 2 2 9) /\ mt_temper_params (pm 2 2 9) /\ mt_reversible (pm 2 2 9).
Proof. unfold mt_params, mt_temper_params, mt_reversible, pm; cbn; repeat split; try lia. Qed.

(* operator>> does not normalise: engines read from texts that differ in redundant bits *)
Lemma wit_redundant : exists p st ts1 ts2 a b i1 i2, mt_params p /\ mt_temper_params p /\ mt_reversible p /\ mt_wf p st /\
  mt_read p st (good_in ts1) = (a, i1) /\ failb i1 = false /\ mt_read p st (good_in ts2) = (b, i2) /\ failb i2 = false /\
  mt_wf p a /\ mt_wf p b /\ mt_eq p a b = Some false /\ mt_same_future p a b.
Proof.
  exists (pm 2 2 9), (Mt [1; 2; 3; 4] 4), [TInt 4; TInt 5; TInt 6; TInt 7], [TInt 5; TInt 5; TInt 6; TInt 7].
  exists (Mt [4; 5; 6; 7] 4), (Mt [5; 5; 6; 7] 4), (good_in []), (good_in []).
  destruct pm29_params as [HP [HT HR]].
  assert (Ha: mt_wf (pm 2 2 9) (Mt [4; 5; 6; 7] 4)) by (split; [solve_words|cbn; lia]).
  assert (Hb: mt_wf (pm 2 2 9) (Mt [5; 5; 6; 7] 4)) by (split; [solve_words|cbn; lia]).
  split; [exact HP|]. split; [exact HT|]. split; [exact HR|]. split; [split; [solve_words|cbn; lia]|].
  split; [vm_compute; reflexivity|]. split; [reflexivity|]. split; [vm_compute; reflexivity|]. split; [reflexivity|].
  split; [exact Ha|]. split; [exact Hb|]. split; [vm_compute; reflexivity|].
  apply same_future_sq; auto.
Qed.

Lemma typedef_params : forall p, In p [mt11213b; mt19937; mt19937_64] -> mt_params p /\ mt_temper_params p /\ mt_reversible p /\ (3 <= mn p)%nat.
Proof.
  intros p [<-|[<-|[<-|[]]]]; unfold mt_params, mt_temper_params, mt_reversible, mt11213b, mt19937, mt19937_64;
  cbn [mW mw mn mm mr ma mu md ms mb mt_ mc ml mf]; repeat split; try lia.
Qed.

Lemma temper_general : forall p, mt_temper_params p ->
  (forall z, 0 <= z < 2 ^ mw p -> 0 <= mt_temper p z < 2 ^ mw p) /\
  (forall y, 0 <= y < 2 ^ mw p -> exists z, 0 <= z < 2 ^ mw p /\ mt_temper p z = y /\
     forall z', 0 <= z' < 2 ^ mw p -> mt_temper p z' = y -> z' = z).
Proof.
  intros p HT. destruct (tempered_bij p HT) as [B1 [B2 B3]]. unfold word in *. split.
  - intros z Hz. rewrite mt_temper_spec by exact HT. auto.
  - intros y Hy. destruct (B3 y Hy) as [z [Hz E]]. exists z. split; [exact Hz|]. rewrite mt_temper_spec by exact HT.
    split; [exact E|]. intros z' Hz' E'. rewrite mt_temper_spec in E' by exact HT. apply B2; auto. congruence.
Qed.
Lemma temper_typedefs : forall p, In p [mt11213b; mt19937; mt19937_64] ->
  (forall z, 0 <= z < 2 ^ mw p -> 0 <= mt_temper p z < 2 ^ mw p) /\
  (forall y, 0 <= y < 2 ^ mw p -> exists z, 0 <= z < 2 ^ mw p /\ mt_temper p z = y /\
     forall z', 0 <= z' < 2 ^ mw p -> mt_temper p z' = y -> z' = z).
Proof. intros p H. apply temper_general. apply typedef_params. exact H. Qed.

Lemma wit_save_m1 : exists p v st0 outs st text c i, mt_params p /\ mt_temper_params p /\ 2 ^ (mw p - 1) <= ma p /\ mm p = 1%nat /\
    mt_seed p v = Some st0 /\ run (mt_next p) 1 st0 = Some (outs, st) /\
    mt_write p st = Some text /\ mt_read p st (good_in text) = (c, i) /\ failb i = false /\
    mt_eq p st c = Some true /\ ~ mt_same_future p st c.
Proof.
  exists (pm 1 2 9), 0. destruct (wit_save (pm 1 2 9) 0 ltac:(auto)) as [st0 [outs [st [text [c [i H]]]]]].
  exists st0, outs, st, text, c, i. split; [apply pm_params|]. split; [apply pm_params|]. split; [cbn; lia|]. split; [reflexivity|]. exact H.
Qed.
Lemma wit_save_top : exists p v st0 outs st text c i, mt_params p /\ mt_temper_params p /\ (2 <= mm p)%nat /\ ma p < 2 ^ (mw p - 1) /\
    mt_seed p v = Some st0 /\ run (mt_next p) 1 st0 = Some (outs, st) /\
    mt_write p st = Some text /\ mt_read p st (good_in text) = (c, i) /\ failb i = false /\
    mt_eq p st c = Some true /\ ~ mt_same_future p st c.
Proof.
  exists (pm 2 2 3), 2. destruct (wit_save (pm 2 2 3) 2 ltac:(auto)) as [st0 [outs [st [text [c [i H]]]]]].
  exists st0, outs, st, text, c, i. split; [apply pm2_params|]. split; [apply pm2_params|]. split; [cbn; lia|]. split; [cbn; lia|]. exact H.
Qed.

Lemma mt_becomes_normal : forall p st n outs st', mt_params p -> mt_reversible p -> mt_wf p st -> mi st = mn p -> (1 <= n)%nat ->
  run (mt_next p) n st = Some (outs, st') -> mt_wf p st' /\ mt_normal p (mx st').
Proof.
  intros p st n outs st' HP HR [Hx Hi] HE Hn E. destruct (mt_run_sq p HP n st Hx Hi) as [s [E1 [F1 [F2 [_ [q [Q F3]]]]]]].
  rewrite E in E1. apply Some_eq_inj in E1. apply (f_equal snd) in E1. cbn [snd] in E1. subst s.
  split; [split; assumption|]. apply (normal_Nm p HP HR _ F1). rewrite F3.
  destruct (q * mn p)%nat as [|k] eqn:K; [lia|]. rewrite iter_succ. apply mst_Nm; auto. apply iter_mst_inm; assumption.
Qed.

Lemma seed_words_range : forall p k i v u, mt_params p -> In u (seed_words p k i v) -> 0 <= u < 2 ^ mw p.
Proof.
  intros p k. induction k as [|k IH]; intros i v u HP H; [destruct H|]. cbn [seed_words] in H. cbv zeta in H.
  destruct H as [<-|H]; [|eapply IH; eauto]. destruct HP as [HW [Hw _]].
  replace (2 ^ mw p - 1) with (Z.ones (mw p)) by (rewrite Z.ones_equiv; lia). rewrite Z.land_ones by lia.
  apply Z.mod_pos_bound. apply Z.pow_pos_nonneg; lia.
Qed.
Lemma seed_words_length : forall p k i v, length (seed_words p k i v) = k.
Proof. intros p k. induction k as [|k IH]; intros i v; [reflexivity|]. cbn [seed_words length]. rewrite IH. reflexivity. Qed.
Lemma seed_value_normal : forall p v, mt_params p -> mt_temper_params p -> mt_reversible p ->
  exists st, mt_seed p v = Some st /\ mt_wf p st /\ mt_normal p (mx st) /\
    exists outs st' u, run (mt_next p) (mn p) st = Some (outs, st') /\ In u outs /\ u <> 0.
Proof.
  intros p v HP HT HR. pose proof HP as [HW [Hw [Hm _]]].
  set (x0 := Z.land (wrap (mW p) v) (2 ^ mw p - 1)).
  assert (H: mt_words p (x0 :: seed_words p (mn p - 1) 1 x0)).
  { split; [cbn [length]; rewrite seed_words_length; lia|]. intros u [<-|Hu]; [|eapply seed_words_range; eauto].
    unfold x0. replace (2 ^ mw p - 1) with (Z.ones (mw p)) by (rewrite Z.ones_equiv; lia). rewrite Z.land_ones by lia.
    apply Z.mod_pos_bound. apply Z.pow_pos_nonneg; lia. }
  destruct (seed_array_ok p _ HP HT HR H) as [st [E [F1 [F2 [_ [F3 _]]]]]]. exists st. auto.
Qed.
