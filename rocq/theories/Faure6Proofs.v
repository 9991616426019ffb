(* faure.hpp: the engine with the default prime table *)
From Coq Require Import ZArith Znumtheory Arith Lia List QArith Qabs.
From Verif Require Import Base QrngModel QrngSpec QrngProofs Qrng5Proofs QReachProofs FloatModel FloatSpec FloatProofs
  FaureModel FaureSpec FaureNetProofs FaureNet2Proofs FaureProofs Faure2Proofs Faure3Proofs Faure4Proofs Faure5Proofs.
Ltac Zify.zify_post_hook ::= idtac.
Open Scope Z_scope.

Definition faure_new f md Ws (D : nat) := f_new f md Ws primes_lower_bound (Z.of_nat D).

Lemma setup : forall f md Ws D, fmt_ok f -> 24 <= prec f -> 32 <= Ws <= 64 -> (1 <= D <= 1117)%nat ->
  exists b, primes_lower_bound (Z.of_nat D) = Some b /\ In b faure_primes /\
    derived_ok Ws (faure_ops f md Ws) (Z.of_nat D) (2 ^ Ws - 1) (fpt f md Ws b D) /\
    faure_new f md Ws D = Some (Ret (at_ (fpt f md Ws b D) 0 0) tt) /\
    (forall l st c q m, lat_ok b l -> length st = D -> 0 <= m < 2 ^ Ws -> f_seed f md Ws (Qe c q l st) m = Ret (at_ (fpt f md Ws b D) m 0) tt) /\
    (forall n, 0 <= n < 2 ^ Ws -> lat_ok b (fst (fpt f md Ws b D n)) /\ length (snd (fpt f md Ws b D n)) = D).
Proof.
  intros f md Ws D Hf HP HW HD. pose proof (lower_bound_ok (Z.of_nat D) ltac:(lia)) as LB. destruct (primes_lower_bound (Z.of_nat D)) as [b|] eqn:EB; [|lia].
  destruct LB as (_ & Hp & Hb & _). exists b. assert (HI : In b faure_primes) by (apply table_iff; split; [exact Hp|lia]).
  pose proof (prime_ge_2 b Hp) as B2. assert (HB : 2 <= b < 2 ^ 16) by lia.
  assert (HBW : b < 2 ^ Ws). { apply Z.lt_le_trans with (2 ^ 32); [lia|apply Z.pow_le_mono_r; lia]. }
  assert (HDD : (1 <= D)%nat /\ Z.of_nat D < 2 ^ 63) by lia. pose proof (exact_ok b Ws (prec f) HI ltac:(lia) HP) as HE.
  split; [reflexivity|]. split; [exact HI|]. split; [apply faure_derived; (assumption || lia)|]. split; [apply new_ok; (assumption || lia)|].
  split; [intros; apply seed_any; (assumption || lia)|]. intros n Hn.
  destruct (update_pt f md Hf Ws b D ltac:(lia) HB HBW HDD HE n Hn) as (H1 & H2 & _). split; assumption.
Qed.

Lemma point_ok : forall f md Ws D b, fmt_ok f -> 24 <= prec f -> 32 <= Ws <= 64 -> (1 <= D <= 1117)%nat -> In b faure_primes ->
  forall n, 0 <= n < 2 ^ Ws -> exists h, has_digits b n h /\ snd (fpt f md Ws b D n) = map (fcoord f md b h n) (seq 0 D) /\
    f_y (fst (fpt f md Ws b D n)) = map (fun i => inject_Z (fdigit b n (D - 1) i)) (seq 0 h).
Proof.
  intros f md Ws D b Hf HP HW HD HI n Hn. assert (B2 : 2 <= b <= 1117) by (apply table_iff in HI; destruct HI as [P ?]; pose proof (prime_ge_2 b P); lia).
  assert (HBW : b < 2 ^ Ws). { apply Z.lt_le_trans with (2 ^ 32); [lia|apply Z.pow_le_mono_r; lia]. }
  destruct (update_ok f md Hf Ws b D ltac:(lia) ltac:(lia) HBW ltac:(lia) (exact_ok b Ws (prec f) HI ltac:(lia) HP) n Hn) as (h & tab & HH & ET & HU).
  exists h. split; [exact HH|]. unfold fpt. rewrite (HU _ (lat_new b [] 0)). split; reflexivity.
Qed.

Lemma points : forall f md Ws D, fmt_ok f -> 24 <= prec f -> 32 <= Ws <= 64 -> (1 <= D <= 1117)%nat ->
  forall e, faure_new f md Ws D = Some (Ret e tt) ->
  exists b, primes_lower_bound (Z.of_nat D) = Some b /\ forall z,
  match calls (vcall Ws (faure_ops f md Ws)) z e with
  | Some (_, l) => Z.of_nat z <= 2 ^ Ws * Z.of_nat D /\ length l = z /\
      forall i, (i < z)%nat -> (0 <= nth i l 0 /\
        Qabs (nth i l 0 - fvalue b (Z.of_nat (i / D)%nat) (i mod D)%nat) <= 10 * inject_Z (Z.of_nat (len (Z.of_nat (i / D)%nat))) * p2 (1 - prec f))%Q /\ ((i mod D)%nat = 0%nat -> (nth i l 0 <= 1)%Q)
  | None => 2 ^ Ws * Z.of_nat D < Z.of_nat z
  end.
Proof.
  intros f md Ws D Hf HP HW HD e HN. destruct (setup f md Ws D Hf HP HW HD) as (b & EB & HI & HDer & HNew & _). exists b. split; [exact EB|]. intros z.
  pose proof (qoutputs_at Ws _ (Z.of_nat D) (2 ^ Ws - 1) (fpt f md Ws b D) 0%Q _ HDer HNew e z (Q_new _ _ _ _ HN)) as [_ O].
  assert (e = at_ (fpt f md Ws b D) 0 0) by congruence. subst e. unfold qposition in O. cbn [at_ q_seq q_curr] in O. rewrite Z.add_0_r, Z.mul_0_l, Z.add_0_l in O. rewrite Z.sub_add in O.
  destruct (calls (vcall Ws (faure_ops f md Ws)) z _) as [[e' l]|]; cbn [option_map snd] in O; destruct (Z.leb_spec (Z.of_nat z) (2 ^ Ws * Z.of_nat D)) as [H|H]; try discriminate; [|lia].
  assert (EL : l = map (fun i => value (Z.of_nat D) (fpt f md Ws b D) 0%Q (0 + Z.of_nat i)) (seq 0 z)) by congruence. subst l.
  split; [exact H|]. split; [rewrite map_length, seq_length; reflexivity|]. intros i Hi.
  rewrite (nth_indep _ _ (value (Z.of_nat D) (fpt f md Ws b D) 0%Q (0 + Z.of_nat 0))) by (rewrite map_length, seq_length; exact Hi).
  rewrite (map_nth (fun i => value (Z.of_nat D) (fpt f md Ws b D) 0%Q (0 + Z.of_nat i))), seq_nth by exact Hi. rewrite Z.add_0_l. cbn [Nat.add]. unfold value.
  rewrite <- Nat2Z.inj_div, <- Nat2Z.inj_mod, Nat2Z.id.
  assert (HND : 0 <= Z.of_nat (i / D) < 2 ^ Ws).
  { split; [lia|]. rewrite Nat2Z.inj_div. apply Z.div_lt_upper_bound; lia. }
  destruct (point_ok f md Ws D b Hf HP HW HD HI _ HND) as (h & HH & EP & _). rewrite EP.
  pose proof (Nat.mod_upper_bound i D ltac:(lia)).
  rewrite (nth_indep _ _ (fcoord f md b h (Z.of_nat (i / D)) 0)) by (rewrite map_length, seq_length; assumption). rewrite map_nth, seq_nth by assumption. cbn [Nat.add].
  destruct (fcoord_err f md Hf HP Ws b ltac:(lia) HI h (Z.of_nat (i / D)) (i mod D) HND HH) as (R0 & R1 & R2). split; [split; assumption|exact R1].
Qed.

(* the digits kept by the engine *)
Lemma digits_kept : forall f md Ws D, fmt_ok f -> 24 <= prec f -> 32 <= Ws <= 64 -> (1 <= D <= 1117)%nat ->
  exists b, primes_lower_bound (Z.of_nat D) = Some b /\
  forall e, qreach Ws (faure_ops f md Ws) (faure_new f md Ws D) e ->
  f_base (q_lat e) = b /\ q_seq e < b ^ Z.of_nat (length (f_y (q_lat e))) /\
  forall i, (i < length (f_y (q_lat e)))%nat -> nth i (f_y (q_lat e)) 0%Q = inject_Z (fdigit b (q_seq e) (D - 1) i).
Proof.
  intros f md Ws D Hf HP HW HD. destruct (setup f md Ws D Hf HP HW HD) as (b & EB & HI & HDer & HNew & _ & HL). exists b. split; [exact EB|]. intros e R.
  destruct (qreach_at Ws _ (Z.of_nat D) (2 ^ Ws - 1) (fpt f md Ws b D) 0%Q _ HDer HNew e R) as (n & c & Hn & Hc & ->). cbn [at_ q_lat q_seq].
  destruct (HL n ltac:(lia)) as ((Hbase & _) & _). split; [exact Hbase|].
  destruct (point_ok f md Ws D b Hf HP HW HD HI n ltac:(lia)) as (h & HH & _ & EY). rewrite EY, map_length, seq_length. split; [apply HH|]. intros i Hi.
  rewrite (nth_indep _ _ (inject_Z (fdigit b n (D - 1) 0))) by (rewrite map_length, seq_length; exact Hi).
  rewrite (map_nth (fun i => inject_Z (fdigit b n (D - 1) i))), seq_nth by exact Hi. reflexivity.
Qed.

(* reading, by an engine of any dimension *)
Lemma restore : forall f md Ws D D' e t, fmt_ok f -> 24 <= prec f -> 32 <= Ws <= 64 -> (1 <= D <= 1117)%nat -> (1 <= D' <= 1117)%nat ->
  qreach Ws (faure_ops f md Ws) (faure_new f md Ws D) e -> qreach Ws (faure_ops f md Ws) (faure_new f md Ws D') t ->
  q_read Ws (faure_ops f md Ws) (f_resize primes_lower_bound) 0%Q t (q_print e) = Ret e tt.
Proof.
  intros f md Ws D D' e t Hf HP HW HD HD' Re Rt.
  destruct (setup f md Ws D Hf HP HW HD) as (b & EB & HI & HDer & HNew & HS & HL). destruct (setup f md Ws D' Hf HP HW HD') as (b' & EB' & HI' & HDer' & HNew' & HS' & HL').
  destruct (qreach_at Ws _ (Z.of_nat D) (2 ^ Ws - 1) _ 0%Q _ HDer HNew e Re) as (n & c & Hn & Hc & ->).
  destruct (qreach_at Ws _ (Z.of_nat D') (2 ^ Ws - 1) _ 0%Q _ HDer' HNew' t Rt) as (n' & c' & Hn' & Hc' & ->).
  destruct (Z.eq_dec (Z.of_nat D') (Z.of_nat D)) as [E|E].
  - assert (D' = D) by lia. subst D'. assert (b' = b) by congruence. subst b'.
    apply (qread_ok Ws _ (Z.of_nat D) (2 ^ Ws - 1) _ HDer) with (e1 := at_ (fpt f md Ws b D) n' c'); [exact Hn|exact Hc| |].
    + rewrite (q_dim_at _ _ _ _ _ HDer') by exact Hn'. rewrite Z.eqb_refl. reflexivity.
    + cbn [faure_ops d_seed]. apply HS; [apply HL; lia|apply HL; lia|lia].
  - eapply (qread_ok Ws _ (Z.of_nat D) (2 ^ Ws - 1) _ HDer); [exact Hn|exact Hc| |].
    + rewrite (q_dim_at _ _ _ _ _ HDer') by exact Hn'. destruct (Z.eqb_spec (Z.of_nat D') (Z.of_nat D)); [contradiction|]. unfold f_resize. rewrite EB. cbn [bind]. reflexivity.
    + cbn [faure_ops d_seed]. apply HS; [apply lat_new|rewrite vresize_length; lia|lia].
Qed.
