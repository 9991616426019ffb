(* Final statements about uniform_int_distribution, uniform_smallint and
   random_number_generator. *)
From Verif Require Import Base ProgModel ProgSpec ProgProofs UIntModel UIntSpec UIntProofs UInt2Proofs UInt3Proofs.

Ltac Zify.zify_post_hook ::= idtac.

Lemma least_unique : forall bmin bmax a b n m,
  least_draws bmin bmax a b n -> least_draws bmin bmax a b m -> n = m.
Proof.
  intros bmin bmax a b n m [H1 H2] [H3 H4].
  destruct (Nat.lt_trichotomy n m) as [L|[L|L]]; [|exact L|].
  - specialize (H4 n L). lia.
  - specialize (H2 m L). lia.
Qed.

Lemma pow0 : forall B, B ^ Z.of_nat 0 = 1.
Proof. intro B. change (Z.of_nat 0) with 0. apply Z.pow_0_r. Qed.
Lemma pow1 : forall B, B ^ Z.of_nat 1 = B.
Proof. intro B. change (Z.of_nat 1) with 1. apply Z.pow_1_r. Qed.

(* least number of draws, small ranges *)
Lemma least_small : forall bmin bmax a b, bmin < bmax -> a <= b -> b - a <= bmax - bmin ->
  least_draws bmin bmax a b (if b - a =? 0 then 0 else 1).
Proof.
  intros bmin bmax a b H1 H2 H3. destruct (Z.eqb_spec (b - a) 0) as [E|E]; split.
  - rewrite pow0. lia.
  - intros m Hm. lia.
  - rewrite pow1. lia.
  - intros m Hm. replace m with O by lia. rewrite pow0. lia.
Qed.

Lemma least_big : forall bmin bmax a b k, bmin < bmax ->
  (bmax - bmin + 1) ^ Z.of_nat k <= b - a + 1 < (bmax - bmin + 1) ^ Z.of_nat k * (bmax - bmin + 1) ->
  least_draws bmin bmax a b (if (bmax - bmin + 1) ^ Z.of_nat k =? b - a + 1 then k else S k).
Proof.
  intros bmin bmax a b k H1 [H2 H3]. set (B := bmax - bmin + 1) in *.
  assert (HB: 2 <= B) by (unfold B; lia).
  destruct (Z.eqb_spec (B ^ Z.of_nat k) (b - a + 1)) as [E|E]; split.
  - fold B. lia.
  - intros m Hm. fold B. rewrite <- E. apply Z.pow_lt_mono_r; lia.
  - fold B. rewrite Nat2Z.inj_succ, Z.pow_succ_r by lia. lia.
  - intros m Hm. fold B. assert (B ^ Z.of_nat m <= B ^ Z.of_nat k) by (apply Z.pow_le_mono_r; lia). lia.
Qed.

Section Top.
Variables (tb : ity) (bmin bmax : Z).
Hypothesis Hb : eng_wf tb bmin bmax.
Variables (t : ity) (a b : Z).
Hypothesis Hui : ui_wf t a b.

Lemma Hlt : bmin < bmax. Proof. apply Hb. Qed.
Lemma Hab : a <= b. Proof. apply Hui. Qed.

Lemma top_cases :
  b - a <= bmax - bmin \/
  exists k, (1 <= k)%nat /\ bmax - bmin < b - a /\
    (bmax - bmin + 1) ^ Z.of_nat k <= b - a + 1 < (bmax - bmin + 1) ^ Z.of_nat k * (bmax - bmin + 1).
Proof.
  pose proof Hlt. destruct (Z.le_gt_cases (b - a) (bmax - bmin)) as [L|L]; [left; exact L|right].
  destruct (pow_bracket (bmax - bmin + 1) ltac:(lia) (b - a + 1) ltac:(lia)) as (k & K1 & K2).
  exists k. split; [exact K1|]. split; [lia|exact K2].
Qed.

Lemma ui_wp : forall (P : Z -> Prop) F n kk, (n < F)%nat ->
  (power_case bmin bmax a b -> forall r, 0 <= r <= b - a -> P (cast t r)) ->
  (forall y, 0 <= y <= b - a -> P (a + y)) ->
  least_draws bmin bmax a b kk ->
  exists q, peq bmin bmax (uniform_int F tb bmin bmax t a b) q /\
    wp bmin bmax q n (fun v m => (m + kk <= n)%nat /\ P v).
Proof.
  intros P F n kk Hn HP1 HP2 Hkk. pose proof Hlt. pose proof Hab. unfold uniform_int.
  destruct top_cases as [L|(k & K1 & K2 & K3)].
  - exists (pgen_small F bmin (bmax - bmin + 1) (b - a) a). split; [apply small_peq; [exact Hb|exact Hui|lia]|].
    rewrite (least_unique _ _ _ _ _ _ Hkk (least_small bmin bmax a b ltac:(lia) ltac:(lia) L)).
    eapply wp_mono; [|apply (small_wp tb bmin bmax Hb F (b - a) a ltac:(lia) n Hn)].
    cbn beta. intros v m Hm [V1 V2]. split.
    + destruct (Z.eqb_spec (b - a) 0); [lia|]. specialize (V2 ltac:(assumption)). lia.
    + replace v with (a + (v - a)) by ring. apply HP2. lia.
  - exists (retry F (big_att F bmin (bmax - bmin + 1) t (b - a) a k)).
    split; [apply big_peq with (tb := tb); [exact Hb|exact Hui|lia|exact K1|exact K3]|].
    rewrite (least_unique _ _ _ _ _ _ Hkk (least_big bmin bmax a b k ltac:(lia) K3)).
    apply wp_retry_b with (F0 := F) (N := n); try lia.
    + destruct ((bmax - bmin + 1) ^ Z.of_nat k =? b - a + 1); lia.
    + intros n' Hn' _.
      apply (big_wp t a b tb bmin bmax Hb k ltac:(lia) K1 K3 P F n' Hn'); [|exact HP2].
      intros E. apply HP1. exists (Z.of_nat k). split; [|exact E].
      pose proof (exact_k2 a b bmin bmax k ltac:(lia) K1 K3 E). lia.
Qed.

Lemma least_exists : exists kk, least_draws bmin bmax a b kk.
Proof.
  pose proof Hlt. pose proof Hab. destruct top_cases as [L|(k & K1 & K2 & K3)].
  - eexists. apply least_small; lia.
  - eexists. apply least_big; [lia|exact K3].
Qed.

(* outcome of any run *)
Lemma ui_run : forall (P : Z -> Prop) F ds kk, (length ds < F)%nat -> valid_draws bmin bmax ds ->
  (power_case bmin bmax a b -> forall r, 0 <= r <= b - a -> P (cast t r)) ->
  (forall y, 0 <= y <= b - a -> P (a + y)) ->
  least_draws bmin bmax a b kk ->
  exec (uniform_int F tb bmin bmax t a b) ds = OMore \/
  exists v rest, exec (uniform_int F tb bmin bmax t a b) ds = ORet v rest /\ P v /\
    (length rest + kk <= length ds)%nat.
Proof.
  intros P F ds kk HF Hd HP1 HP2 Hkk.
  destruct (ui_wp P F (length ds) kk HF HP1 HP2 Hkk) as (q & HE & HW).
  rewrite (peq_exec _ _ _ _ _ ds HE Hd).
  destruct (wp_exec _ _ _ _ _ _ HW Hd) as [H|(v & rest & H1 & [H2 H3] & _)]; [left; exact H|right].
  exists v, rest. split; [exact H1|]. split; [exact H3|exact H2].
Qed.

Lemma power_good : ui_good bmin bmax t a b -> power_case bmin bmax a b ->
  a = 0 \/ b - a + 1 = 2 ^ bits t.
Proof. intros [H|[H|H]] HP; [left|right|contradiction]; exact H. Qed.

Lemma ui_range : ui_good bmin bmax t a b -> forall F ds, (length ds < F)%nat -> valid_draws bmin bmax ds ->
  exec (uniform_int F tb bmin bmax t a b) ds = OMore \/
  exists v rest, exec (uniform_int F tb bmin bmax t a b) ds = ORet v rest /\ a <= v <= b.
Proof.
  intros Hg F ds HF Hd. destruct least_exists as (kk & Hkk).
  destruct (ui_run (fun v => a <= v <= b) F ds kk HF Hd) as [H|(v & rest & H1 & H2 & _)]; try assumption.
  - intros HP r Hr. apply (good_range t a b Hui (power_good Hg HP)). exact Hr.
  - intros y Hy. lia.
  - left. exact H.
  - right. exists v, rest. split; assumption.
Qed.

Lemma ui_no_ub : forall F ds, (length ds < F)%nat -> valid_draws bmin bmax ds ->
  exec (uniform_int F tb bmin bmax t a b) ds = OMore \/
  exists v rest, exec (uniform_int F tb bmin bmax t a b) ds = ORet v rest /\ inT t v.
Proof.
  intros F ds HF Hd. destruct least_exists as (kk & Hkk).
  destruct (ui_run (inT t) F ds kk HF Hd) as [H|(v & rest & H1 & H2 & _)]; try assumption.
  - intros HP r Hr. apply (cast_inT t a b Hui).
  - intros y Hy. destruct Hui as (_ & X1 & X2 & _). apply inT_between with a b; try assumption. lia.
  - left. exact H.
  - right. exists v, rest. split; assumption.
Qed.

Lemma ui_uniform : ui_good bmin bmax t a b -> forall F n v1 v2, a <= v1 <= b -> a <= v2 <= b ->
  count bmin bmax (uniform_int F tb bmin bmax t a b) n v1 =
  count bmin bmax (uniform_int F tb bmin bmax t a b) n v2.
Proof.
  intros Hg F n v1 v2 H1 H2. pose proof Hlt. pose proof Hab. unfold uniform_int.
  assert (EL: Z.of_nat (Z.to_nat (b - a + 1)) = b - a + 1) by (apply Z2Nat.id; lia).
  destruct top_cases as [L|(k & K1 & K2 & K3)].
  - pose proof (small_peq tb bmin bmax Hb 1 F t a b Hui ltac:(lia)) as HE.
    rewrite !(peq_count _ _ _ _ _ _ HE).
    apply Uniform_count with (lo := a) (len := Z.to_nat (b - a + 1)); try (rewrite EL; lia).
    apply (small_uniform tb bmin bmax Hb). lia.
  - pose proof (big_peq tb bmin bmax Hb F t a b k Hui ltac:(lia) K1 K3) as HE.
    rewrite !(peq_count _ _ _ _ _ _ HE).
    apply Uniform_count with (lo := a) (len := Z.to_nat (b - a + 1)); try (rewrite EL; lia).
    apply (big_uniform t a b Hui tb bmin bmax Hb k ltac:(lia) K1 K3).
    intro E. apply (power_good Hg). exists (Z.of_nat k). split; [|exact E].
    pose proof (exact_k2 a b bmin bmax k ltac:(lia) K1 K3 E). lia.
Qed.

(* at least kk draws, and kk are enough *)
Lemma ui_min_draws : forall F ds kk v rest, (length ds < F)%nat -> valid_draws bmin bmax ds ->
  least_draws bmin bmax a b kk -> exec (uniform_int F tb bmin bmax t a b) ds = ORet v rest ->
  (kk <= length ds - length rest)%nat.
Proof.
  intros F ds kk v rest HF Hd Hkk HX.
  destruct (ui_run (fun _ => True) F ds kk HF Hd) as [H|(v' & rest' & H1 & H2 & H3)]; auto.
  - congruence.
  - rewrite HX in H1. injection H1 as <- <-. lia.
Qed.

Lemma ui_reach_good : ui_good bmin bmax t a b -> forall F kk v, (0 < F)%nat -> a <= v <= b ->
  least_draws bmin bmax a b kk ->
  exists ds, length ds = kk /\ valid_draws bmin bmax ds /\
    exec (uniform_int F tb bmin bmax t a b) ds = ORet v [].
Proof.
  intros Hg F kk v HF Hv Hkk. pose proof Hlt. pose proof Hab. unfold uniform_int.
  destruct top_cases as [L|(k & K1 & K2 & K3)].
  - pose proof (small_peq tb bmin bmax Hb 1 F t a b Hui ltac:(lia)) as HE.
    rewrite (least_unique _ _ _ _ _ _ Hkk (least_small bmin bmax a b ltac:(lia) ltac:(lia) L)).
    destruct (small_exec tb bmin bmax Hb F (b - a) a ltac:(lia) (v - a) [] HF ltac:(lia)) as (ds & D1 & D2 & D3).
    exists ds. split; [exact D1|]. split; [exact D2|].
    rewrite (peq_exec _ _ _ _ _ ds HE D2). rewrite app_nil_r in D3. rewrite D3. f_equal. lia.
  - pose proof (big_peq tb bmin bmax Hb F t a b k Hui ltac:(lia) K1 K3) as HE.
    rewrite (least_unique _ _ _ _ _ _ Hkk (least_big bmin bmax a b k ltac:(lia) K3)).
    destruct (big_exec t a b tb bmin bmax Hb k K1 K3 (fun x => x = v)) with (F := F)
      as (ds & w & D1 & D2 & D3 & D4); [| |exact HF|].
    + intro E. destruct (good_onto t a b Hui) with (y := v - a) as (r & R1 & R2); [|lia|].
      * apply (power_good Hg). exists (Z.of_nat k). split; [|exact E].
        pose proof (exact_k2 a b bmin bmax k ltac:(lia) K1 K3 E). lia.
      * exists r. split; [exact R1|lia].
    + intros E. exists (v - a). split; [lia|lia].
    + exists ds. split; [exact D1|]. split; [exact D2|].
      rewrite (peq_exec _ _ _ _ _ ds HE D2), D4, D3. reflexivity.
Qed.

Lemma ui_reach : forall F kk, (0 < F)%nat -> least_draws bmin bmax a b kk ->
  exists ds v, length ds = kk /\ valid_draws bmin bmax ds /\
    exec (uniform_int F tb bmin bmax t a b) ds = ORet v [].
Proof.
  intros F kk HF Hkk. pose proof Hlt. pose proof Hab. unfold uniform_int.
  destruct top_cases as [L|(k & K1 & K2 & K3)].
  - pose proof (small_peq tb bmin bmax Hb 1 F t a b Hui ltac:(lia)) as HE.
    rewrite (least_unique _ _ _ _ _ _ Hkk (least_small bmin bmax a b ltac:(lia) ltac:(lia) L)).
    destruct (small_exec tb bmin bmax Hb F (b - a) a ltac:(lia) 0 [] HF ltac:(lia)) as (ds & D1 & D2 & D3).
    exists ds, (a + 0). split; [exact D1|]. split; [exact D2|].
    rewrite (peq_exec _ _ _ _ _ ds HE D2). rewrite app_nil_r in D3. exact D3.
  - pose proof (big_peq tb bmin bmax Hb F t a b k Hui ltac:(lia) K1 K3) as HE.
    rewrite (least_unique _ _ _ _ _ _ Hkk (least_big bmin bmax a b k ltac:(lia) K3)).
    destruct (big_exec t a b tb bmin bmax Hb k K1 K3 (fun x => True)) with (F := F)
      as (ds & w & D1 & D2 & D3 & D4); [| |exact HF|].
    + intro E. exists 0. split; [lia|exact I].
    + intro E. exists 0. split; [lia|exact I].
    + exists ds, w. split; [exact D1|]. split; [exact D2|].
      rewrite (peq_exec _ _ _ _ _ ds HE D2). exact D4.
Qed.

(* no dead end *)
Lemma ui_extend : forall F ds, (length ds < F)%nat -> valid_draws bmin bmax ds ->
  exists ds' v rest, valid_draws bmin bmax ds' /\
    exec (uniform_int F tb bmin bmax t a b) (ds ++ ds') = ORet v rest.
Proof.
  intros F ds HF Hd. pose proof Hlt. pose proof Hab.
  destruct (ui_no_ub F ds HF Hd) as [H1|(v & rest & H1 & _)].
  2:{ exists [], v, rest. split; [constructor|]. rewrite app_nil_r. exact H1. }
  unfold uniform_int in *. destruct top_cases as [L|(k & K1 & K2 & K3)].
  - pose proof (small_peq tb bmin bmax Hb 1 F t a b Hui ltac:(lia)) as HE.
    rewrite (peq_exec _ _ _ _ _ ds HE Hd) in H1.
    destruct (small_more tb bmin bmax Hb F (b - a) a ds ltac:(lia) H1) as (d & V & D).
    exists d, a, []. split; [exact V|]. rewrite (peq_exec _ _ _ _ _ (ds ++ d) HE); [exact D|].
    apply Forall_app; split; assumption.
  - pose proof (big_peq tb bmin bmax Hb F t a b k Hui ltac:(lia) K1 K3) as HE.
    rewrite (peq_exec _ _ _ _ _ ds HE Hd) in H1.
    destruct (big_more t a b tb bmin bmax Hb k ltac:(lia) K1 K3 F ds Hd H1) as (d & v & V & D).
    exists d, v, []. split; [exact V|]. rewrite (peq_exec _ _ _ _ _ (ds ++ d) HE); [exact D|].
    apply Forall_app; split; assumption.
Qed.
End Top.

(* ---- random_number_generator ---- *)
Lemma rng_wf : forall t n, 2 <= bits t -> 0 < n -> inT t n -> ui_wf t 0 (n - 1) /\ subT t n 1 = Some (n - 1).
Proof.
  intros t n Ht Hn HT.
  assert (H0: inT t 0).
  { apply inT_between with (imin t) n; [|exact HT|].
    - unfold inT, imin, imax. destruct t as [b s]. cbn [bits sgn] in *.
      assert (0 < 2 ^ (b - 1)) by (apply Z.pow_pos_nonneg; lia).
      assert (0 < 2 ^ b) by (apply Z.pow_pos_nonneg; lia). destruct s; lia.
    - unfold imin. destruct (sgn t); [|lia].
      assert (0 < 2 ^ (bits t - 1)) by (apply Z.pow_pos_nonneg; lia). lia. }
  assert (H1: inT t (n - 1)) by (apply inT_between with 0 n; try assumption; lia).
  split; [|apply norm_in; exact H1].
  split; [exact Ht|]. split; [exact H0|]. split; [exact H1|lia].
Qed.

Lemma rng_range : forall tb bmin bmax t n F ds,
  eng_wf tb bmin bmax -> 2 <= bits t -> 0 < n -> inT t n ->
  (length ds < F)%nat -> valid_draws bmin bmax ds ->
  exec (random_number_generator F tb bmin bmax t n) ds = OMore \/
  exists v rest, exec (random_number_generator F tb bmin bmax t n) ds = ORet v rest /\ 0 <= v < n.
Proof.
  intros tb bmin bmax t n F ds Hb Ht Hn HT HF Hd.
  destruct (rng_wf t n Ht Hn HT) as [Hw Es]. unfold random_number_generator. rewrite Es. cbn [plift pbind].
  destruct (ui_range tb bmin bmax Hb t 0 (n - 1) Hw (or_introl eq_refl) F ds HF Hd) as [H|(v & rest & H & HV)].
  - left. exact H.
  - right. exists v, rest. split; [exact H|lia].
Qed.

Lemma rng_uniform : forall tb bmin bmax t n F m v1 v2,
  eng_wf tb bmin bmax -> 2 <= bits t -> inT t n -> 0 <= v1 < n -> 0 <= v2 < n ->
  count bmin bmax (random_number_generator F tb bmin bmax t n) m v1 =
  count bmin bmax (random_number_generator F tb bmin bmax t n) m v2.
Proof.
  intros tb bmin bmax t n F m v1 v2 Hb Ht HT H1 H2.
  destruct (rng_wf t n Ht ltac:(lia) HT) as [Hw Es]. unfold random_number_generator. rewrite Es. cbn [plift pbind].
  apply (ui_uniform tb bmin bmax Hb t 0 (n - 1) Hw (or_introl eq_refl)); lia.
Qed.

Lemma rng_reach : forall tb bmin bmax t n F v,
  eng_wf tb bmin bmax -> 2 <= bits t -> inT t n -> (0 < F)%nat -> 0 <= v < n ->
  exists ds, valid_draws bmin bmax ds /\
    exec (random_number_generator F tb bmin bmax t n) ds = ORet v [].
Proof.
  intros tb bmin bmax t n F v Hb Ht HT HF Hv.
  destruct (rng_wf t n Ht ltac:(lia) HT) as [Hw Es]. unfold random_number_generator. rewrite Es. cbn [plift pbind].
  destruct (least_exists tb bmin bmax Hb t 0 (n - 1) Hw) as (kk & Hkk).
  destruct (ui_reach_good tb bmin bmax Hb t 0 (n - 1) Hw (or_introl eq_refl) F kk v HF ltac:(lia) Hkk)
    as (ds & _ & V & H). exists ds. split; assumption.
Qed.

(* ---- uniform_smallint ---- *)
Section Small.
Variables (tb : ity) (bmin bmax : Z) (t : ity) (a b : Z).
Hypothesis Hw : 2 <= bits tb.
Hypothesis H1 : inT tb bmin.
Hypothesis H2 : inT tb bmax.
Hypothesis H3 : bmin <= bmax.
Hypothesis Hui : ui_wf t a b.

Lemma smallint_peq : peq bmin bmax (uniform_smallint tb bmin bmax t a b)
  (PDraw (fun v => PRet (a + (v - bmin) mod (b - a + 1)))).
Proof.
  destruct Hui as (Ht & Ha & Hb & Hab). unfold uniform_smallint.
  rewrite usub_ok by assumption. rewrite usub_ok by assumption. cbn [plift pbind draw peq].
  intros v Hv. pose proof (inT_diff t b a Ht Hb Ha) as HD. pose proof (inT_diff tb bmax bmin Hw H2 H1) as HDb.
  rewrite usub_ok; try assumption; [|apply inT_between with bmin bmax; assumption|lia].
  cbn [plift pbind].
  destruct (Z.leb_spec (bmax - bmin) (b - a)) as [L|L].
  - rewrite (wrap_small (bits t) (v - bmin)) by lia. rewrite Z.mod_small by lia.
    assert (HI: inT t (v - bmin + a)) by (apply inT_between with a b; try assumption; lia).
    rewrite uadd_ok by (try assumption; lia). cbn [plift peq]. lia.
  - rewrite (wrap_small (bits tb) (b - a)) by lia. rewrite (wrap_small (bits tb) (b - a + 1)) by lia.
    destruct (Z.eqb_spec (b - a + 1) 0); [lia|].
    pose proof (Z.mod_pos_bound (v - bmin) (b - a + 1) ltac:(lia)) as HM.
    rewrite (wrap_small (bits t)) by lia.
    assert (HI: inT t ((v - bmin) mod (b - a + 1) + a)) by (apply inT_between with a b; try assumption; lia).
    rewrite uadd_ok by (try assumption; lia). cbn [plift peq]. lia.
Qed.

Lemma smallint_exec : forall v rest, bmin <= v <= bmax ->
  exists x, exec (uniform_smallint tb bmin bmax t a b) (v :: rest) = ORet x rest /\ a <= x <= b.
Proof.
  intros v rest Hv. exists (a + (v - bmin) mod (b - a + 1)).
  pose proof smallint_peq as HE. split.
  - assert (E1: exec (uniform_smallint tb bmin bmax t a b) [v] = ORet (a + (v - bmin) mod (b - a + 1)) []).
    { rewrite (peq_exec _ _ _ _ _ [v] HE); [reflexivity|]. constructor; [exact Hv|constructor]. }
    apply (exec_app _ _ [v] rest _ _ E1).
  - destruct Hui as (_ & _ & _ & Hab).
    pose proof (Z.mod_pos_bound (v - bmin) (b - a + 1) ltac:(lia)). lia.
Qed.

Lemma smallint_none : exec (uniform_smallint tb bmin bmax t a b) [] = OMore.
Proof.
  rewrite (peq_exec _ _ _ _ _ [] smallint_peq); [reflexivity|constructor].
Qed.

Lemma ssum_modeq : forall r q s i, 0 <= i < Z.of_nat r -> (s < r)%nat ->
  ssum (r * q + s) (fun x => if x mod Z.of_nat r =? i then 1 else 0) =
  Z.of_nat q + (if i <? Z.of_nat s then 1 else 0).
Proof.
  clear. intros r q s i Hi Hs. rewrite ssum_app. f_equal.
  - rewrite ssum_radix. rewrite (ssum_ext q _ (fun _ => 1)); [rewrite ssum_const; lia|].
    intros j Hj. rewrite (ssum_ext r _ (fun x => if x =? i then 1 else 0)); [apply ssum_delta; exact Hi|].
    intros x Hx. rewrite Z.mul_comm, Z.mod_add by lia. rewrite Z.mod_small by lia. reflexivity.
  - rewrite (ssum_ext s _ (fun x => if x =? i then 1 else 0)).
    2:{ intros x Hx. rewrite Nat2Z.inj_mul. rewrite Z.add_comm, Z.mul_comm, Z.mod_add by lia.
        rewrite Z.mod_small by lia. reflexivity. }
    destruct (Z.ltb_spec i (Z.of_nat s)); [apply ssum_delta; lia|].
    rewrite (ssum_ext s _ (fun _ => 0)); [apply ssum_zero|]. intros x Hx. destruct (Z.eqb_spec x i); [lia|reflexivity].
Qed.

Lemma smallint_count : forall i, 0 <= i <= b - a ->
  Z.of_nat (count bmin bmax (uniform_smallint tb bmin bmax t a b) 1 (a + i)) =
  (bmax - bmin + 1) / (b - a + 1) + (if i <? (bmax - bmin + 1) mod (b - a + 1) then 1 else 0).
Proof.
  intros i Hi. rewrite (peq_count _ _ _ _ _ _ smallint_peq). rewrite count_E. cbn [E Nat.eqb].
  set (N := bmax - bmin + 1). set (r := b - a + 1).
  assert (Hr: 0 < r) by (unfold r; lia). assert (HN: 0 < N) by (unfold N; lia).
  pose proof (Z.div_mod N r ltac:(lia)) as D. pose proof (Z.mod_pos_bound N r ltac:(lia)) as M.
  assert (HQ: 0 <= N / r) by (apply Z.div_pos; lia).
  pose proof (ssum_modeq (Z.to_nat r) (Z.to_nat (N / r)) (Z.to_nat (N mod r)) i ltac:(unfold r in *; lia) ltac:(lia)) as S.
  rewrite !Z2Nat.id in S by lia. rewrite <- S.
  replace (Z.to_nat r * Z.to_nat (N / r) + Z.to_nat (N mod r))%nat with (Z.to_nat N).
  2:{ rewrite <- Z2Nat.inj_mul, <- Z2Nat.inj_add by lia. f_equal. exact D. }
  apply ssum_ext. intros x Hx. fold r. replace (bmin + x - bmin) with x by ring.
  destruct (Z.eqb_spec (a + x mod r) (a + i)), (Z.eqb_spec (x mod r) i); lia.
Qed.
End Small.

(* ---- one attempt never needs more than the least number of draws ---- *)
Fixpoint depth_le {A} (bmin bmax : Z) (p : prog A) (n : nat) : Prop :=
  match p with
  | PDraw k => match n with O => False | S m => forall v, bmin <= v <= bmax -> depth_le bmin bmax (k v) m end
  | _ => True
  end.

Lemma depth_bind : forall A B bmin bmax (p : prog A) (f : A -> prog B) n m,
  depth_le bmin bmax p n -> (forall a, depth_le bmin bmax (f a) m) ->
  depth_le bmin bmax (pbind p f) (n + m).
Proof.
  induction p as [a|k IH| |]; simpl; intros f n m H1 H2; auto.
  - specialize (H2 a). revert H2. generalize (f a). clear.
    intro q. revert n m. induction q as [a|k IH| |]; simpl; intros n m H; auto.
    destruct m as [|m]; [contradiction|]. rewrite Nat.add_succ_r. intros v Hv. apply IH. auto.
  - destruct n as [|n]; [contradiction|]. cbn. intros v Hv. apply IH; auto.
Qed.

Lemma depth_exec : forall A bmin bmax (p : prog A) n ds, depth_le bmin bmax p n ->
  valid_draws bmin bmax ds -> (n <= length ds)%nat -> exec p ds <> OMore.
Proof.
  induction p as [a|k IH| |]; simpl; intros n ds H Hd Hn; try discriminate.
  destruct n as [|n]; [contradiction|]. destruct ds as [|v r]; simpl in Hn; [lia|].
  inversion Hd; subst. apply IH with n; [apply H; assumption|assumption|lia].
Qed.

Lemma depth_acc : forall bmin bmax B j r m, depth_le bmin bmax (acc bmin B j r m) j.
Proof. induction j as [|j IH]; intros r m; cbn [acc depth_le]; auto. Qed.

Lemma depth_retry1 : forall A bmin bmax (att : prog (option A)) n,
  depth_le bmin bmax att n -> depth_le bmin bmax (retry 1 att) n.
Proof.
  intros A bmin bmax att n H. cbn [retry]. rewrite <- (Nat.add_0_r n). apply depth_bind; [exact H|].
  intros [a|]; exact I.
Qed.

Lemma depth_small : forall bmin bmax B R lo,
  depth_le bmin bmax (pgen_small 1 bmin B R lo) (if R =? 0 then 0%nat else 1%nat).
Proof.
  intros. unfold pgen_small. destruct (R =? 0); [exact I|].
  destruct (B - 1 =? R); [cbn; auto|]. apply depth_retry1. cbn. auto.
Qed.

Lemma ui_attempt_bound : forall tb bmin bmax t a b ds kk,
  eng_wf tb bmin bmax -> ui_wf t a b -> least_draws bmin bmax a b kk ->
  valid_draws bmin bmax ds -> length ds = kk ->
  exec (uniform_int 1 tb bmin bmax t a b) ds <> OMore.
Proof.
  intros tb bmin bmax t a b ds kk Hb Hui Hkk Hd Hl.
  assert (H: bmin < bmax) by (apply Hb). assert (H0: a <= b) by (apply Hui). unfold uniform_int.
  destruct (top_cases tb bmin bmax Hb a b) as [L|(k & K1 & K2 & K3)].
  - rewrite (peq_exec _ _ _ _ _ ds (small_peq tb bmin bmax Hb 1 1 t a b Hui ltac:(lia)) Hd).
    apply depth_exec with bmin bmax (if (b - a =? 0)%Z then 0%nat else 1%nat); [apply depth_small|exact Hd|].
    rewrite Hl, (least_unique _ _ _ _ _ _ Hkk (least_small bmin bmax a b ltac:(lia) ltac:(lia) L)). lia.
  - rewrite (peq_exec _ _ _ _ _ ds (big_peq tb bmin bmax Hb 1 t a b k Hui ltac:(lia) K1 K3) Hd).
    apply depth_exec with bmin bmax kk; [|exact Hd|lia].
    apply depth_retry1. unfold big_att.
    rewrite (least_unique _ _ _ _ _ _ Hkk (least_big bmin bmax a b k ltac:(lia) K3)).
    destruct ((bmax - bmin + 1) ^ Z.of_nat k =? b - a + 1) eqn:EM.
    + rewrite <- (Nat.add_0_r k) at 2. apply depth_bind; [apply depth_acc|]. intro r. exact I.
    + replace (S k) with (k + 1)%nat by lia. apply depth_bind; [apply depth_acc|]. intro r.
      change 1%nat with (1 + 0)%nat at 2. apply depth_bind; [|intro i; exact I].
      pose proof (depth_small bmin bmax (bmax - bmin + 1) ((b - a) / (bmax - bmin + 1) ^ Z.of_nat k) 0) as HS.
      destruct ((b - a) / (bmax - bmin + 1) ^ Z.of_nat k =? 0) eqn:EQ; [|exact HS].
      unfold pgen_small in *. rewrite EQ in *. exact I.
Qed.

(* ---- witnesses ---- *)
Lemma u2_wf : eng_wf u32 0 3.
Proof. unfold eng_wf, inT, imin, imax, u32; cbn. lia. Qed.

Lemma mt_wf : eng_wf u32 0 (2 ^ 32 - 1).
Proof. unfold eng_wf, inT, imin, imax, u32; cbn. lia. Qed.

Lemma ui_5_20_wf : ui_wf i32 5 20.
Proof. unfold ui_wf, inT, imin, imax, i32; cbn. lia. Qed.

Lemma ui_range_wrong : exists tb bmin bmax t a b ds v,
  eng_wf tb bmin bmax /\ ui_wf t a b /\ valid_draws bmin bmax ds /\
  exec (uniform_int 3 tb bmin bmax t a b) ds = ORet v [] /\ v < a.
Proof.
  exists u32, 0, 3, i32, 5, 20, [0; 0], 0. split; [exact u2_wf|]. split; [exact ui_5_20_wf|].
  split; [repeat constructor; lia|]. split; [vm_compute; reflexivity|lia].
Qed.

Lemma ui_uniform_wrong : exists tb bmin bmax t a b n v1 v2,
  eng_wf tb bmin bmax /\ ui_wf t a b /\ a <= v1 <= b /\ a <= v2 <= b /\
  count bmin bmax (uniform_int 3 tb bmin bmax t a b) n v1 <>
  count bmin bmax (uniform_int 3 tb bmin bmax t a b) n v2.
Proof.
  exists u32, 0, 3, i32, 5, 20, 2%nat, 5, 20. split; [exact u2_wf|]. split; [exact ui_5_20_wf|].
  split; [lia|]. split; [lia|]. vm_compute. discriminate.
Qed.

Lemma good_die : ui_wf i32 1 6 /\ ui_good 0 (2 ^ 32 - 1) i32 1 6.
Proof.
  split; [unfold ui_wf, inT, imin, imax, i32; cbn; lia|]. right. right. intros (k & Hk & HE).
  assert ((0 + 2 ^ 32 - 1 - 0 + 1) ^ 1 <= (2 ^ 32 - 1 - 0 + 1) ^ k) by (apply Z.pow_le_mono_r; lia).
  rewrite HE in H. vm_compute in H. apply H. reflexivity.
Qed.

Lemma good_full64 : ui_wf i64 (- 2 ^ 63) (2 ^ 63 - 1) /\ ui_good 0 (2 ^ 32 - 1) i64 (- 2 ^ 63) (2 ^ 63 - 1) /\
  power_case 0 (2 ^ 32 - 1) (- 2 ^ 63) (2 ^ 63 - 1).
Proof.
  split; [unfold ui_wf, inT, imin, imax, i64; cbn; lia|]. split; [right; left; reflexivity|].
  exists 2. split; [lia|reflexivity].
Qed.

Lemma least_full64 : least_draws 0 (2 ^ 32 - 1) (- 2 ^ 63) (2 ^ 63 - 1) 2.
Proof.
  split; [vm_compute; discriminate|]. intros [|[|m]] Hm; [reflexivity|reflexivity|lia].
Qed.
