(* The properties of gen_uint, from the reduced form. *)
From Verif Require Import Base ProgModel ProgSpec ProgProofs UIntModel UIntSpec UIntProofs UInt2Proofs.

Ltac Zify.zify_post_hook ::= idtac.

Lemma wp_retry_b : forall A bmin bmax (att : prog (option A)) (Q : A -> nat -> Prop) kk F0 N,
  (1 <= kk)%nat ->
  (forall n, (n < F0)%nat -> (n <= N)%nat -> wp bmin bmax att n (fun r m => (m + kk <= n)%nat /\ forall a, r = Some a -> Q a m)) ->
  forall F n, (n < F)%nat -> (n < F0)%nat -> (n <= N)%nat ->
  wp bmin bmax (retry F att) n (fun a m => (m + kk <= n)%nat /\ Q a m).
Proof.
  intros A bmin bmax att Q kk F0 N Hk H. induction F as [|f IH]; intros n Hn Hn0 HN; [lia|].
  simpl. apply wp_bind. eapply wp_mono; [|apply H; assumption].
  intros r m Hm [Hlt Hr]. destruct r as [v|]; simpl.
  - split; [exact Hlt|]. apply Hr. reflexivity.
  - eapply wp_mono; [|apply IH; lia]. cbn. intros a m' _ [H1 H2]. split; [lia|exact H2].
Qed.

Lemma exec_retry_some : forall A (att : prog (option A)) F ds a rest, (0 < F)%nat ->
  exec att ds = ORet (Some a) rest -> exec (retry F att) ds = ORet a rest.
Proof.
  intros A att F ds a rest HF H. destruct F as [|f]; [lia|]. cbn [retry].
  rewrite (exec_bind_ret _ _ _ _ _ _ _ H). reflexivity.
Qed.

Section Code.
Variables (t : ity) (lo hi : Z).
Hypothesis Hui : ui_wf t lo hi.
Let R := hi - lo.

Lemma cast_inT : forall z, inT t (cast t z).
Proof.
  intro z. destruct Hui as (Ht & _). destruct t as [b s]. cbn [bits] in Ht.
  unfold cast, inT, imin, imax. cbn [bits sgn].
  assert (HP: 0 < 2 ^ (b - 1)) by (apply Z.pow_pos_nonneg; lia).
  pose proof (pow_half b ltac:(lia)) as HD.
  pose proof (Z.mod_pos_bound z (2 ^ b) ltac:(lia)).
  destruct s; [|lia]. destruct (Z.ltb_spec (z mod 2 ^ b) (2 ^ (b - 1))); lia.
Qed.

Lemma full_bounds : R + 1 = 2 ^ bits t -> lo = imin t /\ hi = imax t.
Proof.
  intro E. destruct Hui as (Ht & [H1 H2] & [H3 H4] & H5). unfold R in E.
  unfold imin, imax in *. destruct t as [b s]. cbn [bits sgn] in *.
  pose proof (pow_half b ltac:(lia)). destruct s; lia.
Qed.

Section Good.
Hypothesis Hgood : lo = 0 \/ R + 1 = 2 ^ bits t.

Lemma good_range : forall r, 0 <= r <= R -> lo <= cast t r <= hi.
Proof.
  intros r Hr. pose proof Hui as (Ht & H1 & H2 & H3). destruct Hgood as [E|E].
  - rewrite cast_in; [unfold R in *; lia|lia|]. apply inT_between with lo hi; try assumption. unfold R in *; lia.
  - destruct (full_bounds E) as [E1 E2]. pose proof (cast_inT r) as [A1 A2]. lia.
Qed.

Lemma good_sum : forall f, ssum (Z.to_nat (R + 1)) (fun x => f (cast t x)) =
                           ssum (Z.to_nat (R + 1)) (fun x => f (lo + x)).
Proof.
  intro f. pose proof Hui as (Ht & H1 & H2 & H3).
  assert (HR: 0 <= R) by (unfold R; lia).
  destruct Hgood as [E|E].
  - apply ssum_ext. intros i Hi. rewrite cast_in; [f_equal; lia|lia|].
    apply inT_between with lo hi; try assumption. unfold R in *; lia.
  - destruct (full_bounds E) as [E1 E2]. rewrite E1. rewrite E. clear HR.
    destruct t as [b s]. cbn [bits] in *. destruct s.
    + pose proof (pow_half b ltac:(lia)) as HD.
      assert (HP: 0 < 2 ^ (b - 1)) by (apply Z.pow_pos_nonneg; lia).
      set (H := Z.to_nat (2 ^ (b - 1))).
      assert (EH: Z.of_nat H = 2 ^ (b - 1)) by (apply Z2Nat.id; lia).
      assert (EN: Z.to_nat (2 ^ b) = (H + H)%nat) by (rewrite HD; unfold H; lia).
      rewrite EN, !ssum_app, EH. rewrite Z.add_comm. f_equal.
      * apply ssum_ext. intros i Hi. f_equal. unfold cast, imin. cbn [bits sgn].
        rewrite Z.mod_small by lia. destruct (Z.ltb_spec (2 ^ (b - 1) + i) (2 ^ (b - 1))); lia.
      * apply ssum_ext. intros i Hi. f_equal. unfold cast, imin. cbn [bits sgn].
        rewrite Z.mod_small by lia. destruct (Z.ltb_spec i (2 ^ (b - 1))); lia.
    + apply ssum_ext. intros i Hi. f_equal. unfold cast, imin. cbn [bits sgn].
      rewrite Z.mod_small by lia. lia.
Qed.

Lemma good_onto : forall y, 0 <= y <= R -> exists r, 0 <= r <= R /\ cast t r = lo + y.
Proof.
  intros y Hy. pose proof Hui as (Ht & H1 & H2 & H3). destruct Hgood as [E|E].
  - exists y. split; [exact Hy|]. rewrite cast_in; [lia|lia|].
    apply inT_between with lo hi; try assumption. unfold R in *; lia.
  - destruct (full_bounds E) as [E1 E2]. exists ((lo + y) mod 2 ^ bits t).
    assert (HP: 0 < 2 ^ bits t) by (apply Z.pow_pos_nonneg; lia).
    pose proof (Z.mod_pos_bound (lo + y) _ HP). split; [lia|].
    assert (EC: cast t ((lo + y) mod 2 ^ bits t) = cast t (lo + y)).
    { unfold cast. rewrite Z.mod_mod by lia. reflexivity. }
    rewrite EC. apply cast_in; [lia|]. apply inT_between with lo hi; try assumption. unfold R in *; lia.
Qed.
End Good.

Variables (tb : ity) (bmin bmax : Z).
Hypothesis Hb : eng_wf tb bmin bmax.
Let B := bmax - bmin + 1.

(* ---- the big generator ---- *)
Section Big.
Variable k : nat.
Let M := B ^ Z.of_nat k.
Hypothesis HRB : B - 1 < R.
Hypothesis Hk : (1 <= k)%nat.
Hypothesis HM : M <= R + 1 < M * B.
Lemma HMp : 0 < M.
Proof. pose proof (HB2 tb bmin bmax Hb). apply Z.pow_pos_nonneg; [fold B in H; lia|lia]. Qed.

Lemma q_bounds : M <> R + 1 -> 1 <= R / M /\ R / M < B /\ M * (R / M) <= R < M * (R / M) + M.
Proof.
  intro HE. pose proof HMp. pose proof (HB2 tb bmin bmax Hb). fold B in H0.
  assert (1 <= R / M) by (apply Z.div_le_lower_bound; lia).
  assert (R / M < B) by (apply Z.div_lt_upper_bound; lia).
  pose proof (Z.div_mod R M ltac:(lia)). pose proof (Z.mod_pos_bound R M ltac:(lia)). lia.
Qed.

Lemma exact_k2 : M = R + 1 -> (2 <= k)%nat.
Proof.
  intro E. destruct k as [|[|k']]; [lia| |lia]. exfalso. unfold M in E.
  change (Z.of_nat 1) with 1 in E. rewrite Z.pow_1_r in E. lia.
Qed.

Let kk := if M =? R + 1 then k else S k.

Lemma big_wp : forall (P : Z -> Prop) F n, (n < F)%nat ->
  (M = R + 1 -> forall r, 0 <= r <= R -> P (cast t r)) -> (forall y, 0 <= y <= R -> P (lo + y)) ->
  wp bmin bmax (big_att F bmin B t R lo k) n (fun r m => (m + kk <= n)%nat /\ forall a, r = Some a -> P a).
Proof.
  intros P F n Hn HP1 HP2. pose proof HMp. unfold big_att. apply wp_bind. fold M.
  pose proof (acc_wp tb bmin bmax Hb k n 0 1 ltac:(lia) ltac:(lia)) as HA. fold B in HA. fold M in HA.
  rewrite Z.mul_1_l in HA. eapply wp_mono; [|exact HA]. cbn beta. intros r m Hm [Hr Hn'].
  unfold kk. destruct (Z.eqb_spec M (R + 1)) as [E|E].
  - cbn [wp]. split; [lia|]. intros a Ha. injection Ha as <-. apply HP1; [exact E|lia].
  - destruct (q_bounds E) as (Q1 & Q2 & Q3).
    apply wp_bind. eapply wp_mono; [|apply small_wp with (tb := tb); [exact Hb|fold B; lia|lia]].
    cbn beta. intros inc m' Hm' [Hi Hlt]. cbn [wp]. split; [specialize (Hlt ltac:(lia)); lia|].
    intros a Ha. destruct (Z.leb_spec (r + inc * M) R) as [L|L]; [|discriminate].
    injection Ha as <-. apply HP2. split; [|exact L].
    assert (0 <= inc * M) by (apply Z.mul_nonneg_nonneg; lia). lia.
Qed.

Lemma big_uniform : (M = R + 1 -> lo = 0 \/ R + 1 = 2 ^ bits t) -> forall F,
  Uniform bmin bmax (retry F (big_att F bmin B t R lo k)) lo (Z.to_nat (R + 1)).
Proof.
  intros Hg F. pose proof HMp. apply Uniform_retry. intros n f g H1 H2.
  unfold big_att. fold M. rewrite !E_bind. rewrite !(acc_E tb bmin bmax Hb). fold B. fold M.
  destruct (k <=? n)%nat; [|reflexivity].
  destruct (Z.eqb_spec M (R + 1)) as [E0|E0].
  - rewrite E0. cbn [E]. specialize (H1 (n - k)%nat). specialize (Hg E0).
    rewrite (ssum_ext _ (fun x => f (Some (cast t (0 + x * 1))) (n - k)%nat)
                (fun x => f (Some (cast t x)) (n - k)%nat)) by (intros; do 3 f_equal; ring).
    rewrite (ssum_ext _ (fun x => g (Some (cast t (0 + x * 1))) (n - k)%nat)
                (fun x => g (Some (cast t x)) (n - k)%nat)) by (intros; do 3 f_equal; ring).
    rewrite (good_sum Hg (fun z => f (Some z) (n - k)%nat)).
    rewrite (good_sum Hg (fun z => g (Some z) (n - k)%nat)). exact H1.
  - destruct (q_bounds E0) as (Q1 & Q2 & Q3).
    assert (K: forall q : option Z -> nat -> Z,
      ssum (Z.to_nat M) (fun x => E bmin bmax
        (inc <~ pgen_small F bmin B (R / M) 0;;
         PRet (if 0 + x * 1 + inc * M <=? R then Some (lo + (0 + x * 1 + inc * M)) else None)) (n - k) q) =
      E bmin bmax (pgen_small F bmin B (R / M) 0) (n - k)
        (fun inc m => ssum (Z.to_nat M) (fun x => q (if x + M * inc <=? R then Some (lo + (x + M * inc)) else None) m))).
    { intro q. rewrite E_ssum. apply ssum_ext. intros x Hx. rewrite E_bind. apply E_ext. intros a m.
      cbn [E]. replace (0 + x * 1 + a * M) with (x + M * a) by ring. reflexivity. }
    cbv zeta. rewrite !K.
    apply (small_uniform tb bmin bmax Hb F (R / M) 0 ltac:(fold B; lia)). intro m.
    assert (K2: forall q : option Z -> nat -> Z,
      ssum (Z.to_nat (R / M + 1)) (fun w => ssum (Z.to_nat M) (fun x => 
         q (if x + M * (0 + w) <=? R then Some (lo + (x + M * (0 + w))) else None) m)) =
      ssum (Z.to_nat (R + 1)) (fun w => q (Some (lo + w)) m) +
      Z.of_nat (Z.to_nat M * Z.to_nat (R / M + 1) - Z.to_nat (R + 1)) * q None m).
    { intro q.
      pose proof (ssum_radix (Z.to_nat M) (Z.to_nat (R / M + 1))
        (fun y => q (if y <=? R then Some (lo + y) else None) m)) as HX.
      rewrite Z2Nat.id in HX by lia. 
      rewrite (ssum_ext (Z.to_nat (R / M + 1)) _ (fun j => ssum (Z.to_nat M) (fun i =>
         q (if i + M * j <=? R then Some (lo + (i + M * j)) else None) m))).
      2:{ intros i Hi. rewrite Z.add_0_l. reflexivity. }
      rewrite <- HX.
      assert (LE: (Z.to_nat (R + 1) <= Z.to_nat M * Z.to_nat (R / M + 1))%nat).
      { apply Nat2Z.inj_le. rewrite Nat2Z.inj_mul, !Z2Nat.id by lia.
        replace (M * (R / M + 1)) with (M * (R / M) + M) by ring. lia. }
      rewrite (ssum_split _ _ _ LE). f_equal.
      - apply ssum_ext. intros i Hi. destruct (Z.leb_spec i R); [reflexivity|lia].
      - rewrite <- ssum_const. apply ssum_ext. intros i Hi.
        destruct (Z.leb_spec (Z.of_nat (Z.to_nat (R + 1)) + i) R); [lia|reflexivity]. }
    rewrite !K2, H1, H2. reflexivity.
Qed.

Lemma big_exec : forall P : Z -> Prop, 
  (M = R + 1 -> exists r, 0 <= r <= R /\ P (cast t r)) ->
  (M <> R + 1 -> exists y, 0 <= y <= R /\ P (lo + y)) ->
  forall F, (0 < F)%nat -> exists ds v, length ds = kk /\ valid_draws bmin bmax ds /\ P v /\
    exec (retry F (big_att F bmin B t R lo k)) ds = ORet v [].
Proof.
  intros P H1 H2 F HF. pose proof HMp. unfold kk. destruct (Z.eqb_spec M (R + 1)) as [E|E].
  - destruct (H1 E) as (r & Hr & HP).
    destruct (acc_exec tb bmin bmax Hb k 0 1 r [] ) as (ds & D1 & D2 & D3); [fold B; fold M; lia|].
    exists ds, (cast t r). split; [exact D1|]. split; [exact D2|]. split; [exact HP|].
    apply exec_retry_some; [exact HF|]. unfold big_att. fold M. rewrite app_nil_r in D3. fold B in D3.
    rewrite (exec_bind_ret _ _ _ _ _ _ _ D3). rewrite E, Z.eqb_refl. cbn [exec].
    replace (0 + r * 1) with r by ring. reflexivity.
  - destruct (H2 E) as (y & Hy & HP). destruct (q_bounds E) as (Q1 & Q2 & Q3).
    assert (Hq: 0 <= y / M <= R / M).
    { split; [apply Z.div_pos; lia|apply Z.div_le_mono; lia]. }
    destruct (small_exec tb bmin bmax Hb F (R / M) 0 ltac:(fold B; lia) (y / M) [] HF Hq) as (d2 & A1 & A2 & A3).
    pose proof (Z.mod_pos_bound y M ltac:(lia)) as Hm. pose proof (Z.div_mod y M ltac:(lia)) as D.
    destruct (acc_exec tb bmin bmax Hb k 0 1 (y mod M) d2) as (ds & D1 & D2 & D3); [fold B; fold M; lia|].
    exists (ds ++ d2), (lo + y). split.
    { rewrite app_length, D1, A1. destruct (Z.eqb_spec (R / M) 0); lia. }
    split; [apply Forall_app; split; assumption|]. split; [exact HP|].
    apply exec_retry_some; [exact HF|]. unfold big_att. fold M. fold B in D3.
    rewrite (exec_bind_ret _ _ _ _ _ _ _ D3). destruct (Z.eqb_spec M (R + 1)); [contradiction|].
    fold B in A3. rewrite app_nil_r in A3. rewrite (exec_bind_ret _ _ _ _ _ _ _ A3). cbn [exec].
    replace (0 + y mod M * 1 + (0 + y / M) * M) with y by (rewrite D at 1; ring).
    destruct (Z.leb_spec y R); [reflexivity|lia].
Qed.

Lemma big_more : forall F ds, valid_draws bmin bmax ds ->
  exec (retry F (big_att F bmin B t R lo k)) ds = OMore ->
  exists ds' v, valid_draws bmin bmax ds' /\
    exec (retry F (big_att F bmin B t R lo k)) (ds ++ ds') = ORet v [].
Proof.
  intros F ds Hd H. pose proof HMp.
  assert (HF: (0 < F)%nat) by (destruct F; [discriminate|lia]).
  apply retry_more_inv in H. destruct H as (F' & ds1 & _ & K2 & (u & Hu) & K4).
  assert (Hd1: valid_draws bmin bmax ds1) by (rewrite Hu in Hd; apply Forall_app in Hd; apply Hd).
  assert (HRets: forall d r rest, valid_draws bmin bmax d -> exec (acc bmin B k 0 1) d = ORet r rest -> 0 <= r < M).
  { intros d r rest Vd Hx. pose proof (acc_rets tb bmin bmax Hb k 0 1 ltac:(lia) ltac:(lia)) as HR.
    fold B in HR. fold M in HR. rewrite Z.mul_1_l in HR. apply (rets_exec _ _ _ _ _ _ _ _ HR Vd Hx). }
  assert (HA: exists ds' v, valid_draws bmin bmax ds' /\
    exec (big_att F bmin B t R lo k) (ds1 ++ ds') = ORet (Some v) []).
  2:{ destruct HA as (ds' & v & V & HA). exists ds', v. split; [exact V|]. rewrite K4.
      apply exec_retry_some; [lia|exact HA]. }
  clear K4. unfold big_att in *. fold M in K2 |- *.
  apply exec_bind_more_inv in K2.
  destruct K2 as [K2|(r & rest & K2 & K3)].
  - (* in the middle of the digits *)
    destruct (acc_more tb bmin bmax Hb k 0 1 ds1 K2) as (d & r & V & Hx). fold B in Hx.
    destruct (Z.eqb_spec M (R + 1)) as [E|E].
    + exists d, (cast t r). split; [exact V|]. rewrite (exec_bind_ret _ _ _ _ _ _ _ Hx). reflexivity.
    + destruct (q_bounds E) as (Q1 & Q2 & Q3).
      destruct (small_exec tb bmin bmax Hb F (R / M) 0 ltac:(fold B; lia) 0 [] HF ltac:(lia)) as (d2 & A1 & A2 & A3).
      fold B in A3. rewrite app_nil_r in A3.
      pose proof (exec_app _ _ _ d2 _ _ Hx) as Hx2. rewrite <- app_assoc in Hx2.
      exists (d ++ d2), (lo + r). split; [apply Forall_app; split; assumption|].
      rewrite (exec_bind_ret _ _ _ _ _ _ _ Hx2). cbn [app]. rewrite (exec_bind_ret _ _ _ _ _ _ _ A3).
      cbn [exec]. replace (r + (0 + 0) * M) with r by ring.
      assert (Hr: 0 <= r < M).
      { apply (HRets (ds1 ++ d) r []); [apply Forall_app; split; assumption|exact Hx]. }
      destruct (Z.leb_spec r R); [reflexivity|lia].
  - destruct (Z.eqb_spec M (R + 1)) as [E|E]; [discriminate|].
    destruct (q_bounds E) as (Q1 & Q2 & Q3).
    apply exec_bind_more_inv in K3. destruct K3 as [K3|(i & r2 & _ & K3)]; [|discriminate].
    destruct (small_more tb bmin bmax Hb F (R / M) 0 rest ltac:(fold B; lia) K3) as (d & V & Hx).
    fold B in Hx. pose proof (exec_app _ _ _ d _ _ K2) as K2'.
    exists d, (lo + r). split; [exact V|].
    rewrite (exec_bind_ret _ _ _ _ _ _ _ K2'). rewrite (exec_bind_ret _ _ _ _ _ _ _ Hx). cbn [exec].
    pose proof (HRets _ _ _ Hd1 K2) as Hr. replace (r + 0 * M) with r by ring.
    destruct (Z.leb_spec r R); [reflexivity|lia].
Qed.
End Big.
End Code.
