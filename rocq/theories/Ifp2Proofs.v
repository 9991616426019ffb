(* generate_int_float_pair: the real part, independence, uniformity. *)
From Coq Require Import Lqa Qpower.
From Verif Require Import Base ProgModel ProgSpec ProgProofs UIntModel UIntSpec UIntProofs IbModel IbProofs Disc4Proofs FloatModel FloatSpec FloatProofs RealModel RealProofs UniProofs IfpModel IfpSpec IfpProofs.
Open Scope Z_scope.
Ltac Zify.zify_post_hook ::= idtac.

Section Val.
Variables (f : fmt) (md : rmode).
Hypothesis Hf : fmt_ok f.
Hypothesis Hemin : emin f + 64 <= 0.
Local Notation D := (prec f).
Local Notation rnd := (fround f md).

Lemma repr_frac : forall N e, Z.abs N <= 2 ^ D -> emin f <= - e -> representable f (inject_Z N * p2 (- e))%Q.
Proof using. intros N e H1 H2. exists N, (- e). split; [exact H2|]. split; [exact H1|reflexivity]. Qed.
Lemma pow_repr : forall k, 0 <= k -> (rnd (inject_Z (1 * 2 ^ k)) == p2 k)%Q.
Proof using Hf.
  clear Hemin. intros k Hk. assert (E: (inject_Z (1 * 2 ^ k) == p2 k)%Q) by (rewrite Z.mul_1_l; symmetry; apply p2_Z; exact Hk).
  rewrite (rnd_compat f md Hf _ _ E). apply rnd_fix; [exact Hf|]. apply repr_p2; [exact Hf|]. destruct Hf; lia.
Qed.
Lemma mult_eq : forall k, 1 <= k -> emin f <= - k ->
  (rnd ((1 # 2) / rnd (inject_Z (1 * 2 ^ (k - 1)))) == p2 (- k))%Q.
Proof using Hf.
  intros k Hk Hm.
  assert (E: ((1 # 2) / rnd (inject_Z (1 * 2 ^ (k - 1))) == p2 (- k))%Q).
  { rewrite pow_repr by lia. apply (Qmult_inj_r _ _ (p2 k)); [apply p2_nz|]. rewrite <- p2_add. replace (- k + k) with 0 by ring.
    replace k with (k - 1 + 1) at 2 by ring. rewrite p2_add. change (p2 1) with 2%Q. change (p2 0) with 1%Q. field. apply p2_nz. }
  rewrite (rnd_compat f md Hf _ _ E). apply rnd_fix; [exact Hf|]. apply repr_p2; assumption.
Qed.
Lemma mult1_eq : forall k, 1 <= k -> emin f <= - k -> (rnd (1 / rnd (inject_Z (1 * 2 ^ k))) == p2 (- k))%Q.
Proof using Hf.
  intros k Hk Hm. assert (E: (1 / rnd (inject_Z (1 * 2 ^ k)) == p2 (- k))%Q).
  { rewrite pow_repr by lia. apply (Qmult_inj_r _ _ (p2 k)); [apply p2_nz|]. rewrite <- p2_add. replace (- k + k) with 0 by ring.
    change (p2 0) with 1%Q. field. apply p2_nz. }
  rewrite (rnd_compat f md Hf _ _ E). apply rnd_fix; [exact Hf|]. apply repr_p2; assumption.
Qed.

(* one step of the accumulation *)
Definition stp (k : Z) (r : Q) (u : Z) : Q :=
  (rnd (rnd (r + rnd (inject_Z u)) * rnd ((1 # 2) / rnd (inject_Z (1 * 2 ^ (k - 1))))))%Q.

Lemma stp_eq : forall k i V u r, 0 < i -> 1 <= k -> i + k <= D -> 0 <= V < 2 ^ i -> 0 <= u < 2 ^ k ->
  (r == inject_Z V * p2 (- i))%Q -> (stp k r u == inject_Z (V + 2 ^ i * u) * p2 (- (i + k)))%Q.
Proof using Hf.
  clear Hemin. intros k i V u r Hi Hk Hik HV Hu Hr. destruct Hf as [HP HE]. unfold stp.
  assert (P1: 2 ^ k <= 2 ^ D) by (apply Z.pow_le_mono_r; lia).
  assert (P2: 2 ^ (i + k) <= 2 ^ D) by (apply Z.pow_le_mono_r; lia).
  assert (0 < 2 ^ i) by (apply Z.pow_pos_nonneg; lia).
  assert (HN: 0 <= V + 2 ^ i * u < 2 ^ (i + k)).
  { rewrite Z.pow_add_r by lia. assert (0 <= 2 ^ i * u) by (apply Z.mul_nonneg_nonneg; lia).
    assert (2 ^ i * u <= 2 ^ i * (2 ^ k - 1)) by (apply Z.mul_le_mono_nonneg_l; lia).
    replace (2 ^ i * (2 ^ k - 1)) with (2 ^ i * 2 ^ k - 2 ^ i) in * by ring. lia. }
  assert (E1: (rnd (inject_Z u) == inject_Z u)%Q) by (apply rnd_fix; [split; assumption|]; apply repr_Z; [split; assumption|lia]).
  assert (E2: (r + rnd (inject_Z u) == inject_Z (V + 2 ^ i * u) * p2 (- i))%Q).
  { rewrite E1, Hr, inject_Z_plus, inject_Z_mult, <- p2_Z by lia.
    setoid_replace ((inject_Z V + p2 i * inject_Z u) * p2 (- i))%Q with (inject_Z V * p2 (- i) + p2 (i + - i) * inject_Z u)%Q by (rewrite p2_add; ring).
    replace (i + - i) with 0 by ring. change (p2 0) with 1%Q. ring. }
  assert (E3: (rnd (r + rnd (inject_Z u)) == inject_Z (V + 2 ^ i * u) * p2 (- i))%Q).
  { rewrite (rnd_compat f md Hf _ _ E2). apply rnd_fix; [exact Hf|]. apply repr_frac; lia. }
  assert (E4: (rnd (r + rnd (inject_Z u)) * rnd ((1 # 2) / rnd (inject_Z (1 * 2 ^ (k - 1)))) ==
     inject_Z (V + 2 ^ i * u) * p2 (- (i + k)))%Q).
  { rewrite E3, mult_eq by lia. replace (- (i + k)) with (- i + - k) by ring. rewrite p2_add. ring. }
  rewrite (rnd_compat f md Hf _ _ E4). apply rnd_fix; [exact Hf|]. apply repr_frac; lia.
Qed.
End Val.

Section Ifp.
Variables (f : fmt) (md : rmode) (fuel : nat) (tb : ity) (bmin bmax w : Z).
Hypothesis Hf : fmt_ok f.
Hypothesis Hemin : emin f + 64 <= 0.
Hypothesis He : eng_wf tb bmin bmax.
Hypothesis HW : 32 <= bits tb <= 64.
Hypothesis Hw : 1 <= w <= 31.
Local Notation W := (bits tb).
Local Notation B := (bmax - bmin + 1).
Local Notation m := (digit_bits bmin bmax).
Local Notation s := (w mod m).
Local Notation D := (prec f).
Local Notation rnd := (fround f md).
Local Notation gd := (retry fuel (patt bmin B m)).
Local Notation first := (first f md bmin bmax w).
Local Notation tail := (tail f md fuel tb bmin bmax w).
Local Notation pure_pair := (pure_pair f md fuel tb bmin bmax w).

(* the first digit *)
Lemma first_short : forall h, m - s <= D -> 0 <= h < 2 ^ (m - s) -> (first h == inject_Z h * p2 (- (m - s)))%Q.
Proof using Hf Hemin He HW.
  intros h L Hh. pose proof (s_bounds tb bmin bmax w He) as HS. pose proof (i0_bounds tb bmin bmax w He HW). unfold IfpProofs.first, cut.
  destruct (Z.ltb_spec D (m - s)); [lia|]. assert (2 ^ (m - s) <= 2 ^ D) by (apply Z.pow_le_mono_r; lia).
  assert (E1: (rnd (inject_Z h) == inject_Z h)%Q) by (apply rnd_fix; [exact Hf|]; apply repr_Z; [exact Hf|lia]).
  assert (E2: (rnd (inject_Z h) * rnd (1 / rnd (inject_Z (1 * 2 ^ (m - s)))) == inject_Z h * p2 (- (m - s)))%Q).
  { rewrite E1, (mult1_eq f md Hf) by lia. reflexivity. }
  rewrite (rnd_compat f md Hf _ _ E2). apply rnd_fix; [exact Hf|]. apply repr_frac; lia.
Qed.
Lemma first_long : forall h, D < m - s -> 0 <= h < 2 ^ (m - s) -> (0 <= first h /\ first h < 1)%Q.
Proof using Hf Hemin He HW.
  intros h L Hh. pose proof (s_bounds tb bmin bmax w He) as HS. pose proof (i0_bounds tb bmin bmax w He HW) as HI.
  assert (HD: 1 <= D) by (destruct Hf; assumption). unfold IfpProofs.first, cut.
  destruct (Z.ltb_spec D (m - s)); [|lia]. set (i := m - s) in *. set (c := Z.ldiff h (2 ^ (i - D))).
  assert (Hx: 0 < 2 ^ (i - D)) by (apply Z.pow_pos_nonneg; lia).
  assert (Hc: 0 <= c) by (apply Z.ldiff_nonneg; left; lia).
  assert (EL: Z.land c (2 ^ (i - D)) = 0).
  { apply Z.bits_inj'. intros n Hn. unfold c. rewrite Z.land_spec, Z.ldiff_spec, Z.bits_0. destruct (Z.testbit (2 ^ (i - D)) n); cbn [negb].
    - rewrite andb_false_r. reflexivity.
    - apply andb_false_r. }
  assert (HC: c + 2 ^ (i - D) < 2 ^ i).
  { rewrite Z.add_nocarry_lxor, Z.lxor_lor by exact EL.
    apply Z.log2_lt_cancel. rewrite Z.log2_pow2 by lia. rewrite Z.log2_lor by lia. apply Z.max_lub_lt.
    - apply Z.le_lt_trans with (Z.log2 h).
      + apply Z.log2_le_mono. unfold c. pose proof (Z.ldiff_le h (2 ^ (i - D))).
        rewrite <- (Z.lor_ldiff_and h (2 ^ (i - D))) at 2. assert (Z.ldiff h (2 ^ (i - D)) <= Z.lor (Z.ldiff h (2 ^ (i - D))) (Z.land h (2 ^ (i - D)))); [|assumption].
        assert (EZ: Z.land (Z.ldiff h (2 ^ (i - D))) (Z.land h (2 ^ (i - D))) = 0).
        { rewrite (Z.land_comm h), Z.land_assoc. fold c. rewrite EL. apply Z.land_0_l. }
        rewrite <- Z.lxor_lor by exact EZ. rewrite <- Z.add_nocarry_lxor by exact EZ.
        assert (0 <= Z.land h (2 ^ (i - D))) by (apply Z.land_nonneg; lia). lia.
      + destruct (Z.eq_dec h 0) as [->|Hn]; [cbn; lia|]. apply Z.log2_lt_pow2; lia.
    - rewrite Z.log2_pow2; lia. }
  set (M := (inject_Z (2 ^ D - 1) * p2 (i - D))%Q).
  assert (HPD: 0 < 2 ^ D) by (apply Z.pow_pos_nonneg; lia).
  assert (RM: representable f M).
  { exists (2 ^ D - 1), (i - D). split; [lia|]. split; [lia|reflexivity]. }
  assert (EM: (inject_Z c <= M)%Q).
  { unfold M. rewrite p2_Z, <- inject_Z_mult by lia. apply injZ_le.
    replace ((2 ^ D - 1) * 2 ^ (i - D)) with (2 ^ D * 2 ^ (i - D) - 2 ^ (i - D)) by ring. rewrite <- Z.pow_add_r by lia.
    replace (D + (i - D)) with i by ring. lia. }
  assert (H0: (0 <= inject_Z c)%Q) by (change 0%Q with (inject_Z 0); apply injZ_le; lia).
  pose proof (repr_rnd_le f md Hf _ _ RM EM) as U1. pose proof (rnd_nonneg f md _ H0) as L1.
  pose proof (mult1_eq f md Hf i ltac:(lia) ltac:(lia)) as EU. set (mu := rnd (1 / rnd (inject_Z (1 * 2 ^ i)))) in *.
  pose proof (p2_pos (- i)) as HPi. split.
  - apply (rnd_nonneg f md). rewrite EU. apply Qmult_le_0_compat; lra.
  - apply Qle_lt_trans with (inject_Z (2 ^ D - 1) * p2 (- D))%Q.
    + apply (repr_rnd_le f md Hf); [apply repr_frac; destruct Hf; lia|]. rewrite EU.
      apply Qle_trans with (M * p2 (- i))%Q; [apply Qmult_le_compat_r; lra|]. unfold M.
      rewrite <- Qmult_assoc, <- p2_add. replace (i - D + - i) with (- D) by ring. apply Qle_refl.
    + unfold Z.sub. rewrite inject_Z_plus, <- p2_Z by lia. change (inject_Z (-(1))) with (-(1))%Q.
      pose proof (p2_pos (- D)). assert (p2 D * p2 (- D) == 1)%Q by (rewrite <- p2_add; replace (D + - D) with 0 by ring; reflexivity). lra.
Qed.

(* ---- the other digits ---- *)
Fixpoint pmid (k : nat) (i : Z) (r : Q) : prog Q :=
  if i + m <? D then
    match k with
    | O => PFuel
    | S k' => u <~ gd;; pmid k' (i + m) (stp f md m r u)
    end
  else PRet r.
Definition rem : Z := (D - (m - s)) mod m.
Definition plast (r : Q) : prog Q := u <~ gd;; PRet (stp f md rem r (u mod 2 ^ rem)).

Lemma mid_peq : forall k i r, peq bmin bmax (ifp_mid f md fuel tb bmin bmax m k i r) (pmid k i r).
Proof using Hf He HW.
  pose proof (m_W tb bmin bmax He) as HM.
  induction k as [|k IH]; intros i r; cbn [ifp_mid pmid]; destruct (i + m <? D); try reflexivity.
  apply peq_bind; [apply gd_peq; assumption|]. intro u.
  assert (0 < 2 ^ (m - 1)) by (apply Z.pow_pos_nonneg; lia). assert (2 ^ (m - 1) < 2 ^ W) by (apply Z.pow_lt_mono_r; lia).
  rewrite (shlU_ok W 1 (m - 1)) by lia. cbn [plift pbind]. rewrite (fdiv_ok f md) by (apply p2_repr_nz; [exact Hf|lia]). cbn [plift pbind].
  apply IH.
Qed.
Lemma rem_bounds : 0 <= rem < m.
Proof using He. apply Z.mod_pos_bound. pose proof (m_W tb bmin bmax He). lia. Qed.
Lemma last_peq : forall r, m - s < D -> rem <> 0 -> peq bmin bmax (ifp_last f md fuel tb bmin bmax m s r) (plast r).
Proof using Hf He HW.
  intros r L HR. pose proof (m_W tb bmin bmax He) as HM. pose proof rem_bounds as HB. unfold ifp_last, plast.
  destruct (Z.ltb_spec (m - s) D); [|lia]. replace (D - m + s) with (D - (m - s)) by ring. fold rem.
  apply peq_bind; [apply gd_peq; assumption|]. intro u.
  destruct (shlU_mask W rem ltac:(lia)) as (x & Ex & Em). rewrite Ex. cbn [plift pbind]. rewrite Em.
  assert (0 < 2 ^ (rem - 1)) by (apply Z.pow_pos_nonneg; lia). assert (2 ^ (rem - 1) < 2 ^ W) by (apply Z.pow_lt_mono_r; lia).
  rewrite (shlU_ok W 1 (rem - 1)) by lia. cbn [plift pbind]. rewrite (fdiv_ok f md) by (apply p2_repr_nz; [exact Hf|lia]). cbn [plift pbind peq].
  unfold stp. replace (2 ^ rem - 1) with (Z.ones rem) by (rewrite Z.ones_equiv; lia). rewrite Z.land_ones by lia. reflexivity.
Qed.
Lemma last_ub : forall r, m - s < D -> rem = 0 ->
  rets bmin bmax (ifp_last f md fuel tb bmin bmax m s r) (fun _ => False).
Proof using He HW.
  intros r L HR. unfold ifp_last. destruct (Z.ltb_spec (m - s) D); [|lia]. replace (D - m + s) with (D - (m - s)) by ring. fold rem.
  rewrite HR. eapply rets_bind with (P := fun _ => True).
  - generalize (gen_digit fuel tb bmin bmax m). intro p. induction p; cbn [rets]; auto.
  - intros u _. rewrite (shlU_neg W 2 (0 - 1)) by lia. cbn. exact I.
Qed.

(* a rational with denominator 2^i in [0,1) *)
Definition frac (i : Z) (q : Q) : Prop := exists V, 0 <= V < 2 ^ i /\ (q == inject_Z V * p2 (- i))%Q.
Lemma frac_lt1 : forall i q, 0 <= i -> frac i q -> (0 <= q /\ q < 1)%Q.
Proof.
  intros i q Hi (V & HV & E). pose proof (p2_pos (- i)) as HP.
  assert (E1: (p2 i * p2 (- i) == 1)%Q) by (rewrite <- p2_add; replace (i + - i) with 0 by ring; reflexivity).
  assert (H0: (0 <= inject_Z V)%Q) by (change 0%Q with (inject_Z 0); apply injZ_le; lia).
  assert (H1: (inject_Z V < p2 i)%Q) by (rewrite p2_Z by lia; rewrite <- Zlt_Qlt; lia).
  rewrite E. split; [apply Qmult_le_0_compat; lra|]. rewrite <- E1. apply Qmult_lt_compat_r; assumption.
Qed.
Lemma stp_frac : forall k i r u, 0 < i -> 1 <= k -> i + k <= D -> frac i r -> 0 <= u < 2 ^ k -> frac (i + k) (stp f md k r u).
Proof using Hf.
  intros k i r u Hi Hk Hik (V & HV & E) Hu. exists (V + 2 ^ i * u). split; [|apply stp_eq; assumption].
  rewrite Z.pow_add_r by lia. assert (0 < 2 ^ i) by (apply Z.pow_pos_nonneg; lia). assert (0 <= 2 ^ i * u) by (apply Z.mul_nonneg_nonneg; lia).
  assert (2 ^ i * u <= 2 ^ i * (2 ^ k - 1)) by (apply Z.mul_le_mono_nonneg_l; lia).
  replace (2 ^ i * (2 ^ k - 1)) with (2 ^ i * 2 ^ k - 2 ^ i) in * by ring. lia.
Qed.

Lemma mod_step : forall i, (D - (i + m)) mod m = (D - i) mod m.
Proof using He.
  intro i. pose proof (m_W tb bmin bmax He). replace (D - (i + m)) with (D - i + (-1) * m) by ring. apply Z_mod_plus_full.
Qed.
Lemma mod_last : forall i, i < D -> D <= i + m -> (D - i) mod m <> 0 -> (D - i) mod m = D - i.
Proof using He.
  intros i L1 L2 HN. pose proof (m_W tb bmin bmax He). destruct (Z.eq_dec (D - i) m) as [E|E].
  - exfalso. apply HN. rewrite E. apply Z_mod_same_full.
  - apply Z.mod_small. lia.
Qed.

Lemma ptail_wp : forall k i r n, (n < fuel)%nat -> 0 < i < D -> (D - i) mod m = rem -> rem <> 0 -> D - i <= Z.of_nat k -> frac i r ->
  wp bmin bmax (q <~ pmid k i r;; plast q) n (fun q _ => frac D q).
Proof using Hf He.
  pose proof (m_W tb bmin bmax He) as HM. pose proof rem_bounds as HR.
  assert (Last: forall i r n, (n < fuel)%nat -> 0 < i < D -> D <= i + m -> (D - i) mod m = rem -> rem <> 0 -> frac i r ->
    wp bmin bmax (plast r) n (fun q _ => frac D q)).
  { intros i r n Hn Hi L Em Hne Hr. unfold plast. apply wp_bind. eapply wp_mono; [|apply (gd_wp fuel tb bmin bmax He n Hn)].
    intros u n' _ Hu. cbn [wp]. pose proof (mod_last i ltac:(lia) L ltac:(lia)) as El.
    assert (HPr: 0 < 2 ^ rem) by (apply Z.pow_pos_nonneg; lia).
    pose proof (stp_frac rem i r (u mod 2 ^ rem) ltac:(lia) ltac:(lia) ltac:(lia) Hr (Z.mod_pos_bound u (2 ^ rem) HPr)) as G.
    replace (i + rem) with D in G by lia. exact G. }
  induction k as [|k IH]; intros i r n Hn Hi Em Hne Hk Hr; [lia|]. cbn [pmid].
  destruct (Z.ltb_spec (i + m) D) as [L|L].
  - apply wp_bind. apply wp_bind. eapply wp_mono; [|apply (gd_wp fuel tb bmin bmax He n Hn)].
    intros u n' Hn' Hu. cbn beta in *. 
    assert (G: wp bmin bmax (q <~ pmid k (i + m) (stp f md m r u);; plast q) n' (fun q _ => frac D q)).
    { apply IH; try lia; [rewrite mod_step; exact Em|]. apply stp_frac; try assumption; lia. }
    clear - G. revert n' G. generalize (pmid k (i + m) (stp f md m r u)). intros p. induction p as [a|g IHp| |]; cbn [pbind wp]; auto.
    intros n' G. destruct n'; auto.
  - cbn [pbind]. apply (Last i); try assumption; lia.
Qed.

Lemma tail_long : forall r, D <= m - s -> tail r = PRet r.
Proof using He.
  intros r L. pose proof (m_W tb bmin bmax He). unfold IfpProofs.tail, ifp_last.
  destruct (Z.to_nat D); cbn [ifp_mid]; (destruct (Z.ltb_spec (m - s + m) D); [lia|]); cbn [pbind]; (destruct (Z.ltb_spec (m - s) D); [lia|reflexivity]).
Qed.
Lemma tail_peq : forall r, m - s < D -> rem <> 0 ->
  peq bmin bmax (tail r) (q <~ pmid (Z.to_nat D) (m - s) r;; plast q).
Proof using Hf He HW. intros r L HR. apply peq_bind; [apply mid_peq|]. intro q. apply last_peq; assumption. Qed.

Definition pure2 : prog (Q * Z) :=
  A <~ chunks fuel bmin B m (Z.to_nat (w / m)) 0;;
  u <~ gd;;
  q <~ (if D <=? m - s then PRet (first (u / 2 ^ s)) else q <~ pmid (Z.to_nat D) (m - s) (first (u / 2 ^ s));; plast q);;
  PRet (q, A * 2 ^ s + u mod 2 ^ s).
Lemma pair_peq2 : no_full_last D m w -> peq bmin bmax (int_float_pair f md fuel w tb bmin bmax) pure2.
Proof using Hf He HW Hw.
  intro HN. eapply peq_trans; [apply pair_peq; assumption|]. unfold IfpProofs.pure_pair, pure2. apply peq_bind; [apply peq_refl|]. intro A.
  apply peq_bind; [apply peq_refl|]. intro u. apply peq_bind; [|intro; apply peq_refl].
  destruct (Z.leb_spec D (m - s)) as [L|L]; [rewrite tail_long by exact L; apply peq_refl|].
  apply tail_peq; [exact L|]. destruct HN as [HN|HN]; [lia|exact HN].
Qed.

Lemma chunks_wp : forall k, 0 <= k -> forall c a S l, (l < fuel)%nat -> 0 <= a -> 0 <= S < 2 ^ a ->
    wp bmin bmax (chunks fuel bmin B k c S) l (fun x _ => 0 <= x < 2 ^ (a + Z.of_nat c * k)).
Proof using.
  intros k Hk0 c. induction c as [|c IH]; intros a S l0 Hl0 Ha HS.
    - cbn [chunks wp]. change (Z.of_nat 0) with 0. rewrite Z.mul_0_l, Z.add_0_r. exact HS.
    - cbn [chunks]. apply wp_bind.
      apply wp_mono with (Q := fun x m => 0 <= x < 2 ^ k).
      + intros x m0 Hm Hx. replace (a + Z.of_nat (Datatypes.S c) * k) with (a + k + Z.of_nat c * k) by lia.
        apply IH; [lia|lia|]. rewrite Z.pow_add_r by lia.
        assert (HX: 0 <= S * 2 ^ k <= (2 ^ a - 1) * 2 ^ k).
        { split; [apply Z.mul_nonneg_nonneg; lia|apply Z.mul_le_mono_nonneg_r; lia]. }
        replace ((2 ^ a - 1) * 2 ^ k) with (2 ^ a * 2 ^ k - 2 ^ k) in HX by ring. lia.
      + apply wp_retry; [|exact Hl0]. intro j. destruct j as [|j]; [exact I|]. unfold patt. cbn [wp].
        intros v Hv. split; [lia|]. intros x Hx. destruct (v - bmin <? ycut B k); [|discriminate].
        assert (E: (v - bmin) mod 2 ^ k = x) by congruence. rewrite <- E.
        apply Z.mod_pos_bound. apply Z.pow_pos_nonneg; lia.
Qed.

Lemma hi_range : forall u, 0 <= u < 2 ^ m -> 0 <= u / 2 ^ s < 2 ^ (m - s).
Proof using He.
  intros u Hu. pose proof (s_bounds tb bmin bmax w He). assert (0 < 2 ^ s) by (apply Z.pow_pos_nonneg; lia).
  split; [apply Z.div_pos; lia|]. apply Z.div_lt_upper_bound; [lia|]. rewrite <- Z.pow_add_r by lia. replace (s + (m - s)) with m by ring. lia.
Qed.

Lemma pure2_wp : no_full_last D m w -> forall n, (n < fuel)%nat ->
  wp bmin bmax pure2 n (fun x _ => 0 <= snd x < 2 ^ w /\ (0 <= fst x /\ fst x < 1)%Q /\ (m - s <= D -> frac D (fst x))).
Proof using Hf Hemin He HW Hw.
  intros HN n Hn. pose proof (m_W tb bmin bmax He) as HM. pose proof (s_bounds tb bmin bmax w He) as HS. pose proof (w_split tb bmin bmax w He Hw) as EW.
  assert (HD: 1 <= D) by (destruct Hf; assumption).
  unfold pure2. apply wp_bind. eapply wp_mono; [|apply (chunks_wp m ltac:(lia) (Z.to_nat (w / m)) 0 0 n Hn); [lia|cbn; lia]].
  intros A n1 Hn1 HA. cbn beta in *. rewrite Z.add_0_l in HA.
  apply wp_bind. eapply wp_mono; [|apply (gd_wp fuel tb bmin bmax He n1 ltac:(lia))]. intros u n2 Hn2 Hu. cbn beta in *.
  apply wp_bind. pose proof (hi_range u Hu) as HH.
  assert (HB: 0 <= A * 2 ^ s + u mod 2 ^ s < 2 ^ w).
  { assert (0 < 2 ^ s) by (apply Z.pow_pos_nonneg; lia). pose proof (Z.mod_pos_bound u (2 ^ s) ltac:(lia)).
    set (t := Z.of_nat (Z.to_nat (w / m)) * m) in *. assert (0 <= t) by (unfold t; apply Z.mul_nonneg_nonneg; lia).
    assert (0 <= A * 2 ^ s) by (apply Z.mul_nonneg_nonneg; lia).
    assert (A * 2 ^ s <= (2 ^ t - 1) * 2 ^ s) by (apply Z.mul_le_mono_nonneg_r; lia).
    assert (2 ^ t * 2 ^ s = 2 ^ w) by (rewrite <- Z.pow_add_r by lia; f_equal; lia).
    replace ((2 ^ t - 1) * 2 ^ s) with (2 ^ t * 2 ^ s - 2 ^ s) in * by ring. lia. }
  destruct (Z.leb_spec D (m - s)) as [L|L].
  - cbn [wp fst snd]. split; [exact HB|]. destruct (Z.eq_dec (m - s) D) as [ED|ED].
    + assert (FR: frac D (first (u / 2 ^ s))).
      { exists (u / 2 ^ s). rewrite <- ED. split; [exact HH|]. apply first_short; lia. }
      split; [apply (frac_lt1 D); [lia|exact FR]|intros _; exact FR].
    + split; [apply first_long; lia|lia].
  - assert (FR: frac (m - s) (first (u / 2 ^ s))) by (exists (u / 2 ^ s); split; [exact HH|apply first_short; lia]).
    eapply wp_mono; [|apply (ptail_wp (Z.to_nat D) (m - s) (first (u / 2 ^ s)) n2); try lia; try assumption].
    + intros q n3 Hn3 Hq. cbn [wp fst snd]. split; [exact HB|]. split; [apply (frac_lt1 D); [lia|exact Hq]|intros _; exact Hq].
    + reflexivity.
    + destruct HN as [HN|HN]; [lia|exact HN].
Qed.

Lemma pair_run : no_full_last D m w -> forall ds, valid_draws bmin bmax ds -> (length ds < fuel)%nat ->
  exec (int_float_pair f md fuel w tb bmin bmax) ds = OMore \/
  exists q b rest, exec (int_float_pair f md fuel w tb bmin bmax) ds = ORet (q, b) rest /\
    0 <= b < 2 ^ w /\ (0 <= q /\ q < 1)%Q /\ (m - s <= D -> frac D q).
Proof using Hf Hemin He HW Hw.
  intros HN ds Hv Hl. rewrite (peq_exec _ _ _ _ _ ds (pair_peq2 HN) Hv).
  destruct (wp_exec _ _ _ _ ds _ (pure2_wp HN (length ds) Hl) Hv) as [H|([q b] & rest & H1 & H2 & _)]; [left; exact H|].
  right. exists q, b, rest. cbn [fst snd] in H2. tauto.
Qed.

(* never returns otherwise *)
Lemma pair_never : ~ no_full_last D m w -> forall ds x rest, valid_draws bmin bmax ds ->
  exec (int_float_pair f md fuel w tb bmin bmax) ds <> ORet x rest.
Proof using Hf He HW Hw.
  intros HN ds x rest Hv HE. rewrite (peq_exec _ _ _ _ _ ds (pair_peq f md fuel tb bmin bmax w Hf He HW Hw) Hv) in HE.
  assert (HR: rets bmin bmax pure_pair (fun _ => False)); [|exact (rets_exec _ _ _ _ _ _ _ _ HR Hv HE)].
  assert (L: m - s < D). { destruct (Z.lt_ge_cases (m - s) D) as [L|L]; [exact L|]. exfalso. apply HN. left. exact L. }
  assert (R0: rem = 0). { destruct (Z.eq_dec rem 0) as [E|E]; [exact E|]. exfalso. apply HN. right. exact E. }
  assert (T: forall A (p : prog A), rets bmin bmax p (fun _ => True)) by (intros A p; induction p; cbn [rets]; auto).
  unfold IfpProofs.pure_pair. eapply rets_bind; [apply T|]. intros A _. eapply rets_bind; [apply T|]. intros u _.
  eapply rets_bind with (P := fun _ => False); [|intros a []]. unfold IfpProofs.tail. eapply rets_bind; [apply T|].
  intros q _. apply last_ub; assumption.
Qed.
End Ifp.
