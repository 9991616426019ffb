(* generate_int_float_pair: counting. *)
From Coq Require Import Lqa Qpower.
From Verif Require Import Base ProgModel ProgSpec ProgProofs UIntModel UIntSpec UIntProofs IbModel IbProofs Disc4Proofs FloatModel FloatSpec FloatProofs RealModel RealSpec RealProofs UniProofs IfpModel IfpSpec IfpProofs Ifp2Proofs.
Open Scope Z_scope.
Ltac Zify.zify_post_hook ::= idtac.

(* indicator *)
Definition ind (c : bool) : Z := if c then 1 else 0.
(* weight of a run: all outputs consumed *)
Definition fin (k : nat) (z : Z) : Z := if Nat.eqb k 0 then z else 0.

Lemma exec_map : forall A C (p : prog A) (g : A -> C) ds,
  exec (x <~ p;; PRet (g x)) ds = match exec p ds with ORet a r => ORet (g a) r | OMore => OMore | OUB => OUB | OFuel => OFuel end.
Proof.
  induction p as [a|k IH| |]; intros g ds; cbn [pbind exec]; auto. destruct ds; auto.
Qed.
Lemma pair_count_E : forall bmin bmax p n P b, Z.of_nat (pair_count bmin bmax p n P b) =
  E bmin bmax p n (fun x k => fin k (ind (P (fst x) && (snd x =? b)))).
Proof.
  intros bmin bmax p n P b.
  assert (C: pair_count bmin bmax p n P b = count bmin bmax (x <~ p;; PRet (ind (P (fst x) && (snd x =? b)))) n 1).
  { unfold pair_count, count. f_equal. apply filter_ext. intro ds. unfold returns. rewrite exec_map.
    destruct (exec p ds) as [[q c] r| | |]; auto. destruct r; [|reflexivity]. cbn [fst snd]. unfold ind.
    destruct (P q && (c =? b)); reflexivity. }
  rewrite C, count_E, E_bind. apply E_ext. intros x k. cbn [E]. unfold fin, ind. destruct (Nat.eqb k 0); [|reflexivity].
  destruct (P (fst x) && (snd x =? b)); reflexivity.
Qed.

Lemma E_scale : forall A bmin bmax (p : prog A) n c f, E bmin bmax p n (fun a k => c * f a k) = c * E bmin bmax p n f.
Proof.
  induction p as [a|k IH| |]; cbn [E]; intros n c f; try lia. destruct n as [|n]; [lia|].
  assert (S: forall j g, ssum j (fun i => c * g i) = c * ssum j g) by (induction j as [|j IHj]; intro g; cbn [ssum]; [lia|rewrite IHj; lia]).
  rewrite <- S. apply ssum_ext. intros i Hi. apply IH.
Qed.
Lemma ssum_scale : forall j c g, ssum j (fun i => c * g i) = c * ssum j g.
Proof. induction j as [|j IHj]; intros c g; cbn [ssum]; [lia|rewrite IHj; lia]. Qed.

(* a independent real part: A high bits of the bucket, L low bits *)
Lemma bucket_once : forall t s b, 0 <= t -> 0 <= s -> 0 <= b < 2 ^ (t + s) ->
  ssum (Z.to_nat (2 ^ s)) (fun L => ssum (Z.to_nat (2 ^ t)) (fun A => ind (A * 2 ^ s + L =? b))) = 1.
Proof.
  intros t s b Ht Hs Hb. assert (0 < 2 ^ s) by (apply Z.pow_pos_nonneg; lia). assert (0 < 2 ^ t) by (apply Z.pow_pos_nonneg; lia).
  rewrite ssum_swap. rewrite <- (ssum_delta (Z.to_nat (2 ^ s) * Z.to_nat (2 ^ t)) b).
  - rewrite ssum_radix. apply ssum_ext. intros A HA. apply ssum_ext. intros L HL. rewrite Z2Nat.id by lia. unfold ind. replace (L + 2 ^ s * A) with (A * 2 ^ s + L) by ring. reflexivity.
  - rewrite Nat2Z.inj_mul, !Z2Nat.id by lia. rewrite <- Z.pow_add_r by lia. rewrite Z.add_comm. exact Hb.
Qed.

Section Ifp.
Variables (f : fmt) (md : rmode) (fuel : nat) (tb : ity) (bmin bmax w : Z).
Hypothesis Hf : fmt_ok f.
Hypothesis Hemin : emin f + 64 <= 0.
Hypothesis He : eng_wf tb bmin bmax.
Hypothesis HW : 32 <= bits tb <= 64.
Hypothesis Hw : 1 <= w <= 31.
Local Notation W := (bits tb).
Local Notation B := (bmax - bmin + 1).
Local Notation m := (digit_bits bmin bmax).
Local Notation s := (w mod m).
Local Notation D := (prec f).
Local Notation rnd := (fround f md).
Local Notation gd := (retry fuel (patt bmin B m)).
Local Notation first := (first f md bmin bmax w).
Local Notation tail := (tail f md fuel tb bmin bmax w).
Local Notation pure_pair := (pure_pair f md fuel tb bmin bmax w).
Local Notation t := (Z.of_nat (Z.to_nat (w / m)) * m).

Lemma chunks_uniform : Uniform bmin bmax (chunks fuel bmin B m (Z.to_nat (w / m)) 0) 0 (Z.to_nat (2 ^ t)).
Proof using He.
  pose proof (m_W tb bmin bmax He) as HM.
  assert (U0: Uniform bmin bmax (PRet 0) 0 (Z.to_nat (2 ^ 0))) by (intros k g h Hs; cbn [E]; exact (Hs k)).
  pose proof (Uniform_chunks tb bmin bmax He fuel m (Z.to_nat (w / m)) 0 (PRet 0) ltac:(lia) ltac:(lia) U0) as U1.
  exact U1.
Qed.


Lemma split_digit : forall (g : Z -> Z -> Z), (* H L *)
  ssum (Z.to_nat (2 ^ m)) (fun u => g (u / 2 ^ s) (u mod 2 ^ s)) =
  ssum (Z.to_nat (2 ^ (m - s))) (fun H => ssum (Z.to_nat (2 ^ s)) (fun L => g H L)).
Proof using He.
  intro g. pose proof (s_bounds tb bmin bmax w He) as HS. assert (0 < 2 ^ s) by (apply Z.pow_pos_nonneg; lia).
  assert (0 < 2 ^ (m - s)) by (apply Z.pow_pos_nonneg; lia).
  replace (Z.to_nat (2 ^ m)) with (Z.to_nat (2 ^ s) * Z.to_nat (2 ^ (m - s)))%nat.
  - rewrite ssum_radix. apply ssum_ext. intros h HH. apply ssum_ext. intros L HL. rewrite Z2Nat.id in * by lia.
    f_equal.
    + replace (L + 2 ^ s * h) with (h * 2 ^ s + L) by ring. rewrite Z.div_add_l by lia. rewrite Z.div_small; lia.
    + rewrite Z.mul_comm, Z_mod_plus_full. apply Z.mod_small. lia.
  - rewrite <- Z2Nat.inj_mul, <- Z.pow_add_r by lia. do 2 f_equal. ring.
Qed.

Lemma indep_gen : forall n (g1 g2 : Q -> nat -> Z) b1 b2, 0 <= b1 < 2 ^ w -> 0 <= b2 < 2 ^ w ->
  (forall k, ssum (Z.to_nat (2 ^ (m - s))) (fun H => E bmin bmax (tail (first H)) k g1) =
             ssum (Z.to_nat (2 ^ (m - s))) (fun H => E bmin bmax (tail (first H)) k g2)) ->
  E bmin bmax pure_pair n (fun x k => g1 (fst x) k * ind (snd x =? b1)) =
  E bmin bmax pure_pair n (fun x k => g2 (fst x) k * ind (snd x =? b2)).
Proof using He Hw.
  intros n g1 g2 b1 b2 Hb1 Hb2 HT. pose proof (s_bounds tb bmin bmax w He) as HS. pose proof (m_W tb bmin bmax He) as HM.
  pose proof (w_split tb bmin bmax w He Hw) as EW. assert (Ht: 0 <= t) by (apply Z.mul_nonneg_nonneg; lia).
  unfold IfpProofs.pure_pair. rewrite !E_bind. apply chunks_uniform. intro k.
  assert (K: forall (g : Q -> nat -> Z) b,
    ssum (Z.to_nat (2 ^ t)) (fun A => E bmin bmax (u <~ gd;; q <~ tail (first (u / 2 ^ s));; PRet (q, (0 + A) * 2 ^ s + u mod 2 ^ s)) k
       (fun x k => g (fst x) k * ind (snd x =? b))) =
    E bmin bmax gd k (fun u k' => E bmin bmax (tail (first (u / 2 ^ s))) k' 
       (fun q k2 => ssum (Z.to_nat (2 ^ t)) (fun A => ind (A * 2 ^ s + u mod 2 ^ s =? b)) * g q k2))).
  { intros g b. erewrite (E_ext _ _ _ gd); [|intros u k'; rewrite E_scale, Z.mul_comm, <- ssum_scale; reflexivity].
    rewrite E_ssum. apply ssum_ext. intros A HA. rewrite E_bind. apply E_ext. intros u k'. rewrite E_bind. cbn [E fst snd].
    rewrite <- (Z.mul_comm (ind _)), <- E_scale. apply E_ext. intros q k2. rewrite Z.add_0_l. ring. }
  rewrite !K. apply (gd_uniform fuel tb bmin bmax He). intro k'.
  assert (K2: forall (g : Q -> nat -> Z) b, 0 <= b < 2 ^ w ->
    ssum (Z.to_nat (2 ^ m)) (fun u => E bmin bmax (tail (first ((0 + u) / 2 ^ s))) k'
       (fun q k2 => ssum (Z.to_nat (2 ^ t)) (fun A => ind (A * 2 ^ s + (0 + u) mod 2 ^ s =? b)) * g q k2)) =
    ssum (Z.to_nat (2 ^ (m - s))) (fun H => E bmin bmax (tail (first H)) k' g)).
  { intros g b Hb.
    rewrite (ssum_ext _ _ (fun u => (fun H L => E bmin bmax (tail (first H)) k' g * ssum (Z.to_nat (2 ^ t)) (fun A => ind (A * 2 ^ s + L =? b))) (u / 2 ^ s) (u mod 2 ^ s))).
    - rewrite (split_digit (fun H L => E bmin bmax (tail (first H)) k' g * ssum (Z.to_nat (2 ^ t)) (fun A => ind (A * 2 ^ s + L =? b)))).
      apply ssum_ext. intros H HH. rewrite ssum_scale.
      rewrite bucket_once; [lia|lia|lia|]. rewrite <- EW. exact Hb.
    - intros u Hu. cbn beta. rewrite E_scale, Z.add_0_l. ring. }
  rewrite !K2 by assumption. apply HT.
Qed.

Lemma fin_ind : forall (P : Q -> bool) q c b k, fin k (ind (P q && (c =? b))) = fin k (ind (P q)) * ind (c =? b).
Proof using. intros. unfold fin, ind. destruct (Nat.eqb k 0), (P q), (c =? b); reflexivity. Qed.

Lemma pair_indep : forall n P b1 b2, 0 <= b1 < 2 ^ w -> 0 <= b2 < 2 ^ w ->
  pair_count bmin bmax (int_float_pair f md fuel w tb bmin bmax) n P b1 =
  pair_count bmin bmax (int_float_pair f md fuel w tb bmin bmax) n P b2.
Proof using Hf He HW Hw.
  intros n P b1 b2 H1 H2. apply Nat2Z.inj. rewrite !pair_count_E.
  rewrite !(peq_E _ _ _ _ _ _ _ (pair_peq f md fuel tb bmin bmax w Hf He HW Hw)).
  rewrite (E_ext _ _ _ _ _ _ (fun x k => (fun q k => fin k (ind (P q))) (fst x) k * ind (snd x =? b1))) by (intros; apply fin_ind).
  symmetry.
  rewrite (E_ext _ _ _ _ _ _ (fun x k => (fun q k => fin k (ind (P q))) (fst x) k * ind (snd x =? b2))) by (intros; apply fin_ind).
  apply (indep_gen n (fun q k => fin k (ind (P q))) (fun q k => fin k (ind (P q))) b2 b1); auto.
Qed.

(* ---- the real part is uniform ---- *)
Definition proper (g : Q -> nat -> Z) : Prop := forall q q' k, (q == q')%Q -> g q k = g q' k.
Definition val (e V : Z) : Q := (inject_Z V * p2 (- e))%Q.

Lemma ptail_uniform : forall c i (rho : Z -> Q) n g1 g2,
  0 < i < D -> (D - i) mod m = rem f bmin bmax w -> rem f bmin bmax w <> 0 -> D - i <= Z.of_nat c ->
  (forall V, 0 <= V < 2 ^ i -> (rho V == val i V)%Q) -> proper g1 -> proper g2 ->
  (forall k, ssum (Z.to_nat (2 ^ D)) (fun V => g1 (val D V) k) = ssum (Z.to_nat (2 ^ D)) (fun V => g2 (val D V) k)) ->
  ssum (Z.to_nat (2 ^ i)) (fun V => E bmin bmax (q <~ pmid f md fuel bmin bmax c i (rho V);; plast f md fuel bmin bmax w q) n g1) =
  ssum (Z.to_nat (2 ^ i)) (fun V => E bmin bmax (q <~ pmid f md fuel bmin bmax c i (rho V);; plast f md fuel bmin bmax w q) n g2).
Proof using Hf He.
  pose proof (m_W tb bmin bmax He) as HM. pose proof (rem_bounds f tb bmin bmax w He) as HR. set (rm := rem f bmin bmax w) in *.
  induction c as [|c IH]; intros i rho n g1 g2 Hi Em Hne Hc Hrho Hp1 Hp2 HS; [lia|].
  assert (HPi: 0 < 2 ^ i) by (apply Z.pow_pos_nonneg; lia).
  cbn [pmid]. destruct (Z.ltb_spec (i + m) D) as [L|L].
  - set (rho' := fun V' => stp f md m (rho (V' mod 2 ^ i)) (V' / 2 ^ i)).
    assert (HPm: 0 < 2 ^ m) by (apply Z.pow_pos_nonneg; lia).
    assert (Hrho': forall V, 0 <= V < 2 ^ (i + m) -> (rho' V == val (i + m) V)%Q).
    { intros V HV. unfold rho'. pose proof (Z.mod_pos_bound V (2 ^ i) HPi) as HV1.
      assert (HV2: 0 <= V / 2 ^ i < 2 ^ m).
      { split; [apply Z.div_pos; lia|]. apply Z.div_lt_upper_bound; [lia|]. rewrite <- Z.pow_add_r by lia. lia. }
      rewrite (stp_eq f md Hf m i (V mod 2 ^ i) (V / 2 ^ i)); try lia; [|apply Hrho; exact HV1].
      unfold val. replace (V mod 2 ^ i + 2 ^ i * (V / 2 ^ i)) with V; [reflexivity|]. pose proof (Z.div_mod V (2 ^ i) ltac:(lia)). lia. }
    assert (K: forall g, ssum (Z.to_nat (2 ^ i)) (fun V => E bmin bmax (q <~ (u <~ gd;; pmid f md fuel bmin bmax c (i + m) (stp f md m (rho V) u));; plast f md fuel bmin bmax w q) n g) =
      E bmin bmax gd n (fun u k => ssum (Z.to_nat (2 ^ i)) (fun V => E bmin bmax (q <~ pmid f md fuel bmin bmax c (i + m) (stp f md m (rho V) u);; plast f md fuel bmin bmax w q) k g))).
    { intro g. rewrite E_ssum. apply ssum_ext. intros V HV. rewrite !E_bind. apply E_ext. intros u k. rewrite E_bind. reflexivity. }
    rewrite !K. apply (gd_uniform fuel tb bmin bmax He). intro k.
    assert (K2: forall g, ssum (Z.to_nat (2 ^ m)) (fun u => ssum (Z.to_nat (2 ^ i)) (fun V => E bmin bmax (q <~ pmid f md fuel bmin bmax c (i + m) (stp f md m (rho V) (0 + u));; plast f md fuel bmin bmax w q) k g)) =
      ssum (Z.to_nat (2 ^ (i + m))) (fun V => E bmin bmax (q <~ pmid f md fuel bmin bmax c (i + m) (rho' V);; plast f md fuel bmin bmax w q) k g)).
    { intro g. replace (Z.to_nat (2 ^ (i + m))) with (Z.to_nat (2 ^ i) * Z.to_nat (2 ^ m))%nat by (rewrite <- Z2Nat.inj_mul, <- Z.pow_add_r by lia; reflexivity).
      rewrite ssum_radix. apply ssum_ext. intros u Hu. apply ssum_ext. intros V HV. rewrite Z2Nat.id in * by lia. unfold rho'.
      replace ((V + 2 ^ i * u) mod 2 ^ i) with V by (rewrite Z.mul_comm, Z_mod_plus_full, Z.mod_small; lia).
      replace ((V + 2 ^ i * u) / 2 ^ i) with (0 + u) by (replace (V + 2 ^ i * u) with (u * 2 ^ i + V) by ring; rewrite Z.div_add_l, Z.div_small; lia). reflexivity. }
    rewrite !K2. apply IH; try assumption; try lia. rewrite (mod_step f tb bmin bmax He). exact Em.
  - cbn [pbind]. unfold plast. fold rm. pose proof (mod_last f tb bmin bmax He i ltac:(lia) ltac:(lia) ltac:(lia)) as El.
    assert (HPr: 0 < 2 ^ rm) by (apply Z.pow_pos_nonneg; lia). assert (HPx: 0 < 2 ^ (m - rm)) by (apply Z.pow_pos_nonneg; lia).
    assert (K: forall g, ssum (Z.to_nat (2 ^ i)) (fun V => E bmin bmax (u <~ gd;; PRet (stp f md rm (rho V) (u mod 2 ^ rm))) n g) =
      E bmin bmax gd n (fun u k => ssum (Z.to_nat (2 ^ i)) (fun V => g (stp f md rm (rho V) (u mod 2 ^ rm)) k))).
    { intro g. rewrite E_ssum. apply ssum_ext. intros V HV. rewrite E_bind. apply E_ext. intros u k. reflexivity. }
    rewrite !K. apply (gd_uniform fuel tb bmin bmax He). intro k.
    assert (K2: forall g, proper g -> ssum (Z.to_nat (2 ^ m)) (fun u => ssum (Z.to_nat (2 ^ i)) (fun V => g (stp f md rm (rho V) ((0 + u) mod 2 ^ rm)) k)) =
      2 ^ (m - rm) * ssum (Z.to_nat (2 ^ D)) (fun V => g (val D V) k)).
    { intros g Hg. replace (Z.to_nat (2 ^ m)) with (Z.to_nat (2 ^ rm) * Z.to_nat (2 ^ (m - rm)))%nat
        by (rewrite <- Z2Nat.inj_mul, <- Z.pow_add_r by lia; do 2 f_equal; ring).
      rewrite ssum_radix. rewrite (ssum_ext (Z.to_nat (2 ^ (m - rm))) _ (fun _ => ssum (Z.to_nat (2 ^ D)) (fun V => g (val D V) k))).
      - rewrite ssum_const, Z2Nat.id by lia. reflexivity.
      - intros x Hx. replace (Z.to_nat (2 ^ D)) with (Z.to_nat (2 ^ i) * Z.to_nat (2 ^ rm))%nat
          by (rewrite <- Z2Nat.inj_mul, <- Z.pow_add_r by lia; do 2 f_equal; lia).
        rewrite ssum_radix. apply ssum_ext. intros u Hu. apply ssum_ext. intros V HV. rewrite Z2Nat.id in * by lia.
        apply Hg. replace ((0 + (u + 2 ^ rm * x)) mod 2 ^ rm) with u by (rewrite Z.add_0_l, Z.mul_comm, Z_mod_plus_full, Z.mod_small; lia).
        rewrite (stp_eq f md Hf rm i V u); try lia; [|apply Hrho; exact HV]. unfold val. replace (i + rm) with D by lia. rewrite ?(Z2Nat.id (2 ^ i)) by lia. reflexivity. }
    rewrite !K2 by assumption. rewrite HS. reflexivity.
Qed.

Lemma tails_uniform : no_full_last D m w -> m - s <= D -> forall k g1 g2, proper g1 -> proper g2 ->
  (forall k, ssum (Z.to_nat (2 ^ D)) (fun V => g1 (val D V) k) = ssum (Z.to_nat (2 ^ D)) (fun V => g2 (val D V) k)) ->
  ssum (Z.to_nat (2 ^ (m - s))) (fun H => E bmin bmax (tail (first H)) k g1) =
  ssum (Z.to_nat (2 ^ (m - s))) (fun H => E bmin bmax (tail (first H)) k g2).
Proof using Hf Hemin He HW.
  intros HN HL k g1 g2 Hp1 Hp2 HS. pose proof (s_bounds tb bmin bmax w He) as HSB. pose proof (m_W tb bmin bmax He) as HM.
  assert (HD: 1 <= D) by (destruct Hf; assumption).
  assert (HPi: 0 < 2 ^ (m - s)) by (apply Z.pow_pos_nonneg; lia).
  assert (HF: forall V, 0 <= V < 2 ^ (m - s) -> (first V == val (m - s) V)%Q) by (intros V HV; apply (first_short f md tb bmin bmax w Hf Hemin He HW); assumption).
  destruct (Z.eq_dec (m - s) D) as [ED|ED].
  - assert (K: forall g, proper g -> ssum (Z.to_nat (2 ^ (m - s))) (fun H => E bmin bmax (tail (first H)) k g) = ssum (Z.to_nat (2 ^ D)) (fun V => g (val D V) k)).
    { intros g Hg. rewrite <- ED. apply ssum_ext. intros H0 HH. rewrite Z2Nat.id in HH by lia.
      rewrite (tail_long f md fuel tb bmin bmax w He) by lia. cbn [E]. apply Hg. apply HF. lia. }
    rewrite !K by assumption. apply HS.
  - assert (RN: rem f bmin bmax w <> 0) by (destruct HN as [HN|HN]; [lia|exact HN]).
    assert (K: forall g, ssum (Z.to_nat (2 ^ (m - s))) (fun H => E bmin bmax (tail (first H)) k g) =
      ssum (Z.to_nat (2 ^ (m - s))) (fun V => E bmin bmax (q <~ pmid f md fuel bmin bmax (Z.to_nat D) (m - s) (first V);; plast f md fuel bmin bmax w q) k g)).
    { intro g. apply ssum_ext. intros H0 HH. apply peq_E. apply (tail_peq f md fuel tb bmin bmax w Hf He HW); [lia|exact RN]. }
    rewrite !K. apply ptail_uniform; try assumption; try lia. reflexivity.
Qed.

Lemma val_inj : forall e a b, (val e a == val e b)%Q -> a = b.
Proof using.
  intros e a b E. unfold val in E. apply Qmult_inj_r in E; [|apply p2_nz]. apply inject_Z_injective. exact E.
Qed.

Lemma pair_uniform : no_full_last D m w -> m - s <= D -> forall n N1 N2 b1 b2,
  0 <= N1 < 2 ^ D -> 0 <= N2 < 2 ^ D -> 0 <= b1 < 2 ^ w -> 0 <= b2 < 2 ^ w ->
  pair_count bmin bmax (int_float_pair f md fuel w tb bmin bmax) n (same_fraction D N1) b1 =
  pair_count bmin bmax (int_float_pair f md fuel w tb bmin bmax) n (same_fraction D N2) b2.
Proof using Hf Hemin He HW Hw.
  intros HN HL n N1 N2 b1 b2 H1 H2 Hb1 Hb2. apply Nat2Z.inj. rewrite !pair_count_E.
  assert (HD: 1 <= D) by (destruct Hf; assumption).
  rewrite !(peq_E _ _ _ _ _ _ _ (pair_peq f md fuel tb bmin bmax w Hf He HW Hw)).
  rewrite (E_ext _ _ _ _ _ _ (fun x k => (fun q k => fin k (ind (same_fraction D N1 q))) (fst x) k * ind (snd x =? b1))) by (intros; apply fin_ind).
  symmetry.
  rewrite (E_ext _ _ _ _ _ _ (fun x k => (fun q k => fin k (ind (same_fraction D N2 q))) (fst x) k * ind (snd x =? b2))) by (intros; apply fin_ind).
  apply (indep_gen n (fun q k => fin k (ind (same_fraction D N2 q))) (fun q k => fin k (ind (same_fraction D N1 q))) b2 b1); try assumption. intro k.
  assert (PR: forall N, proper (fun q k => fin k (ind (same_fraction D N q)))).
  { intros N q q' k' E. cbn beta. f_equal. f_equal. unfold same_fraction. apply eq_true_iff_eq. rewrite !Qeq_bool_iff, E. reflexivity. }
  apply tails_uniform; auto. intro k'.
  assert (S1: forall N, 0 <= N < 2 ^ D -> ssum (Z.to_nat (2 ^ D)) (fun V => fin k' (ind (same_fraction D N (val D V)))) = fin k' 1).
  { intros N HN0. unfold fin. destruct (Nat.eqb k' 0); [|apply ssum_zero].
    rewrite <- (ssum_delta (Z.to_nat (2 ^ D)) N) by (rewrite Z2Nat.id; lia). apply ssum_ext. intros V HV. unfold ind, same_fraction.
    destruct (Z.eqb_spec V N) as [->|NE].
    - replace (Qeq_bool (val D N) (inject_Z N * p2 (- D))) with true; [reflexivity|]. symmetry. apply Qeq_bool_iff. reflexivity.
    - destruct (Qeq_bool (val D V) (inject_Z N * p2 (- D))) eqn:EQ; [|reflexivity]. apply Qeq_bool_iff in EQ. apply val_inj in EQ. contradiction. }
  rewrite !S1 by assumption. reflexivity.
Qed.
End Ifp.
