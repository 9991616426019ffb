(* The value of generate_canonical when nothing is rounded, floating-point
   engines, and the accuracy of uniform_01. *)
From Coq Require Import Lqa.
From Verif Require Import Base ProgModel ProgSpec ProgProofs UIntModel UIntSpec UIntProofs FloatModel FloatSpec FloatProofs RealModel RealSpec RealProofs UniProofs Uni2Proofs CanonProofs.
Open Scope Q_scope.
Ltac Zify.zify_post_hook ::= idtac.

Section E.
Variables (f : fmt) (md : rmode).
Hypothesis Hf : fmt_ok f.
Local Notation P := (prec f).
Local Notation rnd := (fround f md).
Variables (tb : ity) (bmin bmax : Z).
Hypothesis He : eng_wf tb bmin bmax.
Local Notation R := (bmax - bmin)%Z.
Hypothesis Hexact : (bmin = 0 \/ Z.abs bmin <= 2 ^ P /\ Z.abs bmax <= 2 ^ P)%Z.
Local Notation r := (gc_R f md bmin bmax).
Variables (bits n : Z).
Hypothesis Hbits : (0 <= bits)%Z.
Hypothesis Hn : (1 <= n)%Z.
Hypothesis Hlow : ((R + 1) ^ (n - 1) < 2 ^ Z.min bits P)%Z.
Hypothesis Hhigh : (2 ^ Z.min bits P <= (R + 1) ^ n <= 2 ^ P)%Z.

Lemma pow_pos_R : forall j, (0 <= j)%Z -> (1 <= (R + 1) ^ j)%Z.
Proof using He.
  clear - He. intros j Hj. destruct He as (_ & _ & _ & ?). assert (0 < (bmax - bmin + 1) ^ j)%Z by (apply Z.pow_pos_nonneg; lia). lia.
Qed.

Lemma evalr_range : forall us, Forall (fun u => 0 <= u <= R)%Z us ->
  (0 <= evalr (R + 1) us < (R + 1) ^ Z.of_nat (length us))%Z.
Proof using He.
  clear - He. destruct He as (_ & _ & _ & HR). induction us as [|u us IH]; intro H.
  - cbn. lia.
  - inversion H as [|? ? Hu Hus]; subst. specialize (IH Hus). cbn [evalr length]. rewrite Nat2Z.inj_succ, Z.pow_succ_r by lia.
    set (e := evalr (bmax - bmin + 1) us) in *. set (p := ((bmax - bmin + 1) ^ Z.of_nat (length us))%Z) in *.
    assert ((bmax - bmin + 1) * (e + 1) <= (bmax - bmin + 1) * p)%Z by (apply Z.mul_le_mono_nonneg_l; lia). 
    assert (0 <= (bmax - bmin + 1) * e)%Z by (apply Z.mul_nonneg_nonneg; lia). lia.
Qed.

Lemma rnd_int : forall q z, (0 <= z <= 2 ^ P)%Z -> q == inject_Z z -> rnd q == inject_Z z.
Proof using Hf.
  clear - Hf. intros q z Hz E. rewrite (rnd_compat f md Hf _ _ E). apply rnd_fix; [exact Hf|]. apply repr_Z; [exact Hf|]. rewrite Z.abs_eq; lia.
Qed.

Lemma loop_exact : forall ds F j S s mult,
  Forall (fun v => bmin <= v <= bmax)%Z ds -> (Z.of_nat (length ds) = n - j)%Z -> (1 <= j)%Z ->
  (length ds < F)%nat -> s == inject_Z S -> mult == inject_Z ((R + 1) ^ j) -> (0 <= S < (R + 1) ^ j)%Z ->
  exists q, exec (gc_loop f md F tb bmin (gc_limit f md bits) r s mult) ds = ORet q [] /\
    q == rnd (inject_Z (S + (R + 1) ^ j * evalr (R + 1) (map (fun v => v - bmin)%Z ds)) / inject_Z ((R + 1) ^ n)).
Proof using Hf He Hexact Hbits Hn Hlow Hhigh.
  assert (HR: (1 <= R)%Z) by (clear - He; destruct He as (_ & _ & _ & ?); lia).
  assert (RP: (R + 1 <= 2 ^ P)%Z).
  { assert ((R + 1) ^ 1 <= (R + 1) ^ n)%Z by (apply Z.pow_le_mono_r; lia). rewrite Z.pow_1_r in *. lia. }
  pose proof (r_of_exact f md Hf tb bmin bmax He Hexact RP) as RE.
  assert (M0: (0 <= Z.min bits P)%Z) by (clear - Hbits Hf; destruct Hf; lia).
  induction ds as [|v ds IH]; intros F j S s mult HD HL Hj HF Es Em HS; (destruct F as [|F]; [inversion HF|]); cbn [gc_loop].
  - assert (j = n) as -> by (cbn in HL; lia).
    assert (E: qlt mult (gc_limit f md bits) = false).
    { apply qlt_false. rewrite (limit_eq f md Hf bits Hbits), p2_Z, Em by exact M0. apply injZ_le. lia. }
    pose proof (pow_pos_R n ltac:(lia)) as PN. assert (PNQ: 1 <= inject_Z ((R + 1) ^ n)) by (change 1 with (inject_Z 1); apply injZ_le; exact PN).
    rewrite E, fdiv_ok by lra. cbn [plift exec]. eexists. split; [reflexivity|]. cbn [map evalr].
    apply rnd_compat; [exact Hf|]. rewrite Es, Em, Z.mul_0_r, Z.add_0_r. reflexivity.
  - cbn [length] in HL, HF. pose proof (Forall_inv HD) as Hv. pose proof (Forall_inv_tail HD) as HD'. cbn beta in Hv.
    assert (JN: (j <= n - 1)%Z) by lia.
    assert (E: qlt mult (gc_limit f md bits) = true).
    { apply qlt_iff. rewrite (limit_eq f md Hf bits Hbits), p2_Z, Em by exact M0. rewrite <- Zlt_Qlt.
      assert ((R + 1) ^ j <= (R + 1) ^ (n - 1))%Z by (apply Z.pow_le_mono_r; lia). lia. }
    rewrite E. unfold draw. cbn [pbind exec]. rewrite (sub_ok tb bmin bmax He v Hv). cbn [plift pbind].
    pose proof (pow_pos_R j ltac:(lia)) as PJ.
    assert (JS: ((R + 1) ^ (j + 1) = (R + 1) ^ j * (R + 1))%Z) by (rewrite Z.pow_add_r, Z.pow_1_r by lia; reflexivity).
    assert (JP: ((R + 1) ^ (j + 1) <= (R + 1) ^ n)%Z) by (apply Z.pow_le_mono_r; lia).
    set (p := ((R + 1) ^ j)%Z) in *. set (x := (v - bmin)%Z).
    assert (XB: (0 <= x * p /\ S + x * p < p * (R + 1))%Z).
    { split; [apply Z.mul_nonneg_nonneg; unfold x; lia|].
      assert (x * p <= R * p)%Z by (apply Z.mul_le_mono_nonneg_r; unfold x; lia). lia. }
    assert (EX: rnd (inject_Z x) == inject_Z x) by (apply rnd_int; [unfold x; lia|reflexivity]).
    assert (EP: rnd (rnd (inject_Z x) * mult) == inject_Z (x * p)).
    { apply rnd_int; [lia|]. rewrite EX, Em, inject_Z_mult. reflexivity. }
    assert (ES: rnd (s + rnd (rnd (inject_Z x) * mult)) == inject_Z (S + x * p)).
    { apply rnd_int; [lia|]. rewrite EP, Es, inject_Z_plus. reflexivity. }
    assert (EM: rnd (mult * r) == inject_Z ((R + 1) ^ (j + 1))).
    { apply rnd_int; [lia|]. rewrite Em, RE, JS, inject_Z_mult. reflexivity. }
    destruct (IH F (j + 1)%Z (S + x * p)%Z _ _ HD' ltac:(lia) ltac:(lia) ltac:(lia) ES EM ltac:(lia)) as (q & Eq & Hq).
    exists q. split; [exact Eq|]. rewrite Hq. apply rnd_compat; [exact Hf|]. cbn [map evalr]. fold x. rewrite JS.
    replace (S + x * p + p * (R + 1) * evalr (R + 1) (map (fun v0 => v0 - bmin)%Z ds))%Z
      with (S + p * (x + (R + 1) * evalr (R + 1) (map (fun v0 => v0 - bmin)%Z ds)))%Z by ring. reflexivity.
Qed.

(* n draws are used, and together they are the digits of the result *)
Theorem gc_value : forall ds F, Forall (fun v => bmin <= v <= bmax)%Z ds -> Z.of_nat (length ds) = n -> (length ds <= F)%nat ->
  exists q, exec (generate_canonical f md F bits tb bmin bmax) ds = ORet (gc_fix f md q) [] /\
    q == rnd (inject_Z (evalr (R + 1) (map (fun v => v - bmin)%Z ds)) / inject_Z ((R + 1) ^ n)).
Proof using Hf He Hexact Hbits Hn Hlow Hhigh.
  intros ds F HD HL HF. destruct ds as [|v ds]; [cbn in HL; lia|]. pose proof (Forall_inv HD) as Hv. pose proof (Forall_inv_tail HD) as HD'. cbn beta in Hv. cbn [length] in *.
  assert (HR: (1 <= R)%Z) by (clear - He; destruct He as (_ & _ & _ & ?); lia).
  assert (RP: (R + 1 <= 2 ^ P)%Z).
  { assert ((R + 1) ^ 1 <= (R + 1) ^ n)%Z by (apply Z.pow_le_mono_r; lia). rewrite Z.pow_1_r in *. lia. }
  assert (EX: rnd (inject_Z (v - bmin)) == inject_Z (v - bmin)) by (apply rnd_int; [lia|reflexivity]).
  assert (EM: r == inject_Z ((R + 1) ^ 1)) by (rewrite Z.pow_1_r; apply (r_of_exact f md Hf tb bmin bmax He Hexact RP)).
  destruct (loop_exact ds F 1 (v - bmin)%Z (rnd (inject_Z (v - bmin))) r HD' ltac:(lia) ltac:(lia) ltac:(lia) EX EM ltac:(rewrite Z.pow_1_r; lia)) as (q & Eq & Hq).
  exists q. split.
  - unfold generate_canonical. erewrite exec_bind_ret; [reflexivity|]. unfold gc_int, draw. cbn [pbind exec].
    rewrite (sub_ok tb bmin bmax He v Hv). cbn [plift pbind]. exact Eq.
  - rewrite Hq. cbn [map evalr]. rewrite Z.pow_1_r. reflexivity.
Qed.

(* if the engine has a power of two outputs, the result is exact *)
Theorem gc_value_pow2 : forall k ds F, (0 <= k)%Z -> (R + 1 = 2 ^ k)%Z -> (emin f <= - (k * n))%Z ->
  Forall (fun v => bmin <= v <= bmax)%Z ds -> Z.of_nat (length ds) = n -> (length ds <= F)%nat ->
  exists q, exec (generate_canonical f md F bits tb bmin bmax) ds = ORet q [] /\
    q == inject_Z (evalr (R + 1) (map (fun v => v - bmin)%Z ds)) * p2 (- (k * n)).
Proof using Hf He Hexact Hbits Hn Hlow Hhigh.
  intros k ds F Hk HR Hem HD HL HF. destruct (gc_value ds F HD HL HF) as (q & Eq & Hq).
  assert (HE: (0 <= evalr (R + 1) (map (fun v => v - bmin)%Z ds) < (R + 1) ^ n)%Z).
  { rewrite <- HL, <- (map_length (fun v => v - bmin)%Z ds). apply evalr_range.
    apply Forall_map. eapply Forall_impl; [|exact HD]. cbn. intros; lia. }
  set (N := evalr (R + 1) (map (fun v => v - bmin)%Z ds)) in *.
  assert (PW: ((R + 1) ^ n = 2 ^ (k * n))%Z) by (rewrite HR, <- Z.pow_mul_r by lia; reflexivity).
  assert (EN: inject_Z N / inject_Z ((R + 1) ^ n) == inject_Z N * p2 (- (k * n))).
  { rewrite PW, <- p2_Z by (apply Z.mul_nonneg_nonneg; lia).
    assert (E1: p2 (k * n) * p2 (- (k * n)) == 1) by (rewrite <- p2_add, Z.add_opp_diag_r; reflexivity).
    rewrite <- (Qmult_1_r (inject_Z N)), <- E1 at 1. field. apply p2_nz. }
  assert (Q1: q == inject_Z N * p2 (- (k * n))).
  { rewrite Hq. rewrite (rnd_compat f md Hf _ _ EN). apply rnd_fix; [exact Hf|]. exists N, (- (k * n))%Z.
    split; [exact Hem|]. split; [rewrite Z.abs_eq by lia; lia|reflexivity]. }
  exists q. split; [|exact Q1]. rewrite fix_lt1 in Eq; [exact Eq|]. rewrite Q1.
  rewrite PW in HE. destruct HE as [_ HE]. rewrite Zlt_Qlt in HE. rewrite <- p2_Z in HE by (apply Z.mul_nonneg_nonneg; lia).
  assert (E1: p2 (k * n) * p2 (- (k * n)) == 1) by (rewrite <- p2_add, Z.add_opp_diag_r; reflexivity).
  pose proof (p2_pos (- (k * n))). nra.
Qed.
End E.

(* ---- floating-point engines with eb bits ---- *)
Section RE.
Variables (f : fmt) (md : rmode).
Hypothesis Hf : fmt_ok f.
Local Notation P := (prec f).
Local Notation rnd := (fround f md).
Variables (fe : fmt) (eb : Z) (val : Z -> Q) (bmin bmax : Z).
Hypothesis Hfe : fmt_ok fe.
Hypothesis Heb : (1 <= eb)%Z.
Hypothesis Hee : (emin f <= - eb)%Z.
(* outputs are multiples of 2^-eb in [0,1), and numbers of the engine's format *)
Hypothesis Hval : forall i, (bmin <= i <= bmax)%Z ->
  representable fe (val i) /\ exists m, (0 <= m < 2 ^ eb)%Z /\ val i == inject_Z m * p2 (- eb).

Lemma val_range : forall i, (bmin <= i <= bmax)%Z -> 0 <= val i /\ val i < 1.
Proof using Hval Heb.
  intros i Hi. destruct (Hval i Hi) as (_ & m & Hm & Em). rewrite Em. pose proof (p2_pos (- eb)) as PB.
  assert (E1: p2 eb * p2 (- eb) == 1) by (rewrite <- p2_add, Z.add_opp_diag_r; reflexivity). destruct Hm as [M0 M1].
  apply injZ_le in M0. change (inject_Z 0) with 0 in M0. rewrite Zlt_Qlt, <- p2_Z in M1 by lia. split; nra.
Qed.

Lemma first_val : forall i, (bmin <= i <= bmax)%Z -> fround fe md (val i - 0) == val i.
Proof using Hval Hfe.
  intros i Hi. destruct (Hval i Hi) as (Hr & _). rewrite (rnd_compat fe md Hfe _ (val i)) by ring. apply rnd_fix; assumption.
Qed.

Lemma r_real : rnd (p2 eb) == p2 eb.
Proof using Hf Heb. apply rnd_fix; [exact Hf|]. apply repr_p2; [exact Hf|]. destruct Hf. lia. Qed.

Lemma inc_val : forall i m, (bmin <= i <= bmax)%Z -> (0 <= m < 2 ^ eb)%Z -> val i == inject_Z m * p2 (- eb) -> (eb <= P)%Z ->
  rnd (rnd (rnd (val i) - 0) * rnd (p2 eb)) == inject_Z m.
Proof using Hf Heb Hee.
  intros i m Hi Hm Em HP. assert (PB: (2 ^ eb <= 2 ^ P)%Z) by (apply Z.pow_le_mono_r; lia).
  assert (RV: representable f (val i)).
  { exists m, (- eb)%Z. split; [exact Hee|]. split; [rewrite Z.abs_eq by lia; lia|exact Em]. }
  assert (E1: rnd (rnd (val i) - 0) == val i).
  { rewrite (rnd_compat f md Hf _ (val i)) by (rewrite (rnd_fix f md Hf _ RV); ring). apply rnd_fix; assumption. }
  rewrite (rnd_compat f md Hf _ (inject_Z m)).
  - apply rnd_fix; [exact Hf|]. apply repr_Z; [exact Hf|]. rewrite Z.abs_eq by lia. lia.
  - rewrite E1, r_real, Em. rewrite <- Qmult_assoc, <- p2_add, Z.add_opp_diag_l. rewrite p2_0. ring.
Qed.

Lemma rloop_wp : forall bits F n s mult j, (0 <= bits)%Z -> (1 <= F)%nat -> (eb <= j)%Z -> mult == p2 j -> 0 <= s -> s <= mult ->
  (Z.min bits P - Z.of_nat F + 1 <= j)%Z ->
  wp bmin bmax (gcr_loop f md F val (gc_limit f md bits) (rnd (p2 eb)) s mult) n (fun q _ => 0 <= q /\ q <= 1).
Proof using Hf Heb Hee Hval.
  intros bits F. induction F as [|F IH]; intros n s mult j Hb HF Hj Em S0 S1 HD; [lia|].
  cbn [gcr_loop]. pose proof (p2_pos j) as PJ. destruct (qlt mult (gc_limit f md bits)) eqn:E.
  - apply qlt_iff in E. rewrite (limit_eq f md Hf bits Hb), Em in E. apply p2_lt_inv in E.
    unfold draw. cbn [pbind wp]. destruct n as [|n]; [exact Logic.I|]. intros v Hv.
    destruct (Hval v Hv) as (_ & m & Hm & EV).
    pose proof (inc_val v m Hv Hm EV ltac:(lia)) as EI.
    assert (EF: Qfloor (rnd (rnd (rnd (val v) - 0) * rnd (p2 eb))) = m) by (rewrite (Qfloor_comp _ _ EI); apply Qfloor_Z).
    rewrite EF. assert (ER: rnd (mult * rnd (p2 eb)) == p2 (j + eb)).
    { rewrite (rnd_compat f md Hf _ (p2 (j + eb))) by (rewrite Em, r_real, p2_add; reflexivity).
      apply rnd_fix; [exact Hf|]. apply repr_p2; [exact Hf|]. destruct Hf. lia. }
    assert (EP: rnd (inject_Z m * mult) == inject_Z m * p2 j).
    { rewrite (rnd_compat f md Hf _ (inject_Z m * p2 j)) by (rewrite Em; reflexivity). apply rnd_fix; [exact Hf|].
      apply repr_scale; [|lia]. apply repr_Z; [exact Hf|]. rewrite Z.abs_eq by lia.
      assert (2 ^ eb <= 2 ^ P)%Z by (apply Z.pow_le_mono_r; lia). lia. }
    assert (M0: 0 <= inject_Z m) by (change 0 with (inject_Z 0); apply injZ_le; lia).
    assert (M1: inject_Z m + 1 <= p2 eb).
    { rewrite p2_Z by lia. change 1 with (inject_Z 1). rewrite <- inject_Z_plus. apply injZ_le. lia. }
    apply IH with (j := (j + eb)%Z); try lia.
    + exact ER.
    + apply rnd_nonneg. rewrite EP. nra.
    + apply rnd_mono; [exact Hf|]. rewrite EP, Em, r_real. rewrite Em in S1. nra.
  - rewrite fdiv_ok by lra. cbn [plift wp]. split.
    + apply rnd_nonneg. apply div_nonneg; lra.
    + apply repr_rnd_le; [exact Hf|apply repr_1; exact Hf|]. apply Qle_shift_div_r; lra.
Qed.

Theorem gcr_range : forall bits F n, (0 <= bits)%Z -> (1 <= F)%nat -> (Z.min bits P <= Z.of_nat F)%Z ->
  wp bmin bmax (generate_canonical_real f md F bits eb fe val) n (fun q _ => 0 <= q /\ q < 1).
Proof using Hf Hfe Heb Hee Hval.
  intros bits F n Hb HF HD. unfold generate_canonical_real. apply wp_bind.
  apply wp_mono with (Q := fun q _ => 0 <= q /\ q <= 1).
  - intros q m _ [Q0 Q1]. cbn [wp]. apply fix_range; assumption.
  - unfold gc_real, draw. cbn [pbind wp]. destruct n as [|n]; [exact Logic.I|]. intros v Hv.
    destruct (val_range v Hv) as [V0 V1]. pose proof (first_val v Hv) as EV.
    apply rloop_wp with (j := eb); try lia.
    + exact r_real.
    + apply rnd_nonneg. rewrite EV. exact V0.
    + apply Qle_trans with 1.
      * apply repr_rnd_le; [exact Hf|apply repr_1; exact Hf|]. lra.
      * rewrite r_real. rewrite <- p2_0. apply p2_le. lia.
Qed.

(* when the engine has enough bits, its output is divided by 2^eb *)
Theorem gcr_tiny : forall bits F v ds, (0 <= bits)%Z -> (1 <= F)%nat -> (Z.min bits P <= eb)%Z -> (bmin <= v <= bmax)%Z ->
  exists q, exec (generate_canonical_real f md F bits eb fe val) (v :: ds) = ORet q ds /\ q <= p2 (- eb).
Proof using Hf Hfe Heb Hee Hval.
  intros bits F v ds Hb HF HE Hv. destruct F as [|F]; [lia|].
  destruct (val_range v Hv) as [V0 V1]. pose proof (first_val v Hv) as EV.
  set (s := rnd (fround fe md (val v - 0))). set (q := rnd (s / rnd (p2 eb))).
  assert (S1: s <= 1) by (unfold s; apply repr_rnd_le; [exact Hf|apply repr_1; exact Hf|]; lra).
  pose proof (p2_pos eb) as PB. pose proof r_real as RR.
  assert (E1: p2 eb * p2 (- eb) == 1) by (rewrite <- p2_add, Z.add_opp_diag_r; reflexivity).
  assert (QB: q <= p2 (- eb)).
  { unfold q. apply repr_rnd_le; [exact Hf|apply repr_p2; [exact Hf|exact Hee]|]. apply Qle_shift_div_r; [rewrite RR; exact PB|].
    rewrite RR, Qmult_comm, E1. exact S1. }
  assert (Q1: q < 1) by (assert (p2 (- eb) < p2 0) by (apply p2_lt; lia); rewrite p2_0 in *; lra).
  exists q. split; [|exact QB]. unfold generate_canonical_real, gc_real, draw. cbn [pbind exec gcr_loop].
  assert (EL: qlt (rnd (p2 eb)) (gc_limit f md bits) = false).
  { apply qlt_false. rewrite (limit_eq f md Hf bits Hb), RR. apply p2_le. lia. }
  rewrite EL. fold s. rewrite fdiv_ok by (rewrite RR; lra). fold q. cbn [plift pbind exec]. rewrite (fix_lt1 f md q Q1). reflexivity.
Qed.
End RE.

(* ---- relative accuracy ---- *)
Definition nearby (d x y : Q) : Prop := d * x <= y /\ d * y <= x.

Lemma nearby_mul : forall d e x y u v, 0 < d -> 0 < e -> 0 <= x -> 0 <= y -> 0 <= u -> 0 <= v ->
  nearby d x y -> nearby e u v -> nearby (d * e) (x * u) (y * v).
Proof.
  intros d e x y u v Hd He Hx Hy Hu Hv [H1 H2] [H3 H4]. split.
  - setoid_replace (d * e * (x * u)) with ((d * x) * (e * u)) by ring. apply Qmult_le_compat_nonneg; split; try assumption; nra.
  - setoid_replace (d * e * (y * v)) with ((d * y) * (e * v)) by ring. apply Qmult_le_compat_nonneg; split; try assumption; nra.
Qed.
Lemma nearby_inv : forall d x y, 0 < x -> 0 < y -> nearby d x y -> nearby d (1 / x) (1 / y).
Proof.
  intros d x y Hx Hy [H1 H2]. split.
  - apply Qle_shift_div_l; [exact Hy|]. setoid_replace (d * (1 / x) * y) with ((d * y) / x) by (field; lra).
    apply Qle_shift_div_r; lra.
  - apply Qle_shift_div_l; [exact Hx|]. setoid_replace (d * (1 / y) * x) with ((d * x) / y) by (field; lra).
    apply Qle_shift_div_r; lra.
Qed.

Lemma nearby_trans : forall c d x y z, 0 <= c -> 0 <= d -> nearby c x y -> nearby d y z -> nearby (c * d) x z.
Proof.
  intros c d x y z Hc Hd [H1 H2] [H3 H4]. split.
  - apply Qle_trans with (d * y); [|exact H3]. setoid_replace (c * d * x) with (d * (c * x)) by ring.
    rewrite !(Qmult_comm d). apply Qmult_le_compat_r; assumption.
  - apply Qle_trans with (c * y); [|exact H2]. setoid_replace (c * d * z) with (c * (d * z)) by ring.
    rewrite !(Qmult_comm c). apply Qmult_le_compat_r; assumption.
Qed.

Section A.
Variables (f : fmt) (md : rmode).
Hypothesis Hf : fmt_ok f.
Hypothesis HP3 : (3 <= prec f)%Z.
Local Notation P := (prec f).
Local Notation rnd := (fround f md).
Let d : Q := 1 - p2 (1 - P).

Lemma d_bounds : (3 # 4) <= d /\ d < 1.
Proof using HP3.
  unfold d. pose proof (p2_pos (1 - P)). assert (p2 (1 - P) <= p2 (-2)) as L by (apply p2_le; lia).
  change (p2 (-2)) with (1 # 4) in L. lra.
Qed.

Lemma nearby_rnd : forall x, p2 (emin f + P - 1) <= x -> nearby d x (rnd x).
Proof using HP3.
  intros x H. pose proof (ulp_rel f x H) as U. pose proof (rnd_err f md x) as [E1 E2]. pose proof d_bounds as [D1 D2].
  pose proof (p2_pos (emin f + P - 1)). pose proof (p2_pos (1 - P)) as EP.
  assert (DE: p2 (1 - P) == 1 - d) by (unfold d; ring). set (e := p2 (1 - P)) in *. split; [nra|].
  apply Qle_trans with (d * (x * (1 + e))); [apply Qmult_le_l; lra|]. nra.
Qed.
Lemma nearby_refl : forall x, 0 <= x -> nearby d x x.
Proof using HP3. intros x H. pose proof d_bounds. split; nra. Qed.

Theorem u01_accurate : forall tb bmin bmax v k, eng_wf tb bmin bmax -> (bmin <= v <= bmax)%Z ->
  (0 <= k)%Z -> (bmax - bmin + 1 <= 2 ^ k)%Z -> (emin f + P + k + 1 <= 0)%Z ->
  nearby (d * d * d * d * d) (inject_Z (v - bmin)) (u01_res f md bmin bmax v * inject_Z (bmax - bmin + 1)).
Proof using Hf HP3.
  intros tb bmin bmax v k He Hv Hk HR HE. pose proof d_bounds as [D1 D2].
  set (R := (bmax - bmin)%Z) in *. assert (R0: (1 <= R)%Z) by (destruct He as (_ & _ & _ & ?); unfold R; lia).
  set (n := inject_Z (R + 1)). set (u := inject_Z (v - bmin)).
  assert (RQ: 1 <= inject_Z R) by (change 1 with (inject_Z 1); apply injZ_le; lia).
  assert (NE: n == inject_Z R + 1) by (unfold n; rewrite inject_Z_plus; reflexivity).
  assert (NK: n <= p2 k) by (unfold n; rewrite p2_Z by exact Hk; apply injZ_le; exact HR).
  assert (U0: 0 <= u) by (unfold u; change 0 with (inject_Z 0); apply injZ_le; lia).
  assert (NM: p2 (emin f + P - 1) <= p2 (- k - 2)) by (apply p2_le; lia).
  assert (K4: p2 k * p2 (- k - 2) == 1 # 4).
  { rewrite <- p2_add. replace (k + (- k - 2))%Z with (-2)%Z by lia. reflexivity. }
  pose proof (p2_pos k) as PK. pose proof (p2_pos (- k - 2)) as PK2.
  assert (N1: p2 (- k - 2) <= 1) by (rewrite <- p2_0; apply p2_le; lia).
  (* divisor *)
  pose proof (nearby_rnd (inject_Z R) ltac:(lra)) as [A1 A2]. pose proof (rnd_ge_1 f md Hf _ RQ) as RR1.
  set (r1 := rnd (inject_Z R)) in *.
  assert (B: nearby d n (r1 + 1)) by (split; nra).
  pose proof (nearby_rnd (r1 + 1) ltac:(lra)) as C. pose proof (rnd_ge_1 f md Hf (r1 + 1) ltac:(lra)) as C1.
  set (r2 := rnd (r1 + 1)) in *.
  assert (DD: 9 # 16 <= d * d) by nra.
  assert (C2: nearby (d * d) n r2).
  { apply nearby_trans with (r1 + 1); [lra|lra|exact B|exact C]. }
  pose proof (nearby_inv (d * d) n r2 ltac:(lra) ltac:(lra) C2) as I0.
  assert (IN: d * d * (1 / n) <= 1 / r2) by apply I0.
  assert (IK: p2 (- k - 2) * 4 <= 1 / n).
  { apply Qle_shift_div_l; [lra|]. nra. }
  pose proof (nearby_rnd (1 / r2) ltac:(nra)) as F1.
  assert (FE: u01_fac f md bmin bmax = rnd (1 / r2)) by reflexivity. set (fac := rnd (1 / r2)) in *.
  assert (I1: 0 < 1 / n) by nra. assert (I2: 0 < 1 / r2) by nra.
  assert (FN: nearby (d * d * d) (1 / n) fac).
  { apply nearby_trans with (1 / r2); [lra|lra|exact I0|exact F1]. }
  assert (F0: 0 < fac). { destruct F1 as [F1 _]. nra. }
  (* numerator *)
  destruct (Z.eq_dec (v - bmin) 0) as [Z0|Z0].
  - assert (EU: u == 0) by (unfold u; rewrite Z0; reflexivity).
    assert (v = bmin) by lia. subst v. pose proof (res_min f md Hf bmin bmax) as RM. unfold nearby. rewrite RM, EU. split; lra.
  - assert (U1: 1 <= u) by (unfold u; change 1 with (inject_Z 1); apply injZ_le; lia).
    pose proof (nearby_rnd u ltac:(lra)) as G. pose proof (rnd_ge_1 f md Hf u U1) as G1. set (u1 := rnd u) in *.
    assert (PR: nearby (d * (d * d * d)) (u * (1 / n)) (u1 * fac)).
    { apply nearby_mul; try assumption; try lra. nra. }
    assert (D4: 1 # 4 <= d * (d * d * d)).
    { setoid_replace (d * (d * d * d)) with (d * d * (d * d)) by ring. nra. }
    assert (PB: p2 (- k - 2) <= u1 * fac).
    { destruct PR as [PR1 _]. assert (1 / n <= u * (1 / n)) by nra. nra. }
    pose proof (nearby_rnd (u1 * fac) ltac:(lra)) as HRes.
    assert (RES: u01_res f md bmin bmax v = rnd (u1 * fac)) by (unfold u01_res; rewrite FE; reflexivity).
    rewrite RES. set (res := rnd (u1 * fac)) in *.
    assert (NF: nearby (d * (d * d * d) * d) (u * (1 / n)) res).
    { apply nearby_trans with (u1 * fac); [lra|lra|exact PR|exact HRes]. }
    assert (EU: u * (1 / n) * n == u) by (field; lra).
    destruct NF as [NF1 NF2]. set (c := d * (d * d * d) * d) in *.
    assert (CE: d * d * d * d * d == c) by (unfold c; ring).
    assert (N0: 0 < n) by lra. split; rewrite CE.
    + rewrite <- EU. setoid_replace (c * (u * (1 / n) * n)) with (c * (u * (1 / n)) * n) by ring. apply Qmult_le_r; assumption.
    + rewrite <- EU. setoid_replace (c * (res * n)) with (c * res * n) by ring. apply Qmult_le_r; assumption.
Qed.
End A.
