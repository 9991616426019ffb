(* faure.hpp: update computes the digits of the coordinates *)
From Coq Require Import ZArith Arith Lia List QArith Qround.
From Verif Require Import Base NumProofs UIntProofs PolyModel QrngModel FloatModel FloatSpec FloatProofs RealModel FaureModel FaureSpec FaureNetProofs FaureNet2Proofs FaureProofs.
Ltac Zify.zify_post_hook ::= idtac.
Open Scope Z_scope.

Lemma Qred_inject : forall z, Qred (inject_Z z) = inject_Z z.
Proof.
  intros z. unfold Qred, inject_Z. pose proof (Z.ggcd_gcd z 1) as HG. pose proof (Z.ggcd_correct_divisors z 1) as HD.
  destruct (Z.ggcd z 1) as (g & a & b). cbn [fst snd] in *. rewrite Z.gcd_1_r in HG. subst g. destruct HD as [-> H1]. rewrite Z.mul_1_l in *. subst b. reflexivity.
Qed.

Section Real.
Variables (f : fmt) (md : rmode).
Hypothesis Hf : fmt_ok f.
Local Notation rnd := (fround f md).
Local Notation ofZ z := (fround f md (inject_Z z)).

Lemma rnd_Z : forall x z, Z.abs z <= 2 ^ prec f -> (x == inject_Z z)%Q -> rnd x = inject_Z z.
Proof using Hf.
  intros x z Hz E. unfold fround. rewrite <- (Qred_inject z). apply Qred_complete.
  pose proof (rnd_fix f md Hf x (repr_compat f _ _ (Qeq_sym _ _ E) (repr_Z f Hf z Hz))) as R. unfold fround in R. rewrite Qred_correct in R. rewrite R. exact E.
Qed.

Lemma fmod_Z : forall x b, 0 < b -> fmod (inject_Z x) (inject_Z b) = inject_Z (x mod b).
Proof.
  intros x b Hb. unfold fmod. rewrite <- (Qred_inject (x mod b)). apply Qred_complete.
  assert (E : Qfloor (inject_Z x / inject_Z b) = x / b).
  { rewrite <- (Z2Pos.id b) at 1 by exact Hb. rewrite <- Qmake_Qdiv. unfold Qfloor. rewrite Z2Pos.id by exact Hb. reflexivity. }
  rewrite E, <- inject_Z_mult. unfold Qminus. rewrite <- inject_Z_opp, <- inject_Z_plus. rewrite inject_Z_injective. rewrite Z.mod_eq by lia. ring.
Qed.

(* ---- compute_recip ---- *)
(* the value of the first coordinate: digit number L first *)
Fixpoint rr (b : Z) (L : nat) (n : Z) (r : Q) : Q :=
  let v := n / b ^ Z.of_nat L in
  let r := rnd (rnd (r + inject_Z v) / inject_Z b) in
  match L with O => r | S k => rr b k (n mod b ^ Z.of_nat L) r end.

Lemma digit_mod : forall b n L i, 2 <= b -> (i < L)%nat -> digit b (n mod b ^ Z.of_nat L) i = digit b n i.
Proof.
  intros b n L i Hb Hi. pose proof (bpow_pos b L Hb). rewrite (Z.div_mod n (b ^ Z.of_nat L)) at 2 by lia. rewrite Z.mul_comm. symmetry. apply digit_low; assumption.
Qed.
Lemma digit_top : forall b n L, 2 <= b -> 0 <= n < b ^ Z.of_nat (S L) -> n / b ^ Z.of_nat L = digit b n L.
Proof.
  intros b n L Hb Hn. unfold digit. rewrite bpow_S in Hn. pose proof (bpow_pos b L Hb). symmetry. apply Z.mod_small.
  split; [apply Z.div_pos; lia|apply Z.div_lt_upper_bound; lia].
Qed.

Lemma recip_ok : forall b, 2 <= b <= 2 ^ prec f -> forall L fuel n r y, 0 <= n < b ^ Z.of_nat (S L) -> (L < fuel)%nat -> (L < length y)%nat ->
  exists y', compute_recip f md b fuel n (b ^ Z.of_nat L) (S L) r y = Some (rr b L n r, y') /\ length y' = length y /\
    forall i, rd y' i = if (i <=? L)%nat then Some (inject_Z (digit b n i)) else rd y i.
Proof using Hf.
  intros b Hb. assert (EB : ofZ b = inject_Z b) by (apply rnd_Z; [lia|reflexivity]).
  assert (NB : Qeq_bool (inject_Z b) 0 = false). { destruct (Qeq_bool (inject_Z b) 0) eqn:E; [|reflexivity]. apply Qeq_bool_eq in E. apply (inject_Z_injective b 0) in E. lia. }
  induction L as [|L IH]; intros fuel n r y Hn HF HY; (destruct fuel as [|fl]; [lia|]); cbn [compute_recip].
  - rewrite bpow_S in Hn. change (b ^ Z.of_nat 0) with 1 in *. cbn [Z.eqb]. rewrite Z.mod_1_r, Z.sub_0_r, Z.div_1_r.
    assert (EN : ofZ n = inject_Z n) by (apply rnd_Z; [lia|reflexivity]). rewrite EN, EB. unfold fdiv. rewrite NB. cbn [bind].
    destruct (wr_ok Q y 0 (inject_Z n) HY) as (y' & -> & LY & RY). cbn [bind]. rewrite (Z.div_small 1 b) by lia.
    assert (ER : compute_recip f md b fl 0 0 0 (rnd (rnd (r + inject_Z n) / inject_Z b)) y' = Some (rnd (rnd (r + inject_Z n) / inject_Z b), y')) by (destruct fl; reflexivity).
    rewrite ER. exists y'. cbn [rr]. change (b ^ Z.of_nat 0) with 1. rewrite Z.div_1_r. split; [reflexivity|]. split; [exact LY|]. intros i. rewrite RY.
    destruct i as [|i]; cbn [Nat.eqb Nat.leb]; [|reflexivity]. rewrite digit_0, Z.mod_small by lia. reflexivity.
  - pose proof (bpow_pos b (S L) ltac:(lia)) as HP. destruct (Z.eqb_spec (b ^ Z.of_nat (S L)) 0); [lia|].
    set (k := b ^ Z.of_nat (S L)) in *. pose proof (Z.mod_pos_bound n k HP) as MB.
    assert (EV : (n - n mod k) / k = n / k). { rewrite (Z.div_mod n k) at 1 by lia. rewrite Z.add_simpl_r, Z.mul_comm. apply Z.div_mul. lia. }
    assert (ET : n / k = digit b n (S L)) by (apply digit_top; lia).
    assert (HV : 0 <= n / k < b) by (rewrite ET; apply digit_range; lia).
    rewrite EV. assert (EN : ofZ (n / k) = inject_Z (n / k)) by (apply rnd_Z; [lia|reflexivity]). rewrite EN, EB. unfold fdiv. rewrite NB. cbn [bind].
    destruct (wr_ok Q y (S L) (inject_Z (n / k)) HY) as (y' & -> & LY & RY). cbn [bind].
    assert (EK : k / b = b ^ Z.of_nat L). { unfold k. rewrite bpow_S, Z.mul_comm. apply Z.div_mul. lia. } rewrite EK.
    destruct (IH fl (n mod k) (rnd (rnd (r + inject_Z (n / k)) / inject_Z b)) y') as (y2 & E2 & L2 & R2); [exact MB|lia|lia|].
    exists y2. cbn [rr]. fold k. split; [exact E2|]. split; [congruence|]. intros i. rewrite R2, RY.
    destruct (Nat.leb_spec i L) as [H|H].
    + unfold k. rewrite digit_mod by lia. destruct (Nat.leb_spec i (S L)); [reflexivity|lia].
    + destruct (Nat.eqb_spec i (S L)) as [->|]; [rewrite Nat.leb_refl; rewrite ET; reflexivity|]. destruct (Nat.leb_spec i (S L)); [lia|reflexivity].
Qed.

(* ---- one row of the matrix ---- *)
Lemma row_ok : forall b c y (a : nat -> Z) h i, 2 <= b -> table_ok b h c -> length y = h ->
  (forall j, (i <= j < h)%nat -> rd y j = Some (inject_Z (a j)) /\ 0 <= a j < b) -> Z.of_nat h * (b - 1) ^ 2 <= 2 ^ prec f -> b <= 2 ^ prec f ->
  forall cnt j z, (i < j)%nat -> (j + cnt = h)%nat -> 0 <= z <= Z.of_nat (j - i) * (b - 1) ^ 2 ->
  row_sum f md c y h i cnt j (inject_Z z) = Some (inject_Z (z + zsum h (fun k => if (j <=? k)%nat then binom k i mod b * a k else 0))).
Proof using Hf.
  intros b c y a h i Hb [HTL HT] HL HA HP HP2. induction cnt as [|k IH]; intros j z Hj HC Hz; cbn [row_sum].
  - rewrite zsum_0; [rewrite Z.add_0_r; reflexivity|]. intros k Hk. destruct (Nat.leb_spec j k); [lia|reflexivity].
  - destruct (HA j ltac:(lia)) as [-> HAj]. rewrite (HT i j) by lia. cbn [bind].
    pose proof (Z.mod_pos_bound (binom j i) b ltac:(lia)) as MB. set (m := binom j i mod b) in *.
    assert (EM : ofZ m = inject_Z m) by (apply rnd_Z; [lia|reflexivity]). rewrite EM.
    assert (B1 : 0 <= a j * m <= (b - 1) ^ 2) by (rewrite Z.pow_2_r; nia).
    assert (Z.of_nat (S j - i) * (b - 1) ^ 2 <= Z.of_nat h * (b - 1) ^ 2) by (apply Z.mul_le_mono_nonneg_r; [apply Z.pow_nonneg|]; lia).
    assert (EJ : Z.of_nat (S j - i) * (b - 1) ^ 2 = Z.of_nat (j - i) * (b - 1) ^ 2 + (b - 1) ^ 2) by (replace (S j - i)%nat with (S (j - i)) by lia; rewrite Nat2Z.inj_succ; ring).
    rewrite (rnd_Z (inject_Z (a j) * inject_Z m) (a j * m)) by (try (rewrite <- inject_Z_mult; reflexivity); lia).
    rewrite (rnd_Z (inject_Z z + inject_Z (a j * m)) (z + a j * m)) by (try (rewrite <- inject_Z_plus; reflexivity); lia).
    rewrite IH by lia. f_equal. f_equal.
    assert (ES : zsum h (fun k => if (j <=? k)%nat then binom k i mod b * a k else 0) =
       zsum h (fun k => if (k =? j)%nat then a j * m else 0) + zsum h (fun k => if (S j <=? k)%nat then binom k i mod b * a k else 0)).
    { rewrite <- zsum_add. apply zsum_ext. intros x Hx. destruct (Nat.eqb_spec x j) as [Ex|Nx].
      - rewrite Ex, Nat.leb_refl. destruct (Nat.leb_spec (S j) j); [lia|]. fold m. ring.
      - destruct (Nat.leb_spec j x), (Nat.leb_spec (S j) x); try lia; reflexivity. }
    assert (E1 : zsum h (fun k => if (k =? j)%nat then a j * m else 0) = a j * m).
    { clear -HC. assert (Hj : (j < h)%nat) by lia. clear HC. induction h as [|h IH]; [lia|]. cbn [zsum]. destruct (Nat.eqb_spec h j) as [->|N].
      - rewrite zsum_0; [ring|]. intros x Hx. destruct (Nat.eqb_spec x j); [lia|reflexivity].
      - rewrite IH by lia. ring. }
    lia.
Qed.

(* the value of a coordinate after the first from its digits *)
Fixpoint sv (b : Z) (ds : list Z) (r first : Q) : Q :=
  match ds with
  | [] => first
  | d :: t => let r := rnd (r * inject_Z b) in sv b t r (rnd (first + rnd (inject_Z d / r)))
  end.

Lemma r_pos : forall b r, 2 <= b -> (1 <= r)%Q -> (1 <= rnd (r * inject_Z b))%Q.
Proof using Hf.
  intros b r Hb Hr. apply (repr_rnd_ge f md Hf); [apply repr_1; exact Hf|]. assert ((1 <= inject_Z b)%Q) by (change 1%Q with (inject_Z 1); rewrite <- Zle_Qle; lia).
  apply Qle_trans with r; [exact Hr|]. rewrite <- (Qmult_1_r r) at 1. rewrite !(Qmult_comm r). apply Qmult_le_compat_r; [exact H|]. apply Qle_trans with 1%Q; [discriminate|exact Hr].
Qed.
Lemma nz1 : forall r, (1 <= r)%Q -> Qeq_bool r 0 = false.
Proof. intros r H. destruct (Qeq_bool r 0) eqn:E; [|reflexivity]. apply Qeq_bool_eq in E. rewrite E in H. exfalso. apply (Qle_not_lt _ _ H). reflexivity. Qed.

Lemma next_ok : forall b c (a : nat -> Z) h, 2 <= b -> table_ok b h c -> Z.of_nat h * (b - 1) ^ 2 <= 2 ^ prec f -> b <= 2 ^ prec f ->
  forall cnt i r first y, (i + cnt = h)%nat -> length y = h -> (1 <= r)%Q ->
  (forall j, (j < h)%nat -> rd y j = Some (inject_Z (if (j <? i)%nat then TD 1 a h j mod b else a j)) /\ 0 <= a j < b) ->
  exists y', next_coord f md b c h cnt i r first y = Some (sv b (map (fun j => TD 1 a h j mod b) (seq i cnt)) r first, y') /\ length y' = h /\
    forall j, (j < h)%nat -> rd y' j = Some (inject_Z (TD 1 a h j mod b)).
Proof using Hf.
  intros b c a h Hb HT HP HP2. assert (EB : ofZ b = inject_Z b) by (apply rnd_Z; [lia|reflexivity]).
  induction cnt as [|k IH]; intros i r first y Hi HL Hr HY; cbn [next_coord].
  - exists y. cbn [seq map sv]. split; [reflexivity|]. split; [exact HL|]. intros j Hj. destruct (HY j Hj) as [-> _]. destruct (Nat.ltb_spec j i); [reflexivity|lia].
  - destruct (HY i ltac:(lia)) as [RI HA]. rewrite RI. destruct (Nat.ltb_spec i i) as [|_]; [lia|]. cbn [bind].
    rewrite (proj2 HT i i) by lia. cbn [bind]. rewrite binom_diag. rewrite (Z.mod_small 1 b) by lia.
    assert (E1 : ofZ 1 = inject_Z 1) by (apply rnd_Z; [lia|reflexivity]). rewrite E1.
    assert (P1 : (b - 1) ^ 2 <= Z.of_nat h * (b - 1) ^ 2) by (pose proof (Z.pow_nonneg (b - 1) 2 ltac:(lia)); nia).
    assert (AB : 0 <= a i <= (b - 1) ^ 2) by (rewrite Z.pow_2_r; nia).
    rewrite (rnd_Z (inject_Z (a i) * inject_Z 1) (a i)) by (try (rewrite Qmult_1_r; reflexivity); lia).
    rewrite (row_ok b c y a h i Hb HT HL) with (z := a i); [|intros j Hj; destruct (HY j ltac:(lia)) as [-> ?]; destruct (Nat.ltb_spec j i); [lia|]; split; [reflexivity|assumption]|exact HP|exact HP2|lia|lia|].
    2:{ replace (i + 1 - i)%nat with 1%nat by lia. rewrite Z.mul_1_l. exact AB. }
    cbn [bind]. rewrite EB, fmod_Z by lia.
    assert (ET : (a i + zsum h (fun k => if (i + 1 <=? k)%nat then binom k i mod b * a k else 0)) mod b = TD 1 a h i mod b).
    { assert (EI : a i = zsum h (fun k => if (k =? i)%nat then a i else 0)).
      { clear -Hi. assert (Hj : (i < h)%nat) by lia. clear Hi. induction h as [|h IH]; [lia|]. cbn [zsum]. destruct (Nat.eqb_spec h i) as [->|N].
        - rewrite zsum_0; [ring|]. intros x Hx. destruct (Nat.eqb_spec x i); [lia|reflexivity].
        - rewrite <- IH by lia. ring. }
      rewrite EI at 1. rewrite <- zsum_add. unfold TD. apply zsum_mod. intros j Hj. unfold B. rewrite Z.pow_1_l by lia. rewrite Z.mul_1_r.
      destruct (Nat.eqb_spec j i) as [->|N].
      - destruct (Nat.leb_spec (i + 1) i); [lia|]. rewrite binom_diag, Z.add_0_r, Z.mul_1_l. reflexivity.
      - destruct (Nat.leb_spec (i + 1) j).
        + rewrite Z.add_0_l. rewrite Zmult_mod, Z.mod_mod, <- Zmult_mod by lia. reflexivity.
        + rewrite binom_gt by lia. reflexivity. }
    rewrite ET. destruct (wr_ok Q y i (inject_Z (TD 1 a h i mod b)) ltac:(lia)) as (y1 & -> & L1 & R1). cbn [bind].
    pose proof (r_pos b r Hb Hr) as Hr'. unfold fdiv. rewrite (nz1 _ Hr'). cbn [bind].
    destruct (IH (S i) (rnd (r * inject_Z b)) (rnd (first + rnd (inject_Z (TD 1 a h i mod b) / rnd (r * inject_Z b)))) y1) as (y2 & E2 & L2 & R2); [lia|congruence|exact Hr'| |].
    { intros j Hj. rewrite R1. destruct (HY j Hj) as [-> ?]. split; [|assumption]. destruct (Nat.eqb_spec j i) as [->|].
      - destruct (Nat.ltb_spec i (S i)); [reflexivity|lia].
      - destruct (Nat.ltb_spec j i), (Nat.ltb_spec j (S i)); try lia; reflexivity. }
    exists y2. cbn [seq map sv]. split; [exact E2|]. split; [exact L2|exact R2].
Qed.

(* the coordinates c+1, ..., c+cnt *)
Lemma coords_ok : forall b tab n h, 2 <= b -> table_ok b h tab -> Z.of_nat h * (b - 1) ^ 2 <= 2 ^ prec f -> b <= 2 ^ prec f -> 0 <= n < b ^ Z.of_nat h ->
  forall cnt c y, y = map (fun i => inject_Z (fdigit b n c i)) (seq 0 h) ->
  coords f md b tab h cnt y = Some (map (fun k => sv b (map (fdigit b n k) (seq 0 h)) 1 0) (seq (S c) cnt), map (fun i => inject_Z (fdigit b n (c + cnt) i)) (seq 0 h)).
Proof using Hf.
  intros b tab n h Hb HT HP HP2 Hn. induction cnt as [|k IH]; intros c y HY; cbn [coords].
  - rewrite Nat.add_0_r, HY. reflexivity.
  - set (a := fdigit b n c).
    assert (EA : forall j, TD 1 a h j mod b = fdigit b n (S c) j).
    { intros j. rewrite (fdigit_TD b n (S c) j h Hb Hn). replace (Z.of_nat (S c)) with (Z.of_nat c + 1) by lia. rewrite <- TD_comp. unfold TD at 1 2. apply zsum_mod. intros i Hi.
      unfold a. rewrite (fdigit_TD b n c i h Hb Hn). rewrite Zmult_mod, Z.mod_mod, <- Zmult_mod by lia. reflexivity. }
    destruct (next_ok b tab a h Hb HT HP HP2 h 0 1%Q 0%Q y) as (y' & E & L' & R'); [lia|rewrite HY, map_length, seq_length; reflexivity|apply Qle_refl| |].
    { intros j Hj. rewrite HY, rd_map by exact Hj. destruct (Nat.ltb_spec j 0); [lia|]. split; [reflexivity|apply fdigit_range; exact Hb]. }
    rewrite E. cbn [bind snd fst]. rewrite (IH (S c) y').
    + cbn [bind fst snd seq map]. f_equal. f_equal; [f_equal; f_equal; apply map_ext; exact EA|]. apply map_ext. intros i. do 2 f_equal. lia.
    + apply list_of_rd; [exact L'|]. intros i Hi. rewrite (R' i Hi), EA. reflexivity.
Qed.
End Real.
