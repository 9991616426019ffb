(* discrete_distribution with real weights: selection and operator(). *)
From Coq Require Import Lqa.
From Verif Require Import Base ProgModel ProgSpec ProgProofs UIntModel UIntSpec UIntProofs FloatModel FloatSpec FloatProofs RealModel RealSpec RealProofs UniProofs
  DiscModel DiscSpec DiscProofs Disc2Proofs Disc3Proofs Disc4Proofs RDiscModel RDiscSpec RDiscProofs RDisc2Proofs RDisc3Proofs.
Ltac Zify.zify_post_hook ::= idtac.
Open Scope Q_scope.

Definition hof (h : rentry) (c : Z) : Q := fst (h c).
Definition sof (h : rentry) (c : Z) : Z := match snd (h c) with Some s => s | None => c end.

Lemma area_contrib : forall f h n N i, (forall j, (0 <= j < N)%Z -> rentry_ok f N h j) -> (Z.of_nat n <= N)%Z ->
  area n (hof h) (sof h) i == qsum (fun j => rcontrib h j i) (map Z.of_nat (seq 0 n)).
Proof.
  intros f h n N i H Hn. unfold area.
  assert (G: forall l, (forall j, In j l -> (0 <= j < N)%Z) ->
    fold_right (fun c a => (if (c =? i)%Z then hof h c else 0) + (if (sof h c =? i)%Z then 1 - hof h c else 0) + a) 0 l
    == qsum (fun j => rcontrib h j i) l).
  { induction l as [|c l IH]; intro HI; [reflexivity|]. cbn [fold_right qsum].
    rewrite IH by (intros j Hj; apply HI; right; exact Hj).
    destruct (H c (HI c (or_introl eq_refl))) as (_ & _ & _ & K). unfold rcontrib, sof, hof. destruct (snd (h c)) as [s|].
    - ring.
    - rewrite K. destruct (c =? i)%Z; ring. }
  apply G. intros j Hj. apply in_map_iff in Hj. destruct Hj as (k & <- & Hk). apply in_seq in Hk. lia.
Qed.

Lemma select_hs : forall f tab h c v old n, (0 <= c < Z.of_nat n)%Z -> length tab = n -> rentry_ok f (Z.of_nat n) h c ->
  tabQ tab c = r_apply (h c) old -> v < 1 ->
  rd_select tab c v = Some (if qlt v (hof h c) then c else sof h c).
Proof.
  intros f tab h c v old n Hc HL (_ & H0 & H1 & HK) HT Hv. unfold rd_select. rewrite (at_ok _ (0, 0%Z)) by lia. cbn [bind].
  fold (tabQ tab c). rewrite HT. unfold r_apply, hof, sof. cbn [fst snd]. destruct (snd (h c)) as [s|]; [reflexivity|].
  rewrite HK. destruct (qlt v 1) eqn:E; [reflexivity|]. apply qlt_false in E. lra.
Qed.

Lemma rd_table : forall f md t ws old, fmt_ok f -> rweights_ok f t ws ->
  (qlen ws + 3) * p2 (1 - prec f) <= 1 # 8 ->
  exists tab h s, rd_init f md t old ws = Some tab /\ length tab = length ws /\
    (forall c v, (0 <= c < Z.of_nat (length ws))%Z -> v < 1 ->
       rd_select tab c v = Some (if qlt v (h c) then c else s c)) /\
    (forall c, (0 <= c < Z.of_nat (length ws))%Z -> 0 <= h c /\ h c <= 1 /\ (0 <= s c < Z.of_nat (length ws))%Z) /\
    (forall i, (0 <= i < Z.of_nat (length ws))%Z ->
       Qabs (area (length ws) h s i - qlen ws * qweight ws i / qtotal ws) <= qlen ws * (8 * qlen ws + 18) * p2 (1 - prec f)).
Proof.
  intros f md t ws old Hf Hok Hsm. destruct (rd_init_ok f md t Hf ws Hok Hsm) as (h & H1 & H2 & _ & H4).
  destruct (H4 old) as (tab & T1 & T2 & T3). exists tab, (hof h), (sof h). split; [exact T1|]. split; [exact T2|]. split; [|split].
  - intros c v Hc Hv. apply (select_hs f tab h c v _ (length ws) Hc T2 (H1 c Hc) (T3 c Hc) Hv).
  - intros c Hc. destruct (H1 c Hc) as (_ & K0 & K1 & K2). split; [exact K0|]. split; [exact K1|]. unfold sof.
    destruct (snd (h c)); [exact K2|exact Hc].
  - intros i Hi. rewrite (area_contrib f h (length ws) (Z.of_nat (length ws)) i H1 (Z.le_refl _)). apply (H2 i Hi).
Qed.

Lemma rcontrib_nonneg : forall f N h j i, rentry_ok f N h j -> 0 <= rcontrib h j i.
Proof.
  intros f N h j i (_ & K0 & K1 & K2). unfold rcontrib. destruct (j =? i)%Z, (snd (h j)) as [s|]; try destruct (s =? i)%Z; lra.
Qed.

Lemma select_pos : forall f tab h (ws : list Q) c v old i, (0 <= c < Z.of_nat (length ws))%Z -> length tab = length ws ->
  (forall j, (0 <= j < Z.of_nat (length ws))%Z -> rentry_ok f (Z.of_nat (length ws)) h j) ->
  tabQ tab c = r_apply (h c) old -> 0 <= v -> v < 1 -> rd_select tab c v = Some i ->
  (0 <= i < Z.of_nat (length ws))%Z /\
  ~ qsum (fun j => rcontrib h j i) (map Z.of_nat (seq 0 (length ws))) == 0.
Proof.
  intros f tab h ws c v old i Hc HL HE HT V0 V1 HS.
  rewrite (select_hs f tab h c v old (length ws) Hc HL (HE c Hc) HT V1) in HS.
  destruct (HE c Hc) as (_ & K0 & K1 & K2).
  assert (IC: In c (map Z.of_nat (seq 0 (length ws)))) by (apply In_range; exact Hc).
  assert (NN: forall j, In j (map Z.of_nat (seq 0 (length ws))) -> 0 <= rcontrib h j i).
  { intros j Hj. apply In_range in Hj. apply (rcontrib_nonneg _ _ _ _ _ (HE j Hj)). }
  pose proof (qsum_in _ (fun j => rcontrib h j i) _ c NN IC) as QI. cbn beta in QI.
  assert (G: (0 <= i < Z.of_nat (length ws))%Z /\ 0 < rcontrib h c i).
  { unfold rcontrib, hof, sof in *. destruct (qlt v (fst (h c))) eqn:E.
    - apply qlt_iff in E. assert (c = i) by congruence. subst i. split; [exact Hc|]. rewrite Z.eqb_refl.
      destruct (snd (h c)) as [s|]; try destruct (s =? c)%Z; lra.
    - apply qlt_false in E. destruct (snd (h c)) as [s|].
      + assert (s = i) by congruence. subst s. split; [exact K2|]. rewrite Z.eqb_refl. destruct (c =? i)%Z; lra.
      + rewrite K2 in E. lra. }
  split; [apply G|]. intro Z0. lra.
Qed.

Lemma weight_cases : forall f t ws i, rweights_ok f t ws -> (0 <= i < Z.of_nat (length ws))%Z -> qweight ws i == 0 \/ 0 < qweight ws i.
Proof.
  intros f t ws i (_ & _ & _ & HF & _) Hi. rewrite Forall_forall in HF.
  destruct (HF (qweight ws i)) as [_ W]; [unfold qweight; apply nth_In; lia|]. 
  destruct (Qlt_le_dec 0 (qweight ws i)); [right; assumption|left; lra].
Qed.

Lemma rd_zero : forall f md t ws old, fmt_ok f -> rweights_ok f t ws ->
  (qlen ws + 3) * p2 (1 - prec f) <= 1 # 8 -> qlen ws * (4 * qlen ws + 9) * p2 (1 - prec f) < 1 ->
  exists tab, rd_init f md t old ws = Some tab /\
    forall c v i, (0 <= c < Z.of_nat (length ws))%Z -> 0 <= v -> v < 1 -> rd_select tab c v = Some i ->
      (0 <= i < Z.of_nat (length ws))%Z /\ 0 < qweight ws i.
Proof.
  intros f md t ws old Hf Hok Hsm HB. destruct (rd_init_ok f md t Hf ws Hok Hsm) as (h & H1 & _ & H3 & H4).
  destruct (H4 old) as (tab & T1 & T2 & T3). exists tab. split; [exact T1|]. intros c v i Hc V0 V1 HS.
  destruct (select_pos f tab h ws c v _ i Hc T2 H1 (T3 c Hc) V0 V1 HS) as [I1 I2]. split; [exact I1|].
  destruct (weight_cases f t ws i Hok I1) as [W|W]; [|exact W]. exfalso. apply I2. apply H3; assumption.
Qed.

Lemma rd_op_range : forall f md t ws old tb bmin bmax, fmt_ok f -> rweights_ok f t ws ->
  (qlen ws + 3) * p2 (1 - prec f) <= 1 # 8 -> eng_wf tb bmin bmax -> (bmax - bmin <= imax tb)%Z ->
  exists tab, rd_init f md t old ws = Some tab /\ rd_max t tab = (Z.of_nat (length ws) - 1)%Z /\
    forall F ds, (length ds < F)%nat -> valid_draws bmin bmax ds ->
      exec (rd_op f md t F tb bmin bmax tab) ds = OMore \/
      exists i rest, exec (rd_op f md t F tb bmin bmax tab) ds = ORet i rest /\
        (0 <= i < Z.of_nat (length ws))%Z /\
        (qlen ws * (4 * qlen ws + 9) * p2 (1 - prec f) < 1 -> 0 < qweight ws i).
Proof.
  intros f md t ws old tb bmin bmax Hf Hok Hsm Hb HR. destruct (rd_init_ok f md t Hf ws Hok Hsm) as (h & H1 & _ & H3 & H4).
  destruct (H4 old) as (tab & T1 & T2 & T3). exists tab. split; [exact T1|].
  pose proof Hok as (Ht & Hne & HL & _).
  assert (N0: (0 < Z.of_nat (length ws))%Z) by (destruct ws; [congruence|cbn [length]; lia]).
  assert (EM: rd_max t tab = (Z.of_nat (length ws) - 1)%Z).
  { unfold rd_max. rewrite T2. apply cast_id; lia. }
  split; [exact EM|]. intros F ds HF Hd. unfold rd_op. rewrite exec_bind_eq, EM.
  destruct (ui0_run tb bmin bmax Hb t (Z.of_nat (length ws) - 1)%Z Ht ltac:(lia) F ds HF Hd) as [X|(c & r1 & X & C1 & C2)]; rewrite X; [left; reflexivity|].
  destruct (exec_suffix _ _ _ _ _ bmin bmax X Hd) as [V1 L1]. rewrite exec_bind_eq.
  destruct (wp_exec _ _ _ _ r1 _ (u01_wp f md Hf tb bmin bmax Hb F (length r1) ltac:(lia) HR) V1) as [E|(v & rest & E & (Q1 & Q2 & _) & _)];
    rewrite E; [left; reflexivity|].
  right. pose proof (select_hs f tab h c v _ (length ws) ltac:(lia) T2 (H1 c ltac:(lia)) (T3 c ltac:(lia)) Q2) as HS.
  rewrite HS. eexists. exists rest. split; [reflexivity|].
  destruct (select_pos f tab h ws c v _ _ ltac:(lia) T2 H1 (T3 c ltac:(lia)) Q1 Q2 HS) as [I1 I2].
  split; [exact I1|]. intro HB.
  destruct (weight_cases f t ws _ Hok I1) as [W|W]; [|exact W]. exfalso. apply I2. apply H3; assumption.
Qed.

Lemma rd_empty : forall f md t old tb bmin bmax F v ds, fmt_ok f -> (2 <= bits t)%Z -> eng_wf tb bmin bmax ->
  (bmax - bmin <= imax tb)%Z -> valid_draws bmin bmax (v :: ds) -> (length (v :: ds) < F)%nat ->
  exists tab, rd_init f md t old [] = Some tab /\ rd_max t tab = 0%Z /\
    (exec (rd_op f md t F tb bmin bmax tab) (v :: ds) = OMore \/
     exists rest, exec (rd_op f md t F tb bmin bmax tab) (v :: ds) = ORet 0%Z rest).
Proof.
  intros f md t old tb bmin bmax F v ds Hf Ht Hb HR Hd HF. exists r_empty. split; [reflexivity|].
  assert (IM: (0 <= imax t)%Z).
  { unfold imax. destruct (sgn t).
    - assert (0 < 2 ^ (bits t - 1))%Z by (apply Z.pow_pos_nonneg; lia). lia.
    - assert (0 < 2 ^ (bits t))%Z by (apply Z.pow_pos_nonneg; lia). lia. }
  assert (EM: rd_max t r_empty = 0%Z) by (unfold rd_max, r_empty; cbn [length]; apply cast_id; lia).
  split; [exact EM|]. unfold rd_op. rewrite exec_bind_eq, EM.
  destruct (ui0_run tb bmin bmax Hb t 0%Z Ht ltac:(lia) F (v :: ds) HF Hd) as [X|(c & r1 & X & C1 & C2)]; rewrite X; [left; reflexivity|].
  destruct (exec_suffix _ _ _ _ _ bmin bmax X Hd) as [V1 L1]. rewrite exec_bind_eq.
  destruct (wp_exec _ _ _ _ r1 _ (u01_wp f md Hf tb bmin bmax Hb F (length r1) ltac:(lia) HR) V1) as [E|(q & rest & E & (Q1 & Q2 & _) & _)];
    rewrite E; [left; reflexivity|].
  right. exists rest. assert (c = 0%Z) as -> by lia. unfold rd_select, r_empty, at_. cbn [Z.ltb Z.compare Z.to_nat nth_error bind fst snd].
  destruct (qlt q 1) eqn:L; [reflexivity|]. apply qlt_false in L. lra.
Qed.
