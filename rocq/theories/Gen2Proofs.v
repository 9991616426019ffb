(* seed_impl.hpp: generate_from_real, and the loop *)
From Verif Require Import Base ProgModel ProgSpec ProgProofs UIntModel UIntProofs IbModel IbProofs SeedSpec SeedProofs GenSpec GenModel GenProofs.
Ltac Zify.zify_post_hook ::= idtac.

Lemma gr_complete_ok : forall B n S t st v, 1 <= B -> ginv B n S t st -> 0 <= v < 2 ^ B ->
  32 - g_rem st <= B ->
  exists k avail w, 0 <= avail /\ t + B = 32 * Z.of_nat k + avail /\
  (gr_complete B n st (v, 0) = Some (inl (words n (S + 2 ^ t * v))) /\ k = n \/
   (k < n)%nat /\ gr_complete B n st (v, 0) = Some (inr (w, avail, words k (S + 2 ^ t * v))) /\ 0 <= snd w /\
   Z.shiftr (fst w) (snd w) = (S + 2 ^ t * v) / 2 ^ (32 * Z.of_nat k) /\ (B < 32 -> avail < 32)).
Proof.
  intros B n S t st v HB HI Hv Hc. pose proof HI as (I1 & I2 & I3 & I4 & I5 & I6 & I7).
  pose proof (saved_range B n S t st HI) as Hs. pose proof (total_range B n S t st v ltac:(lia) HI Hv) as TR.
  pose proof (total_out B n S t st v HI Hv) as TO. pose proof (total_word B n S t st v HI) as TW.
  set (T := S + 2 ^ t * v) in *. set (k := length (g_out st)) in *.
  unfold gr_complete. destruct ((B <? 32) || negb (g_rem st =? 0)) eqn:Ec.
  - assert (Hr : 0 < g_rem st).
    { apply orb_true_iff in Ec. destruct Ec as [Ec|Ec].
      - apply Z.ltb_lt in Ec. lia.
      - apply negb_true_iff, Z.eqb_neq in Ec. lia. }
    rewrite shl32_ok by lia. cbn [bind]. unfold gr_low. cbn [fst snd]. rewrite Z.shiftr_0_r.
    change (v mod 2 ^ 32) with (wrap 32 v). rewrite low_bits by lia. rewrite shl32_ok by lia. cbn [bind].
    rewrite word_join by lia. rewrite <- TW. rewrite TO. rewrite put_ok by exact I6. cbn [bind]. rewrite full_ok.
    exists (k + 1)%nat, (B - (32 - g_rem st)), (v, 0 + (32 - g_rem st)). split; [lia|]. split; [lia|].
    destruct (Nat.eqb_spec (k + 1) n) as [<-|Hne].
    + left. split; reflexivity.
    + right. split; [lia|]. split; [reflexivity|]. cbn [fst snd]. split; [lia|]. split; [|lia].
      rewrite Z.add_0_l, Z.shiftr_div_pow2 by lia.
      rewrite (word_rest (g_saved st) v (g_rem st)) by lia. rewrite <- TW, words_step by lia. reflexivity.
  - apply orb_false_iff in Ec. destruct Ec as [Ec1 Ec2]. apply Z.ltb_ge in Ec1. apply negb_false_iff, Z.eqb_eq in Ec2.
    exists k, B, (v, 0). split; [lia|]. split; [lia|]. right. split; [exact I6|]. cbn [fst snd].
    split; [rewrite <- TO; reflexivity|]. split; [lia|]. split; [|lia].
    rewrite TW, Ec2. rewrite Ec2 in Hs. change (2 ^ 0) with 1 in *. replace (g_saved st) with 0 by lia.
    rewrite Z.add_0_l, Z.mul_1_l. apply Z.shiftr_0_r.
Qed.

Lemma gr_body_ok : forall B n, 1 <= B -> body_ok B (2 ^ B) n (gr_body B n).
Proof.
  intros B n HB S t st v HI Hv. rewrite Z.mod_small by exact Hv. unfold gr_body.
  pose proof HI as (I1 & I2 & I3 & I4 & I5 & I6 & I7).
  pose proof (total_range B n S t st v ltac:(lia) HI Hv) as TR.
  destruct ((B <? 32) && (B <? 32 - g_rem st)) eqn:Ea.
  { apply andb_true_iff in Ea. destruct Ea as [A1 A2]. apply Z.ltb_lt in A1, A2.
    destruct (accum_ok B n S t st v ltac:(lia) HI Hv A2) as [W1 G]. unfold gr_trunc. cbn [fst snd]. rewrite Z.shiftr_0_r.
    assert (2 ^ B <= 2 ^ 32) by (apply Z.pow_le_mono_r; lia).
    destruct (Z.ltb_spec v (2 ^ 32)); [|lia]. cbn [bind]. rewrite shl32_ok by lia. cbn [bind].
    destruct (Z.leb_spec (32 * Z.of_nat n) (t + B)); [lia|]. eexists. split; [reflexivity|exact G]. }
  assert (Hc : 32 - g_rem st <= B).
  { apply andb_false_iff in Ea. destruct Ea as [A|A]; apply Z.ltb_ge in A; lia. }
  assert (HM : B mod 32 = 0 -> g_rem st = 0) by exact I7.
  destruct (gr_complete_ok B n S t st v HB HI Hv Hc) as (j & avail & w & A0 & A1 & [(C1 & C2)|(C1 & C2 & C3 & C4 & C5)]); rewrite C2 || rewrite C1; cbn [bind].
  - subst j. destruct (Z.leb_spec (32 * Z.of_nat n) (t + B)); [reflexivity|lia].
  - pose proof (Z.div_mod avail 32 ltac:(lia)) as DM. pose proof (Z.mod_pos_bound avail 32 ltac:(lia)) as Bm.
    assert (D0 : 0 <= avail / 32) by (apply Z.div_pos; lia).
    assert (HA : B mod 32 = 0 -> avail mod 32 = 0).
    { intros E. specialize (HM E). pose proof (Z.div_mod B 32 ltac:(lia)).
      replace avail with (0 + (Z.of_nat (length (g_out st)) + B / 32 - Z.of_nat j) * 32) by lia. rewrite Z.mod_add by lia. reflexivity. }
    clear I3 I4 I5 I7 HM. set (T := S + 2 ^ t * v) in *. destruct (Z.leb_spec 32 B) as [Hb|Hb].
    + destruct (gr_words_ok n T ltac:(lia) (Z.to_nat (avail / 32)) j w C1 C3 C4) as (w' & E & E'). rewrite E. cbn [bind].
      destruct (Z.leb_spec (32 * Z.of_nat n) (t + B)).
      * destruct (Nat.leb_spec n (j + Z.to_nat (avail / 32))); [reflexivity|lia].
      * destruct (Nat.leb_spec n (j + Z.to_nat (avail / 32))); [lia|].
        destruct (finish B n T (t + B) j avail TR A0 A1 ltac:(lia) HA) as [G1 G2].
        unfold gr_trunc. rewrite E'. destruct (Z.ltb_spec (T / 2 ^ (32 * Z.of_nat (j + Z.to_nat (avail / 32)))) (2 ^ 32)); [|lia]. cbn [bind].
        eexists. split; [reflexivity|]. exact G1.
    + assert (Z0 : avail / 32 = 0) by (apply Z.div_small; lia).
      destruct (Z.leb_spec (32 * Z.of_nat n) (t + B)); [lia|].
      destruct (finish B n T (t + B) j avail TR A0 A1 ltac:(rewrite Z0; lia) HA) as [G1 G2].
      rewrite Z0 in G1, G2. change (Z.to_nat 0) with 0%nat in *. rewrite Nat.add_0_r in *. change (32 * Z.of_nat 0) with 0 in *. rewrite Z.sub_0_r in G1.
      unfold gr_trunc. rewrite C4. destruct (Z.ltb_spec (T / 2 ^ (32 * Z.of_nat j)) (2 ^ 32)); [|lia]. cbn [bind].
      eexists. split; [reflexivity|]. exact G1.
Qed.

(* ---- the loop, on a given sequence of outputs ---- *)
Definition dr_ok (bmin R B : Z) (dr : nat -> prog Z) : Prop :=
  (forall F u d rest, Forall (fun x => useful bmin R B x = false) u -> useful bmin R B d = true ->
     Forall (fun x => bmin <= x < bmin + R) (u ++ [d]) -> (length u < F)%nat ->
     exec (dr F) (u ++ d :: rest) = ORet (d - bmin) rest) /\
  (forall F ds, Forall (fun x => useful bmin R B x = false) ds -> Forall (fun x => bmin <= x < bmin + R) ds -> (length ds < F)%nat ->
     exec (dr F) ds = OMore) /\
  (forall F, Uniform bmin (bmin + R - 1) (dr F) 0 (Z.to_nat (2 ^ B * (R / 2 ^ B)))).

(* the first useful element *)
Lemma split_useful : forall (P : Z -> bool) ds,
  Forall (fun x => P x = false) ds \/
  exists u d rest, ds = u ++ d :: rest /\ Forall (fun x => P x = false) u /\ P d = true.
Proof.
  induction ds as [|a ds IH]; [left; constructor|]. destruct (P a) eqn:E.
  - right. exists [], a, ds. split; [reflexivity|]. split; [constructor|exact E].
  - destruct IH as [IH|(u & d & rest & -> & H1 & H2)].
    + left. constructor; assumption.
    + right. exists (a :: u), d, rest. split; [reflexivity|]. split; [constructor; assumption|exact H2].
Qed.
Lemma filter_none : forall (P : Z -> bool) u, Forall (fun x => P x = false) u -> filter P u = [].
Proof. induction 1 as [|a u Ha _ IH]; [reflexivity|]. cbn [filter]. rewrite Ha. exact IH. Qed.

Lemma digits_of_skip : forall bmin R B u d rest, Forall (fun x => useful bmin R B x = false) u -> useful bmin R B d = true ->
  digits_of bmin R B (u ++ d :: rest) = digit_of bmin B d :: digits_of bmin R B rest.
Proof.
  intros. unfold digits_of. rewrite filter_app, (filter_none _ u) by assumption. cbn [app filter]. rewrite H0. reflexivity.
Qed.
Lemma digits_of_none : forall bmin R B u, Forall (fun x => useful bmin R B x = false) u -> digits_of bmin R B u = [].
Proof. intros. unfold digits_of. rewrite filter_none by assumption. reflexivity. Qed.

(* the run from a state: enough digits after the prefix that ends with a useful
   output, or not enough *)
Lemma loop_exec : forall bmin R B n dr body, 1 <= B -> 2 ^ B <= R -> dr_ok bmin R B dr ->
  body_ok B (2 ^ B * (R / 2 ^ B)) n body ->
  forall F S t st ds, ginv B n S t st -> Forall (fun x => bmin <= x < bmin + R) ds -> (length ds < F)%nat ->
  (forall u d rest, ds = u ++ d :: rest -> useful bmin R B d = true ->
     t + B * Z.of_nat (length (digits_of bmin R B u)) < 32 * Z.of_nat n <= t + B * Z.of_nat (length (digits_of bmin R B u) + 1) ->
     exec (gen_loop F dr body st) ds = ORet (words n (S + 2 ^ t * digits_value B (digits_of bmin R B (u ++ [d])))) rest) /\
  (t + B * Z.of_nat (length (digits_of bmin R B ds)) < 32 * Z.of_nat n ->
     exec (gen_loop F dr body st) ds = OMore).
Proof.
  intros bmin R B n dr body HB HR HD HBo. pose proof HD as (D1 & D2 & _). pose proof (pos_pow B ltac:(lia)) as PB.
  assert (HL : 0 < 2 ^ B * (R / 2 ^ B)).
  { assert (1 <= R / 2 ^ B) by (apply Z.div_le_lower_bound; lia). nia. }
  induction F as [|F IH]; intros S t st ds HI HF HL'; [lia|]. cbn [gen_loop].
  destruct (split_useful (useful bmin R B) ds) as [HN|(u0 & d0 & rest0 & E0 & HN & HU)].
  - split.
    + intros u d rest E HU _. subst ds. apply Forall_app in HN. destruct HN as [_ HN]. inversion HN. congruence.
    + intros _. rewrite (exec_bind_more _ _ (dr (Datatypes.S F)) _ ds); [reflexivity|]. apply D2; [exact HN|exact HF|exact HL'].
  - assert (HF0 : Forall (fun x => bmin <= x < bmin + R) (u0 ++ [d0]) /\ Forall (fun x => bmin <= x < bmin + R) rest0).
    { rewrite E0 in HF. apply Forall_app in HF. destruct HF as [F1 F2]. inversion F2; subst. split; [|assumption].
      apply Forall_app. split; [exact F1|constructor; [assumption|constructor]]. }
    assert (Hx : 0 <= d0 - bmin < 2 ^ B * (R / 2 ^ B)).
    { destruct HF0 as [F1 _]. apply Forall_app in F1. destruct F1 as [_ F1]. inversion F1; subst.
      unfold useful in HU. apply Z.ltb_lt in HU. lia. }
    assert (EX : forall k : Z -> prog (list Z), exec (pbind (dr (Datatypes.S F)) k) ds = exec (k (d0 - bmin)) rest0).
    { intros k. apply exec_bind_ret. rewrite E0. apply D1; [exact HN|exact HU|apply HF0|]. rewrite E0, app_length in HL'. cbn in HL'. lia. }
    rewrite EX. specialize (HBo S t st (d0 - bmin) HI Hx). fold (digit_of bmin B d0) in HBo.
    assert (Hlen : (length rest0 < F)%nat) by (rewrite E0, app_length in HL'; cbn in HL'; lia).
    destruct (Z.leb_spec (32 * Z.of_nat n) (t + B)) as [Hd|Hd].
    + rewrite HBo. cbn [plift pbind exec]. split.
      * intros u d rest E HU' Hn.
        (* the first useful output completes the words: u has none *)
        assert (Eu : digits_of bmin R B u = []).
        { destruct (digits_of bmin R B u) as [|x l]; [reflexivity|]. cbn [length] in Hn. nia. }
        assert (E3 : u = u0 /\ d = d0 /\ rest = rest0).
        { rewrite E0 in E. clear - E Eu HN HU HU'. revert u E Eu. induction u0 as [|a u0 IH]; intros [|b u] E Eu.
          - inversion E. repeat split; congruence.
          - cbn [app] in E. inversion E; subst. unfold digits_of in Eu. cbn [filter] in Eu. rewrite HU in Eu. discriminate.
          - cbn [app] in E. inversion E; subst. inversion HN; congruence.
          - cbn [app] in E. inversion E as [[E1 E2]]; subst b. inversion HN; subst.
            destruct (IH H2 u E2) as (-> & -> & ->); [|repeat split; reflexivity].
            unfold digits_of in Eu |- *. cbn [filter] in Eu. rewrite H1 in Eu. exact Eu. }
        destruct E3 as (-> & -> & ->). rewrite digits_of_skip by assumption. cbn [digits_of filter map digits_value].
        rewrite Z.mul_0_r, Z.add_0_r. reflexivity.
      * intros Hn. rewrite E0, digits_of_skip in Hn by assumption. cbn [length] in Hn. nia.
    + destruct HBo as (st' & EB & HI'). rewrite EB. cbn [plift pbind].
      destruct (IH _ _ st' rest0 HI' (proj2 HF0) Hlen) as [IH1 IH2]. split.
      * intros u d rest E HU' Hn.
        assert (E3 : exists u1, u = u0 ++ d0 :: u1 /\ rest0 = u1 ++ d :: rest).
        { rewrite E0 in E. assert (Eu : digits_of bmin R B u <> []) by (intros Eu; rewrite Eu in Hn; cbn [length] in Hn; lia).
          clear - E Eu HN HU'. revert u E Eu. induction u0 as [|a u0 IH]; intros [|b u] E Eu.
          - exfalso. apply Eu. reflexivity.
          - cbn [app] in E. inversion E; subst. exists u. split; reflexivity.
          - exfalso. apply Eu. reflexivity.
          - cbn [app] in E. inversion E as [[E1 E2]]; subst b. inversion HN; subst.
            destruct (IH H2 u E2) as (u1 & -> & ->).
            + intros Eu'. apply Eu. unfold digits_of in Eu' |- *. cbn [filter]. rewrite H1. exact Eu'.
            + exists u1. split; reflexivity. }
        destruct E3 as (u1 & -> & E4). rewrite digits_of_skip in Hn by assumption. cbn [length] in Hn.
        rewrite (IH1 u1 d rest E4 HU') by lia. do 2 f_equal.
        rewrite <- app_assoc. cbn [app]. rewrite (digits_of_skip bmin R B u0 d0 (u1 ++ [d])) by assumption. cbn [digits_value].
        destruct HI as (I1 & I2 & _). rewrite Z.pow_add_r by lia. ring.
      * intros Hn. rewrite E0, digits_of_skip in Hn by assumption. cbn [length] in Hn. apply IH2. lia.
Qed.
