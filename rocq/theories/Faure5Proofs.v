(* faure.hpp: the prime table; the coordinates against the specification *)
From Coq Require Import ZArith Znumtheory Arith Lia List QArith Qround Qabs Qfield Lqa.
From Verif Require Import Base FloatModel FloatSpec FloatProofs FaureModel FaureSpec FaureNetProofs FaureNet2Proofs FaureProofs Faure2Proofs Faure3Proofs Faure4Proofs.
Ltac Zify.zify_post_hook ::= idtac.
Open Scope Z_scope.

(* ---- primes ---- *)
Definition no_div (p : Z) : bool := forallb (fun d => (p <=? d) || negb (p mod d =? 0)) (map Z.of_nat (seq 2 34)).
Lemma no_div_prime : forall p, 2 <= p < 36 * 36 -> no_div p = true -> prime p.
Proof.
  intros p Hp H. apply prime_alt. split; [lia|]. intros n Hn [q Hq].
  assert (K : forall d, 1 < d < p -> (d | p) -> 36 <= d).
  { intros d Hd Hdv. destruct (Z.le_gt_cases 36 d); [assumption|]. exfalso. unfold no_div in H. rewrite forallb_forall in H.
    specialize (H d). assert (In d (map Z.of_nat (seq 2 34))). { apply in_map_iff. exists (Z.to_nat d). split; [lia|]. apply in_seq. lia. }
    specialize (H H1). apply orb_true_iff in H. destruct H as [H|H]; [apply Z.leb_le in H; lia|]. apply negb_true_iff, Z.eqb_neq in H. apply H. apply Z.mod_divide; [lia|exact Hdv]. }
  pose proof (K n Hn (ex_intro _ q Hq)). assert (1 < q < p) by nia. assert (HD : (q | p)) by (exists n; lia). pose proof (K q H1 HD). nia.
Qed.
Lemma has_div_composite : forall p, 2 <= p -> no_div p = false -> ~ prime p.
Proof.
  intros p Hp H P. unfold no_div in H. assert (E : exists d, In d (map Z.of_nat (seq 2 34)) /\ (p <=? d) || negb (p mod d =? 0) = false).
  { revert H. generalize (map Z.of_nat (seq 2 34)). induction l as [|x l IH]; intros H; [discriminate|]. cbn [forallb] in H. apply andb_false_iff in H. destruct H as [H|H].
    - exists x. split; [left; reflexivity|exact H].
    - destruct (IH H) as (d & Hd & E). exists d. split; [right; exact Hd|exact E]. }
  destruct E as (d & Hd & E). apply orb_false_iff in E. destruct E as [E1 E2]. apply Z.leb_gt in E1. apply negb_false_iff, Z.eqb_eq in E2.
  apply in_map_iff in Hd. destruct Hd as (k & Ek & Hk). apply in_seq in Hk. apply prime_alt in P. destruct P as [_ P]. apply (P d ltac:(lia)). apply Z.mod_divide; lia.
Qed.

(* the table is the ascending list of all primes up to 1117 *)
Lemma table_filter : faure_primes = filter no_div (map Z.of_nat (seq 2 1116)).
Proof. vm_compute. reflexivity. Qed.
Lemma table_iff : forall p, In p faure_primes <-> prime p /\ p <= 1117.
Proof.
  intros p. rewrite table_filter, filter_In, in_map_iff. split.
  - intros [(k & <- & Hk) H]. apply in_seq in Hk. split; [apply no_div_prime; [lia|exact H]|lia].
  - intros [P Hp]. pose proof (prime_ge_2 p P). split.
    + exists (Z.to_nat p). split; [lia|]. apply in_seq. lia.
    + destruct (no_div p) eqn:E; [reflexivity|]. exfalso. exact (has_div_composite p ltac:(lia) E P).
Qed.
Lemma find_first : forall (l : list nat) (g : nat -> bool) (n p : Z), (forall i j x y, (i < j)%nat -> nth_error l i = Some x -> nth_error l j = Some y -> (x < y)%nat) ->
  find (fun p => n <=? p) (filter (fun z => g (Z.to_nat z)) (map Z.of_nat l)) = Some p -> forall q, In q (filter (fun z => g (Z.to_nat z)) (map Z.of_nat l)) -> n <= q -> p <= q.
Proof.
  induction l as [|x l IH]; intros g n p HS HF q Hq Hn; [destruct Hq|]. cbn [map filter] in *.
  assert (HS' : forall i j y z, (i < j)%nat -> nth_error l i = Some y -> nth_error l j = Some z -> (y < z)%nat) by (intros i j y z Hij H1 H2; apply (HS (S i) (S j)); [lia|exact H1|exact H2]).
  assert (HX : forall z, In z (filter (fun z => g (Z.to_nat z)) (map Z.of_nat l)) -> Z.of_nat x < z).
  { intros z Hz. apply filter_In in Hz. destruct Hz as [Hz _]. apply in_map_iff in Hz. destruct Hz as (k & <- & Hk). apply In_nth_error in Hk. destruct Hk as (j & Hj).
    pose proof (HS 0%nat (S j) x k ltac:(lia) eq_refl Hj). lia. }
  destruct (g (Z.to_nat (Z.of_nat x))) eqn:EG; [|exact (IH g n p HS' HF q Hq Hn)]. cbn [find] in HF. destruct (Z.leb_spec n (Z.of_nat x)).
  - assert (p = Z.of_nat x) by congruence. subst p. destruct Hq as [<-|Hq]; [lia|]. pose proof (HX q Hq). lia.
  - destruct Hq as [<-|Hq]; [lia|]. exact (IH g n p HS' HF q Hq Hn).
Qed.
Lemma seq_sorted : forall len start i j x y, (i < j)%nat -> nth_error (seq start len) i = Some x -> nth_error (seq start len) j = Some y -> (x < y)%nat.
Proof.
  intros len start i j x y Hij Hx Hy. assert (Hi : (i < len)%nat) by (rewrite <- (seq_length len start); apply nth_error_Some; congruence).
  assert (Hj : (j < len)%nat) by (rewrite <- (seq_length len start); apply nth_error_Some; congruence).
  rewrite (nth_error_nth' _ 0%nat) in Hx by (rewrite seq_length; assumption). rewrite (nth_error_nth' _ 0%nat) in Hy by (rewrite seq_length; assumption). rewrite seq_nth in Hx by assumption. rewrite seq_nth in Hy by assumption. assert (start + i = x)%nat by congruence. assert (start + j = y)%nat by congruence. lia.
Qed.

(* the base is the least prime that is not less than the dimension *)
Lemma last_prime : last faure_primes 0 = 1117.
Proof. vm_compute. reflexivity. Qed.
Opaque faure_primes.
Lemma lower_bound_ok : forall n, 0 <= n ->
  match primes_lower_bound n with
  | Some p => 1 <= n <= 1117 /\ prime p /\ n <= p <= 1117 /\ forall q, prime q -> n <= q -> p <= q
  | None => n = 0 \/ 1117 < n
  end.
Proof.
  intros n Hn. unfold primes_lower_bound. rewrite last_prime. destruct (Z.eqb_spec n 0) as [->|N0]; [left; reflexivity|]. destruct (Z.ltb_spec 1117 n) as [H|H]; cbn [orb]; [right; exact H|].
  destruct (find (fun p => n <=? p) faure_primes) as [p|] eqn:E.
  - destruct (find_some _ _ E) as [HI HL]. apply Z.leb_le in HL. apply table_iff in HI. destruct HI as [HP HB]. split; [lia|]. split; [exact HP|]. split; [lia|].
    intros q Hq Hnq. destruct (Z.le_gt_cases q 1117) as [Q|Q]; [|lia].
    rewrite table_filter in E. 
    assert (EF : filter no_div (map Z.of_nat (seq 2 1116)) = filter (fun z => no_div (Z.of_nat (Z.to_nat z))) (map Z.of_nat (seq 2 1116))).
    { apply filter_ext_in. intros a Ha. apply in_map_iff in Ha. destruct Ha as (k & <- & _). rewrite Nat2Z.id. reflexivity. }
    apply (find_first (seq 2 1116) (fun k => no_div (Z.of_nat k)) n p); [apply seq_sorted| | |exact Hnq].
    + cbv beta. rewrite <- EF. exact E.
    + cbv beta. rewrite <- EF, <- table_filter. apply table_iff. split; assumption.
  - exfalso. pose proof (find_none _ _ E 1117) as C. assert (I : In 1117 faure_primes) by (apply table_iff; split; [apply no_div_prime; [lia|vm_compute; reflexivity]|lia]).
    specialize (C I). apply Z.leb_gt in C. lia.
Qed.

(* the sums are exact in all formats with 24 digits *)
Lemma table_exact : forallb (fun b => (63 / Z.log2 b + 1) * (b - 1) ^ 2 <=? 2 ^ 24) faure_primes = true.
Proof. vm_compute. reflexivity. Qed.
Lemma exact_ok : forall b Ws P, In b faure_primes -> 0 < Ws <= 64 -> 24 <= P ->
  forall h, (1 <= h)%nat -> b ^ Z.of_nat (h - 1) < 2 ^ Ws -> Z.of_nat h * (b - 1) ^ 2 <= 2 ^ P.
Proof.
  intros b Ws P HI HW HP h Hh H. pose proof table_exact as T. rewrite forallb_forall in T. specialize (T b HI). apply Z.leb_le in T.
  assert (B2 : 2 <= b). { apply table_iff in HI. apply prime_ge_2. apply HI. }
  pose proof (Z.log2_spec b ltac:(lia)) as [L _]. assert (L1 : 1 <= Z.log2 b) by (apply Z.log2_le_pow2; lia).
  assert (HH : Z.log2 b * Z.of_nat (h - 1) <= 63).
  { assert ((2 ^ Z.log2 b) ^ Z.of_nat (h - 1) < 2 ^ 64).
    { apply Z.le_lt_trans with (b ^ Z.of_nat (h - 1)); [apply Z.pow_le_mono_l; split; [apply Z.pow_nonneg; lia|exact L]|]. apply Z.lt_le_trans with (2 ^ Ws); [exact H|apply Z.pow_le_mono_r; lia]. }
    rewrite <- Z.pow_mul_r in H0 by lia. apply Z.pow_lt_mono_r_iff in H0; lia. }
  assert (Z.of_nat h <= 63 / Z.log2 b + 1).
  { enough (Z.of_nat (h - 1) <= 63 / Z.log2 b) by lia. apply Z.div_le_lower_bound; lia. }
  apply Z.le_trans with ((63 / Z.log2 b + 1) * (b - 1) ^ 2); [apply Z.mul_le_mono_nonneg_r; [apply Z.pow_nonneg; lia|assumption]|].
  apply Z.le_trans with (2 ^ 24); [exact T|apply Z.pow_le_mono_r; lia].
Qed.

(* ---- digits ---- *)
Lemma digits_len : forall b n h, 2 <= b -> 0 <= n -> has_digits b n h -> (h <= len n)%nat.
Proof.
  intros b n h Hb Hn (H1 & H2 & H3). destruct H2 as [->|H2]; [unfold len; pose proof (Z.log2_nonneg n); lia|].
  pose proof (len_bound b n Hb Hn). assert (b ^ Z.of_nat (h - 1) < b ^ Z.of_nat (len n)) by lia. apply Z.pow_lt_mono_r_iff in H0; lia.
Qed.
Lemma fvalue_digits : forall b n c h, 2 <= b -> 0 <= n -> n < b ^ Z.of_nat h -> (h <= len n)%nat ->
  (fvalue b n c == qsum h (fun i => inject_Z (fdigit b n c i) / inject_Z (b ^ Z.of_nat (S i))))%Q.
Proof.
  intros b n c h Hb Hn Hh HL. unfold fvalue. induction HL as [|m HL IH]; [reflexivity|]. cbn [qsum]. rewrite IH, (fdigit_high b n c m h) by lia.
  unfold Qdiv. rewrite Qmult_0_l, Qplus_0_r. reflexivity.
Qed.
Lemma qsum_le1 : forall b n c h, 2 <= b -> (qsum h (fun i => inject_Z (fdigit b n c i) / inject_Z (b ^ Z.of_nat (S i))) <= 1)%Q.
Proof.
  intros b n c h Hb. rewrite qsum_enc by exact Hb. pose proof (enc_range b _ Hb (lead_ok b n c h Hb)) as R. rewrite lead_len in R.
  pose proof (bpow_pos b h Hb). apply Qle_shift_div_r; [apply injZ_pos; assumption|]. rewrite Qmult_1_l, <- Zle_Qle. lia.
Qed.

Section Real.
Variables (f : fmt) (md : rmode).
Hypothesis Hf : fmt_ok f.
Hypothesis HP : 24 <= prec f.
Variables (Ws b : Z).
Hypothesis HW : 0 < Ws <= 64.
Hypothesis HI : In b faure_primes.

Lemma len_64 : forall n, 0 <= n < 2 ^ Ws -> (len n <= 64)%nat.
Proof using HW.
  intros n Hn. unfold len. destruct (Z.eq_dec n 0) as [->|]; [cbn; lia|]. assert (Z.log2 n < Ws) by (apply Z.log2_lt_pow2; lia). lia.
Qed.
Lemma u_small : (p2 (1 - prec f) <= 1 # 1000)%Q.
Proof using HP. apply Qle_trans with (p2 (-23)); [apply p2_le; lia|]. vm_compute. discriminate. Qed.

Lemma b_facts : 2 <= b <= 1117 /\ b <= 2 ^ prec f.
Proof using HP HI.
  apply table_iff in HI. destruct HI as [P L]. pose proof (prime_ge_2 b P). split; [lia|]. apply Z.le_trans with (2 ^ 24); [lia|apply Z.pow_le_mono_r; lia].
Qed.

Lemma fcoord_err : forall h n c, 0 <= n < 2 ^ Ws -> has_digits b n h ->
  (0 <= fcoord f md b h n c)%Q /\ (c = 0%nat -> fcoord f md b h n c <= 1)%Q /\
  (Qabs (fcoord f md b h n c - fvalue b n c) <= 10 * inject_Z (Z.of_nat (len n)) * p2 (1 - prec f))%Q.
Proof using Hf HP HW HI.
  intros h n c Hn HH. destruct b_facts as [Hb HbP]. pose proof (digits_len b n h ltac:(lia) ltac:(lia) HH) as HL. pose proof HH as (H1 & _ & H3).
  pose proof (len_64 n Hn) as L64. pose proof u_small as US. pose proof (u_pos f) as UP. set (w := p2 (1 - prec f)) in *.
  assert (LQ : (1 <= inject_Z (Z.of_nat (len n)))%Q) by (change 1%Q with (inject_Z 1); rewrite <- Zle_Qle; lia).
  assert (HQ : (inject_Z (Z.of_nat h) <= inject_Z (Z.of_nat (len n)))%Q) by (rewrite <- Zle_Qle; lia).
  assert (HQ64 : (inject_Z (Z.of_nat h) <= 64)%Q) by (change 64%Q with (inject_Z 64); rewrite <- Zle_Qle; lia).
  assert (LW : (1 * w <= inject_Z (Z.of_nat (len n)) * w)%Q) by (apply qmul_le; lra).
  assert (HWw : (inject_Z (Z.of_nat h) * w <= inject_Z (Z.of_nat (len n)) * w)%Q) by (apply qmul_le; lra).
  assert (HW64 : (inject_Z (Z.of_nat h) * w <= 64 * w)%Q) by (apply qmul_le; lra).
  rewrite (fvalue_digits b n c h) by lia. destruct c as [|c].
  - cbn [fcoord]. replace h with (S (h - 1)) in H3 by lia.
    destruct (rr_range f md Hf b (conj (proj1 Hb) HbP) (h - 1) n 0%Q ltac:(lia) ltac:(lra)) as [R0 R1]. split; [exact R0|]. split; [intros _; exact R1|].
    destruct (rr_err f md Hf b (conj (proj1 Hb) HbP) ltac:(fold w; lra) (h - 1) n 0%Q 0%Q ltac:(lia) ltac:(lra) ltac:(fold w; lra) ltac:(fold w; lra)) as [E1 E2].
    fold w in E1, E2. replace (S (h - 1)) with h in E1, E2 by lia.
    assert (EQ : (qsum h (fun i => inject_Z (digit b n i) / inject_Z (b ^ Z.of_nat (S i))) == qsum h (fun i => inject_Z (fdigit b n 0 i) / inject_Z (b ^ Z.of_nat (S i))))%Q).
    { assert (K : forall k, (k <= h)%nat -> (qsum k (fun i => inject_Z (digit b n i) / inject_Z (b ^ Z.of_nat (S i))) == qsum k (fun i => inject_Z (fdigit b n 0 i) / inject_Z (b ^ Z.of_nat (S i))))%Q).
      { induction k as [|k IH]; intros Hk; [reflexivity|]. cbn [qsum]. rewrite IH by lia. rewrite (fdigit_TD b n 0 k h) by (try split; try lia; replace h with (S (h - 1)) by lia; exact H3).
        change (Z.of_nat 0) with 0. rewrite TD_0 by lia. rewrite (Z.mod_small (digit b n k)) by (apply digit_range; lia). reflexivity. }
      apply K. lia. }
    assert (Z0 : (0 / inject_Z (b ^ Z.of_nat h) == 0)%Q) by (unfold Qdiv; apply Qmult_0_l). rewrite Z0, EQ in E1, E2.
    apply Qabs_Qle_condition. split; lra.
  - cbn [fcoord]. assert (HG : forall i, 0 <= fdigit b n (S c) i < b) by (intros; apply fdigit_range; lia).
    split; [|split; [discriminate|]].
    + apply (sv_nonneg f md Hf); [lia| |lra|lra]. apply Forall_map, Forall_forall. intros i _. apply HG.
    + destruct (sv_err f md Hf b (fdigit b n (S c)) h ltac:(lia) HG (fun k => qsum_le1 b n (S c) k ltac:(lia)) ltac:(fold w; lra) h 0 1%Q 0%Q) as [E1 E2]; fold w;
        try (change (inject_Z (Z.of_nat 0)) with 0%Q; change (inject_Z (b ^ Z.of_nat 0)) with 1%Q; cbn [qsum]; lra); [lia|].
      fold w in E1, E2. apply Qabs_Qle_condition. split; lra.
Qed.
End Real.
