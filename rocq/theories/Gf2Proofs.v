(* Division, greatest common divisors and irreducible polynomials over GF(2). *)
From Coq Require Import NArith Ring.
From Verif Require Import Base PolySpec PolyProofs NetSpec.
Open Scope nat_scope.
Open Scope gf_scope.
Ltac Zify.zify_post_hook ::= idtac.

Definition has_deg (p : N) (e : nat) : Prop := coef p e = true /\ deg_lt p (S e).
Definition gdvd (d a : N) : Prop := exists q, a = q (x) d.
Definition coprime (a b : N) : Prop := exists u v, (u (x) a) (+) (v (x) b) = 1%N.

Lemma has_deg_log : forall p, p <> 0%N -> has_deg p (N.to_nat (N.log2 p)).
Proof.
  intros p H. split.
  - unfold coef. rewrite N2Nat.id. apply N.bit_log2. exact H.
  - apply deg_iff. rewrite Nat2N.inj_succ, N2Nat.id. apply N.log2_spec. destruct p; [contradiction|reflexivity].
Qed.
Lemma has_deg_nz : forall p e, has_deg p e -> p <> 0%N.
Proof. intros p e [H _] ->. rewrite coef_0 in H. discriminate. Qed.
Lemma has_deg_lt : forall p e d, has_deg p e -> deg_lt p d -> e < d.
Proof. intros p e d [H _] L. destruct (le_lt_dec d e) as [C|C]; [|exact C]. rewrite L in H by exact C. discriminate. Qed.
Lemma has_deg_uniq : forall p e f, has_deg p e -> has_deg p f -> e = f.
Proof. intros p e f H K. pose proof (has_deg_lt p e (S f) H (proj2 K)). pose proof (has_deg_lt p f (S e) K (proj2 H)). lia. Qed.
Lemma has_deg_0 : forall p, has_deg p 0 -> p = 1%N.
Proof. intros p [H1 H2]. apply coef_ext. intros [|k]; [exact H1|]. rewrite H2 by lia. symmetry. apply coef_1. Qed.
Lemma xsum_single : forall n f i, i < n -> (forall k, k < n -> k <> i -> f k = false) -> xsum n f = f i.
Proof.
  induction n as [|n IH]; intros f i Hi H; [lia|]. cbn [xsum]. destruct (Nat.eq_dec i n) as [->|N].
  - rewrite xsum_false by (intros k Hk; apply H; lia). apply xorb_false_l.
  - rewrite (IH f i) by (try lia; intros k Hk Hn; apply H; lia). rewrite (H n) by lia. apply xorb_false_r.
Qed.
Lemma has_deg_gm : forall a b d e, has_deg a d -> has_deg b e -> has_deg (a (x) b) (d + e).
Proof.
  intros a b d e [A1 A2] [B1 B2]. split.
  - rewrite (gm_product a b (d + e)), (xsum_single _ _ d).
    + rewrite A1. replace (d + e - d) with e by lia. rewrite B1. reflexivity.
    + lia.
    + intros k Hk Hn. destruct (lt_dec k d).
      * rewrite (B2 (d + e - k)) by lia. apply andb_false_r.
      * rewrite (A2 k) by lia. reflexivity.
  - replace (S (d + e)) with (d + S e) by lia. apply deg_gm; assumption.
Qed.
Lemma gm_zero : forall a b, a (x) b = 0%N -> a = 0%N \/ b = 0%N.
Proof.
  intros a b H. destruct (N.eq_dec a 0) as [E|Na]; [left; exact E|]. destruct (N.eq_dec b 0) as [E|Nb]; [right; exact E|]. exfalso.
  exact (has_deg_nz _ _ (has_deg_gm _ _ _ _ (has_deg_log a Na) (has_deg_log b Nb)) H).
Qed.

(* ---- remainder ---- *)
Definition red1 (p : N) (e : N) (r : N) : N := if N.testbit r e then r (+) p else r.
Fixpoint pgmod (p e : N) (a : positive) : N :=
  match a with
  | xH => red1 p e 1
  | xO q => red1 p e (N.double (pgmod p e q))
  | xI q => red1 p e (N.succ_double (pgmod p e q))
  end.
Definition gmod (p a : N) : N := match a with N0 => 0%N | Npos q => pgmod p (N.log2 p) q end.

Lemma red1_ok : forall p e r, has_deg p e -> deg_lt r (S e) -> deg_lt (red1 p (N.of_nat e) r) e /\ exists c, r = (c (x) p) (+) red1 p (N.of_nat e) r.
Proof.
  intros p e r [P1 P2] H. unfold red1. fold (coef r e). destruct (coef r e) eqn:E.
  - split; [|exists 1%N; ring]. intros k Hk. rewrite coef_xor. destruct (Nat.eq_dec k e) as [->|N]; [rewrite E, P1; reflexivity|]. rewrite H, P2 by lia. reflexivity.
  - split; [|exists 0%N; ring]. intros k Hk. destruct (Nat.eq_dec k e) as [->|N]; [exact E|apply H; lia].
Qed.
Lemma deg_double : forall r e, deg_lt r e -> deg_lt (N.double r) (S e).
Proof. intros r e H [|k] Hk; [lia|]. rewrite coef_double. apply H. lia. Qed.
Lemma deg_sd : forall r e, deg_lt r e -> deg_lt (N.succ_double r) (S e).
Proof. intros r e H [|k] Hk; [lia|]. rewrite sd_xor, coef_xor, coef_1, coef_double. rewrite H by lia. reflexivity. Qed.
Lemma double_gm : forall r, N.double r = 2%N (x) r.
Proof. intros. reflexivity. Qed.
Lemma pgmod_ok : forall p e a, has_deg p e -> 1 <= e -> deg_lt (pgmod p (N.of_nat e) a) e /\ exists c, Npos a = (c (x) p) (+) pgmod p (N.of_nat e) a.
Proof.
  intros p e a HP He. induction a as [a [I1 (c & I2)]|a [I1 (c & I2)]|]; cbn [pgmod].
  - destruct (red1_ok p e _ HP (deg_sd _ _ I1)) as [D (k & E)]. split; [exact D|]. exists ((2%N (x) c) (+) k).
    change (N.pos a~1) with (N.succ_double (N.pos a)). rewrite sd_xor, I2 at 1. rewrite double_xor, (double_gm (c (x) p)). rewrite sd_xor in E at 1.
    transitivity ((2%N (x) c) (x) p (+) (1%N (+) N.double (pgmod p (N.of_nat e) a))); [ring|]. rewrite E. ring.
  - destruct (red1_ok p e _ HP (deg_double _ _ I1)) as [D (k & E)]. split; [exact D|]. exists ((2%N (x) c) (+) k).
    change (N.pos a~0) with (N.double (N.pos a)). rewrite I2 at 1. rewrite double_xor, (double_gm (c (x) p)).
    transitivity ((2%N (x) c) (x) p (+) N.double (pgmod p (N.of_nat e) a)); [ring|]. rewrite E at 1. ring.
  - destruct (red1_ok p e 1 HP) as [D (k & E)]; [apply (deg_X 0); lia|]. split; [exact D|]. exists k. exact E.
Qed.
Lemma gmod_ok : forall p a, (1 < p)%N -> deg_lt (gmod p a) (N.to_nat (N.log2 p)) /\ exists c, a = (c (x) p) (+) gmod p a.
Proof.
  intros p a Hp. pose proof (has_deg_log p ltac:(lia)) as HD. assert (1 <= N.to_nat (N.log2 p)).
  { assert (0 < N.log2 p)%N by (apply N.log2_pos; exact Hp). lia. }
  destruct a as [|a]; cbn [gmod]; [split; [apply deg_0|exists 0%N; ring]|].
  pose proof (pgmod_ok p (N.to_nat (N.log2 p)) a HD H) as K. rewrite N2Nat.id in K. exact K.
Qed.
Lemma division : forall a p e, has_deg p e -> exists q r, a = (q (x) p) (+) r /\ deg_lt r e.
Proof.
  intros a p e H. destruct e as [|e].
  - exists a, 0%N. rewrite (has_deg_0 p H). split; [ring|apply deg_0].
  - assert (P : (1 < p)%N). { destruct (N.lt_ge_cases 1 p) as [L|L]; [exact L|exfalso]. assert (D : deg_lt p 1) by (apply deg_iff; change (2 ^ N.of_nat 1)%N with 2%N; lia). pose proof (has_deg_lt _ _ _ H D). lia. }
    destruct (gmod_ok p a P) as [D (c & E)]. exists c, (gmod p a). split; [exact E|]. rewrite (has_deg_uniq p (S e) _ H (has_deg_log p ltac:(lia))). exact D.
Qed.
Lemma gdvd_gmod : forall p a, (1 < p)%N -> gdvd p a -> gmod p a = 0%N.
Proof.
  intros p a Hp (q & E). destruct (gmod_ok p a Hp) as [D (c & E2)]. set (r := gmod p a) in *. clearbody r.
  assert (R : r = (q (+) c) (x) p). { transitivity (a (+) (c (x) p)); [rewrite E2; ring|rewrite E; ring]. }
  destruct (N.eq_dec (q (+) c) 0) as [Z|Z]; [rewrite R, Z; reflexivity|]. exfalso.
  pose proof (has_deg_gm _ _ _ _ (has_deg_log _ Z) (has_deg_log p ltac:(lia))) as HD. rewrite <- R in HD. pose proof (has_deg_lt _ _ _ HD D). lia.
Qed.
Lemma gmod_gdvd : forall p a, (1 < p)%N -> gmod p a = 0%N -> gdvd p a.
Proof. intros p a Hp E. destruct (gmod_ok p a Hp) as [_ (c & E2)]. rewrite E in E2. exists c. rewrite E2. ring. Qed.
Lemma gdvd_trans : forall a b c, gdvd a b -> gdvd b c -> gdvd a c.
Proof. intros a b c (q & E) (r & F). exists (r (x) q). rewrite F, E. ring. Qed.

(* ---- greatest common divisor ---- *)
Lemma euclid : forall n a b, deg_lt b n -> exists g u v, g = (u (x) a) (+) (v (x) b) /\ gdvd g a /\ gdvd g b.
Proof.
  induction n as [|n IH]; intros a b H.
  - exists a, 1%N, 0%N. rewrite (deg_zero b H). split; [ring|]. split; [exists 1%N|exists 0%N]; ring.
  - destruct (N.eq_dec b 0) as [->|Nb].
    + exists a, 1%N, 0%N. split; [ring|]. split; [exists 1%N|exists 0%N]; ring.
    + pose proof (has_deg_log b Nb) as HD. pose proof (has_deg_lt _ _ _ HD H). destruct (division a b _ HD) as (q & r & E & D).
      assert (DR : deg_lt r n) by (apply (deg_mono _ _ _ D); lia).
      destruct (IH b r DR) as (g & u & v & G & (c1 & D1) & (c2 & D2)). exists g, v, (u (+) (v (x) q)).
      split; [rewrite G, E; ring|]. split; [|exists c1; exact D1]. exists ((q (x) c1) (+) c2). rewrite E.
      transitivity ((q (x) (c1 (x) g)) (+) (c2 (x) g)); [congruence|ring].
Qed.
Lemma irr_coprime : forall p a, irreducible p -> ~ gdvd p a -> coprime a p.
Proof.
  intros p a [H1 H2] N. destruct (euclid _ a p (proj2 (has_deg_log p ltac:(lia)))) as (g & u & v & G & A & (q & P)).
  assert (IP : is_product q g p) by (apply product_gm; exact P). destruct (H2 q g IP) as [E|E].
  - exfalso. apply N. subst q. rewrite gm_1_l in P. rewrite P. exact A.
  - exists u, v. rewrite <- G. exact E.
Qed.
Lemma irr_distinct : forall p q, irreducible p -> irreducible q -> p <> q -> coprime p q.
Proof.
  intros p q HP [Q1 Q2] N. apply irr_coprime; [split; assumption|]. intros (k & E). destruct HP as [P1 P2].
  destruct (P2 k q) as [C|C]; [apply product_gm; exact E| |lia]. subst k. rewrite gm_1_l in E. contradiction.
Qed.
Lemma coprime_sym : forall a b, coprime a b -> coprime b a.
Proof. intros a b (u & v & E). exists v, u. rewrite <- E. ring. Qed.
Lemma coprime_1 : forall a, coprime 1%N a.
Proof. intros. exists 1%N, 0%N. ring. Qed.
Lemma coprime_mul : forall a b c, coprime a c -> coprime b c -> coprime (a (x) b) c.
Proof.
  intros a b c (u & v & E) (u' & v' & E'). exists (u (x) u'), ((u (x) a (x) v') (+) (v (x) u' (x) b) (+) (v (x) c (x) v')).
  transitivity (((u (x) a) (+) (v (x) c)) (x) ((u' (x) b) (+) (v' (x) c))); [ring|]. rewrite E, E'. reflexivity.
Qed.
Fixpoint gpow (p : N) (n : nat) : N := match n with O => 1%N | S k => p (x) gpow p k end.
Lemma gpow_add : forall p a b, gpow p (a + b) = gpow p a (x) gpow p b.
Proof. induction a as [|a IH]; intro b; cbn [plus gpow]; [symmetry; apply gm_1_l|]. rewrite IH. ring. Qed.
Lemma coprime_pow : forall n a c, coprime a c -> coprime (gpow a n) c.
Proof. induction n as [|n IH]; intros a c H; cbn [gpow]; [apply coprime_1|]. apply coprime_mul; [exact H|apply IH; exact H]. Qed.
Lemma gpow_deg : forall p e n, has_deg p e -> has_deg (gpow p n) (n * e).
Proof.
  intros p e n H. induction n as [|n IH]; cbn [gpow Nat.mul]; [split; [reflexivity|apply (deg_X 0); lia]|]. apply has_deg_gm; assumption.
Qed.
