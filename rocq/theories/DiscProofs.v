(* Proofs about the alias table. *)
From Coq Require Import Permutation.
From Verif Require Import Base ProgModel ProgSpec ProgProofs UIntModel UIntSpec UIntProofs DiscModel DiscSpec.

Ltac Zify.zify_post_hook ::= idtac.

(* ---- vectors ---- *)
Definition tabZ (l : list (Z * Z)) (j : Z) : Z * Z := nth (Z.to_nat j) l (0, 0).

Lemma put_ok : forall A (d : A) l k v, (k < length l)%nat ->
  exists l', put l k v = Some l' /\ length l' = length l /\
    forall j, nth j l' d = if Nat.eqb j k then v else nth j l d.
Proof.
  intros A d. induction l as [|x l IH]; intros k v Hk; [simpl in Hk; lia|]. destruct k as [|k].
  - exists (v :: l). split; [reflexivity|]. split; [reflexivity|]. intros [|j]; reflexivity.
  - simpl in Hk. destruct (IH k v ltac:(lia)) as (l' & E1 & E2 & E3). exists (x :: l').
    cbn [put]. rewrite E1. cbn [bind]. split; [reflexivity|]. split; [simpl; lia|].
    intros [|j]; [reflexivity|]. simpl. apply E3.
Qed.

Lemma put_ok_Z : forall A (d : A) l k v, 0 <= k < Z.of_nat (length l) ->
  exists l', put_ l k v = Some l' /\ length l' = length l /\
    forall j, 0 <= j -> nth (Z.to_nat j) l' d = if j =? k then v else nth (Z.to_nat j) l d.
Proof.
  intros A d l k v Hk. unfold put_. destruct (Z.ltb_spec k 0); [lia|].
  destruct (put_ok A d l (Z.to_nat k) v ltac:(lia)) as (l' & E1 & E2 & E3).
  exists l'. split; [exact E1|]. split; [exact E2|]. intros j Hj. rewrite E3.
  destruct (Nat.eqb_spec (Z.to_nat j) (Z.to_nat k)), (Z.eqb_spec j k); try reflexivity; lia.
Qed.

Lemma at_ok : forall A (d : A) l k, 0 <= k < Z.of_nat (length l) -> at_ l k = Some (nth (Z.to_nat k) l d).
Proof.
  intros A d l k Hk. unfold at_. destruct (Z.ltb_spec k 0); [lia|].
  apply nth_error_nth'. lia.
Qed.

Lemma imin_le : forall t, 2 <= bits t -> imin t <= 0 /\ 0 < imax t.
Proof.
  intros [b s] H. unfold imin, imax. cbn [bits sgn] in *. destruct s.
  - assert (2 ^ 1 <= 2 ^ (b - 1)) by (apply Z.pow_le_mono_r; lia). change (2 ^ 1) with 2 in *. lia.
  - assert (2 ^ 1 <= 2 ^ b) by (apply Z.pow_le_mono_r; lia). change (2 ^ 1) with 2 in *. lia.
Qed.

Lemma chk_ok : forall t z, 2 <= bits t -> 0 <= z <= imax t -> chk t z = Some z.
Proof.
  intros t z Ht Hz. pose proof (imin_le t Ht). unfold chk.
  destruct (Z.leb_spec (imin t) z), (Z.leb_spec z (imax t)); try lia. reflexivity.
Qed.

(* ---- list sums ---- *)
Fixpoint lsum {A} (f : A -> Z) (l : list A) : Z :=
  match l with [] => 0 | x :: r => f x + lsum f r end.

Lemma lsum_app : forall A (f : A -> Z) l m, lsum f (l ++ m) = lsum f l + lsum f m.
Proof. intros A f l m. induction l as [|x l IH]; simpl; lia. Qed.

Lemma lsum_ext : forall A (f g : A -> Z) l, (forall x, In x l -> f x = g x) -> lsum f l = lsum g l.
Proof.
  intros A f g l. induction l as [|x l IH]; simpl; intros H; [reflexivity|].
  rewrite (H x), IH; auto.
Qed.

Lemma lsum_perm : forall A (f : A -> Z) l m, Permutation l m -> lsum f l = lsum f m.
Proof. intros A f l m H. induction H; simpl; lia. Qed.

Lemma lsum_map : forall A B (f : B -> Z) (g : A -> B) l, lsum f (map g l) = lsum (fun x => f (g x)) l.
Proof. intros A B f g l. induction l as [|x l IH]; simpl; lia. Qed.

Lemma lsum_le : forall A (f g : A -> Z) l, (forall x, In x l -> f x <= g x) -> lsum f l <= lsum g l.
Proof.
  intros A f g l. induction l as [|x l IH]; simpl; intros H; [lia|].
  pose proof (H x (or_introl eq_refl)). specialize (IH (fun y Hy => H y (or_intror Hy))). lia.
Qed.

Lemma lsum_le_eq : forall A (f g : A -> Z) l, (forall x, In x l -> f x <= g x) ->
  lsum f l = lsum g l -> forall x, In x l -> f x = g x.
Proof.
  intros A f g l. induction l as [|y l IH]; simpl; intros H HS x Hx; [contradiction|].
  pose proof (H y (or_introl eq_refl)) as H1.
  pose proof (lsum_le A f g l (fun z Hz => H z (or_intror Hz))) as H2.
  destruct Hx as [<-|Hx]; [lia|]. apply IH; auto. lia.
Qed.

Lemma lsum_seq : forall n (f : Z -> Z), lsum f (map Z.of_nat (seq 0 n)) = ssum n f.
Proof.
  induction n as [|n IH]; intros f; [reflexivity|].
  rewrite seq_S, map_app, lsum_app, IH. cbn [map lsum ssum Nat.add]. lia.
Qed.

(* ---- the average ---- *)
Section Avg.
Variables (tw t : ity).
Hypothesis Htw : 2 <= bits tw.
Hypothesis Ht : 2 <= bits t.
Local Notation M := (imax tw).

Lemma div_range : forall d n, 0 <= d -> 0 < n -> 0 <= d / n <= d /\ 0 <= d mod n < n /\ d = n * (d / n) + d mod n.
Proof.
  intros d n Hd Hn. pose proof (Z.div_mod d n ltac:(lia)). pose proof (Z.mod_pos_bound d n Hn).
  pose proof (Z.div_pos d n Hd Hn). split; [|split; [assumption|assumption]]. split; [assumption|].
  apply Z.div_le_upper_bound; [lia|]. nia.
Qed.

Definition ia_inv (st : Z * Z * Z) (p : Z) : Prop :=
  let '(avg, exc, n) := st in
  0 <= n /\ 0 <= p <= n * M /\ 0 <= avg <= M /\ avg * n + exc = p /\ 0 <= exc /\ (exc < n \/ n = 0 /\ avg = 0 /\ exc = 0).

Lemma avg_bounds : forall a e n p, 0 < n -> a * n + e = p -> 0 <= e < n -> 0 <= p <= n * M -> 0 <= a <= M.
Proof. intros. nia. Qed.

Lemma ia_step_ok : forall avg exc n p x, ia_inv (avg, exc, n) p -> 0 <= x <= M -> n < imax t ->
  exists avg' exc', ia_step tw t (avg, exc, n) x = Some (avg', exc', n + 1) /\ ia_inv (avg', exc', n + 1) (p + x).
Proof.
  intros avg exc n p x (Hn & Hp & Ha & HS & He & Hc) Hx Hnt. unfold ia_step.
  rewrite (chk_ok t (n + 1)) by lia. cbn [bind].
  assert (HE: exc < n + 1) by lia.
  assert (HP: 0 <= p + x <= (n + 1) * M) by lia.
  assert (HT: avg * (n + 1) + exc + (x - avg) = p + x) by lia.
  destruct (Z.ltb_spec x avg) as [L|L].
  - rewrite (chk_ok tw (avg - x)) by lia. cbn [bind].
    destruct (div_range (avg - x) (n + 1) ltac:(lia) ltac:(lia)) as (Q1 & Q2 & Q3).
    set (q := (avg - x) / (n + 1)) in *. set (r := (avg - x) mod (n + 1)) in *.
    rewrite (chk_ok tw (avg - q)) by lia. cbn [bind].
    destruct (Z.ltb_spec exc r) as [L2|L2].
    + assert (HB: 0 <= avg - q - 1 <= M).
      { apply avg_bounds with (e := exc + (n + 1 - r)) (n := n + 1) (p := p + x); lia. }
      rewrite (chk_ok tw (avg - q - 1)) by lia. cbn [bind].
      rewrite (chk_ok t (exc + (n + 1 - r))) by lia. cbn [bind].
      eexists _, _. split; [reflexivity|]. unfold ia_inv. repeat split; lia.
    + rewrite (chk_ok t (exc - r)) by lia. cbn [bind].
      eexists _, _. split; [reflexivity|]. unfold ia_inv. repeat split; lia.
  - rewrite (chk_ok tw (x - avg)) by lia. cbn [bind].
    destruct (div_range (x - avg) (n + 1) ltac:(lia) ltac:(lia)) as (Q1 & Q2 & Q3).
    set (q := (x - avg) / (n + 1)) in *. set (r := (x - avg) mod (n + 1)) in *.
    rewrite (chk_ok tw (avg + q)) by lia. cbn [bind].
    destruct (Z.ltb_spec r (n + 1 - exc)) as [L2|L2].
    + rewrite (chk_ok t (exc + r)) by lia. cbn [bind].
      eexists _, _. split; [reflexivity|]. unfold ia_inv. repeat split; lia.
    + assert (HB: 0 <= avg + q + 1 <= M).
      { apply avg_bounds with (e := exc - (n + 1 - r)) (n := n + 1) (p := p + x); lia. }
      rewrite (chk_ok tw (avg + q + 1)) by lia. cbn [bind].
      rewrite (chk_ok t (exc - (n + 1 - r))) by lia. cbn [bind].
      eexists _, _. split; [reflexivity|]. unfold ia_inv. repeat split; lia.
Qed.

Lemma ia_loop_ok : forall ws avg exc n p, ia_inv (avg, exc, n) p ->
  Forall (fun x => 0 <= x <= M) ws -> n + Z.of_nat (length ws) <= imax t ->
  exists avg' exc', ia_loop tw t (avg, exc, n) ws = Some (avg', exc', n + Z.of_nat (length ws)) /\
    ia_inv (avg', exc', n + Z.of_nat (length ws)) (p + zsum ws).
Proof.
  induction ws as [|x ws IH]; intros avg exc n p HI HF HL.
  - exists avg, exc. cbn [ia_loop length zsum fold_right]. rewrite !Z.add_0_r. split; [reflexivity|exact HI].
  - cbn [length] in *. pose proof (Forall_inv HF) as Hx. pose proof (Forall_inv_tail HF) as HF'.
    destruct (ia_step_ok avg exc n p x HI Hx ltac:(lia)) as (a1 & e1 & E1 & I1).
    cbn [ia_loop]. rewrite E1. cbn [bind].
    destruct (IH a1 e1 (n + 1) (p + x) I1 HF' ltac:(lia)) as (a2 & e2 & E2 & I2).
    exists a2, e2. replace (n + Z.of_nat (S (length ws))) with (n + 1 + Z.of_nat (length ws)) by lia.
    cbn [zsum fold_right]. rewrite Z.add_assoc. split; assumption.
Qed.

(* the average of a non-empty vector *)
Definition avg_ok (ws : list Z) (avg exc : Z) : Prop :=
  avg * Z.of_nat (length ws) + exc = zsum ws /\ 0 <= exc < Z.of_nat (length ws) /\ 0 <= avg /\
  (if 0 <? exc then avg + 1 <= M else avg <= M).

Lemma ia_ok : forall ws, weights_ok tw t ws ->
  exists avg exc, ia_loop tw t (0, 0, 0) ws = Some (avg, exc, Z.of_nat (length ws)) /\ avg_ok ws avg exc.
Proof.
  intros ws (_ & _ & Hne & HL & HF).
  destruct (ia_loop_ok ws 0 0 0 0) as (a & e & E1 & I1); try assumption.
  - unfold ia_inv. pose proof (imin_le tw Htw). repeat split; lia.
  - exists a, e. split; [exact E1|]. destruct I1 as (J1 & J2 & J3 & J4 & J5 & J6).
    assert (0 < Z.of_nat (length ws)) by (destruct ws; [congruence|cbn [length]; lia]).
    unfold avg_ok. rewrite Z.add_0_l in *. repeat split; try lia.
    destruct (Z.ltb_spec 0 e); [|lia]. nia.
Qed.
End Avg.

(* ---- the work lists ---- *)
Definition indexed (i : Z) (ws : list Z) : list (Z * Z) :=
  combine ws (map (fun k => i + Z.of_nat k) (seq 0 (length ws))).

Lemma indexed_cons : forall i x ws, indexed i (x :: ws) = (x, i) :: indexed (i + 1) ws.
Proof.
  intros i x ws. unfold indexed. cbn [length seq map combine]. rewrite Z.add_0_r. f_equal.
  rewrite <- seq_shift, map_map. f_equal. apply map_ext. intro k. lia.
Qed.

Lemma split_perm : forall na ws i b a, split_ws na i ws = (b, a) ->
  Permutation (b ++ a) (indexed i ws) /\ Forall (fun e => fst e < na) b /\ Forall (fun e => na <= fst e) a.
Proof.
  induction ws as [|x ws IH]; intros i b a H.
  - simpl in H. inversion H. split; [constructor|]. split; constructor.
  - cbn [split_ws] in H. destruct (split_ws na (i + 1) ws) as [b' a'] eqn:E.
    destruct (IH (i + 1) b' a' E) as (P1 & P2 & P3). rewrite indexed_cons.
    destruct (Z.ltb_spec x na); inversion H; subst; clear H.
    + split; [|split]; [simpl; constructor; exact P1 | constructor; [simpl; lia|exact P2] | exact P3].
    + split; [|split]; [|exact P2|constructor; [simpl; lia|exact P3]].
      apply Permutation_trans with ((x, i) :: b ++ a').
      * apply Permutation_sym, Permutation_middle.
      * constructor. exact P1.
Qed.

Lemma indexed_snd : forall ws i, map snd (indexed i ws) = map (fun k => i + Z.of_nat k) (seq 0 (length ws)).
Proof.
  induction ws as [|x ws IH]; intros i; [reflexivity|]. rewrite indexed_cons. cbn [map snd length seq].
  rewrite IH, Z.add_0_r. f_equal. rewrite <- seq_shift, map_map. apply map_ext. intro k. lia.
Qed.

Lemma indexed_fst : forall ws i, map fst (indexed i ws) = ws.
Proof. induction ws as [|x ws IH]; intros i; [reflexivity|]. rewrite indexed_cons. cbn [map fst]. rewrite IH. reflexivity. Qed.

Lemma indexed_weight : forall ws i k, 0 <= k -> 
  lsum (fun e => if snd e =? i + k then fst e else 0) (indexed i ws) = weight ws k.
Proof.
  unfold weight. induction ws as [|x ws IH]; intros i k Hk.
  - simpl. destruct (Z.to_nat k); reflexivity.
  - rewrite indexed_cons. cbn [lsum fst snd]. destruct (Z.eqb_spec i (i + k)) as [E|E].
    + replace k with 0 by lia. simpl nth.
      rewrite (lsum_ext _ _ (fun _ => 0)).
      * assert (Z0: forall l : list (Z * Z), lsum (fun _ => 0) l = 0) by (induction l; simpl; lia). rewrite Z0. lia.
      * intros e He. destruct (Z.eqb_spec (snd e) (i + 0)) as [E'|E']; [|reflexivity].
        assert (In (snd e) (map snd (indexed (i + 1) ws))) as Hi by (apply in_map; exact He).
        rewrite indexed_snd in Hi. apply in_map_iff in Hi. destruct Hi as (q & Hq & _). lia.
    + replace (Z.to_nat k) with (S (Z.to_nat (k - 1))) by lia. cbn [nth].
      rewrite <- (IH (i + 1) (k - 1)) by lia. replace (i + 1 + (k - 1)) with (i + k) by lia. lia.
Qed.
