(* Reasoning about programs that draw from an engine. *)
From Verif Require Import Base ProgModel ProgSpec.

(* ---- all runs with at most n draws: no UB, no fuel problem, Q on return ---- *)
Fixpoint wp {A} (bmin bmax : Z) (p : prog A) (n : nat) (Q : A -> nat -> Prop) : Prop :=
  match p with
  | PRet a => Q a n
  | PDraw k => match n with
               | O => True
               | S m => forall v, bmin <= v <= bmax -> wp bmin bmax (k v) m Q
               end
  | PUB | PFuel => False
  end.

Lemma wp_mono : forall A bmin bmax (p : prog A) n (Q R : A -> nat -> Prop),
  (forall a m, (m <= n)%nat -> Q a m -> R a m) -> wp bmin bmax p n Q -> wp bmin bmax p n R.
Proof.
  induction p as [a|k IH| |]; simpl; intros n Q R HQR H; auto.
  destruct n as [|m]; [exact I|]. intros v Hv. apply IH with (Q := Q); [|auto].
  intros a m' Hm. apply HQR. lia.
Qed.

Lemma wp_bind : forall A B bmin bmax (p : prog A) (f : A -> prog B) n Q,
  wp bmin bmax p n (fun a m => wp bmin bmax (f a) m Q) -> wp bmin bmax (pbind p f) n Q.
Proof.
  induction p as [a|k IH| |]; simpl; intros f n Q H; auto.
  destruct n as [|m]; auto.
Qed.

Lemma wp_exec : forall A bmin bmax (p : prog A) ds Q,
  wp bmin bmax p (length ds) Q -> valid_draws bmin bmax ds ->
  exec p ds = OMore \/ exists a rest, exec p ds = ORet a rest /\ Q a (length rest) /\
     exists used, ds = used ++ rest.
Proof.
  induction p as [a|k IH| |]; simpl; intros ds Q H Hd; try contradiction.
  - right. exists a, ds. split; [reflexivity|]. split; [exact H|]. exists []. reflexivity.
  - destruct ds as [|v r]; [left; reflexivity|]. simpl in H. inversion Hd; subst.
    destruct (IH v r Q (H v H2) H3) as [E | (a & rest & E & HQ & used & Hu)]; [left; exact E|].
    right. exists a, rest. split; [exact E|]. split; [exact HQ|]. exists (v :: used).
    simpl. rewrite Hu. reflexivity.
Qed.

Lemma wp_retry : forall A bmin bmax (att : prog (option A)) (Q : A -> nat -> Prop),
  (forall n, wp bmin bmax att n (fun r m => (m < n)%nat /\ forall a, r = Some a -> Q a m)) ->
  forall F n, (n < F)%nat -> wp bmin bmax (retry F att) n Q.
Proof.
  intros A bmin bmax att Q H. induction F as [|f IH]; intros n Hn; [lia|].
  simpl. apply wp_bind. eapply wp_mono; [|apply H].
  intros r m Hm [Hlt Hr]. destruct r as [v|]; simpl.
  - apply Hr. reflexivity.
  - apply IH. lia.
Qed.

(* ---- exec ---- *)
Lemma exec_bind_ret : forall A B (p : prog A) (f : A -> prog B) ds a rest,
  exec p ds = ORet a rest -> exec (pbind p f) ds = exec (f a) rest.
Proof.
  induction p as [a0|k IH| |]; simpl; intros f ds a rest H; try discriminate.
  - injection H as -> ->. reflexivity.
  - destruct ds as [|v r]; [discriminate|]. auto.
Qed.

Lemma exec_bind_more : forall A B (p : prog A) (f : A -> prog B) ds,
  exec p ds = OMore -> exec (pbind p f) ds = OMore.
Proof.
  induction p as [a0|k IH| |]; simpl; intros f ds H; try discriminate.
  destruct ds as [|v r]; auto.
Qed.

Lemma exec_bind_more_inv : forall A B (p : prog A) (f : A -> prog B) ds,
  exec (pbind p f) ds = OMore ->
  exec p ds = OMore \/ exists a rest, exec p ds = ORet a rest /\ exec (f a) rest = OMore.
Proof.
  induction p as [a0|k IH| |]; simpl; intros f ds H; try discriminate.
  - right. exists a0, ds. auto.
  - destruct ds as [|v r]; auto.
Qed.

Lemma exec_app : forall A (p : prog A) ds ds' a rest,
  exec p ds = ORet a rest -> exec p (ds ++ ds') = ORet a (rest ++ ds').
Proof.
  induction p as [a0|k IH| |]; simpl; intros ds ds' a rest H; try discriminate.
  - injection H as -> ->. reflexivity.
  - destruct ds as [|v r]; [discriminate|]. simpl. auto.
Qed.

Lemma exec_rest : forall A (p : prog A) ds a rest,
  exec p ds = ORet a rest -> exists used, ds = used ++ rest /\
    forall ds', exec p (used ++ ds') = ORet a ds'.
Proof.
  induction p as [a0|k IH| |]; simpl; intros ds a rest H; try discriminate.
  - injection H as -> ->. exists []. split; reflexivity.
  - destruct ds as [|v r]; [discriminate|]. destruct (IH v r a rest H) as (u & Hu & Hx).
    exists (v :: u). split; [simpl; rewrite Hu; reflexivity|]. intro ds'. simpl. apply Hx.
Qed.

Lemma retry_more_inv : forall A (att : prog (option A)) F ds, exec (retry F att) ds = OMore ->
  exists F' ds', (F' <= F)%nat /\ exec att ds' = OMore /\ (exists u, ds = u ++ ds') /\
    forall d, exec (retry F att) (ds ++ d) = exec (retry (S F') att) (ds' ++ d).
Proof.
  intros A att. induction F as [|F IH]; intros ds H; [discriminate|].
  cbn [retry] in H. apply exec_bind_more_inv in H. destruct H as [H | (a & rest & H1 & H2)].
  - exists F, ds. split; [lia|]. split; [exact H|]. split; [exists []; reflexivity|]. reflexivity.
  - destruct a as [a|]; [discriminate|].
    destruct (IH _ H2) as (F' & ds' & K1 & K2 & (u' & K3) & K4). exists F', ds'.
    split; [lia|]. split; [exact K2|].
    destruct (exec_rest _ _ _ _ _ H1) as (u & Hu & Hx). split.
    { exists (u ++ u'). rewrite Hu, K3, app_assoc. reflexivity. }
    intro d. rewrite <- K4. cbn [retry]. rewrite (exec_bind_ret _ _ att _ (ds ++ d) None (rest ++ d)).
    + reflexivity.
    + rewrite Hu, <- app_assoc. apply Hx.
Qed.

(* ---- sums ---- *)
Fixpoint ssum (k : nat) (g : Z -> Z) : Z :=
  match k with O => 0 | S j => ssum j g + g (Z.of_nat j) end.

Lemma ssum_ext : forall k g h, (forall i, 0 <= i < Z.of_nat k -> g i = h i) -> ssum k g = ssum k h.
Proof.
  induction k as [|k IH]; simpl; intros g h H; [reflexivity|].
  rewrite (IH g h), (H (Z.of_nat k)); [reflexivity| lia |].
  intros i Hi. apply H. lia.
Qed.

Lemma ssum_add : forall k g h, ssum k (fun i => g i + h i) = ssum k g + ssum k h.
Proof. induction k as [|k IH]; simpl; intros; [reflexivity|]. rewrite IH. lia. Qed.

Lemma ssum_const : forall k c, ssum k (fun _ => c) = Z.of_nat k * c.
Proof. induction k as [|k IH]; intros; [simpl; lia|]. cbn [ssum]. rewrite IH. lia. Qed.

Lemma ssum_zero : forall k, ssum k (fun _ => 0) = 0.
Proof. intro k. rewrite ssum_const. lia. Qed.

Lemma ssum_app : forall a b g, ssum (a + b) g = ssum a g + ssum b (fun i => g (Z.of_nat a + i)).
Proof.
  intros a b g. induction b as [|b IH].
  - rewrite Nat.add_0_r. simpl. lia.
  - rewrite Nat.add_succ_r. simpl. rewrite IH. rewrite Nat2Z.inj_add. lia.
Qed.

Lemma ssum_swap : forall a b (g : Z -> Z -> Z),
  ssum a (fun i => ssum b (fun j => g i j)) = ssum b (fun j => ssum a (fun i => g i j)).
Proof.
  induction a as [|a IH]; intros b g; simpl.
  - symmetry. apply ssum_zero.
  - rewrite IH. symmetry. rewrite <- ssum_add. reflexivity.
Qed.

(* mixed radix *)
Lemma ssum_radix : forall a b g,
  ssum (a * b) g = ssum b (fun j => ssum a (fun i => g (i + Z.of_nat a * j))).
Proof.
  intros a b g. induction b as [|b IH].
  - rewrite Nat.mul_0_r. reflexivity.
  - rewrite Nat.mul_succ_r, ssum_app, IH. cbn [ssum]. f_equal.
    apply ssum_ext. intros i Hi. f_equal. rewrite Nat2Z.inj_mul. lia.
Qed.

Lemma ssum_split : forall a n g, (a <= n)%nat ->
  ssum n g = ssum a g + ssum (n - a) (fun i => g (Z.of_nat a + i)).
Proof. intros a n g H. rewrite <- ssum_app. f_equal. lia. Qed.

Lemma ssum_delta : forall k v, 0 <= v < Z.of_nat k -> ssum k (fun i => if i =? v then 1 else 0) = 1.
Proof.
  induction k as [|k IH]; intros v H; [lia|]. cbn [ssum].
  destruct (Z.eqb_spec (Z.of_nat k) v) as [E|E].
  - rewrite (ssum_ext k _ (fun _ => 0)); [rewrite ssum_zero; lia|].
    intros i Hi. destruct (Z.eqb_spec i v); [lia|reflexivity].
  - rewrite IH; lia.
Qed.

(* ---- weighted number of runs of length <= n ---- *)
Fixpoint E {A} (bmin bmax : Z) (p : prog A) (n : nat) (f : A -> nat -> Z) : Z :=
  match p with
  | PRet a => f a n
  | PDraw k => match n with
               | O => 0
               | S m => ssum (Z.to_nat (bmax - bmin + 1)) (fun i => E bmin bmax (k (bmin + i)) m f)
               end
  | PUB | PFuel => 0
  end.

Lemma E_bind : forall A B bmin bmax (p : prog A) (k : A -> prog B) n f,
  E bmin bmax (pbind p k) n f = E bmin bmax p n (fun a m => E bmin bmax (k a) m f).
Proof.
  induction p as [a|g IH| |]; simpl; intros k n f; auto.
  destruct n as [|m]; [reflexivity|]. apply ssum_ext. intros i Hi. apply IH.
Qed.

Lemma E_ext : forall A bmin bmax (p : prog A) n (f g : A -> nat -> Z),
  (forall a m, f a m = g a m) -> E bmin bmax p n f = E bmin bmax p n g.
Proof.
  induction p as [a|k IH| |]; simpl; intros n f g H; auto.
  destruct n as [|m]; [reflexivity|]. apply ssum_ext. intros i Hi. apply IH. exact H.
Qed.

(* only values satisfying Q occur *)
Lemma E_ext_wp : forall A bmin bmax (p : prog A) n (Q : A -> nat -> Prop) (f g : A -> nat -> Z),
  wp bmin bmax p n Q -> (forall a m, Q a m -> f a m = g a m) ->
  E bmin bmax p n f = E bmin bmax p n g.
Proof.
  induction p as [a|k IH| |]; simpl; intros n Q f g HW H; auto.
  destruct n as [|m]; [reflexivity|]. apply ssum_ext. intros i Hi.
  apply IH with (Q := Q); [|exact H]. apply HW. lia.
Qed.

Lemma E_zero : forall A bmin bmax (p : prog A) n, E bmin bmax p n (fun _ _ => 0) = 0.
Proof.
  induction p as [a|k IH| |]; simpl; intros n; auto.
  destruct n as [|m]; [reflexivity|].
  rewrite (ssum_ext _ _ (fun _ => 0)); [apply ssum_zero|]. intros i Hi. apply IH.
Qed.

Lemma E_add : forall A bmin bmax (p : prog A) n f g,
  E bmin bmax p n (fun a m => f a m + g a m) = E bmin bmax p n f + E bmin bmax p n g.
Proof.
  induction p as [a|k IH| |]; simpl; intros n f g; auto.
  destruct n as [|m]; [reflexivity|]. rewrite <- ssum_add. apply ssum_ext. intros i Hi. apply IH.
Qed.

Lemma E_ssum : forall A bmin bmax (p : prog A) n k (f : Z -> A -> nat -> Z),
  E bmin bmax p n (fun a m => ssum k (fun i => f i a m)) =
  ssum k (fun i => E bmin bmax p n (f i)).
Proof.
  intros A bmin bmax p n k f. induction k as [|k IH]; cbn [ssum].
  - apply E_zero.
  - rewrite E_add, IH. reflexivity.
Qed.

(* p returns each of the len values lo, lo+1, ... equally often: the weighted
   count depends on the weights only through their sum over these values *)
Definition Uniform (bmin bmax : Z) (p : prog Z) (lo : Z) (len : nat) : Prop :=
  forall n f g,
    (forall m, ssum len (fun w => f (lo + w) m) = ssum len (fun w => g (lo + w) m)) ->
    E bmin bmax p n f = E bmin bmax p n g.

(* one attempt of a rejection loop *)
Definition UniformAtt (bmin bmax : Z) (p : prog (option Z)) (lo : Z) (len : nat) : Prop :=
  forall n f g,
    (forall m, ssum len (fun w => f (Some (lo + w)) m) = ssum len (fun w => g (Some (lo + w)) m)) ->
    (forall m, f None m = g None m) ->
    E bmin bmax p n f = E bmin bmax p n g.

Lemma Uniform_retry : forall bmin bmax att lo len F,
  UniformAtt bmin bmax att lo len -> Uniform bmin bmax (retry F att) lo len.
Proof.
  intros bmin bmax att lo len F HU. induction F as [|F IH]; intros n f g Hs; [reflexivity|].
  simpl. rewrite !E_bind. apply HU.
  - intro m. simpl. apply Hs.
  - intro m. simpl. apply IH. exact Hs.
Qed.

(* ---- the weighted count is the number of tuples ---- *)
Lemma filter_map_cons : forall (P : list Z -> bool) v l,
  length (filter P (map (cons v) l)) = length (filter (fun d => P (v :: d)) l).
Proof.
  intros P v l. induction l as [|d l IH]; simpl; [reflexivity|].
  destruct (P (v :: d)); simpl; rewrite IH; reflexivity.
Qed.

Lemma filter_flat_map : forall (P : list Z -> bool) (h : Z -> list (list Z)) m bmin,
  Z.of_nat (length (filter P (flat_map h (map (fun i => bmin + Z.of_nat i) (seq 0 m))))) =
  ssum m (fun i => Z.of_nat (length (filter P (h (bmin + i))))).
Proof.
  intros P h m bmin. induction m as [|m IH]; [reflexivity|].
  rewrite seq_S, map_app, flat_map_app, filter_app, app_length, Nat2Z.inj_add, IH.
  cbn [ssum map flat_map Nat.add]. rewrite app_nil_r. reflexivity.
Qed.

Lemma filter_ext_len : forall (P Q : list Z -> bool) l, (forall d, P d = Q d) ->
  length (filter P l) = length (filter Q l).
Proof. intros P Q l H. rewrite (filter_ext P Q H). reflexivity. Qed.

Lemma count_E : forall bmin bmax (p : prog Z) n v,
  Z.of_nat (count bmin bmax p n v) =
  E bmin bmax p n (fun a m => if Nat.eqb m 0 then (if a =? v then 1 else 0) else 0).
Proof.
  intros bmin bmax. unfold count.
  assert (G: forall n (p : prog Z) v,
    (forall ds, length ds = n -> returns p v ds = false) ->
    length (filter (returns p v) (tuples bmin bmax n)) = O).
  { intros n p v H.
    assert (L: forall d, In d (tuples bmin bmax n) -> length d = n).
    { clear. induction n as [|n IH]; simpl; intros d Hd.
      - destruct Hd as [<-|[]]. reflexivity.
      - apply in_flat_map in Hd. destruct Hd as (x & _ & Hd). apply in_map_iff in Hd.
        destruct Hd as (y & <- & Hy). simpl. rewrite IH; auto. }
    induction (tuples bmin bmax n) as [|d l IH]; simpl; [reflexivity|].
    rewrite H by (apply L; left; reflexivity). apply IH. intros d' Hd'. apply L. right. exact Hd'. }
  induction p as [a|k IH| |]; intros n v.
  - destruct n as [|n].
    + unfold returns. simpl. destruct (a =? v); reflexivity.
    + rewrite G; [reflexivity|]. intros ds Hds. destruct ds; [discriminate|]. reflexivity.
  - destruct n as [|n]; [reflexivity|].
    cbn [tuples E]. unfold zrange. rewrite filter_flat_map. apply ssum_ext. intros i Hi.
    rewrite filter_map_cons. rewrite <- IH. reflexivity.
  - rewrite G; [reflexivity|]. reflexivity.
  - rewrite G; [reflexivity|]. reflexivity.
Qed.

Lemma Uniform_count : forall bmin bmax p lo len,
  Uniform bmin bmax p lo len ->
  forall n v1 v2, lo <= v1 < lo + Z.of_nat len -> lo <= v2 < lo + Z.of_nat len ->
  count bmin bmax p n v1 = count bmin bmax p n v2.
Proof.
  intros bmin bmax p lo len HU n v1 v2 H1 H2. apply Nat2Z.inj. rewrite !count_E.
  apply HU. intro m. destruct (Nat.eqb m 0).
  - rewrite (ssum_ext len _ (fun i => if i =? v1 - lo then 1 else 0)).
    2:{ intros i Hi. destruct (Z.eqb_spec (lo + i) v1), (Z.eqb_spec i (v1 - lo)); lia. }
    rewrite (ssum_ext len (fun w => if lo + w =? v2 then 1 else 0) (fun i => if i =? v2 - lo then 1 else 0)).
    2:{ intros i Hi. destruct (Z.eqb_spec (lo + i) v2), (Z.eqb_spec i (v2 - lo)); lia. }
    rewrite !ssum_delta by lia. reflexivity.
  - rewrite !ssum_zero. reflexivity.
Qed.
