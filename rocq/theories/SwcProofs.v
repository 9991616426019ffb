(* Proofs about the subtract-with-carry engines. *)
From Verif Require Import Base StreamModel RingModel RingProofs SwcModel SwcSpec.

Lemma bind_some : forall {A B} (e : option A) (f : A -> option B) a, e = Some a -> bind e f = f a.
Proof. intros A B e f a ->. reflexivity. Qed.

Lemma get_nth : forall x i, (i < length x)%nat -> get x i = Some (nth i x 0).
Proof.
  intros x i H. unfold get. apply nth_error_nth'. exact H.
Qed.

(* what one do_update does *)
Definition up_ok (w : Z) (r : nat) (up : list Z -> nat -> nat -> Z -> option (list Z * Z)) : Prop :=
  forall x cur sh c, length x = r -> (forall v, In v x -> 0 <= v < 2 ^ w) -> (c = 0 \/ c = 1) ->
    (cur < r)%nat -> (sh < r)%nat ->
    let d := nth sh x 0 - nth cur x 0 - c in
    up x cur sh c = Some (firstn cur x ++ (d mod 2 ^ w) :: skipn (S cur) x, if d <? 0 then 1 else 0).

(* whatever it does, it keeps the size *)
Definition up_len (up : list Z -> nat -> nat -> Z -> option (list Z * Z)) : Prop :=
  forall x cur sh c q, up x cur sh c = Some q -> length (fst q) = length x /\ (cur < length x)%nat.

Lemma upd_inv : forall x i v y, upd x i v = Some y -> length y = length x /\ (i < length x)%nat.
Proof.
  intros x i v y H. split; [eapply upd_length; eauto|].
  unfold upd in H. destruct (Nat.ltb_spec i (length x)); [assumption|discriminate].
Qed.

Lemma swc_up_len : forall t w, up_len (swc_upd t w).
Proof.
  intros t w x cur sh c q H. unfold swc_upd in H.
  destruct (get x cur) as [xc|]; [|discriminate]; cbn [bind] in H.
  destruct (addT t xc c) as [temp|]; [|discriminate]; cbn [bind] in H.
  destruct (get x sh) as [xsh|]; [|discriminate]; cbn [bind] in H.
  destruct (temp <=? xsh).
  - destruct (subT t xsh temp) as [delta|]; [|discriminate]; cbn [bind] in H.
    destruct (upd x cur delta) as [x'|] eqn:E; [|discriminate]; cbn [bind] in H.
    apply upd_inv in E. apply Some_eq_inj in H. subst q. exact E.
  - destruct (subT t (2 ^ w) temp) as [d1|]; [|discriminate]; cbn [bind] in H.
    destruct (addT t d1 xsh) as [delta|]; [|discriminate]; cbn [bind] in H.
    destruct (upd x cur delta) as [x'|] eqn:E; [|discriminate]; cbn [bind] in H.
    apply upd_inv in E. apply Some_eq_inj in H. subst q. exact E.
Qed.

Lemma swc01_up_len : forall w, up_len (swc01_upd w).
Proof.
  intros w x cur sh c q H. unfold swc01_upd in H.
  destruct (get x sh) as [xsh|]; [|discriminate]; cbn [bind] in H.
  destruct (get x cur) as [xc|]; [|discriminate]; cbn [bind] in H.
  cbv zeta in H. destruct (xsh - xc - c <? 0).
  - destruct (upd x cur (xsh - xc - c + 2 ^ w)) as [x'|] eqn:E; [|discriminate]; cbn [bind] in H.
    apply upd_inv in E. apply Some_eq_inj in H. subst q. exact E.
  - destruct (upd x cur (xsh - xc - c)) as [x'|] eqn:E; [|discriminate]; cbn [bind] in H.
    apply upd_inv in E. apply Some_eq_inj in H. subst q. exact E.
Qed.

Lemma swc_up_ok : forall t w r, wf_ity t -> 0 <= w -> 2 ^ w <= imax t -> up_ok w r (swc_upd t w).
Proof.
  intros t w r Ht Hw Hm x cur sh c HL HV Hc Hcur Hsh d. subst d.
  assert (Hxc: 0 <= nth cur x 0 < 2 ^ w) by (apply HV, nth_In; lia).
  assert (Hxs: 0 <= nth sh x 0 < 2 ^ w) by (apply HV, nth_In; lia).
  assert (HmT: imin t <= 0) by (destruct Ht; unfold imin; destruct (sgn t); [|lia]; pose proof (Z.pow_nonneg 2 (bits t - 1)); lia).
  unfold swc_upd. rewrite (get_nth x cur) by lia. cbn [bind].
  set (a := nth cur x 0) in *. set (b := nth sh x 0) in *.
  assert (EA: addT t a c = Some (a + c)) by (apply addT_in; unfold inT; lia).
  rewrite EA. cbn [bind]. rewrite (get_nth x sh) by lia. cbn [bind]. fold b.
  destruct (Z.leb_spec (a + c) b) as [L|L].
  - assert (ES: subT t b (a + c) = Some (b - (a + c))) by (apply subT_in; unfold inT; lia).
    rewrite ES. cbn [bind]. rewrite upd_some by lia. cbn [bind].
    rewrite Z.mod_small by lia. destruct (Z.ltb_spec (b - a - c) 0); [lia|].
    do 4 f_equal. lia.
  - assert (ES: subT t (2 ^ w) (a + c) = Some (2 ^ w - (a + c))) by (apply subT_in; unfold inT; lia).
    rewrite ES. cbn [bind].
    assert (EB: addT t (2 ^ w - (a + c)) b = Some (2 ^ w - (a + c) + b)) by (apply addT_in; unfold inT; lia).
    rewrite EB. cbn [bind]. rewrite upd_some by lia. cbn [bind].
    destruct (Z.ltb_spec (b - a - c) 0); [|lia].
    do 4 f_equal.
    replace (b - a - c) with (2 ^ w - (a + c) + b + -1 * 2 ^ w) by ring.
    rewrite Z.mod_add by lia. rewrite Z.mod_small by lia. reflexivity.
Qed.

Lemma swc01_up_ok : forall w r, 0 <= w -> up_ok w r (swc01_upd w).
Proof.
  intros w r Hw x cur sh c HL HV Hc Hcur Hsh d. subst d.
  assert (Hxc: 0 <= nth cur x 0 < 2 ^ w) by (apply HV, nth_In; lia).
  assert (Hxs: 0 <= nth sh x 0 < 2 ^ w) by (apply HV, nth_In; lia).
  unfold swc01_upd. rewrite (get_nth x cur) by lia. rewrite (get_nth x sh) by lia. cbn [bind].
  set (a := nth cur x 0) in *. set (b := nth sh x 0) in *. cbv zeta.
  destruct (Z.ltb_spec (b - a - c) 0) as [L|L]; rewrite upd_some by lia; cbn [bind]; do 4 f_equal.
  - replace (b - a - c) with (b - a - c + 2 ^ w + -1 * 2 ^ w) by ring.
    rewrite Z.mod_add by lia. rewrite Z.mod_small by lia. ring.
  - rewrite Z.mod_small by lia. reflexivity.
Qed.

(* ---- the window ---- *)
Lemma history_rot : forall st, (kk st < length (xs st))%nat -> swc_history st = rot (kk st) (xs st).
Proof.
  intros [x k c] H. cbn [kk xs] in H. unfold swc_history. cbn [kk xs].
  apply (nth_ext _ _ 0 0).
  - rewrite map_length, seq_length, rot_length. reflexivity.
  - intros j Hj. rewrite map_length, seq_length in Hj.
    rewrite (nth_indep _ 0 (nth ((k + 0) mod length x) x 0)) by (rewrite map_length, seq_length; lia).
    rewrite (map_nth (fun j => nth ((k + j) mod length x) x 0)).
    rewrite seq_nth by lia. rewrite Nat.add_0_l.
    assert (E: nth_error (rot k x) j = Some (nth j (rot k x) 0)) by (apply nth_error_nth'; rewrite rot_length; lia).
    rewrite nth_error_rot in E by lia. symmetry. apply nth_error_nth with (d := 0) in E. rewrite <- E. f_equal.
    destruct (Nat.ltb_spec (k + j) (length x)) as [L|L].
    + symmetry. apply Nat.mod_small. exact L.
    + replace (k + j)%nat with ((k + j - length x) + 1 * length x)%nat at 2 by lia.
      rewrite Nat.mod_add by lia. symmetry. apply Nat.mod_small. lia.
Qed.

Lemma In_rot : forall k x v, In v (rot k x) <-> In v x.
Proof.
  intros k x v. unfold rot. rewrite in_app_iff. rewrite <- (firstn_skipn k x) at 3. rewrite in_app_iff. tauto.
Qed.

(* the window machine *)
Definition astep (w : Z) (s r : nat) (a : list Z * Z) : Z * (list Z * Z) :=
  let d := nth (r - s) (fst a) 0 - nth 0 (fst a) 0 - snd a in
  (d mod 2 ^ w, (tl (fst a) ++ [d mod 2 ^ w], if d <? 0 then 1 else 0)).

Definition abs (st : swc) : list Z * Z := (rot (kk st) (xs st), cy st).

Lemma nth_rot : forall k x j, (k <= length x)%nat -> (j < length x)%nat ->
  nth j (rot k x) 0 = nth (if (k + j <? length x)%nat then k + j else k + j - length x) x 0.
Proof.
  intros k x j Hk Hj.
  assert (E: nth_error (rot k x) j = Some (nth j (rot k x) 0)) by (apply nth_error_nth'; rewrite rot_length; lia).
  rewrite nth_error_rot in E by lia. symmetry. apply nth_error_nth with (d := 0) in E. exact E.
Qed.

Lemma In_replace : forall (x : list Z) k v u, In u (firstn k x ++ v :: skipn (S k) x) -> u = v \/ In u x.
Proof.
  intros x k v u H. apply in_app_or in H. destruct H as [H|[H|H]].
  - right. rewrite <- (firstn_skipn k x). apply in_or_app. left. exact H.
  - left. symmetry. exact H.
  - right. rewrite <- (firstn_skipn (S k) x). apply in_or_app. right. exact H.
Qed.

Lemma next_refine : forall w s r up st, up_ok w r up -> swc_params s r -> 0 <= w -> swc_wf w r st ->
  exists v st', swc_next up s r st = Some (v, st') /\ astep w s r (abs st) = (v, abs st') /\ swc_wf w r st' /\ 0 <= v < 2 ^ w.
Proof.
  intros w s r up [x k c] Hup Hs Hw [HL [Hk [HV Hc]]]. cbn [xs kk cy] in *. unfold swc_params in Hs.
  unfold swc_next. cbn [xs kk cy].
  set (sh := (if (k <? s)%nat then k + r - s else k - s)%nat).
  assert (Hsh: (sh < r)%nat) by (unfold sh; destruct (Nat.ltb_spec k s); lia).
  rewrite (Hup x k sh c HL HV Hc Hk Hsh). cbn [bind fst snd].
  set (d := nth sh x 0 - nth k x 0 - c).
  assert (Hd: 0 <= d mod 2 ^ w < 2 ^ w) by (apply Z.mod_pos_bound; lia).
  assert (HG: get (firstn k x ++ d mod 2 ^ w :: skipn (S k) x) k = Some (d mod 2 ^ w)).
  { unfold get. rewrite nth_error_app2 by (rewrite firstn_length; lia).
    rewrite firstn_length. replace (k - Nat.min k (length x))%nat with O by lia. reflexivity. }
  rewrite HG. cbn [bind].
  assert (Hn: (if (r <=? S k)%nat then 0%nat else S k) = nxt r k).
  { unfold nxt. destruct (Nat.leb_spec r (S k)); destruct (Nat.eqb_spec (S k) r); lia. }
  rewrite Hn. do 2 eexists. split; [reflexivity|]. split; [|split; [|exact Hd]].
  - unfold astep, abs. cbn [xs kk cy fst snd].
    assert (E1: nth (r - s) (rot k x) 0 = nth sh x 0).
    { rewrite nth_rot by lia. f_equal. unfold sh.
      destruct (Nat.ltb_spec (k + (r - s)) (length x)); destruct (Nat.ltb_spec k s); lia. }
    assert (E2: nth 0 (rot k x) 0 = nth k x 0).
    { rewrite nth_rot by lia. f_equal. destruct (Nat.ltb_spec (k + 0) (length x)); lia. }
    rewrite E1, E2. fold d. rewrite <- HL. rewrite rot_upd by lia. reflexivity.
  - repeat split; cbn [xs kk cy].
    + rewrite app_length, firstn_length.
      change (length (d mod 2 ^ w :: skipn (S k) x)) with (S (length (skipn (S k) x))). rewrite skipn_length. lia.
    + apply nxt_lt. exact Hk.
    + apply In_replace in H. destruct H as [-> | H]; [lia|]. apply HV in H. lia.
    + apply In_replace in H. destruct H as [-> | H]; [lia|]. apply HV in H. lia.
    + destruct (d <? 0); auto.
Qed.

Lemma abs_length : forall w r st, swc_wf w r st -> length (fst (abs st)) = r.
Proof. intros w r st H. unfold abs. cbn [fst]. rewrite rot_length. apply H. Qed.

Lemma run_swc : forall w s r up, up_ok w r up -> swc_params s r -> 0 <= w -> forall n st, swc_wf w r st ->
  exists outs st' cs, run (swc_next up s r) n st = Some (outs, st') /\ length outs = n /\ swc_wf w r st' /\
    (forall v, In v outs -> 0 <= v < 2 ^ w) /\
    length cs = S n /\ nth 0 cs 0 = cy st /\ nth n cs 0 = cy st' /\
    swc_recurrence w s r (fst (abs st) ++ outs) cs /\
    fst (abs st') = skipn n (fst (abs st) ++ outs).
Proof.
  intros w s r up Hup Hs Hw. unfold swc_params in Hs.
  induction n as [|n IH]; intros st Hwf.
  - exists [], st, [cy st]. cbn [run]. split; [reflexivity|]. split; [reflexivity|]. split; [exact Hwf|].
    split; [intros v []|]. split; [reflexivity|]. split; [reflexivity|]. split; [reflexivity|].
    rewrite app_nil_r. split; [|reflexivity].
    intros m Hm. rewrite (abs_length w r st Hwf) in Hm. lia.
  - destruct (next_refine w s r up st Hup Hs Hw Hwf) as [v [st1 [E1 [EA [Hwf1 Hv]]]]].
    destruct (IH st1 Hwf1) as [outs [st' [cs [E2 [HL [Hwf' [HR [Hcl [Hc0 [Hcn [Hrec Hlast]]]]]]]]]]].
    exists (v :: outs), st', (cy st :: cs). cbn [run]. rewrite E1. cbn [bind fst snd]. rewrite E2. cbn [bind fst snd].
    split; [reflexivity|]. split; [cbn [length]; lia|]. split; [exact Hwf'|].
    split; [intros u [<- | Hu]; [exact Hv|apply HR; exact Hu]|].
    split; [cbn [length]; lia|]. split; [reflexivity|]. split; [cbn [nth]; exact Hcn|].
    pose proof (abs_length w r st Hwf) as HLa.
    pose proof (abs_length w r st1 Hwf1) as HLa1.
    unfold astep in EA. injection EA as Ev EW Ec.
    assert (ED: exists a W, fst (abs st) = a :: W).
    { destruct (fst (abs st)) as [|a W]; [simpl in HLa; lia|]. eauto. }
    destruct ED as [a [W ED]].
    assert (EH: fst (abs st1) ++ outs = W ++ v :: outs).
    { unfold abs at 1. cbn [fst]. rewrite <- EW. change (fst (abs st)) with (rot (kk st) (xs st)) in ED.
      change (fst (abs st)) with (rot (kk st) (xs st)). rewrite ED. cbn [tl]. 
      rewrite <- app_assoc. cbn [app]. f_equal. f_equal. rewrite <- ED. exact Ev. }
    split.
    + intros m Hm. rewrite ED in *. cbn [app] in *. 
      destruct (Nat.eq_dec m r) as [-> | Hne].
      * rewrite Nat.sub_diag. cbv zeta.
        change (nth 1 (cy st :: cs) 0) with (nth 0 cs 0). change (nth 0 (cy st :: cs) 0) with (cy st).
        change (nth 0 (a :: W ++ v :: outs) 0) with a.
        assert (Hr: exists r', r = S r') by (exists (r - 1)%nat; lia). destruct Hr as [r' ->].
        cbn [length] in HLa. assert (HLW: length W = r') by lia.
        assert (EN: nth (S r' - s) (a :: W ++ v :: outs) 0 = nth (S r' - s) (a :: W) 0).
        { change (a :: W ++ v :: outs) with ((a :: W) ++ v :: outs). apply app_nth1. cbn [length]. lia. }
        rewrite EN. change (fst (abs st)) with (rot (kk st) (xs st)) in *.
        change (snd (abs st)) with (cy st) in *. rewrite ED in *. change (nth 0 (a :: W) 0) with a in *. split.
        { change (nth (S r') (a :: W ++ v :: outs) 0) with (nth r' (W ++ v :: outs) 0). rewrite <- HLW at 1. rewrite nth_middle. symmetry. exact Ev. }
        { rewrite Hc0. symmetry. exact Ec. }
      * assert (Hm': exists m', m = S m') by (exists (m - 1)%nat; lia). destruct Hm' as [m' ->].
        cbn [length] in Hm. rewrite EH in Hrec. specialize (Hrec m'). cbv zeta in Hrec |- *.
        replace (S m' - r)%nat with (S (m' - r)) by lia.
        replace (S m' - s)%nat with (S (m' - s)) by lia.
        cbn [nth]. apply Hrec. lia.
    + rewrite ED. cbn [app skipn]. rewrite Hlast, EH. reflexivity.
Qed.

(* ---- two states with the same window and carry behave alike ---- *)
Lemma same_abs_same_future : forall w s r up a b, up_ok w r up -> swc_params s r -> 0 <= w ->
  swc_wf w r a -> swc_wf w r b -> abs a = abs b -> swc_same_future up s r a b.
Proof.
  intros w s r up a b Hup Hs Hw Ha Hb E n. revert a b Ha Hb E.
  unfold swc_outputs.
  induction n as [|n IH]; intros a b Ha Hb E.
  - cbn [run bind fst]. split; [reflexivity|discriminate].
  - destruct (next_refine w s r up a Hup Hs Hw Ha) as [v [a1 [E1 [EA [Ha1 Hv]]]]].
    destruct (next_refine w s r up b Hup Hs Hw Hb) as [u [b1 [E2 [EB [Hb1 Hu]]]]].
    rewrite E in EA. rewrite EA in EB. injection EB as Evu Eab.
    assert (Eab': abs a1 = abs b1) by (unfold abs in *; congruence).
    destruct (IH a1 b1 Ha1 Hb1 Eab') as [I1 I2].
    cbn [run]. rewrite E1, E2. cbn [bind fst snd].
    destruct (run (swc_next up s r) n a1) as [[oa sa]|]; cbn [bind fst] in I1, I2;
      destruct (run (swc_next up s r) n b1) as [[ob sb]|]; cbn [bind fst snd] in I1, I2 |- *; try congruence.
    split; [|discriminate]. apply Some_eq_inj in I1. rewrite I1, Evu. reflexivity.
Qed.

(* ---- operator== ---- *)
Lemma compute_rot : forall r st j, length (xs st) = r -> (kk st < r)%nat -> (j < r)%nat ->
  swc_compute r st j = Some (nth j (rot (kk st) (xs st)) 0).
Proof.
  intros r [x k c] j HL Hk Hj. cbn [xs kk] in *. unfold swc_compute. cbn [xs kk].
  rewrite get_nth.
  - f_equal. rewrite nth_rot by lia. f_equal. rewrite HL.
    destruct (Nat.ltb_spec (k + j) r) as [L|L].
    + apply Nat.mod_small. exact L.
    + replace (k + j)%nat with ((k + j - r) + 1 * r)%nat at 1 by lia.
      rewrite Nat.mod_add by lia. apply Nat.mod_small. lia.
  - rewrite HL. apply Nat.mod_upper_bound. lia.
Qed.

Lemma eq_from_rot : forall r a b n j, length (xs a) = r -> (kk a < r)%nat -> length (xs b) = r -> (kk b < r)%nat ->
  (j + n = r)%nat ->
  exists e, swc_eq_from r a b n j = Some e /\
    (e = true <-> skipn j (rot (kk a) (xs a)) = skipn j (rot (kk b) (xs b))).
Proof.
  intros r a b. induction n as [|n IH]; intros j HLa Hka HLb Hkb Hj; cbn [swc_eq_from].
  - exists true. split; [reflexivity|]. split; [|reflexivity]. intros _.
    rewrite !skipn_all2; [reflexivity| |]; rewrite rot_length; lia.
  - rewrite !compute_rot by lia. cbn [bind].
    assert (SK: forall st, length (xs st) = r -> skipn j (rot (kk st) (xs st)) = nth j (rot (kk st) (xs st)) 0 :: skipn (S j) (rot (kk st) (xs st))).
    { intros st HL. set (l := rot (kk st) (xs st)). assert (Hl: (j < length l)%nat) by (unfold l; rewrite rot_length; lia).
      clearbody l. clear - Hl. revert j Hl. induction l as [|y l IHl]; intros j Hl; [simpl in Hl; lia|].
      destruct j as [|j]; [reflexivity|]. simpl in Hl. change (skipn j l = nth j l 0 :: skipn (S j) l).
      apply IHl. lia. }
    rewrite (SK a HLa), (SK b HLb).
    destruct (Z.eqb_spec (nth j (rot (kk a) (xs a)) 0) (nth j (rot (kk b) (xs b)) 0)) as [E|E]; cbn [negb].
    + destruct (IH (S j) HLa Hka HLb Hkb ltac:(lia)) as [e [E1 E2]]. exists e. split; [exact E1|].
      rewrite E2, E. split; [intro H; rewrite H; reflexivity|]. intro H. injection H as H. exact H.
    + exists false. split; [reflexivity|]. split; [discriminate|]. intro H. exfalso. apply E.
      injection H as H _. exact H.
Qed.

Lemma swc_eq_rot : forall w r a b, swc_wf w r a -> swc_wf w r b ->
  exists e, swc_eq r a b = Some e /\ (e = true <-> fst (abs a) = fst (abs b)).
Proof.
  intros w r a b Ha Hb. destruct Ha as [HLa [Hka _]]. destruct Hb as [HLb [Hkb _]].
  destruct (eq_from_rot r a b r 0 HLa Hka HLb Hkb ltac:(lia)) as [e [E1 E2]].
  exists e. split; [exact E1|exact E2].
Qed.

Lemma eq_same_future : forall w s r up a b, up_ok w r up -> swc_params s r -> 0 <= w ->
  swc_wf w r a -> swc_wf w r b -> cy a = cy b -> swc_eq r a b = Some true -> swc_same_future up s r a b.
Proof.
  intros w s r up a b Hup Hs Hw Ha Hb Hc He.
  destruct (swc_eq_rot w r a b Ha Hb) as [e [E1 E2]].
  assert (Et: e = true) by congruence.
  apply (same_abs_same_future w); auto. apply E2 in Et. unfold abs in *. cbn [fst] in Et. congruence.
Qed.

Lemma swc_eq_iff_history : forall w r a b, swc_wf w r a -> swc_wf w r b ->
  (swc_eq r a b = Some true <-> swc_history a = swc_history b) /\ swc_eq r a b <> None.
Proof.
  intros w r a b Ha Hb. destruct (swc_eq_rot w r a b Ha Hb) as [e [E1 E2]].
  rewrite !history_rot by (destruct Ha as [HLa [Hka _]], Hb as [HLb [Hkb _]]; lia).
  unfold abs in E2. cbn [fst] in E2. rewrite E1. split; [|discriminate].
  rewrite <- E2. split; [intro H; apply Some_eq_inj in H; exact H|intros ->; reflexivity].
Qed.

(* ---- text output and input ---- *)
Lemma write_from_rot : forall r st n j, length (xs st) = r -> (kk st < r)%nat -> (j + n = r)%nat ->
  swc_write_from r st n j = Some (map TInt (skipn j (rot (kk st) (xs st))) ++ [TInt (cy st)]).
Proof.
  intros r st. induction n as [|n IH]; intros j HL Hk Hj; cbn [swc_write_from].
  - rewrite skipn_all2 by (rewrite rot_length; lia). reflexivity.
  - rewrite compute_rot by lia. cbn [bind]. rewrite IH by lia. cbn [bind].
    set (l := rot (kk st) (xs st)).
    assert (Hl: (j < length l)%nat) by (unfold l; rewrite rot_length; lia).
    assert (SK: skipn j l = nth j l 0 :: skipn (S j) l).
    { clear - Hl. revert j Hl. induction l as [|y l IHl]; intros j Hl; [simpl in Hl; lia|].
      destruct j as [|j]; [reflexivity|]. simpl in Hl. change (skipn j l = nth j l 0 :: skipn (S j) l).
      apply IHl. lia. }
    rewrite SK. reflexivity.
Qed.

Lemma swc_round_trip : forall t w r a b rest, swc_wf w r a -> length (xs b) = r ->
  (forall v, 0 <= v < 2 ^ w -> inT t v) -> inT t 1 -> inT t 0 ->
  exists ts, swc_write r a = Some ts /\
    swc_read t r b (good_in (ts ++ rest)) = (Swc (swc_history a) 0 (cy a), good_in rest).
Proof.
  intros t w r a b rest Ha HLb HT H1 H0. destruct Ha as [HL [Hk [HV Hc]]].
  rewrite history_rot by lia.
  exists (map TInt (rot (kk a) (xs a)) ++ [TInt (cy a)]).
  split; [unfold swc_write; rewrite write_from_rot by lia; reflexivity|].
  unfold swc_read. rewrite <- app_assoc.
  assert (Hrot: r = length (rot (kk a) (xs a))) by (rewrite rot_length; lia).
  rewrite Hrot at 1. rewrite read_arr_ok.
  - cbn [firstn app]. unfold get_int, good_in. cbn [failb toks].
    assert (Hcy: inT t (cy a)) by (destruct Hc as [-> | ->]; assumption).
    destruct Hcy as [Hc1 Hc2]. apply Z.leb_le in Hc1, Hc2. rewrite Hc1, Hc2. reflexivity.
  - intros v Hv. apply HT, HV. apply In_rot in Hv. exact Hv.
  - rewrite rot_length. lia.
Qed.

Lemma swc_round_trip_all : forall t w s r up a b rest, up_ok w r up -> swc_params s r -> 0 <= w ->
  swc_wf w r a -> length (xs b) = r ->
  (forall v, 0 <= v < 2 ^ w -> inT t v) -> inT t 1 -> inT t 0 ->
  exists ts c, swc_write r a = Some ts /\ swc_read t r b (good_in (ts ++ rest)) = (c, good_in rest) /\
    swc_eq r a c = Some true /\ swc_same_future up s r a c /\ swc_wf w r c.
Proof.
  intros t w s r up a b rest Hup Hs Hw Ha HLb HT H1 H0.
  destruct (swc_round_trip t w r a b rest Ha HLb HT H1 H0) as [ts [E1 E2]].
  exists ts, (Swc (swc_history a) 0 (cy a)). split; [exact E1|]. split; [exact E2|].
  pose proof Ha as [HL [Hk [HV Hc]]].
  assert (Hwf: swc_wf w r (Swc (swc_history a) 0 (cy a))).
  { rewrite history_rot by lia. repeat split; cbn [xs kk cy].
    - rewrite rot_length. exact HL.
    - lia.
    - apply In_rot in H. apply HV in H. lia.
    - apply In_rot in H. apply HV in H. lia.
    - exact Hc. }
  assert (Eabs: abs a = abs (Swc (swc_history a) 0 (cy a))).
  { unfold abs. cbn [kk xs cy]. rewrite rot_0. rewrite history_rot by lia. reflexivity. }
  split; [|split; [|exact Hwf]].
  - destruct (swc_eq_rot w r a _ Ha Hwf) as [e [F1 F2]]. rewrite F1. f_equal. apply F2.
    rewrite <- Eabs. reflexivity.
  - apply (same_abs_same_future w); auto.
Qed.
