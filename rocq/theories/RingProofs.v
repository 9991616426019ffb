(* Ring buffers: an array x read from position k on is the window of the last
   length x terms, oldest first. *)
From Verif Require Import Base StreamModel RingModel.

Lemma Some_eq_inj : forall (A : Type) (x y : A), Some x = Some y -> x = y.
Proof. intros A x y H. injection H as H. exact H. Qed.

Lemma norm_inT : forall t z, inT t z -> norm t z = Some z.
Proof.
  intros [b s] z [H1 H2]. unfold norm, imin, imax in *; cbn [bits sgn] in *. destruct s.
  - destruct (Z.leb_spec (- 2 ^ (b - 1)) z), (Z.leb_spec z (2 ^ (b - 1) - 1)); simpl; try lia; reflexivity.
  - rewrite Z.mod_small by lia. reflexivity.
Qed.
Lemma addT_in : forall t x y, inT t (x + y) -> addT t x y = Some (x + y).
Proof. intros. apply norm_inT. assumption. Qed.
Lemma subT_in : forall t x y, inT t (x - y) -> subT t x y = Some (x - y).
Proof. intros. apply norm_inT. assumption. Qed.

Definition rot (k : nat) (x : list Z) : list Z := skipn k x ++ firstn k x.

(* next position *)
Definition nxt (L k : nat) : nat := if (S k =? L)%nat then 0%nat else S k.

Lemma rot_length : forall k x, length (rot k x) = length x.
Proof.
  intros. unfold rot. rewrite app_length, skipn_length, firstn_length. lia.
Qed.

Lemma rot_0 : forall x, rot 0 x = x.
Proof. intro x. unfold rot. simpl. apply app_nil_r. Qed.

Lemma nth_error_firstn : forall (A : Type) (l : list A) n i, (i < n)%nat -> nth_error (firstn n l) i = nth_error l i.
Proof.
  induction l as [|a l IH]; intros n i H.
  - rewrite firstn_nil. reflexivity.
  - destruct n as [|n]; [lia|]. destruct i as [|i]; [reflexivity|]. simpl. apply IH. lia.
Qed.

Lemma nth_error_skipn : forall (A : Type) (l : list A) n i, nth_error (skipn n l) i = nth_error l (n + i).
Proof.
  induction l as [|a l IH]; intros n i.
  - rewrite skipn_nil. destruct i, n; reflexivity.
  - destruct n as [|n]; [reflexivity|]. simpl. apply IH.
Qed.

Lemma nth_error_rot : forall k x j, (k <= length x)%nat -> (j < length x)%nat ->
  nth_error (rot k x) j = nth_error x (if (k + j <? length x)%nat then k + j else k + j - length x).
Proof.
  intros k x j Hk Hj. unfold rot. destruct (Nat.ltb_spec (k + j) (length x)) as [L|L].
  - rewrite nth_error_app1 by (rewrite skipn_length; lia). apply nth_error_skipn.
  - rewrite nth_error_app2 by (rewrite skipn_length; lia). rewrite skipn_length.
    rewrite nth_error_firstn by lia. f_equal. lia.
Qed.

Lemma upd_length : forall x i v y, upd x i v = Some y -> length y = length x.
Proof.
  intros x i v y H. unfold upd in H. destruct (Nat.ltb_spec i (length x)); [|discriminate].
  apply (f_equal (fun o => match o with Some z => length z | None => O end)) in H. rewrite <- H.
  rewrite app_length, firstn_length. change (length (v :: skipn (S i) x)) with (S (length (skipn (S i) x))).
  rewrite skipn_length. lia.
Qed.

Lemma upd_some : forall x i v, (i < length x)%nat -> upd x i v = Some (firstn i x ++ v :: skipn (S i) x).
Proof. intros x i v H. unfold upd. destruct (Nat.ltb_spec i (length x)); [reflexivity|lia]. Qed.

Lemma skipn_S_tl : forall (A : Type) (l : list A) n, skipn (S n) l = tl (skipn n l).
Proof.
  induction l as [|a l IH]; intros n.
  - rewrite !skipn_nil. reflexivity.
  - destruct n as [|n]; [reflexivity|]. simpl. rewrite <- IH. destruct l; reflexivity.
Qed.

Lemma tl_app : forall (A : Type) (l m : list A), l <> [] -> tl (l ++ m) = tl l ++ m.
Proof. intros A [|a l] m H; [congruence|reflexivity]. Qed.

Lemma firstn_app_l : forall (A : Type) (l m : list A), firstn (length l) (l ++ m) = l.
Proof. intros. rewrite firstn_app, Nat.sub_diag, firstn_all. simpl. apply app_nil_r. Qed.

Lemma skipn_app_l : forall (A : Type) (l m : list A), skipn (length l) (l ++ m) = m.
Proof. intros. rewrite skipn_app, Nat.sub_diag, skipn_all. reflexivity. Qed.

Lemma rot_upd : forall x k v, (k < length x)%nat ->
  rot (nxt (length x) k) (firstn k x ++ v :: skipn (S k) x) = tl (rot k x) ++ [v].
Proof.
  intros x k v Hk.
  assert (HL: length (firstn k x ++ [v]) = S k) by (rewrite app_length, firstn_length; simpl; lia).
  assert (HE: firstn k x ++ v :: skipn (S k) x = (firstn k x ++ [v]) ++ skipn (S k) x)
    by (rewrite <- app_assoc; reflexivity).
  assert (HT: tl (rot k x) ++ [v] = skipn (S k) x ++ firstn k x ++ [v]).
  { unfold rot. rewrite tl_app.
    - rewrite <- skipn_S_tl, <- app_assoc. reflexivity.
    - intro E. apply (f_equal (@length Z)) in E. rewrite skipn_length in E. simpl in E. lia. }
  rewrite HT. unfold nxt. destruct (Nat.eqb_spec (S k) (length x)) as [E|E].
  - rewrite rot_0. rewrite skipn_all2 by lia. rewrite app_nil_l. reflexivity.
  - rewrite HE. unfold rot. rewrite <- HL.
    rewrite skipn_app_l, firstn_app_l. reflexivity.
Qed.

Lemma nxt_lt : forall L k, (k < L)%nat -> (nxt L k < L)%nat.
Proof. intros L k H. unfold nxt. destruct (Nat.eqb_spec (S k) L); lia. Qed.

(* window after n terms have been appended *)
Lemma window_shift : forall (h : list Z) (v : Z) r, (r <= length h)%nat -> (1 <= r)%nat ->
  tl (skipn (length h - r) h) ++ [v] = skipn (length (h ++ [v]) - r) (h ++ [v]).
Proof.
  intros h v r H1 H2. rewrite app_length. cbn [length].
  replace (length h + 1 - r)%nat with (S (length h - r)) by lia.
  rewrite skipn_app. rewrite <- skipn_S_tl. f_equal.
  replace (S (length h - r) - length h)%nat with O by lia. reflexivity.
Qed.

Lemma nth_error_window : forall (h : list Z) r j, (r <= length h)%nat ->
  nth_error (skipn (length h - r) h) j = nth_error h (length h - r + j).
Proof. intros. apply nth_error_skipn. Qed.

(* ---- reading an array back ---- *)
Lemma get_int_ok : forall t v ts, inT t v -> get_int t (good_in (TInt v :: ts)) = (Some v, good_in ts).
Proof.
  intros t v ts [H1 H2]. unfold get_int, good_in. cbn [failb toks]. apply Z.leb_le in H1, H2. rewrite H1, H2. reflexivity.
Qed.

Lemma read_arr_ok : forall t vs x from ts,
  (forall v, In v vs -> inT t v) -> (length vs + from = length x)%nat ->
  read_arr t (length vs) from x (good_in (map TInt vs ++ ts)) = (firstn from x ++ vs, good_in ts).
Proof.
  intros t. induction vs as [|v vs IH]; intros x from ts HT HL; cbn [length read_arr].
  - simpl in HL. subst from. rewrite firstn_all, app_nil_r. reflexivity.
  - cbn [map app]. unfold get_int, good_in. cbn [failb toks].
    assert (Hv: inT t v) by (apply HT; left; reflexivity). destruct Hv as [Hv1 Hv2].
    apply Z.leb_le in Hv1, Hv2. rewrite Hv1, Hv2. cbn [andb].
    simpl in HL.
    assert (HF: length (firstn from x) = from) by (rewrite firstn_length; lia).
    fold (good_in (map TInt vs ++ ts)). rewrite IH.
    + f_equal. rewrite firstn_app, HF. replace (S from - from)%nat with 1%nat by lia.
      rewrite firstn_all2 by lia. cbn [firstn]. rewrite <- app_assoc. reflexivity.
    + intros u Hu. apply HT. right. exact Hu.
    + rewrite app_length, HF. change (length (v :: skipn (S from) x)) with (S (length (skipn (S from) x))). rewrite skipn_length. lia.
Qed.

(* number of tokens: a good read leaves the array length unchanged *)
Lemma read_arr_length : forall t n from x s, (from + n <= length x)%nat ->
  length (fst (read_arr t n from x s)) = length x.
Proof.
  intros t. induction n as [|n IH]; intros from x s H; cbn [read_arr]; [reflexivity|].
  assert (HL: forall v, length (firstn from x ++ v :: skipn (S from) x) = length x).
  { intro v. rewrite app_length, firstn_length. change (length (v :: skipn (S from) x)) with (S (length (skipn (S from) x))). rewrite skipn_length. lia. }
  destruct (get_int t s) as [[v|] s'].
  - rewrite IH; [apply HL|]. rewrite HL. lia.
  - cbn [fst]. destruct (failb s); [reflexivity|apply HL].
Qed.
