(* Sequences defined by a recurrence over a window of L words, and their
   computation in place. *)
From Verif Require Import Base RingModel RingProofs SwcProofs.

Lemma iter_plus : forall (A : Type) (f : A -> A) a b x, iter (a + b) f x = iter b f (iter a f x).
Proof. intros A f. induction a as [|a IH]; intros b x; [reflexivity|]. cbn [Nat.add iter]. apply IH. Qed.
Lemma iter_succ : forall (A : Type) (f : A -> A) n x, iter (S n) f x = f (iter n f x).
Proof. intros A f. induction n as [|n IH]; intro x; [reflexivity|]. cbn [iter] in *. rewrite IH. reflexivity. Qed.
Lemma nth_tail : forall (l : list Z) j, nth j (tl l) 0 = nth (S j) l 0.
Proof. intros [|a l] j; [destruct j; reflexivity|reflexivity]. Qed.

Section Win.
Variable L : nat.
Variable G : list Z -> Z.
Variable V : Z -> Prop.
Hypothesis HL : (1 <= L)%nat.

Definition inw (x : list Z) : Prop := length x = L /\ forall v, In v x -> V v.
Hypothesis HG : forall W, inw W -> V (G W).

Definition wst (W : list Z) : list Z := tl W ++ [G W].

Lemma inw_nth : forall x j, inw x -> (j < L)%nat -> V (nth j x 0).
Proof. intros x j [H1 H2] Hj. apply H2, nth_In. rewrite H1. exact Hj. Qed.

Lemma wst_inw : forall W, inw W -> inw (wst W).
Proof.
  intros W HW. pose proof (HG W HW) as HGW. destruct HW as [H1 H2]. unfold wst. split.
  - rewrite app_length. destruct W as [|a W]; [simpl in H1; lia|]. cbn [tl length] in *. lia.
  - intros v Hv. apply in_app_or in Hv. destruct Hv as [Hv|[<- |[]]]; [|exact HGW].
    apply H2. destruct W; [destruct Hv|right; exact Hv].
Qed.

(* one update in place, and n of them *)
Definition gput (j : nat) (x : list Z) : list Z := firstn j x ++ G (rot j x) :: skipn (S j) x.
Fixpoint gseg (n j : nat) (x : list Z) : list Z :=
  match n with O => x | S n' => gseg n' (S j) (gput j x) end.

Lemma rot_inw : forall j x, inw x -> inw (rot j x).
Proof.
  intros j x [H1 H2]. split; [rewrite rot_length; exact H1|]. intros v Hv. apply H2. apply In_rot in Hv. exact Hv.
Qed.

Lemma gput_inw : forall j x, inw x -> (j < L)%nat -> inw (gput j x).
Proof.
  intros j x Hx Hj. pose proof (HG _ (rot_inw j x Hx)) as HV. destruct Hx as [H1 H2]. split.
  - unfold gput. rewrite app_length, firstn_length.
    change (length (G (rot j x) :: skipn (S j) x)) with (S (length (skipn (S j) x))). rewrite skipn_length. lia.
  - intros u Hu. apply In_replace in Hu. destruct Hu as [-> | Hu]; [exact HV|apply H2; exact Hu].
Qed.

Lemma gput_rot : forall j x, inw x -> (j < L)%nat -> rot (nxt L j) (gput j x) = wst (rot j x).
Proof. intros j x [H1 H2] Hj. unfold gput. rewrite <- H1. rewrite rot_upd by lia. reflexivity. Qed.

Lemma gseg_rot : forall n j x, inw x -> (j + n <= L)%nat -> (j < L)%nat ->
  inw (gseg n j x) /\ rot (if (j + n =? L)%nat then 0%nat else j + n)%nat (gseg n j x) = iter n wst (rot j x).
Proof.
  induction n as [|n IH]; intros j x Hx Hn Hj.
  - cbn [gseg iter]. split; [exact Hx|]. destruct (Nat.eqb_spec (j + 0) L); [lia|]. rewrite Nat.add_0_r. reflexivity.
  - cbn [gseg iter]. pose proof (gput_inw j x Hx Hj) as H1. pose proof (gput_rot j x Hx Hj) as HR.
    destruct (Nat.eq_dec (S j) L) as [E|E].
    + assert (n = 0%nat) by lia. subst n. cbn [gseg iter]. split; [exact H1|].
      destruct (Nat.eqb_spec (j + 1) L); [|lia]. rewrite <- HR. unfold nxt.
      destruct (Nat.eqb_spec (S j) L); [reflexivity|lia].
    + destruct (IH (S j) (gput j x) H1 ltac:(lia) ltac:(lia)) as [E2 E3]. split; [exact E2|].
      replace (j + S n)%nat with (S j + n)%nat by lia. rewrite E3. f_equal. rewrite <- HR.
      unfold nxt. destruct (Nat.eqb_spec (S j) L); [lia|reflexivity].
Qed.

Lemma gseg_all : forall x, inw x -> gseg L 0 x = iter L wst x.
Proof.
  intros x Hx. destruct (gseg_rot L 0 x Hx ltac:(lia) ltac:(lia)) as [_ E].
  rewrite Nat.add_0_l, Nat.eqb_refl, !rot_0 in E. exact E.
Qed.

Lemma gseg_app : forall a b j x, gseg (a + b) j x = gseg b (j + a) (gseg a j x).
Proof.
  induction a as [|a IH]; intros b j x.
  - cbn [Nat.add gseg]. rewrite Nat.add_0_r. reflexivity.
  - cbn [Nat.add gseg]. rewrite IH. f_equal. apply Nat.add_succ_comm.
Qed.

Lemma gseg_inw : forall n j x, inw x -> (j + n <= L)%nat -> inw (gseg n j x).
Proof.
  induction n as [|n IH]; intros j x Hx H; [exact Hx|]. cbn [gseg]. apply IH; [apply gput_inw; [exact Hx|lia]|lia].
Qed.

Lemma iter_inw : forall n x, inw x -> inw (iter n wst x).
Proof. induction n as [|n IH]; intros x H; [exact H|]. cbn [iter]. apply IH, wst_inw, H. Qed.

Lemma wst_nth : forall W j, inw W -> (S j < L)%nat -> nth j (wst W) 0 = nth (S j) W 0.
Proof.
  intros W j [H1 _] Hj. unfold wst. rewrite app_nth1 by (destruct W; simpl in *; lia). apply nth_tail.
Qed.
Lemma wst_last : forall W, inw W -> nth (L - 1) (wst W) 0 = G W.
Proof.
  intros W [H1 _]. unfold wst. rewrite app_nth2 by (destruct W; simpl in *; lia).
  replace (L - 1 - length (tl W))%nat with O by (destruct W; simpl in *; lia). reflexivity.
Qed.

Lemma iterw_nth : forall n W j, inw W -> (j + n < L)%nat -> nth j (iter n wst W) 0 = nth (j + n) W 0.
Proof.
  induction n as [|n IH]; intros W j HW Hj; [rewrite Nat.add_0_r; reflexivity|].
  cbn [iter]. rewrite IH by (auto using wst_inw; lia). rewrite wst_nth by (auto; lia). f_equal. lia.
Qed.

(* the sequence *)
Definition sqn (x : list Z) (n : nat) : Z := nth 0 (iter n wst x) 0.

Lemma sqn_window : forall x n j, inw x -> (j < L)%nat -> nth j (iter n wst x) 0 = sqn x (n + j).
Proof.
  intros x n j Hx Hj. unfold sqn. rewrite iter_plus. rewrite (iterw_nth j) by (auto using iter_inw; lia). reflexivity.
Qed.
Lemma sqn_start : forall x j, inw x -> (j < L)%nat -> sqn x j = nth j x 0.
Proof. intros x j Hx Hj. unfold sqn. rewrite iterw_nth by (auto; lia). reflexivity. Qed.
Lemma sqn_rec : forall x k, inw x -> sqn x (k + L) = G (iter k wst x).
Proof.
  intros x k Hx. rewrite <- (wst_last (iter k wst x)) by (apply iter_inw; exact Hx).
  rewrite <- iter_succ. rewrite sqn_window by (auto; lia). f_equal. lia.
Qed.
Lemma sqn_iter : forall x a n, sqn (iter a wst x) n = sqn x (a + n).
Proof. intros. unfold sqn. rewrite <- iter_plus. reflexivity. Qed.
Lemma sqn_val : forall x n, inw x -> V (sqn x n).
Proof. intros x n Hx. unfold sqn. apply inw_nth; [apply iter_inw; exact Hx|lia]. Qed.

End Win.
