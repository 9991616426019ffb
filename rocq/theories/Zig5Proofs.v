(* The layers of the two tables. *)
From Coq Require Import Reals Lra Qreals.
From Verif Require Import Base ProgModel FloatModel FloatSpec FloatProofs RealModel RDiscProofs BinModel BinSpec ZigTable ZigModel ZigSpec PoisRSpec RExpProofs Pois3Proofs Zig1Proofs Zig2Proofs Zig3Proofs Zig4Proofs.
Ltac Zify.zify_post_hook ::= idtac.
Open Scope R_scope.

Definition nx (l : list Q) (i : Z) : Q := nth (Z.to_nat i) l 0%Q.
Lemma tab_nx : forall l i, (0 <= i < Z.of_nat (length l))%Z -> tab l i = Some (nx l i).
Proof. intros l i H. unfold tab, nx. destruct (Z.leb_spec 0 i); [|lia]. apply nth_error_nth'. lia. Qed.
Lemma nx_S : forall l i, (0 <= i)%Z -> nx l (i + 1) = nth (S (Z.to_nat i)) l 0%Q.
Proof. intros l i H. unfold nx. f_equal. lia. Qed.
Lemma hgt_height : forall ly i t, (0 <= i)%Z -> hgt (nx ly i) (nx ly (i + 1)) t = height ly i t.
Proof. intros ly i t H. rewrite nx_S by exact H. reflexivity. Qed.
Lemma d53_R : Q2R d53 = / 2 ^ 53.
Proof. unfold d53, Q2R. cbn. field. Qed.
Lemma ex_tx : forall i, (0 <= i <= 256)%Z -> tab ex_x i = Some (nx ex_x i).
Proof. intros i Hi. apply tab_nx. destruct ex_table as (L & _). rewrite L. lia. Qed.
Lemma ex_ty : forall i, (0 <= i <= 256)%Z -> tab ex_y i = Some (nx ex_y i).
Proof. intros i Hi. apply tab_nx. destruct ex_table as (_ & L & _). rewrite L. lia. Qed.
Lemma nm_tx : forall i, (0 <= i <= 128)%Z -> tab nm_x i = Some (nx nm_x i).
Proof. intros i Hi. apply tab_nx. destruct nm_table as (L & _). rewrite L. lia. Qed.
Lemma nm_ty : forall i, (0 <= i <= 128)%Z -> tab nm_y i = Some (nx nm_y i).
Proof. intros i Hi. apply tab_nx. destruct nm_table as (_ & L & _). rewrite L. lia. Qed.

(* bounds of the layers but the first *)
Definition lay_bnd (B : Q) (lx ly : list Q) (i : nat) : bool :=
  let xi := nth i lx 0%Q in let xj := nth (S i) lx 0%Q in let yi := nth i ly 0%Q in let yj := nth (S i) ly 0%Q in
  (Qle_bool 0 xj && Qle_bool xi B && Qle_bool (xi - xj) 1 && Qle_bool 0 yi && Qle_bool yj 1 && Qle_bool (yj - yi) (xi - xj))%bool.
Definition nlay_bnd (lx ly : list Q) (i : nat) : bool :=
  let xi := nth i lx 0%Q in let xj := nth (S i) lx 0%Q in let yi := nth i ly 0%Q in let yj := nth (S i) ly 0%Q in
  if Qle_bool 1 xi then (Qle_bool 1 (xi * xj) && (Qle_bool 1 xj || (negb (Qle_bool xi 1) && Qle_bool xj 1 && Qle_bool (yj - yi + 2 * d53) ((xi - xj) * xj * (yj - d53)))))%bool
  else (Qle_bool xi 1 && Qle_bool (xi * (xi + (1 # 16384))) 1)%bool.
Lemma ex_bnds : forallb (lay_bnd 8 ex_x ex_y) (seq 1 255) = true.
Proof. vm_compute. reflexivity. Qed.
Lemma nm_bnds : forallb (fun i => lay_bnd 4 nm_x nm_y i && nlay_bnd nm_x nm_y i)%bool (seq 1 127) = true.
Proof. vm_compute. reflexivity. Qed.
Ltac ab H := repeat (let H' := fresh H in apply andb_true_iff in H; destruct H as [H H']).
Lemma lay_bnd_ok : forall N F B lx ly V d i, zig_table N F lx ly V d -> (0 <= i < Z.of_nat N)%Z -> lay_bnd B lx ly (Z.to_nat i) = true ->
  let Xi := Q2R (nx lx i) in let Xj := Q2R (nx lx (i + 1)) in let Yi := Q2R (nx ly i) in let Yj := Q2R (nx ly (i + 1)) in
  (0 <= Xj /\ Xj < Xi /\ Xi <= Q2R B /\ Xi - Xj <= 1) /\ (0 <= Yi /\ Yi < Yj /\ Yj <= 1 /\ Yj - Yi <= Xi - Xj).
Proof.
  intros N F B lx ly V d i HT Hi H. cbv zeta. rewrite !nx_S by lia. unfold nx. unfold lay_bnd in H. ab H.
  destruct HT as (_ & _ & HT). cbv zeta in HT. destruct HT as (_ & _ & _ & HT & _). destruct (HT (Z.to_nat i) ltac:(lia)) as (A & C & _).
  apply Qle_bool_iff, Q2R_le in H, H0, H1, H2, H3, H4. rewrite ?Q2R_minus, ?Q2R_0, ?Q2R_1 in *. repeat split; assumption.
Qed.
Lemma tab_curve : forall N F lx ly V d i, zig_table N F lx ly V d -> (1 <= i <= Z.of_nat N)%Z -> Rabs (Q2R (nx ly i) - F (Q2R (nx lx i))) <= d.
Proof. intros N F lx ly V d i HT Hi. destruct HT as (_ & _ & HT). cbv zeta in HT. destruct HT as (_ & _ & _ & _ & HT). apply (HT (Z.to_nat i)). lia. Qed.
Lemma ex_layer : forall i, (1 <= i < 256)%Z ->
  let Xi := Q2R (nx ex_x i) in let Xj := Q2R (nx ex_x (i + 1)) in let Yi := Q2R (nx ex_y i) in let Yj := Q2R (nx ex_y (i + 1)) in
  (0 <= Xj /\ Xj < Xi /\ Xi <= 8 /\ Xi - Xj <= 1) /\ (0 <= Yi /\ Yi < Yj /\ Yj <= 1 /\ Yj - Yi <= Xi - Xj) /\
  Rabs (Yi - fexp1 Xi) <= / 2 ^ 53 /\ Rabs (Yj - fexp1 Xj) <= / 2 ^ 53.
Proof.
  intros i Hi. cbv zeta. pose proof ex_bnds as B. rewrite forallb_forall in B. specialize (B (Z.to_nat i) ltac:(apply in_seq; lia)).
  destruct (lay_bnd_ok _ _ _ _ _ _ _ i ex_table ltac:(lia) B) as [A1 A2]. change (Q2R 8) with (Q2R (inject_Z 8)) in A1; rewrite Q2R_Z in A1. split; [exact A1|]. split; [exact A2|].
  rewrite <- d53_R. split; apply (tab_curve _ _ _ _ _ _ _ ex_table); lia.
Qed.
Lemma nm_layer : forall i, (1 <= i < 128)%Z ->
  let Xi := Q2R (nx nm_x i) in let Xj := Q2R (nx nm_x (i + 1)) in let Yi := Q2R (nx nm_y i) in let Yj := Q2R (nx nm_y (i + 1)) in
  (0 <= Xj /\ Xj < Xi /\ Xi <= 4 /\ Xi - Xj <= 1) /\ (0 <= Yi /\ Yi < Yj /\ Yj <= 1 /\ Yj - Yi <= Xi - Xj) /\
  Rabs (Yi - fnorm Xi) <= / 2 ^ 53 /\ Rabs (Yj - fnorm Xj) <= / 2 ^ 53 /\
  if Qle_bool 1 (nx nm_x i) then 1 <= Xi /\ 1 <= Xi * Xj /\ (1 <= Xj \/ 1 < Xi /\ Xj <= 1 /\ (fnorm Xj - fnorm Xi) / (Xi - Xj) <= Xj * fnorm Xj)
  else Xi <= 1 /\ Xi * (Xi + 1 / 16384) <= 1.
Proof.
  intros i Hi. cbv zeta. pose proof nm_bnds as B. rewrite forallb_forall in B. specialize (B (Z.to_nat i) ltac:(apply in_seq; lia)).
  cbv beta in B. apply andb_true_iff in B. destruct B as [B C].
  destruct (lay_bnd_ok _ _ _ _ _ _ _ i nm_table ltac:(lia) B) as [A1 A2]. change (Q2R 4) with (Q2R (inject_Z 4)) in A1; rewrite Q2R_Z in A1. split; [exact A1|]. split; [exact A2|].
  assert (F1: Rabs (Q2R (nx nm_y i) - fnorm (Q2R (nx nm_x i))) <= / 2 ^ 53) by (rewrite <- d53_R; apply (tab_curve _ _ _ _ _ _ _ nm_table); lia).
  assert (F2: Rabs (Q2R (nx nm_y (i + 1)) - fnorm (Q2R (nx nm_x (i + 1)))) <= / 2 ^ 53) by (rewrite <- d53_R; apply (tab_curve _ _ _ _ _ _ _ nm_table); lia).
  split; [exact F1|]. split; [exact F2|]. unfold nlay_bnd in C. rewrite <- !nx_S in C by lia. fold (nx nm_x i) (nx nm_y i) in C.
  destruct (Qle_bool 1 (nx nm_x i)) eqn:E1.
  - apply Qle_bool_iff, Q2R_le in E1. rewrite Q2R_1 in E1. split; [exact E1|]. apply andb_true_iff in C. destruct C as [C D].
    apply Qle_bool_iff, Q2R_le in C. rewrite Q2R_1, Q2R_mult in C. split; [exact C|]. apply orb_true_iff in D. destruct D as [D|D].
    + left. apply Qle_bool_iff, Q2R_le in D. rewrite Q2R_1 in D. exact D.
    + right. ab D. apply negb_true_iff, Qlt_of in D. rewrite Q2R_1 in D. apply Qle_bool_iff, Q2R_le in D1, D0. rewrite Q2R_1 in D1.
      split; [exact D|]. split; [exact D1|]. rewrite Q2R_plus, !Q2R_mult, !Q2R_minus, d53_R in D0. replace (Q2R 2) with 2 in D0 by (unfold Q2R; cbn; field).
      set (Xi := Q2R (nx nm_x i)) in *. set (Xj := Q2R (nx nm_x (i + 1))) in *. set (Yi := Q2R (nx nm_y i)) in *. set (Yj := Q2R (nx nm_y (i + 1))) in *.
      apply Rabs_le_inv in F1, F2. set (d := / 2 ^ 53) in *. clearbody d.
      apply Rmult_le_reg_r with (Xi - Xj); [lra|]. unfold Rdiv. rewrite Rmult_assoc, Rinv_l, Rmult_1_r by lra.
      assert ((Xi - Xj) * Xj * (Yj - d) <= (Xi - Xj) * Xj * fnorm Xj) by (apply Rmult_le_compat_l; [apply Rmult_le_pos; lra|lra]). lra.
  - apply andb_true_iff in C. destruct C as [C D]. apply Qle_bool_iff, Q2R_le in C, D. rewrite Q2R_1 in C, D. rewrite Q2R_mult, Q2R_plus in D.
    replace (Q2R (1 # 16384)) with (1 / 16384) in D by (unfold Q2R; cbn; field). split; assumption.
Qed.

Section P.
Variables (f : fmt) (md : rmode) (ex : Q -> Q) (K : R).
Hypothesis Hf : fmt_ok f.
Hypothesis Hw : fmt_wide f.
Hypothesis Pf : (20 <= prec f)%Z.
Local Notation rnd := (fround f md).
Let e := eps f.
Let w := unit_err f.

Lemma zx_facts : forall q xi, (0 <= q <= 1)%Q -> (0 <= xi)%Q -> representable f (zg_x f md q xi) /\ (0 <= zg_x f md q xi)%Q /\ (zg_x f md q xi <= rnd xi)%Q.
Proof.
  intros q xi [Q0 Q1] X0. unfold zg_x. pose proof (rnd_nonneg f md xi X0) as R0. split; [apply rnd_repr; exact Hf|]. split.
  - apply rnd_nonneg. apply Qmult_le_0_compat; assumption.
  - apply repr_rnd_le; [exact Hf|apply rnd_repr; exact Hf|]. rewrite <- (Qmult_1_l (rnd xi)) at 2. apply Qmult_le_compat_r; assumption.
Qed.
Lemma rnd8 : forall x, 0 <= Q2R x <= 8 -> Q2R x - 9 * w <= Q2R (rnd x) <= Q2R x + 9 * w.
Proof.
  intros x H. destruct (e_w f Pf) as (E0 & W0 & EW & _). destruct (rr f Hw f md x 8 ltac:(lia) ltac:(lia) ltac:(lra) ltac:(lra)) as [A B]. unfold w, unit_err. lra.
Qed.
Lemma Qnn : forall q, 0 <= Q2R q -> (0 <= q)%Q.
Proof. intros q H. apply Rle_Qle. rewrite Q2R_0. exact H. Qed.
Lemma Qin : forall q, (0 <= q <= 1)%Q -> 0 <= Q2R q <= 1.
Proof. intros q [A B]. apply Q2R_le in A, B. rewrite Q2R_0 in A. rewrite Q2R_1 in B. split; assumption. Qed.

Hypothesis HK : 0 <= K.
Hypothesis HE : exp_ok f K ex.

(* exponential *)
Lemma ez_test_ok : forall i q y01, (1 <= i < 256)%Z -> (0 <= q <= 1)%Q -> (0 <= y01 <= 1)%Q ->
  let x := zg_x f md q (nx ex_x i) in qlt x (rnd (nx ex_x (i + 1))) = false ->
  exists ok, ez_test f md ex i x y01 = Some ok /\
    (ok = true -> height ex_y i y01 <= fexp1 (Q2R x) + (68 + K) * w) /\ (ok = false -> fexp1 (Q2R x) - (68 + K) * w <= height ex_y i y01).
Proof.
  intros i q y01 Hi Hq Hy x Hx. destruct (ex_layer i Hi) as (HX & HY & Fi & Fj). destruct (e_w f Pf) as (E0 & W0 & _).
  destruct (zx_facts q (nx ex_x i) Hq ltac:(apply Qnn; lra)) as (RX & X0 & X1). fold x in RX, X0, X1.
  apply Q2R_le in X0, X1. rewrite Q2R_0 in X0. apply qlt_f, Qnot_lt_le, Q2R_le in Hx.
  pose proof (rnd8 (nx ex_x i) ltac:(lra)) as R1. pose proof (rnd8 (nx ex_x (i + 1)) ltac:(lra)) as R2.
  exists (ez_ok f md ex (nx ex_x i) (nx ex_x (i + 1)) (nx ex_y i) (nx ex_y (i + 1)) x y01). split.
  - unfold ez_test. rewrite (ex_tx i), (ex_tx (i + 1)), (ex_ty i), (ex_ty (i + 1)) by lia. reflexivity.
  - rewrite <- hgt_height by lia. assert (HXX: Q2R (nx ex_x (i + 1)) - 9 * w <= Q2R x <= Q2R (nx ex_x i) + 9 * w) by lra. split; intro A.
    + exact (ez_ok_true f md ex K Hw Pf HK HE _ _ _ _ x y01 HX HY (Qin _ Hy) HXX X0 RX Fj A).
    + exact (ez_ok_false f md ex K Hw Pf HK HE _ _ _ _ x y01 HX HY (Qin _ Hy) HXX X0 RX Fi Fj A).
Qed.
(* normal *)
Lemma nz_test_ok : forall i q y01, (1 <= i < 128)%Z -> (0 <= q <= 1)%Q -> (0 <= y01 <= 1)%Q ->
  let x := zg_x f md q (nx nm_x i) in qlt x (nx nm_x (i + 1)) = false ->
  exists ok, nz_test f md ex i x y01 = Some ok /\
    (ok = true -> height nm_y i y01 <= fnorm (Q2R x) + (218 + K) * w) /\ (ok = false -> fnorm (Q2R x) - (218 + K) * w <= height nm_y i y01).
Proof.
  intros i q y01 Hi Hq Hy x Hx. destruct (nm_layer i Hi) as (HX & HY & Fi & Fj & C). destruct (e_w f Pf) as (E0 & W0 & _).
  destruct (zx_facts q (nx nm_x i) Hq ltac:(apply Qnn; lra)) as (RX & X0 & X1). fold x in RX, X0, X1.
  apply Q2R_le in X0, X1. rewrite Q2R_0 in X0. apply qlt_f, Qnot_lt_le, Q2R_le in Hx.
  pose proof (rnd8 (nx nm_x i) ltac:(lra)) as R1.
  assert (HXX: Q2R (nx nm_x (i + 1)) <= Q2R x <= Q2R (nx nm_x i) + 9 * w) by lra.
  unfold nz_test. rewrite (nm_tx i), (nm_tx (i + 1)), (nm_ty i), (nm_ty (i + 1)) by lia. cbn [bind]. rewrite <- hgt_height by lia.
  destruct (Qle_bool 1 (nx nm_x i)); (eexists; split; [reflexivity|]).
  - destruct C as (C1 & C2 & C3). exact (nz_cv_ok f md ex K Hf Hw Pf HK HE _ _ _ _ x y01 HX HY (Qin _ Hy) HXX Fi Fj C1 C2 C3).
  - destruct C as (C1 & C2). exact (nz_cc_ok f md ex K Hf Hw Pf HK HE _ _ _ _ x y01 HX HY (Qin _ Hy) HXX Fi Fj C1 C2).
Qed.

(* the part of the layer that is below the curve altogether *)
Lemma height_le : forall N F lx ly V d i t, zig_table N F lx ly V d -> (0 <= i < Z.of_nat N)%Z -> (0 <= t <= 1)%Q -> height ly i t <= Q2R (nx ly (i + 1)).
Proof.
  intros N F lx ly V d i t HT Hi Ht. rewrite nx_S by lia. destruct HT as (_ & _ & HT). cbv zeta in HT. destruct HT as (_ & _ & _ & HT & _). destruct (HT (Z.to_nat i) ltac:(lia)) as (_ & A & _).
  apply Qin in Ht. unfold height. assert (Q2R t * (Q2R (nth (S (Z.to_nat i)) ly 0%Q) - Q2R (nth (Z.to_nat i) ly 0%Q)) <= 1 * (Q2R (nth (S (Z.to_nat i)) ly 0%Q) - Q2R (nth (Z.to_nat i) ly 0%Q))) by (apply Rmult_le_compat_r; lra). lra.
Qed.
Lemma dec : forall F, (forall a b, 0 <= a -> 0 <= b -> Rabs (F a - F b) <= Rabs (a - b)) -> (forall a b, 0 <= a -> a <= b -> F b <= F a) ->
  forall a b E, 0 <= a -> 0 <= b -> 0 <= E -> a <= b + E -> F b - E <= F a.
Proof.
  intros F L M a b E A B E0 H. destruct (Rle_dec a b) as [C|C]; [pose proof (M a b A C); lra|].
  pose proof (L a b A B) as D. rewrite (Rabs_right (a - b)) in D by lra. apply Rabs_le_inv in D. lra.
Qed.
Lemma fexp1_dec : forall a b, 0 <= a -> a <= b -> fexp1 b <= fexp1 a.
Proof. intros a b A B. apply (exp_lip a b A B). Qed.
Lemma fnorm_dec : forall a b, 0 <= a -> a <= b -> fnorm b <= fnorm a.
Proof. intros a b A B. change (fexp1 (b * b / 2) <= fexp1 (a * a / 2)). assert (0 <= a * a) by apply Rle_0_sqr. apply fexp1_dec; [lra|]. assert (a * a <= b * b) by (apply Rmult_le_compat; lra). lra. Qed.
Lemma ex_xj : forall i, (0 <= i < 256)%Z -> 0 <= Q2R (nx ex_x (i + 1)) <= 8 /\ 0 <= Q2R (nx ex_x i).
Proof.
  intros i Hi. assert (A: forall i, (1 <= i <= 256)%Z -> 0 <= Q2R (nx ex_x i) <= 8).
  { intros k Hk. destruct (Z.eq_dec k 256) as [->|N]; [|destruct (ex_layer k ltac:(lia)) as (HX & _); lra]. pose proof (proj1 (proj2 (proj2 ex_table))) as Z. cbv zeta in Z. unfold nx. change (Z.to_nat 256) with 256%nat. rewrite Z. lra. }
  split; [apply A; lia|]. destruct (Z.eq_dec i 0) as [->|N]; [|apply A; lia].
  pose proof (A 1%Z ltac:(lia)) as A1. destruct ex_table as (_ & _ & T). cbv zeta in T. destruct T as (_ & _ & _ & T & _). destruct (T O ltac:(lia)) as (T1 & _). change (nth 1 ex_x 0%Q) with (nx ex_x 1) in T1. change (nth 0 ex_x 0%Q) with (nx ex_x 0) in T1. lra.
Qed.
Lemma nm_xj : forall i, (0 <= i < 128)%Z -> 0 <= Q2R (nx nm_x (i + 1)) <= 4 /\ 0 <= Q2R (nx nm_x i).
Proof.
  intros i Hi. assert (A: forall i, (1 <= i <= 128)%Z -> 0 <= Q2R (nx nm_x i) <= 4).
  { intros k Hk. destruct (Z.eq_dec k 128) as [->|N]; [|destruct (nm_layer k ltac:(lia)) as (HX & _); lra]. pose proof (proj1 (proj2 (proj2 nm_table))) as Z. cbv zeta in Z. unfold nx. change (Z.to_nat 128) with 128%nat. rewrite Z. lra. }
  split; [apply A; lia|]. destruct (Z.eq_dec i 0) as [->|N]; [|apply A; lia].
  pose proof (A 1%Z ltac:(lia)) as A1. destruct nm_table as (_ & _ & T). cbv zeta in T. destruct T as (_ & _ & _ & T & _). destruct (T O ltac:(lia)) as (T1 & _). change (nth 1 nm_x 0%Q) with (nx nm_x 1) in T1. change (nth 0 nm_x 0%Q) with (nx nm_x 0) in T1. lra.
Qed.
Lemma ez_fast : forall i q t, (0 <= i < 256)%Z -> (0 <= q <= 1)%Q -> (0 <= t <= 1)%Q ->
  let x := zg_x f md q (nx ex_x i) in qlt x (rnd (nx ex_x (i + 1))) = true -> height ex_y i t <= fexp1 (Q2R x) + 10 * w.
Proof.
  intros i q t Hi Hq Ht x Hx. pose proof (height_le _ _ _ _ _ _ i t ex_table ltac:(lia) Ht) as A. destruct (ex_xj i Hi) as [J I].
  destruct (zx_facts q (nx ex_x i) Hq ltac:(apply Qnn; lra)) as (RX & X0 & X1). fold x in RX, X0, X1. apply Q2R_le in X0. rewrite Q2R_0 in X0.
  apply qlt_t, Qlt_Rlt in Hx. pose proof (rnd8 (nx ex_x (i + 1)) J) as R. destruct (e_w f Pf) as (E0 & W0 & _ & W2 & _). fold (unit_err f) w in W0, W2.
  pose proof (dec fexp1 fexp1_lip fexp1_dec (Q2R x) (Q2R (nx ex_x (i + 1))) (9 * w) X0 ltac:(lra) ltac:(lra) ltac:(lra)) as D.
  pose proof (tab_curve _ _ _ _ _ _ (i + 1)%Z ex_table ltac:(lia)) as C. rewrite d53_R in C. apply Rabs_le_inv in C. lra.
Qed.
Lemma nz_fast : forall i q t, (0 <= i < 128)%Z -> (0 <= q <= 1)%Q -> (0 <= t <= 1)%Q ->
  let x := zg_x f md q (nx nm_x i) in qlt x (nx nm_x (i + 1)) = true -> height nm_y i t <= fnorm (Q2R x) + w.
Proof.
  intros i q t Hi Hq Ht x Hx. pose proof (height_le _ _ _ _ _ _ i t nm_table ltac:(lia) Ht) as A. destruct (nm_xj i Hi) as [J I].
  destruct (zx_facts q (nx nm_x i) Hq ltac:(apply Qnn; lra)) as (RX & X0 & X1). fold x in RX, X0, X1. apply Q2R_le in X0. rewrite Q2R_0 in X0.
  apply qlt_t, Qlt_Rlt in Hx. destruct (e_w f Pf) as (E0 & W0 & _ & W2 & _). fold (unit_err f) w in W0, W2.
  pose proof (fnorm_dec (Q2R x) (Q2R (nx nm_x (i + 1))) X0 ltac:(lra)) as D.
  pose proof (tab_curve _ _ _ _ _ _ (i + 1)%Z nm_table ltac:(lia)) as C. rewrite d53_R in C. apply Rabs_le_inv in C. lra.
Qed.
End P.
