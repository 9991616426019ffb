(* reading an engine from text *)
From Verif Require Import Base QrngModel QrngSpec UIntProofs QrngProofs Qrng2Proofs Qrng4Proofs.
Ltac Zify.zify_post_hook ::= idtac.

Lemma as_ge : forall c q lat st, Qe c q lat st = ge lat c q (fun j => nth j st 0) (length st).
Proof.
  intros. unfold ge. f_equal. clear. induction st as [|x st IH]; [reflexivity|]. cbn [length seq map nth]. f_equal.
  rewrite <- seq_shift, map_map. exact IH.
Qed.

Lemma g_seed_any : forall (W w : nat) lat D c q st m, (1 <= w <= W)%nat -> (1 <= D)%nat -> length lat = (w * D)%nat -> length st = D ->
  0 <= m < 2 ^ Z.of_nat w - 1 -> m <> q -> g_seed (Z.of_nat W) (Z.of_nat w) (Qe c q lat st) m = Ret (at_ (gpt lat D w) m 0) tt.
Proof.
  intros W w lat D c q st m Hw HD HL HS Hm HN.
  assert (PW : 2 ^ Z.of_nat w <= 2 ^ Z.of_nat W) by (apply Z.pow_le_mono_r; lia).
  unfold g_seed. cbn [q_seq]. destruct (Z.eqb_spec m q) as [E|_]; [contradiction|].
  rewrite wrap_small by lia. destruct (Z.ltb_spec m (m + 1)); [|lia]. cbn [negb].
  assert (EG : Z.lxor (m + 1) (Z.shiftr (m + 1) 1) = gray (m + 1)) by (unfold gray; rewrite Z.shiftr_div_pow2 by lia; reflexivity).
  rewrite EG. destruct (gray_bound (m + 1) (Z.of_nat w) ltac:(lia) ltac:(lia)) as (G1 & G2).
  assert (EB : (Z.of_nat w <? Z.of_nat W) && (g_max (Z.of_nat w) <? gray (m + 1)) = false) by (unfold g_max; destruct (Z.ltb_spec (2 ^ Z.of_nat w - 1) (gray (m + 1))); [lia|apply andb_false_r]).
  rewrite EB. rewrite as_ge, HS, set_zero_ok.
  pose proof (g_loop_ok lat c q D w HL (S (Z.to_nat (Z.of_nat W))) (gray (m + 1)) 0 (fun _ => 0) ltac:(lia)) as GL.
  rewrite Nat.sub_0_r in GL. change (Z.of_nat 0) with 0 in GL. rewrite GL by lia. unfold reset_seq. cbn [ge q_lat q_st]. f_equal.
  unfold at_. cbn [gpt fst snd]. f_equal. unfold point. apply map_ext. intros j. rewrite Z.lxor_0_l. unfold coord.
  apply xsum_ext. intros k Hk. f_equal. lia.
Qed.

Lemma vresize_length : forall V (z : V) n l, length (vresize z n l) = n.
Proof. intros. unfold vresize. rewrite app_length, firstn_length, repeat_length. lia. Qed.

Lemma read_ok : forall (W w : nat) lattice D lat D' lat' e t, (1 <= w <= W)%nat -> (W <= 64)%nat ->
  (1 <= D)%nat -> Z.of_nat D < 2 ^ 63 -> lattice (Z.of_nat D) = Some lat -> length lat = (w * D)%nat ->
  (1 <= D')%nat -> Z.of_nat D' < 2 ^ 63 -> lattice (Z.of_nat D') = Some lat' -> length lat' = (w * D')%nat ->
  reach W w lattice D e -> reach W w lattice D' t -> (D = D' \/ q_seq t <> q_seq e) ->
  q_read (Z.of_nat W) (gray_ops (Z.of_nat W) (Z.of_nat w)) (fun _ => lattice) 0 t (q_print e) = Ret e tt.
Proof.
  intros W w lattice D lat D' lat' e t Hw HW HD HD2 HLat HLen HE HE2 HLat' HLen' Re Rt HO.
  pose proof (gray_derived W w lat D Hw HW HD HD2 HLen) as HD1. pose proof (gray_derived W w lat' D' Hw HW HE HE2 HLen') as HD1'.
  destruct (reach_at W w lattice D lat (conj Hw HW) (conj HD HD2) HLat HLen e Re) as (n & c & Hn & Hc & ->).
  destruct (reach_at W w lattice D' lat' (conj Hw HW) (conj HE HE2) HLat' HLen' t Rt) as (n' & c' & Hn' & Hc' & ->).
  unfold q_read, q_print. rewrite (q_dim_at _ _ _ _ _ HD1) by exact Hn. rewrite (q_dim_at _ _ _ _ _ HD1') by exact Hn'.
  cbn [at_ q_seq q_curr] in HO |- *. fold (at_ (gpt lat' D' w) n' c').
  destruct (Z.eqb_spec (Z.of_nat D) 0); [lia|].
  assert (K : match d_seed (gray_ops (Z.of_nat W) (Z.of_nat w)) (at_ (gpt lat D w) n 0) n with Ret e2 _ => if c =? 0 then Ret e2 tt else q_discard (Z.of_nat W) (gray_ops (Z.of_nat W) (Z.of_nat w)) e2 c | Thr e2 => Thr e2 | Bad => Bad end = Ret (at_ (gpt lat D w) n c) tt).
  { pose proof HD1 as (_ & _ & _ & _ & _ & _ & D6 & _). rewrite (D6 n n 0 Hn Hn). destruct (Z.eqb_spec c 0) as [->|N]; [reflexivity|].
    rewrite (discard_ok _ _ _ _ _ HD1) by lia. rewrite Z.add_0_r.
    destruct (Z.leb_spec (n * Z.of_nat D + c) (ends (Z.of_nat D) (2 ^ Z.of_nat w - 2))) as [H|H].
    - destruct (Z.eqb_spec c 0); [contradiction|]. unfold after. destruct (pos_pred _ _ _ _ _ HD1 n c ltac:(lia) ltac:(lia)) as [-> ->]. reflexivity.
    - exfalso. unfold ends in H. assert (n * Z.of_nat D <= (2 ^ Z.of_nat w - 2) * Z.of_nat D) by (apply Z.mul_le_mono_nonneg_r; lia). lia. }
  destruct (Z.eqb_spec (Z.of_nat D') (Z.of_nat D)) as [E|E].
  - assert (D' = D) by lia. subst D'. rewrite HLat in HLat'. assert (lat' = lat) by congruence. subst lat'.
    pose proof HD1 as (_ & _ & _ & _ & _ & _ & D6 & _). rewrite (D6 n' n c' Hn' Hn). rewrite (D6 n n 0 Hn Hn) in K. exact K.
  - rewrite HLat. cbn [gray_ops d_seed]. rewrite Nat2Z.id.
    rewrite (g_seed_any W w lat D) by (try assumption; try apply vresize_length; try lia). 
    cbn [gray_ops d_seed] in K. pose proof HD1 as (_ & _ & _ & _ & _ & _ & D6 & _). cbn [gray_ops d_seed] in D6. rewrite (D6 n n 0 Hn Hn) in K. exact K.
Qed.
