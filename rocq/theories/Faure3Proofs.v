(* faure.hpp: the engine *)
From Coq Require Import ZArith Znumtheory Arith Lia List QArith Qround.
From Verif Require Import Base NumProofs UIntProofs PolyModel QrngModel QrngSpec QrngProofs QReachProofs FloatModel FloatSpec FloatProofs RealModel
  FaureModel FaureSpec FaureNetProofs FaureNet2Proofs FaureProofs Faure2Proofs Qrng5Proofs.
Ltac Zify.zify_post_hook ::= idtac.
Open Scope Z_scope.

(* n has h digits in base b *)
Definition has_digits (b n : Z) (h : nat) : Prop := (1 <= h)%nat /\ (h = 1%nat \/ b ^ Z.of_nat (h - 1) <= n) /\ n < b ^ Z.of_nat h.

Lemma has_digits_fun : forall b n h h', 2 <= b -> has_digits b n h -> has_digits b n h' -> h = h'.
Proof.
  assert (K : forall b n h h', 2 <= b -> has_digits b n h -> has_digits b n h' -> (h < h')%nat -> False).
  { intros b n h h' Hb (H1 & H2 & H3) (H1' & H2' & H3') HL. destruct H2' as [->|H2']; [lia|].
    assert (b ^ Z.of_nat h <= b ^ Z.of_nat (h' - 1)) by (apply Z.pow_le_mono_r; lia). lia. }
  intros b n h h' Hb H H'. destruct (lt_eq_lt_dec h h') as [[L|L]|L]; [destruct (K b n h h' Hb H H' L)|exact L|destruct (K b n h' h Hb H' H L)].
Qed.

Section Real.
Variables (f : fmt) (md : rmode).
Hypothesis Hf : fmt_ok f.
Variables (Ws b : Z) (D : nat).
Hypothesis HW : 0 < Ws <= 64.
Hypothesis Hb : 2 <= b < 2 ^ 16.
Hypothesis HbW : b < 2 ^ Ws.
Hypothesis HD : (1 <= D)%nat /\ Z.of_nat D < 2 ^ 63.
(* all the sums are exact *)
Hypothesis HE : forall h, (1 <= h)%nat -> b ^ Z.of_nat (h - 1) < 2 ^ Ws -> Z.of_nat h * (b - 1) ^ 2 <= 2 ^ prec f.

Lemma b_le_prec : b <= 2 ^ prec f.
Proof using Hf Hb HE HW.
  clear HbW HD. pose proof (HE 1%nat ltac:(lia)) as H. change (b ^ Z.of_nat (1 - 1)) with 1 in H. assert (1 < 2 ^ Ws) by (apply Z.pow_gt_1; lia). specialize (H ltac:(lia)).
  rewrite Z.mul_1_l, Z.pow_2_r in H. destruct Hf as [P _]. destruct (Z.eq_dec b 2) as [->|]; [|nia]. change 2 with (2 ^ 1) at 1. apply Z.pow_le_mono_r; lia.
Qed.

(* the lattice between two calls *)
Definition lat_ok (l : flat) : Prop := f_base l = b /\
  (f_coeff l = [] \/ exists h, (1 <= h)%nat /\ compute_coefficients b h = Some (f_coeff l) /\ length (f_y l) = h /\ f_pow l = b ^ Z.of_nat (h - 1)).

(* the coordinates as computed *)
Definition fcoord (h : nat) (n : Z) (c : nat) : Q :=
  match c with
  | O => rr f md b (h - 1) n 0
  | S _ => sv f md b (map (fdigit b n c) (seq 0 h)) 1 0
  end.

Lemma update_ok : forall n, 0 <= n < 2 ^ Ws ->
  exists h tab, has_digits b n h /\ compute_coefficients b h = Some tab /\
  forall l, lat_ok l -> f_update f md Ws n D l =
    Some (map (fcoord h n) (seq 0 D), Fl b tab (map (fun i => inject_Z (fdigit b n (D - 1) i)) (seq 0 h)) (b ^ Z.of_nat (h - 1))).
Proof using Hf HW Hb HbW HD HE.
  intros n Hn. destruct (log_ok b (Z.to_nat Ws) n 0 ltac:(lia)) as (L & EL & HL & HU); [rewrite Z2Nat.id by lia; exact Hn|].
  exists (S L). rewrite Z.add_0_l in EL. assert (HH : has_digits b n (S L)).
  { split; [lia|]. split; [|exact HU]. rewrite Nat.sub_succ, Nat.sub_0_r. destruct HL as [->|HL]; [left; reflexivity|right; exact HL]. }
  destruct (coefficients_ok b (S L) Hb ltac:(lia)) as (tab & ET & HT). exists tab. split; [exact HH|]. split; [exact ET|].
  intros l [EB HC]. destruct D as [|d] eqn:ED; [lia|]. unfold f_update. cbv zeta. rewrite EB. assert (EWB : wrap Ws b = b) by (unfold wrap; apply Z.mod_small; lia). rewrite EWB, EL. cbn [bind].
  replace (Z.to_nat (Z.of_nat L + 1)) with (S L) by lia. assert (HBL : b ^ Z.of_nat L < 2 ^ Ws) by (destruct HL as [->|HL]; [change (b ^ Z.of_nat 0) with 1; apply Z.pow_gt_1; lia|lia]).
  assert (EX : Z.of_nat (S L) * (b - 1) ^ 2 <= 2 ^ prec f) by (apply HE; [lia|]; rewrite Nat.sub_succ, Nat.sub_0_r; exact HBL).
  assert (HLW : (L < Z.to_nat Ws)%nat).
  { apply Nat2Z.inj_lt. rewrite Z2Nat.id by lia. apply (Z.pow_lt_mono_r_iff 2); [lia|lia|]. apply Z.le_lt_trans with (b ^ Z.of_nat L); [apply Z.pow_le_mono_l; lia|exact HBL]. }
  assert (K : exists y, (if (length (f_coeff l) =? size_hint (S L))%nat then Some l
     else c <- compute_coefficients b (S L);; Some (Fl b c (vresize 0%Q (S L) (f_y l)) (integer_pow (Z.to_nat Ws) Ws b (Z.of_nat L) 1))) = Some (Fl b tab y (b ^ Z.of_nat L)) /\ length y = S L).
  { destruct (Nat.eqb_spec (length (f_coeff l)) (size_hint (S L))) as [E|E].
    - destruct HC as [HC|(h & Hh & EC & EY & EP)]; [rewrite HC in E; cbn [length] in E; pose proof (size_hint_pos (S L)); lia|].
      destruct (coefficients_ok b h Hb Hh) as (tab' & ET' & HT' & _). rewrite ET' in EC. assert (tab' = f_coeff l) by congruence. subst tab'. rewrite HT' in E.
      apply size_hint_inj in E. rewrite E in ET', EY, EP. assert (tab = f_coeff l) by congruence. exists (f_y l). split; [|exact EY]. destruct l as [lb lc ly lp]. cbn [f_base f_coeff f_y f_pow] in *. 
      rewrite Nat.sub_succ, Nat.sub_0_r in EP. congruence.
    - rewrite ET. cbn [bind]. exists (vresize 0%Q (S L) (f_y l)). split; [|apply vresize_length]. do 2 f_equal.
      rewrite pow_ok; [|lia| |split; [lia|apply Z.pow_gt_1; lia]].
      + rewrite Z.mul_1_l. unfold wrap. apply Z.mod_small. split; [apply Z.pow_nonneg; lia|exact HBL].
      + split; [lia|]. apply Z.lt_le_trans with (Z.of_nat (Z.to_nat Ws)); [lia|]. rewrite Z2Nat.id by lia. apply Z.lt_le_incl. apply Z.pow_gt_lin_r; lia. }
  destruct K as (y & EK & HY). rewrite EK. cbn [bind f_base f_coeff f_y f_pow]. rewrite HY.
  destruct (recip_ok f md Hf b (conj (proj1 Hb) b_le_prec) L (S (Z.to_nat Ws)) n 0%Q y) as (y' & ER & LY & RY); [lia|lia|lia|].
  rewrite ER. cbn [bind fst snd].
  assert (EY : y' = map (fun i => inject_Z (fdigit b n 0 i)) (seq 0 (S L))).
  { apply list_of_rd; [congruence|]. intros i Hi. rewrite RY. destruct (Nat.leb_spec i L); [|lia]. f_equal. f_equal.
    rewrite (fdigit_TD b n 0 i (S L)) by lia. change (Z.of_nat 0) with 0. rewrite TD_0 by exact Hi. pose proof (digit_range b n i). symmetry. apply Z.mod_small. lia. }
  rewrite (coords_ok f md Hf b tab n (S L) ltac:(lia) HT EX b_le_prec ltac:(lia) d 0 y' EY). cbn [bind fst snd].
  rewrite Nat.sub_succ, !Nat.sub_0_r. f_equal. f_equal. cbn [seq map]. rewrite <- (seq_shift d 0). f_equal.
  - unfold fcoord. rewrite Nat.sub_succ, Nat.sub_0_r. reflexivity.
  - rewrite !map_map. apply map_ext. intros c. reflexivity.
  - f_equal. rewrite Nat.sub_succ, Nat.sub_0_r. reflexivity.
Qed.

(* the points *)
Definition fpt (n : Z) : flat * list Q :=
  match f_update f md Ws n D (Fl b [] [] 0) with Some (st, l) => (l, st) | None => (Fl b [] [] 0, []) end.

Lemma lat_new : forall y p, lat_ok (Fl b [] y p).
Proof using. intros. split; [reflexivity|left; reflexivity]. Qed.

Lemma update_pt : forall n, 0 <= n < 2 ^ Ws -> lat_ok (fst (fpt n)) /\ length (snd (fpt n)) = D /\
  forall l, lat_ok l -> f_update f md Ws n D l = Some (snd (fpt n), fst (fpt n)).
Proof using Hf HW Hb HbW HD HE.
  intros n Hn. destruct (update_ok n Hn) as (h & tab & HH & ET & HU). unfold fpt. rewrite (HU _ (lat_new [] 0)). cbn [fst snd].
  split; [|split; [rewrite map_length, seq_length; reflexivity|exact HU]].
  split; [reflexivity|]. right. exists h. destruct HH as (H1 & _). split; [exact H1|]. split; [exact ET|]. split; [cbn [f_y]; rewrite map_length, seq_length; reflexivity|reflexivity].
Qed.

Lemma fpt_coord : forall n, 0 <= n < 2 ^ Ws -> exists h, has_digits b n h /\ snd (fpt n) = map (fcoord h n) (seq 0 D).
Proof using Hf HW Hb HbW HD HE.
  intros n Hn. destruct (update_ok n Hn) as (h & tab & HH & ET & HU). exists h. split; [exact HH|]. unfold fpt. rewrite (HU _ (lat_new [] 0)). reflexivity.
Qed.

Lemma seed_any : forall c q l st m, lat_ok l -> length st = D -> 0 <= m < 2 ^ Ws -> f_seed f md Ws (Qe c q l st) m = Ret (at_ fpt m 0) tt.
Proof using Hf HW Hb HbW HD HE.
  intros c q l st m Hl HS Hm. destruct (update_pt m Hm) as (_ & _ & HU). unfold f_seed, f_comp. cbn [q_st q_lat]. rewrite HS, (HU l Hl). reflexivity.
Qed.

Lemma faure_derived : derived_ok Ws (faure_ops f md Ws) (Z.of_nat D) (2 ^ Ws - 1) fpt.
Proof using Hf HW Hb HbW HD HE.
  assert (P : 0 < 2 ^ Ws) by (apply Z.pow_pos_nonneg; lia).
  split; [lia|]. split; [lia|]. split; [lia|]. split; [|split; [|split; [|split]]].
  - intros n Hn. f_equal. apply update_pt. lia.
  - intros n c Hn Hl. cbn [faure_ops d_comp]. unfold f_comp, at_. cbn [q_st q_lat q_curr q_seq].
    destruct (update_pt n ltac:(lia)) as (Hlat & -> & _). destruct (update_pt (n + 1) ltac:(lia)) as (_ & _ & HU). rewrite (HU _ Hlat). reflexivity.
  - intros c H. lia.
  - intros n m c Hn Hm. cbn [faure_ops d_seed]. destruct (update_pt n ltac:(lia)) as (Hlat & HLen & _). apply seed_any; [exact Hlat|exact HLen|lia].
  - intros n m c Hn Hm. lia.
Qed.

Lemma new_ok : forall lb, lb (Z.of_nat D) = Some b -> f_new f md Ws lb (Z.of_nat D) = Some (Ret (at_ fpt 0 0) tt).
Proof using Hf HW Hb HbW HD HE.
  intros lb HL. unfold f_new. destruct (Z.eqb_spec (Z.of_nat D) 0); [lia|]. unfold f_resize. rewrite HL. cbn [bind f_y f_pow].
  rewrite seed_any; [reflexivity|apply lat_new|rewrite repeat_length; lia|split; [lia|apply Z.pow_pos_nonneg; lia]].
Qed.
End Real.
