(* Polynomials over the field of two elements acting on bit sequences by shifts. *)
From Coq Require Import NArith ZArith List Lia Znumtheory Bool.
From Verif Require Import Base OrdProofs Ord2Proofs PerProofs Per2Proofs.
Import ListNotations.

Definition bseq := nat -> bool.
(* bit i of the number is the coefficient of the shift by i *)
Fixpoint actp (p : positive) (a : bseq) (n : nat) : bool :=
  match p with
  | xH => a n
  | xO p => actp p a (S n)
  | xI p => xorb (a n) (actp p a (S n))
  end.
Definition act (P : N) (a : bseq) (n : nat) : bool := match P with N0 => false | Npos p => actp p a n end.

Lemma act_double P a n : act (N.double P) a n = act P a (S n).
Proof. destruct P; reflexivity. Qed.
Lemma act_succ_double P a n : act (N.succ_double P) a n = xorb (a n) (act P a (S n)).
Proof. destruct P; cbn; [rewrite xorb_false_r|]; reflexivity. Qed.

Lemma act_lxor P Q a n : act (N.lxor P Q) a n = xorb (act P a n) (act Q a n).
Proof.
  destruct P as [|p], Q as [|q]; cbn [N.lxor act]; rewrite ?xorb_false_r, ?xorb_false_l; try reflexivity.
  revert q n. induction p as [p IH|p IH|]; intros [q|q|] n; cbn [Pos.lxor actp];
    rewrite ?act_double, ?act_succ_double, ?IH; cbn [act actp];
    repeat match goal with |- context [a ?x] => destruct (a x) end; repeat match goal with |- context [actp ?x a ?y] => destruct (actp x a y) end; reflexivity.
Qed.

Lemma actp_ext p a b : (forall n, a n = b n) -> forall n, actp p a n = actp p b n.
Proof. intros H. induction p as [p IH|p IH|]; intros n; cbn [actp]; rewrite ?IH, ?H; reflexivity. Qed.
Lemma act_ext P a b : (forall n, a n = b n) -> forall n, act P a n = act P b n.
Proof. intros H n. destruct P; [reflexivity|]. apply actp_ext. exact H. Qed.
Lemma actp_zero p n : actp p (fun _ => false) n = false.
Proof. revert n. induction p as [p IH|p IH|]; intros n; cbn [actp]; rewrite ?IH; reflexivity. Qed.
Lemma act_zero P n : act P (fun _ => false) n = false.
Proof. destruct P; [reflexivity|]. apply actp_zero. Qed.

Section Rec.
  Context (k q : nat).
  Definition recur (a : bseq) : Prop := forall n, a (n + k)%nat = xorb (a n) (a (n + q)%nat).

  Lemma recur_actp p a : recur a -> recur (actp p a).
  Proof.
    intros H. induction p as [p IH|p IH|]; intros n; cbn [actp]; [|rewrite <- !plus_Sn_m; apply IH|apply H].
    rewrite H. rewrite <- !plus_Sn_m, IH. cbn [Nat.add].
    destruct (a n), (a (n + q)%nat), (actp p a (S n)), (actp p a (S (n + q))); reflexivity.
  Qed.
  Lemma recur_act P a : recur a -> recur (act P a).
  Proof. intros H. destruct P; [intros n; reflexivity|]. apply recur_actp. exact H. Qed.

  Fixpoint mono (i : nat) : N := match i with O => 1%N | S i => N.double (mono i) end.
  Lemma act_mono i a n : act (mono i) a n = a (n + i)%nat.
  Proof. revert n. induction i as [|i IH]; intros n; [cbn; rewrite Nat.add_0_r; reflexivity|]. cbn [mono]. rewrite act_double, IH. f_equal. lia. Qed.

  Definition gmod : N := N.lxor (N.lxor 1 (mono q)) (mono k).
  Lemma act_gmod a n : recur a -> act gmod a n = false.
  Proof. intros H. unfold gmod. rewrite !act_lxor, !act_mono, H. cbn [act actp]. destruct (a n), (a (n + q)%nat); reflexivity. Qed.

  Definition mulx (R : N) : N := let D := N.double R in if N.testbit D (N.of_nat k) then N.lxor D gmod else D.
  Lemma act_mulx R a n : recur a -> act (mulx R) a n = act R a (S n).
  Proof.
    intros H. unfold mulx. cbn zeta. destruct (N.testbit _ _); [rewrite act_lxor, act_gmod, xorb_false_r by exact H|]; apply act_double.
  Qed.
  Fixpoint mulp (p : positive) (Q : N) : N :=
    match p with
    | xH => Q
    | xO p => mulx (mulp p Q)
    | xI p => N.lxor Q (mulx (mulp p Q))
    end.
  Definition mul (P Q : N) : N := match P with N0 => 0%N | Npos p => mulp p Q end.
  Lemma act_mul P Q a n : recur a -> act (mul P Q) a n = act P (act Q a) n.
  Proof.
    intros H. destruct P as [|p]; [reflexivity|]. cbn [mul act]. revert n.
    induction p as [p IH|p IH|]; intros n; cbn [mulp actp]; rewrite ?act_lxor, ?act_mulx, ?IH by exact H; reflexivity.
  Qed.

  (* the shift by e *)
  Fixpoint xpow (e : positive) : N :=
    match e with
    | xH => 2%N
    | xO e => let r := xpow e in mul r r
    | xI e => let r := xpow e in mulx (mul r r)
    end.
  Lemma act_xpow e : forall a n, recur a -> act (xpow e) a n = a (n + Pos.to_nat e)%nat.
  Proof.
    assert (D: forall e, (forall a n, recur a -> act (xpow e) a n = a (n + Pos.to_nat e)%nat) ->
      forall a n, recur a -> act (mul (xpow e) (xpow e)) a n = a (n + Pos.to_nat (xO e))%nat).
    { intros e' IH a n H. rewrite act_mul by exact H. rewrite (IH _ n (recur_act _ a H)), (IH a _ H). f_equal. rewrite Pos2Nat.inj_xO. lia. }
    induction e as [e IH|e IH|]; intros a n H.
    - cbn [xpow]. cbn zeta. rewrite act_mulx, D by auto. f_equal. rewrite Pos2Nat.inj_xI, Pos2Nat.inj_xO. lia.
    - cbn [xpow]. cbn zeta. apply D; auto.
    - cbn [xpow act actp]. f_equal. cbn [Pos.to_nat Pos.iter_op]. lia.
  Qed.

  Local Open Scope Z_scope.
  (* a full period by certificate: the primes of M, each with an inverse *)
  Definition cert_ok (M : positive) (l : list (Z * N)) : bool :=
    (N.eqb (xpow M) 1 && forallb (fun x => N.eqb (mul (snd x) (N.lxor (xpow (Z.to_pos (Z.pos M / fst x))) 1)) 1) l)%bool.

  Lemma per_full M l a : recur a -> (exists n, a n = true) -> (forall q, In q (map fst l) -> prime q) -> zprod (map fst l) = Z.pos M ->
    cert_ok M l = true -> forall p, per a p <-> (Z.pos M | Z.of_nat p).
  Proof.
    intros H [n0 Hn0] HP HZ HC. apply andb_prop in HC. destruct HC as [H1 H2]. apply N.eqb_eq in H1. rewrite forallb_forall in H2.
    assert (HM: per a (Pos.to_nat M)).
    { intros n. rewrite <- act_xpow, H1 by exact H. reflexivity. }
    assert (HQ: forall x, In x l -> ~ per a (Z.to_nat (Z.pos M / fst x))).
    { intros x Hx HQ. specialize (H2 x Hx). apply N.eqb_eq in H2. set (P := N.lxor (xpow (Z.to_pos (Z.pos M / fst x))) 1) in *.
      assert (Hp: prime (fst x)) by (apply HP, in_map; exact Hx). pose proof (prime_ge_2 _ Hp).
      assert (HD: (fst x | Z.pos M)).
      { rewrite <- HZ. clear -Hx. induction l as [|y l IH]; [contradiction|]. cbn [map]. change (zprod (fst y :: map fst l)) with (fst y * zprod (map fst l)).
        destruct Hx as [->|Hx]; [apply Z.divide_factor_l|]. apply Z.divide_mul_r. apply IH. exact Hx. }
      assert (HPM: 0 < Z.pos M / fst x).
      { destruct HD as [w Hw]. rewrite Hw, Z.div_mul by lia. nia. }
      assert (HZ0: forall n, act P a n = false).
      { intros n. unfold P. rewrite act_lxor, act_xpow by exact H.
        replace (Pos.to_nat (Z.to_pos (Z.pos M / fst x))) with (Z.to_nat (Z.pos M / fst x)) by (rewrite <- Z2Nat.inj_pos, Z2Pos.id by exact HPM; reflexivity).
        rewrite HQ. cbn [act actp]. apply xorb_nilpotent. }
      assert (HI: act (mul (snd x) P) a n0 = false).
      { rewrite act_mul by exact H. rewrite (act_ext _ _ (fun _ => false) HZ0). apply act_zero. }
      rewrite H2 in HI. cbn [act actp] in HI. congruence. }
    intros p. split.
    - intros Hp. pose proof (per_gcd _ _ _ HM Hp) as HG. set (g := Nat.gcd (Pos.to_nat M) p) in *.
      destruct (Nat.gcd_divide_l (Pos.to_nat M) p) as [c Hc]. destruct (Nat.gcd_divide_r (Pos.to_nat M) p) as [c' Hc']. fold g in Hc, Hc'.
      assert (HcZ: Z.pos M = Z.of_nat c * Z.of_nat g) by (rewrite <- positive_nat_Z, Hc; lia).
      destruct (Nat.eq_dec c 1) as [->|Hne].
      + exists (Z.of_nat c'). rewrite Hc' at 1. nia.
      + exfalso. destruct (prime_divisor (Z.of_nat c) ltac:(nia)) as [r [Hr [w Hw]]].
        assert (Hin: In r (map fst l)).
        { assert (HD: (r | zprod (map fst l))) by (rewrite HZ, HcZ, Hw; exists (w * Z.of_nat g); ring).
          revert HD HP. clear -Hr. generalize (map fst l). intros L. induction L as [|y L IH]; intros HD HP.
          - change (zprod []) with 1 in HD. destruct (div_one r Hr HD).
          - change (zprod (y :: L)) with (y * zprod L) in HD. apply prime_mult in HD; [|exact Hr]. destruct HD as [HD|HD].
            + left. symmetry. apply prime_div_prime; auto. apply HP. left. reflexivity.
            + right. apply IH; [exact HD|]. intros z Hz. apply HP. right. exact Hz. }
        apply in_map_iff in Hin. destruct Hin as [x [<- Hx]]. pose proof (prime_ge_2 _ Hr). apply (HQ x Hx).
        assert (E: Z.to_nat (Z.pos M / fst x) = (g * Z.to_nat w)%nat).
        { rewrite HcZ, Hw. replace (w * fst x * Z.of_nat g) with (w * Z.of_nat g * fst x) by ring. rewrite Z.div_mul by lia.
          assert (0 <= w) by nia. rewrite Z2Nat.inj_mul, Nat2Z.id by lia. lia. }
        rewrite E. apply per_mul. exact HG.
    - intros [w Hw]. assert (E: p = (Pos.to_nat M * Z.to_nat w)%nat).
      { apply Nat2Z.inj. rewrite Nat2Z.inj_mul, positive_nat_Z, Z2Nat.id by lia. lia. }
      rewrite E. apply per_mul. exact HM.
  Qed.
End Rec.
