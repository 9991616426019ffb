(* A certificate for the order of an element modulo m, and some primes. *)
From Coq Require Import ZArith List Lia Znumtheory Zpow_facts.
From Verif Require Import Base NumProofs OrdProofs.
Import ListNotations. Open Scope Z_scope.

Section Cert.
  (* modular arithmetic with some reduction that preserves the residue *)
  Context (m : Z) (red : Z -> Z) (Hm : 1 < m) (Hred : forall x, red x mod m = x mod m).

  Fixpoint ppow (b : Z) (e : positive) : Z :=
    match e with
    | xH => b
    | xO e => let x := ppow b e in red (x * x)
    | xI e => let x := ppow b e in red (red (x * x) * b)
    end.
  Definition zpow (b e : Z) : Z := ppow b (Z.to_pos e).

  Lemma ppow_ok b e : ppow b e mod m = b ^ Z.pos e mod m.
  Proof.
    induction e as [e IH|e IH|]; cbn [ppow].
    - rewrite Hred. rewrite Z.mul_mod by lia. rewrite Hred.
      assert (E: (ppow b e * ppow b e) mod m = (b ^ (2 * Z.pos e)) mod m).
      { rewrite Z.mul_mod by lia. rewrite IH. rewrite <- Z.mul_mod by lia. rewrite Z.pow_twice_r. reflexivity. }
      rewrite E. rewrite <- Z.mul_mod by lia. rewrite Pos2Z.inj_xI, Z.pow_add_r, Z.pow_1_r by lia. reflexivity.
    - rewrite Hred. rewrite Z.mul_mod by lia. rewrite IH. rewrite <- Z.mul_mod by lia.
      rewrite Pos2Z.inj_xO, Z.pow_twice_r. reflexivity.
    - rewrite Z.pow_1_r. reflexivity.
  Qed.

  Lemma zpow_ok b e : 0 < e -> zpow b e mod m = b ^ e mod m.
  Proof. intros H. unfold zpow. rewrite ppow_ok. rewrite Z2Pos.id by exact H. reflexivity. Qed.

  (* gcd (g^(prod l / q) - 1, m) = 1 for all q in l *)
  Fixpoint chk (fuel : nat) (g : Z) (l : list Z) : bool :=
    match l with
    | [] => true
    | [q] => Z.gcd (g - 1) m =? 1
    | _ => match fuel with
           | O => false
           | S k => let h := Nat.div2 (length l) in
               let L := firstn h l in let R := skipn h l in
               (chk k (zpow g (zprod R)) L && chk k (zpow g (zprod L)) R)%bool
           end
    end.

  Lemma zprod_app l l' : zprod (l ++ l') = zprod l * zprod l'.
  Proof. induction l as [|x l IH]; [cbn [app]; change (zprod []) with 1; ring|].
    cbn [app]. change (zprod (x :: l ++ l')) with (x * zprod (l ++ l')). rewrite IH.
    change (zprod (x :: l)) with (x * zprod l). ring. Qed.
  Lemma zprod_pos l : (forall q, In q l -> 0 < q) -> 0 < zprod l.
  Proof. induction l as [|x l IH]; intros H; [reflexivity|]. change (zprod (x :: l)) with (x * zprod l).
    apply Z.mul_pos_pos; [apply H; left; reflexivity|apply IH; intros q Hq; apply H; right; exact Hq]. Qed.
  Lemma zprod_in l q : In q l -> (q | zprod l).
  Proof. induction l as [|x l IH]; intros H; [destruct H|]. change (zprod (x :: l)) with (x * zprod l).
    destruct H as [-> | H]; [apply Z.divide_factor_l|apply Z.divide_mul_r; apply IH; exact H]. Qed.

  Lemma pow_mod_cong a b e : 0 <= e -> a mod m = b mod m -> a ^ e mod m = b ^ e mod m.
  Proof.
    intros He H. rewrite <- (Z2Nat.id e) by exact He. generalize (Z.to_nat e). intros n.
    induction n as [|n IH]; [reflexivity|]. rewrite Nat2Z.inj_succ, !Z.pow_succ_r by lia.
    rewrite Z.mul_mod, H, IH, <- Z.mul_mod by lia. reflexivity.
  Qed.

  Lemma gcd_cong a b : a mod m = b mod m -> Z.gcd a m = Z.gcd b m.
  Proof. intros H. rewrite (Z.gcd_comm a), (Z.gcd_comm b).
    rewrite <- (Z.gcd_mod a m), <- (Z.gcd_mod b m) by lia. rewrite H. reflexivity. Qed.

  Lemma chk_ok fuel : forall g h l, (forall q, In q l -> 0 < q) -> h mod m = g mod m -> chk fuel g l = true ->
    forall q, In q l -> Z.gcd (h ^ (zprod l / q) - 1) m = 1.
  Proof.
    induction fuel as [|k IH]; intros g h l Hpos Hh Hc q Hq.
    - destruct l as [|x [|y l]]; [destruct Hq| |discriminate].
      destruct Hq as [-> | []]. cbn [chk] in Hc. apply Z.eqb_eq in Hc. 
      assert (0 < q) by (apply Hpos; left; reflexivity).
      change (zprod [q]) with (q * 1). rewrite Z.mul_1_r, Z.div_same, Z.pow_1_r by lia.
      transitivity (Z.gcd (g - 1) m); [|exact Hc]. apply gcd_cong. rewrite Zminus_mod, Hh, <- Zminus_mod. reflexivity.
    - destruct l as [|x [|y l]]; [destruct Hq| |].
      + destruct Hq as [-> | []]. cbn [chk] in Hc. apply Z.eqb_eq in Hc. 
        assert (0 < q) by (apply Hpos; left; reflexivity).
        change (zprod [q]) with (q * 1). rewrite Z.mul_1_r, Z.div_same, Z.pow_1_r by lia.
        transitivity (Z.gcd (g - 1) m); [|exact Hc]. apply gcd_cong. rewrite Zminus_mod, Hh, <- Zminus_mod. reflexivity.
      + set (l0 := x :: y :: l) in *. set (n := Nat.div2 (length l0)).
        assert (Hc': (chk k (zpow g (zprod (skipn n l0))) (firstn n l0) && chk k (zpow g (zprod (firstn n l0))) (skipn n l0))%bool = true) by exact Hc.
        clear Hc. apply andb_prop in Hc'. destruct Hc' as [H1 H2].
        assert (HL: forall q, In q (firstn n l0) -> 0 < q).
        { intros u Hu. apply Hpos. rewrite <- (firstn_skipn n l0). apply in_or_app. left. exact Hu. }
        assert (HR: forall q, In q (skipn n l0) -> 0 < q).
        { intros u Hu. apply Hpos. rewrite <- (firstn_skipn n l0). apply in_or_app. right. exact Hu. }
        pose proof (zprod_pos _ HL) as PL. pose proof (zprod_pos _ HR) as PR.
        assert (EP: zprod l0 = zprod (firstn n l0) * zprod (skipn n l0)).
        { rewrite <- zprod_app, firstn_skipn. reflexivity. }
        pose proof (Hpos q Hq) as Pq.
        rewrite <- (firstn_skipn n l0) in Hq. apply in_app_or in Hq. destruct Hq as [Hq|Hq].
        * destruct (zprod_in _ _ Hq) as [z Hz].
          assert (EE: zprod l0 / q = zprod (skipn n l0) * (zprod (firstn n l0) / q)).
          { rewrite EP, Hz. rewrite Z.div_mul by lia. replace (z * q * zprod (skipn n l0)) with (zprod (skipn n l0) * z * q) by ring. apply Z.div_mul. lia. }
          rewrite EE. rewrite Z.pow_mul_r; [|lia|apply Z.div_pos; lia].
          apply (IH (zpow g (zprod (skipn n l0))) (h ^ zprod (skipn n l0)) (firstn n l0)); auto.
          rewrite zpow_ok by exact PR. apply pow_mod_cong; [lia|exact Hh].
        * destruct (zprod_in _ _ Hq) as [z Hz].
          assert (EE: zprod l0 / q = zprod (firstn n l0) * (zprod (skipn n l0) / q)).
          { rewrite EP, Hz. rewrite Z.div_mul by lia. replace (zprod (firstn n l0) * (z * q)) with (zprod (firstn n l0) * z * q) by ring. apply Z.div_mul. lia. }
          rewrite EE. rewrite Z.pow_mul_r; [|lia|apply Z.div_pos; lia].
          apply (IH (zpow g (zprod (firstn n l0))) (h ^ zprod (firstn n l0)) (skipn n l0)); auto.
          rewrite zpow_ok by exact PL. apply pow_mod_cong; [lia|exact Hh].
  Qed.

  (* a certificate for the order C * prod qs of a *)
  Lemma cert fuel a C qs : 0 < C -> (forall q, In q qs -> prime q) ->
    (forall q, prime q -> (q | C) -> In q qs) ->
    zpow (zpow a C) (zprod qs) mod m = 1 -> chk fuel (zpow a C) qs = true ->
    a ^ (C * zprod qs) mod m = 1 /\
    (forall q, prime q -> (q | C * zprod qs) -> Z.gcd (a ^ (C * zprod qs / q) - 1) m = 1).
  Proof.
    intros HC Hqs HCq H1 H2.
    assert (Hpos: forall q, In q qs -> 0 < q) by (intros q Hq; apply Hqs in Hq; apply prime_ge_2 in Hq; lia).
    pose proof (zprod_pos _ Hpos) as PP. split.
    - rewrite <- H1. rewrite zpow_ok by exact PP. rewrite Z.pow_mul_r by lia. symmetry. apply pow_mod_cong; [lia|].
      apply zpow_ok. exact HC.
    - intros q Hq Hd.
      assert (HI: In q qs).
      { apply prime_mult in Hd; [|exact Hq]. destruct Hd as [Hd|Hd]; [apply HCq; assumption|].
        clear -Hd Hq Hqs. induction qs as [|x l IH].
        - change (zprod []) with 1 in Hd. apply Z.divide_1_r_nonneg in Hd; pose proof (prime_ge_2 q Hq); lia.
        - change (zprod (x :: l)) with (x * zprod l) in Hd. apply prime_mult in Hd; [|exact Hq]. destruct Hd as [Hd|Hd].
          + left. symmetry. apply prime_div_prime; auto. apply Hqs. left. reflexivity.
          + right. apply IH; auto. intros u Hu. apply Hqs. right. exact Hu. }
      destruct (zprod_in _ _ HI) as [z Hz]. pose proof (Hpos q HI).
      assert (EE: C * zprod qs / q = C * (zprod qs / q)).
      { rewrite Hz, Z.div_mul by lia. rewrite Z.mul_assoc. apply Z.div_mul. lia. }
      rewrite EE. rewrite Z.pow_mul_r; [|lia|apply Z.div_pos; lia].
      apply (chk_ok fuel (zpow a C) (a ^ C) qs Hpos); auto. symmetry. apply zpow_ok. exact HC.
  Qed.
End Cert.

Lemma prime_small p k : 1 < p -> trial k 2 p = true -> prime p.
Proof. intros; eapply trial_prime; eassumption. Qed.

Lemma forall_prime l : forallb (fun p => (1 <? p) && trial (Z.to_nat (Z.sqrt p + 1)) 2 p)%bool l = true ->
  forall q, In q l -> prime q.
Proof.
  intros H q Hq. rewrite forallb_forall in H. specialize (H q Hq). apply andb_prop in H. destruct H as [H1 H2].
  apply Z.ltb_lt in H1. eapply trial_prime; eassumption.
Qed.

Lemma zprod_prime l q : (forall p, In p l -> prime p) -> prime q -> (q | zprod l) -> In q l.
Proof.
  intros Hl Hq Hd. induction l as [|x l IH].
  - change (zprod []) with 1 in Hd. apply Z.divide_1_r_nonneg in Hd; pose proof (prime_ge_2 q Hq); lia.
  - change (zprod (x :: l)) with (x * zprod l) in Hd. apply prime_mult in Hd; [|exact Hq]. destruct Hd as [Hd|Hd].
    + left. symmetry. apply prime_div_prime; auto. apply Hl. left. reflexivity.
    + right. apply IH; auto. intros u Hu. apply Hl. right. exact Hu.
Qed.

(* m - 1 is the product of qs, each once, and of cs *)
Lemma pk_prime m a cs qs : (2 <? m) = true -> (zprod cs * zprod qs =? m - 1) = true ->
  forallb (fun p => (1 <? p) && trial (Z.to_nat (Z.sqrt p + 1)) 2 p)%bool qs = true ->
  forallb (fun c => existsb (Z.eqb c) qs) cs = true ->
  (zpow (fun x => x mod m) (zpow (fun x => x mod m) a (zprod cs)) (zprod qs) mod m =? 1) = true ->
  chk m (fun x => x mod m) 10 (zpow (fun x => x mod m) a (zprod cs)) qs = true -> prime m.
Proof.
  intros Hm HN Hqs Hcs H1 H2. apply Z.ltb_lt in Hm. assert (Hm1: 1 < m) by lia. apply Z.eqb_eq in HN, H1. pose proof (forall_prime _ Hqs) as HP.
  assert (HC: forall c, In c cs -> In c qs).
  { intros c Hc. rewrite forallb_forall in Hcs. specialize (Hcs c Hc). apply existsb_exists in Hcs. destruct Hcs as [x [Hx E]].
    apply Z.eqb_eq in E. subst x. exact Hx. }
  assert (Hred: forall x, (x mod m) mod m = x mod m) by (intros; apply Z.mod_mod; lia).
  assert (HC0: 0 < zprod cs).
  { clear - HC HP. induction cs as [|x l IH]; [reflexivity|]. change (zprod (x :: l)) with (x * zprod l).
    pose proof (prime_ge_2 x (HP x (HC x (or_introl eq_refl)))). assert (0 < zprod l) by (apply IH; intros c Hc; apply HC; right; exact Hc). nia. }
  destruct (cert m (fun x => x mod m) Hm1 Hred 10 a (zprod cs) qs HC0 HP) as [E1 E2]; [|exact H1|exact H2|].
  - intros q Hq Hd. apply HC. apply zprod_prime; [intros p Hp; apply HP, HC, Hp|exact Hq|exact Hd].
  - rewrite HN in E1, E2.
    apply (pock_prime m a (m - 1)); [exact Hm1|lia|nia|exact E1|exact E2].
Qed.

Lemma prime_25629623713 : prime 25629623713.
Proof. apply (pk_prime 25629623713 5 [2; 2; 2; 2; 3; 11] [2; 3; 7; 11; 29; 3623]); vm_compute; reflexivity. Qed.
Lemma prime_54410972897 : prime 54410972897.
Proof. apply (pk_prime 54410972897 3 [2; 2; 2; 2] [2; 7; 242906129]); vm_compute; reflexivity. Qed.
Lemma prime_88959882481 : prime 88959882481.
Proof. apply (pk_prime 88959882481 26 [2; 2; 2] [2; 3; 5; 7; 67; 790333]); vm_compute; reflexivity. Qed.

Lemma prime_1538595959564161 : prime 1538595959564161.
Proof.
  set (m := 1538595959564161). set (qs := [2; 3; 5; 7; 839; 2179; 20873]).
  assert (Hm: 1 < m) by (unfold m; lia).
  assert (Hred: forall x, (x mod m) mod m = x mod m) by (intros; apply Z.mod_mod; unfold m; lia).
  destruct (cert m (fun x => x mod m) Hm Hred 10 23 (2 ^ 6 * 3) qs) as [H1 H2].
  - lia.
  - apply forall_prime. vm_compute. reflexivity.
  - intros q Hq Hd. apply prime_mult in Hd; [|exact Hq]. destruct Hd as [Hd|Hd].
    + left. symmetry. apply prime_power_prime with 6; auto using prime_2. lia.
    + right. left. symmetry. apply prime_div_prime; auto using prime_3.
  - vm_compute. reflexivity.
  - vm_compute. reflexivity.
  - assert (EN: 2 ^ 6 * 3 * zprod qs = m - 1) by (vm_compute; reflexivity).
    rewrite EN in H1, H2.
    apply (pock_prime m 23 (m - 1)); [exact Hm|unfold m; lia|unfold m; lia|exact H1|exact H2].
Qed.

Definition qs576 : list Z := [2; 3; 5; 7; 13; 17; 29; 43; 97; 113; 127; 241; 257; 337; 673; 1429; 2017; 3361; 5153; 5419; 14449;
  15790321; 25629623713; 54410972897; 88959882481; 1538595959564161].
Definition m576 : Z := 2 ^ 576 - 2 ^ 240 + 1.
Definition red1 (x : Z) : Z := let hi := Z.shiftr x 576 in x - Z.shiftl hi 576 + Z.shiftl hi 240 - hi.
Definition red576 (x : Z) : Z := let y := red1 (red1 x) in if y <? m576 then y else y - m576.

Lemma red1_ok x : red1 x mod m576 = x mod m576.
Proof.
  unfold red1. rewrite !Z.shiftl_mul_pow2 by lia. unfold m576.
  replace (x - Z.shiftr x 576 * 2 ^ 576 + Z.shiftr x 576 * 2 ^ 240 - Z.shiftr x 576)
    with (x + (- Z.shiftr x 576) * (2 ^ 576 - 2 ^ 240 + 1)) by ring.
  apply Z.mod_add. vm_compute. discriminate.
Qed.

Lemma red576_ok x : red576 x mod m576 = x mod m576.
Proof.
  unfold red576. cbv zeta. destruct (_ <? _).
  - rewrite !red1_ok. reflexivity.
  - replace (red1 (red1 x) - m576) with (red1 (red1 x) + (-1) * m576) by ring.
    rewrite Z.mod_add by (vm_compute; discriminate). rewrite !red1_ok. reflexivity.
Qed.

Definition n576 : Z := (2 ^ 576 - 2 ^ 240) / 48.

Lemma m576_gt1 : 1 < m576.
Proof. vm_compute. reflexivity. Qed.

Lemma n576_pos : 0 < n576.
Proof. vm_compute. reflexivity. Qed.
