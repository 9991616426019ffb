(* C51, C52 and the Faure engine in C36, C38, C39 *)
From Coq Require Import ZArith Znumtheory Arith Lia List QArith Qabs.
From Verif Require Import Base QrngModel QrngSpec QrngProofs QReachProofs FloatModel FloatSpec FloatProofs
  FaureModel FaureSpec FaureNetProofs FaureNet2Proofs FaureProofs Faure2Proofs Faure3Proofs Faure4Proofs Faure5Proofs Faure6Proofs.
Open Scope Z_scope.

(* engines used in the examples: faure_engine<double, uint64_t>(3), and (4) *)
Definition ef_dummy : feng := Qe 0 0 (Fl 0 [] [] 0) [].
Definition ef (D : nat) : feng := match faure_new ieee_double RNE 64 D with Some (Ret e _) => e | _ => ef_dummy end.
Definition ef_ops := faure_ops ieee_double RNE 64.
Definition ef_run (e : feng) (z : nat) := calls (vcall 64 ef_ops) z e.
Lemma double_ok : fmt_ok ieee_double /\ 24 <= prec ieee_double.
Proof. split; [split|]; cbn; lia. Qed.
Lemma ef_new : faure_new ieee_double RNE 64 3 = Some (Ret (ef 3) tt).
Proof. vm_compute. reflexivity. Qed.

(* ---- C51 ---- *)

(* the base is the least prime that is not less than the dimension; the
   constructor throws exactly for dimension 0 and above 1117 *)
Theorem C51_base : forall f md Ws D,
  match f_new f md Ws primes_lower_bound (Z.of_nat D) with
  | Some _ => exists p, primes_lower_bound (Z.of_nat D) = Some p /\ (1 <= D <= 1117)%nat /\ prime p /\ Z.of_nat D <= p <= 1117 /\ forall q, prime q -> Z.of_nat D <= q -> p <= q
  | None => D = 0%nat \/ (1117 < D)%nat
  end.
Proof.
  intros f md Ws D. unfold f_new, f_resize. pose proof (lower_bound_ok (Z.of_nat D) ltac:(lia)) as L. destruct (Z.eqb_spec (Z.of_nat D) 0); [left; lia|].
  destruct (primes_lower_bound (Z.of_nat D)) as [p|]; cbn [bind].
  - exists p. destruct L as (L1 & L2 & L3 & L4). split; [reflexivity|]. split; [lia|]. split; [exact L2|]. split; assumption.
  - lia.
Qed.
Print Assumptions C51_base.
Example C51_base_ex : primes_lower_bound 90 = Some 97 /\ primes_lower_bound 1117 = Some 1117 /\ primes_lower_bound 1118 = None /\ faure_new ieee_double RNE 64 1118 = None.
Proof. vm_compute. repeat split. Qed.

(* the values of a fresh engine are the coordinates of the points 0, 1, 2, ... of
   the Faure sequence, with an absolute error of 10 units per binary digit of n.
   Values are never negative; those of the first coordinate are at most 1. *)
Theorem C51_points : forall f md Ws D, fmt_ok f -> 24 <= prec f -> 32 <= Ws <= 64 -> (1 <= D <= 1117)%nat ->
  forall e, faure_new f md Ws D = Some (Ret e tt) ->
  exists b, primes_lower_bound (Z.of_nat D) = Some b /\ forall z,
  match calls (vcall Ws (faure_ops f md Ws)) z e with
  | Some (_, l) => Z.of_nat z <= 2 ^ Ws * Z.of_nat D /\ length l = z /\
      forall i, (i < z)%nat -> (0 <= nth i l 0 /\
        Qabs (nth i l 0 - fvalue b (Z.of_nat (i / D)%nat) (i mod D)%nat) <= 10 * inject_Z (Z.of_nat (len (Z.of_nat (i / D)%nat))) * p2 (1 - prec f))%Q /\
        ((i mod D)%nat = 0%nat -> (nth i l 0 <= 1)%Q)
  | None => 2 ^ Ws * Z.of_nat D < Z.of_nat z
  end.
Proof. exact points. Qed.
Print Assumptions C51_points.

(* the points 0, 1, 2, 3 in three dimensions: (0,0,0), (1/3,1/3,1/3), (2/3,2/3,2/3), (1/9,4/9,7/9) *)
Example C51_points_ex :
  map (fun i => Qred (fvalue 3 (Z.of_nat (i / 3)%nat) (i mod 3)%nat)) (seq 3 9) = [1 # 3; 1 # 3; 1 # 3; 2 # 3; 2 # 3; 2 # 3; 1 # 9; 4 # 9; 7 # 9]%Q /\
  option_map (fun p => map (fun x => Qred (inject_Z (Qround.Qfloor (x * 1000 + (1 # 2))))) (snd p)) (ef_run (ef 3) 12) =
    Some (map inject_Z [0; 0; 0; 333; 333; 333; 667; 667; 667; 111; 444; 778]).
Proof. vm_compute. split; reflexivity. Qed.

(* the digits that the engine keeps are the digits of the last coordinate, without error *)
Theorem C51_digits : forall f md Ws D, fmt_ok f -> 24 <= prec f -> 32 <= Ws <= 64 -> (1 <= D <= 1117)%nat ->
  exists b, primes_lower_bound (Z.of_nat D) = Some b /\
  forall e, qreach Ws (faure_ops f md Ws) (faure_new f md Ws D) e ->
  f_base (q_lat e) = b /\ q_seq e < b ^ Z.of_nat (length (f_y (q_lat e))) /\
  forall i, (i < length (f_y (q_lat e)))%nat -> nth i (f_y (q_lat e)) 0%Q = inject_Z (fdigit b (q_seq e) (D - 1) i).
Proof. exact digits_kept. Qed.
Print Assumptions C51_digits.
Example C51_digits_ex :
  match f_seed ieee_double RNE 64 (ef 3) 5 with Ret e _ => f_y (q_lat e) = [inject_Z 1; inject_Z 1] /\ map (fdigit 3 5 2) [0; 1]%nat = [1; 1] | _ => False end.
Proof. vm_compute. split; reflexivity. Qed.

(* but the values are not within [min(), max()]: the point 6238428445962759169 of
   faure_engine<double, uint64_t>(4), whose second coordinate has 27 digits 4 in base 5 *)
Theorem C51_range_refuted : exists e e' v v', qreach 64 ef_ops (faure_new ieee_double RNE 64 4) e /\
  calls (vcall 64 ef_ops) 2 e = Some (e', [v; v']) /\ (f_max < v')%Q.
Proof.
  assert (K : match f_seed ieee_double RNE 64 (ef 4) 6238428445962759169 with
    | Ret e _ => match calls (vcall 64 ef_ops) 2 e with Some (_, [_; v']) => negb (Qle_bool v' f_max) | _ => false end | _ => false end = true) by (vm_compute; reflexivity).
  assert (R0 : qreach 64 ef_ops (faure_new ieee_double RNE 64 4) (ef 4)) by (apply Q_new; vm_compute; reflexivity).
  assert (K' : exists e e' v v', f_seed ieee_double RNE 64 (ef 4) 6238428445962759169 = Ret e tt /\ calls (vcall 64 ef_ops) 2 e = Some (e', [v; v']) /\ negb (Qle_bool v' f_max) = true).
  { revert K. generalize (f_seed ieee_double RNE 64 (ef 4) 6238428445962759169). intros [e []|e|] K; [|discriminate K|discriminate K]. exists e. revert K. generalize (calls (vcall 64 ef_ops) 2 e).
    intros [[e' [|v [|v' [|w l]]]]|] K; try discriminate K. exists e', v, v'. split; [reflexivity|]. split; [reflexivity|]. exact K. }
  destruct K' as (e & e' & v & v' & ES & EC & HK). exists e, e', v, v'. split; [apply (Q_seed _ _ _ (ef 4) e 6238428445962759169 R0); [lia|exact ES]|]. split; [exact EC|].
  apply negb_true_iff in HK. apply Qnot_le_lt. intros C. apply Qle_bool_iff in C. congruence.
Qed.
Print Assumptions C51_range_refuted.

(* ---- C52 ---- *)

(* the sequence is a (0, D)-sequence in base b: for every choice of d(0), ..., d(D-1)
   with sum m, every block of b^m points l b^m, ..., (l+1) b^m - 1 has exactly one point in
   every box whose side c is an interval [A / b^d(c), (A + 1) / b^d(c)) *)
Theorem C52_net : forall D b, primes_lower_bound (Z.of_nat D) = Some b ->
  forall d m l A, list_sum (map d (seq 0 D)) = m -> 0 <= l -> (forall c, (c < D)%nat -> 0 <= A c < b ^ Z.of_nat (d c)) ->
  exists! n, l * b ^ Z.of_nat m <= n < (l + 1) * b ^ Z.of_nat m /\ forall c, (c < D)%nat -> in_interval b (d c) (A c) (fvalue b n c).
Proof.
  intros D b HB d m l A Hd Hl HA. pose proof (lower_bound_ok (Z.of_nat D) ltac:(lia)) as L. rewrite HB in L. destruct L as (_ & Hp & L3 & _).
  apply faure_net; try assumption. lia.
Qed.
Print Assumptions C52_net.
(* three dimensions, boxes of 1/3 x 1/3 x 1: in the block 9..17 the box 2/3..1, 0..1/3 has the point 11 only *)
Example C52_net_ex : map (fun n => (Z.of_nat n, Qround.Qfloor (3 * fvalue 3 (Z.of_nat n) 0), Qround.Qfloor (3 * fvalue 3 (Z.of_nat n) 1))) (seq 9 9) =
  [(9, 0, 1); (10, 1, 2); (11, 2, 0); (12, 0, 2); (13, 1, 0); (14, 2, 1); (15, 0, 0); (16, 1, 1); (17, 2, 2)].
Proof. vm_compute. reflexivity. Qed.

(* the same for the digits that update computes *)
Definition engine_digits f md Ws b n (c : nat) : list Q := match f_update f md Ws n (S c) (Fl b [] [] 0) with Some (_, l) => f_y l | None => [] end.
Theorem C52_digit_net : forall f md Ws D b, fmt_ok f -> 24 <= prec f -> 32 <= Ws <= 64 -> primes_lower_bound (Z.of_nat D) = Some b ->
  forall d m l (t : nat -> nat -> Z), list_sum (map d (seq 0 D)) = m -> 0 <= l -> (l + 1) * b ^ Z.of_nat m <= 2 ^ Ws -> (forall c i, 0 <= t c i < b) ->
  exists! n, l * b ^ Z.of_nat m <= n < (l + 1) * b ^ Z.of_nat m /\
    forall c i, (c < D)%nat -> (i < d c)%nat -> nth i (engine_digits f md Ws b n c) 0%Q = inject_Z (t c i).
Proof.
  intros f md Ws D b Hf HP HW HB d m l t Hd Hl HN Ht. pose proof (lower_bound_ok (Z.of_nat D) ltac:(lia)) as L. rewrite HB in L. destruct L as (L1 & Hp & L3 & _).
  pose proof (prime_ge_2 b Hp) as B2. assert (HI : In b faure_primes) by (apply table_iff; split; [exact Hp|lia]).
  set (A := fun c => enc b (map (t c) (seq 0 (d c)))).
  assert (TD : forall c, todig b (d c) (A c) = map (t c) (seq 0 (d c))).
  { intros c. assert (OK : dig_ok b (map (t c) (seq 0 (d c)))) by (apply Forall_map, Forall_forall; intros; apply Ht).
    apply (enc_inj b); [lia|apply todig_ok; lia|exact OK|rewrite todig_len, map_length, seq_length; reflexivity|].
    rewrite enc_todig by lia. apply Z.mod_small. pose proof (enc_range b _ ltac:(lia) OK) as R. rewrite map_length, seq_length in R. exact R. }
  assert (K : forall n, l * b ^ Z.of_nat m <= n < (l + 1) * b ^ Z.of_nat m ->
    ((forall c i, (c < D)%nat -> (i < d c)%nat -> nth i (engine_digits f md Ws b n c) 0%Q = inject_Z (t c i)) <-> forall c, (c < D)%nat -> lead b n c (d c) = todig b (d c) (A c))).
  { intros n Hn. pose proof (bpow_pos b m ltac:(lia)). assert (0 <= l * b ^ Z.of_nat m) by (apply Z.mul_nonneg_nonneg; lia).
    assert (ED : forall c i, (c < D)%nat -> nth i (engine_digits f md Ws b n c) 0%Q = inject_Z (fdigit b n c i)).
    { intros c i Hc. destruct (point_ok f md Ws (S c) b Hf HP HW ltac:(lia) HI n ltac:(lia)) as (h & HH & _ & EY). unfold fpt in EY. unfold engine_digits.
      destruct (f_update f md Ws n (S c) (Fl b [] [] 0)) as [[st lat]|]; cbn [fst] in EY.
      - rewrite EY. replace (S c - 1)%nat with c by lia. destruct (le_lt_dec h i) as [Hi|Hi].
        + rewrite nth_overflow by (rewrite map_length, seq_length; exact Hi). rewrite (fdigit_high b n c i h); [reflexivity|lia| |exact Hi]. destruct HH as (_ & _ & HH). lia.
        + rewrite (nth_indep _ _ (inject_Z (fdigit b n c 0))) by (rewrite map_length, seq_length; exact Hi).
          rewrite (map_nth (fun i => inject_Z (fdigit b n c i))), seq_nth by exact Hi. reflexivity.
      - destruct HH as (H1 & _). destruct h; [lia|discriminate]. }
    split.
    - intros H1 c Hc. rewrite TD. unfold lead. apply map_ext_in. intros i Hi. apply in_seq in Hi. specialize (H1 c i Hc ltac:(lia)). rewrite ED in H1 by exact Hc.
      apply inject_Z_injective. rewrite H1. reflexivity.
    - intros H1 c i Hc Hi. rewrite ED by exact Hc. f_equal. specialize (H1 c Hc). rewrite TD in H1. unfold lead in H1.
      assert (N : forall g, nth i (map g (seq 0 (d c))) 0 = g i). { intros g. rewrite (nth_indep _ _ (g 0%nat)) by (rewrite map_length, seq_length; exact Hi). rewrite map_nth, seq_nth by exact Hi. reflexivity. }
      rewrite <- (N (fdigit b n c)), H1. apply N. }
  destruct (net_digits b D d m l A Hp ltac:(lia) Hd Hl) as (n & [Hn H1] & U). exists n. split; [split; [exact Hn|apply K; assumption]|].
  intros n' [Hn' H2]. apply U. split; [exact Hn'|]. apply K; assumption.
Qed.
Print Assumptions C52_digit_net.
Example C52_digit_net_ex : map (fun n => map (fun c => nth 0 (engine_digits ieee_double RNE 64 3 n c) 0%Q) [0; 1]%nat) [9; 11; 15] =
  map (map inject_Z) [[0; 1]; [2; 0]; [0; 0]].
Proof. vm_compute. reflexivity. Qed.

(* ---- C36 ---- *)
Theorem C36_faure_discard : forall f md Ws D, fmt_ok f -> 24 <= prec f -> 32 <= Ws <= 64 -> (1 <= D <= 1117)%nat ->
  forall e z, qreach Ws (faure_ops f md Ws) (faure_new f md Ws D) e -> 0 <= z < 2 ^ 64 -> ~ (D = 1%nat /\ q_curr e = 1 /\ z = 2 ^ 64 - 1) ->
  match q_discard Ws (faure_ops f md Ws) e z with
  | Ret e' _ => exists l, calls (vcall Ws (faure_ops f md Ws)) (Z.to_nat z) e = Some (e', l)
  | Thr e' => e' = e /\ calls (vcall Ws (faure_ops f md Ws)) (Z.to_nat z) e = None
  | Bad => False
  end.
Proof.
  intros f md Ws D Hf HP HW HD e z R Hz HX. destruct (setup f md Ws D Hf HP HW HD) as (b & EB & HI & HDer & HNew & _).
  apply (qdiscard_calls Ws _ (Z.of_nat D) (2 ^ Ws - 1) _ 0%Q _ HDer HNew e z R Hz). lia.
Qed.
Print Assumptions C36_faure_discard.
Example C36_faure_discard_ex :
  match q_discard 64 ef_ops (ef 3) 100, ef_run (ef 3) 100 with Ret e _, Some (e', _) => q_print e = (3, 33, 1) /\ q_st e = q_st e' /\ q_lat e = q_lat e' | _, _ => False end.
Proof. vm_compute. repeat split. Qed.

Theorem C36_faure_seed : forall f md Ws D, fmt_ok f -> 24 <= prec f -> 32 <= Ws <= 64 -> (1 <= D <= 1117)%nat ->
  forall e e0 n, qreach Ws (faure_ops f md Ws) (faure_new f md Ws D) e -> faure_new f md Ws D = Some (Ret e0 tt) -> 0 <= n < 2 ^ Ws ->
  let call := vcall Ws (faure_ops f md Ws) in
  exists e1 e2 l, f_seed f md Ws e n = Ret e1 tt /\ calls call (Z.to_nat n * D) e0 = Some (e2, l) /\ q_eq e1 e2 = true /\
    forall z, option_map snd (calls call z e1) = option_map snd (calls call z e2).
Proof.
  intros f md Ws D Hf HP HW HD e e0 n R E0 Hn call. destruct (setup f md Ws D Hf HP HW HD) as (b & EB & HI & HDer & HNew & _).
  pose proof (qseed_calls Ws _ (Z.of_nat D) (2 ^ Ws - 1) _ 0%Q _ HDer HNew e e0 n R E0 ltac:(lia)) as H. rewrite Nat2Z.id in H. exact H.
Qed.
Print Assumptions C36_faure_seed.
Example C36_faure_seed_ex :
  match f_seed ieee_double RNE 64 (ef 3) 3, ef_run (ef 3) 9 with Ret e1 _, Some (e2, _) => q_eq e1 e2 = true /\ option_map snd (ef_run e1 4) = option_map snd (ef_run e2 4) | _, _ => False end.
Proof. vm_compute. repeat split. Qed.

(* ---- C38 ---- *)
Theorem C38_faure_call : forall f md Ws D, fmt_ok f -> 24 <= prec f -> 32 <= Ws <= 64 -> (1 <= D <= 1117)%nat ->
  forall e, qreach Ws (faure_ops f md Ws) (faure_new f md Ws D) e ->
  if qposition (Z.of_nat D) e <? 2 ^ Ws * Z.of_nat D
  then exists e' v, q_call Ws (faure_ops f md Ws) e = Ret e' v /\ qposition (Z.of_nat D) e' = qposition (Z.of_nat D) e + 1
  else q_call Ws (faure_ops f md Ws) e = Thr e.
Proof.
  intros f md Ws D Hf HP HW HD e R. destruct (setup f md Ws D Hf HP HW HD) as (b & EB & HI & HDer & HNew & _).
  pose proof (qcall_throws Ws _ (Z.of_nat D) (2 ^ Ws - 1) _ 0%Q _ HDer HNew e R) as H. rewrite Z.sub_add in H. exact H.
Qed.
Print Assumptions C38_faure_call.

Theorem C38_faure_discard : forall f md Ws D, fmt_ok f -> 24 <= prec f -> 32 <= Ws <= 64 -> (1 <= D <= 1117)%nat ->
  forall e z, qreach Ws (faure_ops f md Ws) (faure_new f md Ws D) e -> 0 <= z < 2 ^ 64 -> ~ (D = 1%nat /\ q_curr e = 1 /\ z = 2 ^ 64 - 1) ->
  if qposition (Z.of_nat D) e + z <=? 2 ^ Ws * Z.of_nat D
  then exists e', q_discard Ws (faure_ops f md Ws) e z = Ret e' tt /\ qposition (Z.of_nat D) e' = qposition (Z.of_nat D) e + z
  else q_discard Ws (faure_ops f md Ws) e z = Thr e.
Proof.
  intros f md Ws D Hf HP HW HD e z R Hz HX. destruct (setup f md Ws D Hf HP HW HD) as (b & EB & HI & HDer & HNew & _).
  pose proof (qdiscard_throws Ws _ (Z.of_nat D) (2 ^ Ws - 1) _ 0%Q _ HDer HNew e z R Hz ltac:(lia)) as H. rewrite Z.sub_add in H. exact H.
Qed.
Print Assumptions C38_faure_discard.
Example C38_faure_ex :
  match f_seed ieee_double RNE 64 (ef 3) (2 ^ 64 - 1) with
  | Ret e _ => match ef_run e 3 with Some (e', l) => length l = 3%nat /\ q_call 64 ef_ops e' = Thr e' /\ q_discard 64 ef_ops e' 1 = Thr e' /\ q_discard 64 ef_ops e 4 = Thr e | None => False end
  | _ => False
  end.
Proof. vm_compute. repeat split. Qed.

(* ---- C39 ---- *)

(* restored exactly, by an engine of any dimension in any state *)
Theorem C39_faure_restore : forall f md Ws D D' e t, fmt_ok f -> 24 <= prec f -> 32 <= Ws <= 64 -> (1 <= D <= 1117)%nat -> (1 <= D' <= 1117)%nat ->
  qreach Ws (faure_ops f md Ws) (faure_new f md Ws D) e -> qreach Ws (faure_ops f md Ws) (faure_new f md Ws D') t ->
  q_read Ws (faure_ops f md Ws) (f_resize primes_lower_bound) 0%Q t (q_print e) = Ret e tt.
Proof. exact restore. Qed.
Print Assumptions C39_faure_restore.
Example C39_faure_restore_ex :
  match ef_run (ef 3) 8 with Some (e, _) => q_print e = (3, 2, 2) /\ q_read 64 ef_ops (f_resize primes_lower_bound) 0%Q (ef 2) (q_print e) = Ret e tt | None => False end.
Proof. vm_compute. split; reflexivity. Qed.

Theorem C39_faure_equal : forall f md Ws D, fmt_ok f -> 24 <= prec f -> 32 <= Ws <= 64 -> (1 <= D <= 1117)%nat ->
  forall x y, qreach Ws (faure_ops f md Ws) (faure_new f md Ws D) x -> qreach Ws (faure_ops f md Ws) (faure_new f md Ws D) y ->
  let call := vcall Ws (faure_ops f md Ws) in
  q_eq x y = true <-> forall z, option_map snd (calls call z x) = option_map snd (calls call z y).
Proof.
  intros f md Ws D Hf HP HW HD x y Rx Ry call. destruct (setup f md Ws D Hf HP HW HD) as (b & EB & HI & HDer & HNew & _).
  exact (qeq_outputs Ws _ (Z.of_nat D) (2 ^ Ws - 1) _ 0%Q _ HDer HNew x y Rx Ry).
Qed.
Print Assumptions C39_faure_equal.
Example C39_faure_equal_ex :
  match ef_run (ef 3) 6, f_seed ieee_double RNE 64 (ef 3) 2 with Some (x, _), Ret y _ => q_seq x <> q_seq y /\ q_eq x y = true /\ q_eq x (ef 3) = false | _, _ => False end.
Proof. vm_compute. repeat split. discriminate. Qed.
