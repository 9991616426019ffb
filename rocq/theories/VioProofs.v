(* Lemmas about vector_io. *)
From Verif Require Import Base QrngModel QTextModel QTextProofs VioModel VioSpec.
Ltac Zify.zify_post_hook ::= idtac.
Open Scope Z_scope.

Lemma ws_blank : forall c, is_ws c = true <-> blank c.
Proof. intro c. unfold is_ws, blank. rewrite Bool.orb_true_iff, Bool.andb_true_iff, !Z.leb_le, Z.eqb_eq. tauto. Qed.
Lemma ws_not : forall c, ~ blank c -> is_ws c = false.
Proof. intros c H. destruct (is_ws c) eqn:E; [|reflexivity]. apply ws_blank in E. contradiction. Qed.
Lemma skip_non : forall c r, ~ blank c -> skip_ws (c :: r) = c :: r.
Proof. intros c r H. cbn [skip_ws]. rewrite ws_not by exact H. reflexivity. Qed.
Lemma skip_all : forall w r, Forall blank w -> skip_ws (w ++ r) = skip_ws r.
Proof. induction w as [|c w IH]; intros r H; [reflexivity|]. inversion H; subst. cbn [app skip_ws]. rewrite (proj2 (ws_blank c)) by assumption. apply IH. assumption. Qed.
Lemma skip_split : forall l, exists w, Forall blank w /\ l = w ++ skip_ws l /\ match skip_ws l with [] => True | c :: _ => ~ blank c end.
Proof.
  induction l as [|c l IH]; [exists []; repeat split; constructor|]. cbn [skip_ws]. destruct (is_ws c) eqn:E.
  - destruct IH as (w & H1 & H2 & H3). exists (c :: w). split; [constructor; [apply ws_blank; exact E|exact H1]|]. split; [cbn [app]; rewrite <- H2; reflexivity|exact H3].
  - exists []. split; [constructor|]. split; [reflexivity|]. intro H. apply ws_blank in H. congruence.
Qed.

Section T.
Context {T : Type}.
Variable put : T -> list Z.
Variable num : list Z -> option T * list Z.

Lemma elem_step : forall v c r w, elem_ok put num v -> c = 32 \/ c = 93 -> Forall blank w ->
  in_elem num (cin_of (w ++ put v ++ c :: r)) = (Some v, cin_of (c :: r)).
Proof.
  intros v c r w [(d & q & EP & NB) HN] HC HW. unfold in_elem, cin_of, c_good. cbn [c_eof c_fail c_rest orb negb]. rewrite skip_all by exact HW.
  pose proof (HN c r HC) as E. rewrite EP in *. cbn [app] in *. rewrite skip_non by exact NB. rewrite E. reflexivity.
Qed.
Lemma elem_end : forall r, bracket_ok num -> in_elem num (cin_of (93 :: r)) = (None, Cin (93 :: r) false true).
Proof. intros r H. unfold in_elem, cin_of, c_good. cbn [c_eof c_fail c_rest orb negb]. rewrite skip_non by (unfold blank; lia). rewrite H. reflexivity. Qed.
Lemma loop_rest : forall vs n vec tail, bracket_ok num -> Forall (elem_ok put num) vs -> (length vs < n)%nat ->
  rv_loop num n vec (cin_of (pv_rest put vs ++ 93 :: tail)) = (vec ++ vs, Cin (93 :: tail) false true).
Proof.
  induction vs as [|v vs IH]; intros n vec tail HB HE HN; (destruct n as [|n]; [cbn in HN; lia|]).
  - cbn [pv_rest flat_map app rv_loop]. rewrite elem_end by exact HB. rewrite app_nil_r. reflexivity.
  - inversion HE; subst. cbn [rv_loop]. change (pv_rest put (v :: vs)) with ((32 :: put v) ++ pv_rest put vs).
    assert (exists c r, pv_rest put vs ++ 93 :: tail = c :: r /\ (c = 32 \/ c = 93)) as (c & r & EC & HC).
    { destruct vs; [exists 93, tail; split; [reflexivity|right; reflexivity]|]. eexists 32, _. split; [reflexivity|left; reflexivity]. }
    rewrite <- !app_assoc. change (32 :: put v) with ([32] ++ put v). rewrite <- app_assoc. rewrite EC. rewrite elem_step by (try assumption; repeat constructor; unfold blank; lia). rewrite <- EC. cbn [length] in HN. rewrite IH by (try assumption; lia). rewrite <- app_assoc. reflexivity.
Qed.
Lemma loop_print : forall vs n vec tail, bracket_ok num -> Forall (elem_ok put num) vs -> (length vs < n)%nat ->
  rv_loop num n vec (cin_of (match vs with [] => [] | v :: r => put v ++ pv_rest put r end ++ 93 :: tail)) = (vec ++ vs, Cin (93 :: tail) false true).
Proof.
  intros [|v vs] n vec tail HB HE HN; [apply (loop_rest [] n vec tail HB HE HN)|].
  destruct n as [|n]; [cbn in HN; lia|]. inversion HE; subst. cbn [rv_loop].
  assert (exists c r, pv_rest put vs ++ 93 :: tail = c :: r /\ (c = 32 \/ c = 93)) as (c & r & EC & HC).
  { destruct vs; [exists 93, tail; split; [reflexivity|right; reflexivity]|]. eexists 32, _. split; [reflexivity|left; reflexivity]. }
  rewrite <- app_assoc, EC. pose proof (elem_step v c r [] H1 HC ltac:(constructor)) as ES. cbn [app] in ES. rewrite ES, <- EC. cbn [length] in HN. rewrite loop_rest by (try assumption; lia). rewrite <- app_assoc. reflexivity.
Qed.
Lemma rest_len : forall vs, (length vs <= length (pv_rest put vs))%nat.
Proof. induction vs as [|v vs IH]; [apply le_n|]. change (pv_rest put (v :: vs)) with ((32 :: put v) ++ pv_rest put vs). rewrite app_length. cbn [length]. lia. Qed.
Lemma body_len : forall vs, (length vs <= S (length (match vs with [] => [] | v :: r => put v ++ pv_rest put r end)))%nat.
Proof. intros [|v vs]; [cbn; lia|]. rewrite app_length. pose proof (rest_len vs). cbn [length]. lia. Qed.

Lemma read_print : forall vs vec w tail, bracket_ok num -> Forall (elem_ok put num) vs -> Forall blank w ->
  read_vector num vec (cin_of (w ++ print_vector put vs ++ tail)) = (vec ++ vs, cin_of tail).
Proof.
  intros vs vec w tail HB HE HW. unfold read_vector, in_char. cbn [c_good cin_of c_eof c_fail c_rest orb negb]. unfold c_good. cbn [c_eof c_fail orb negb]. rewrite skip_all by exact HW.
  unfold print_vector. cbn [app]. rewrite skip_non by (unfold blank; lia). cbn [Z.eqb Pos.eqb c_rest].
  rewrite <- app_assoc. cbn [app]. set (b := match vs with [] => [] | v :: r => put v ++ pv_rest put r end).
  change (Cin (b ++ 93 :: tail) false false) with (cin_of (b ++ 93 :: tail)). unfold b. rewrite loop_print; [|exact HB|exact HE|].
  - unfold rv_close. cbn [c_fail]. unfold c_clear, in_char, c_good. cbn [c_rest c_eof c_fail orb negb]. rewrite skip_non by (unfold blank; lia). reflexivity.
  - pose proof (body_len vs). rewrite app_length. cbn [length]. lia.
Qed.

(* ---- what is accepted ---- *)
Hypothesis WF : num_wf num.
Lemma elem_suffix : forall s v s', in_elem num s = (v, s') -> exists u, c_rest s = u ++ c_rest s'.
Proof.
  intros s v s'. unfold in_elem. destruct (c_good s); [|intro H; inversion H; exists []; reflexivity]. destruct (skip_split (c_rest s)) as (w & _ & EW & _).
  destruct (skip_ws (c_rest s)) as [|c r] eqn:E; [intro H; inversion H; subst; exists w; cbn; exact EW|].
  destruct (num (c :: r)) as [q t] eqn:EN. intro H. inversion H; subst. cbn [c_rest]. destruct (WF _ _ _ EN) as (u & EU & _). exists (w ++ u). rewrite <- app_assoc, <- EU. exact EW.
Qed.
Lemma loop_suffix : forall n vec s vec' s', rv_loop num n vec s = (vec', s') -> exists u new, c_rest s = u ++ c_rest s' /\ vec' = vec ++ new.
Proof.
  induction n as [|n IH]; intros vec s vec' s' H; cbn [rv_loop] in H; [inversion H; exists [], []; rewrite app_nil_r; split; reflexivity|].
  destruct (in_elem num s) as [[v|] s1] eqn:E; destruct (elem_suffix _ _ _ E) as [u1 E1].
  - destruct (IH _ _ _ _ H) as (u & new & E2 & E3). exists (u1 ++ u), (v :: new). rewrite <- app_assoc, <- E2, E3, <- app_assoc. split; [exact E1|reflexivity].
  - inversion H; subst. exists u1, []. rewrite app_nil_r. split; [exact E1|reflexivity].
Qed.
(* the loop only ends with failbit: every pass takes a character *)
Lemma loop_fails : forall n vec s vec' s', rv_loop num n vec s = (vec', s') -> (length (c_rest s) < n)%nat -> c_fail s' = true.
Proof.
  induction n as [|n IH]; intros vec s vec' s' H L; [lia|]. cbn [rv_loop] in H. destruct (in_elem num s) as [[v|] s1] eqn:E.
  - apply (IH _ _ _ _ H). unfold in_elem in E. destruct (c_good s); [|discriminate]. destruct (skip_split (c_rest s)) as (w & _ & EW & _).
    destruct (skip_ws (c_rest s)) as [|c r] eqn:ES; [discriminate|]. destruct (num (c :: r)) as [q t] eqn:EN. inversion E; subst. cbn [c_rest].
    destruct (WF _ _ _ EN) as (u & EU & NU). specialize (NU ltac:(discriminate)). rewrite EW, EU, !app_length in L. destruct u; [congruence|]. cbn [length] in L. lia.
  - inversion H; subst. clear H IH. unfold in_elem in E. destruct (c_good s); [|inversion E; reflexivity]. destruct (skip_ws (c_rest s)) as [|c r]; [inversion E; reflexivity|].
    destruct (num (c :: r)) as [[q|] t]; inversion E; reflexivity.
Qed.
Lemma read_shape : forall vec l vec' s', read_vector num vec (cin_of l) = (vec', s') -> c_fail s' = false ->
  exists w body new, Forall blank w /\ l = w ++ 91 :: body ++ 93 :: c_rest s' /\ vec' = vec ++ new /\ c_eof s' = false.
Proof.
  intros vec l vec' s'. unfold read_vector, in_char at 1, c_good. cbn [cin_of c_eof c_fail c_rest orb negb]. destruct (skip_split l) as (w & HW & EW & _).
  destruct (skip_ws l) as [|c r]; [intros H F; inversion H; subst; discriminate|]. destruct (Z.eqb_spec c 91) as [->|NC]; [|intros H F; inversion H; subst; discriminate].
  destruct (rv_loop num (S (length (c_rest (Cin r false false)))) vec (Cin r false false)) as [vec1 s1] eqn:EL. destruct (loop_suffix _ _ _ _ _ EL) as (u & new & E1 & E2).
  cbn [c_rest] in E1. pose proof (loop_fails _ _ _ _ _ EL ltac:(cbn; lia)) as FL. unfold rv_close. rewrite FL. unfold in_char, c_clear, c_good. cbn [c_eof c_fail c_rest orb negb].
  destruct (skip_split (c_rest s1)) as (w2 & HW2 & EW2 & _). destruct (skip_ws (c_rest s1)) as [|d q]; [intros H F; inversion H; subst; discriminate|].
  destruct (Z.eqb_spec d 93) as [->|ND]; intros H F; inversion H; subst; [|discriminate]. exists w, (u ++ w2), new. split; [exact HW|]. split; [|split; reflexivity].
  cbn [c_rest]. rewrite <- app_assoc, <- EW2. reflexivity.
Qed.
Lemma read_reject : forall vec w c r, Forall blank w -> ~ blank c -> c <> 91 -> read_vector num vec (cin_of (w ++ c :: r)) = (vec, Cin (c :: r) false true).
Proof.
  intros vec w c r HW HB HC. unfold read_vector, in_char, c_good. cbn [cin_of c_eof c_fail c_rest orb negb]. rewrite skip_all by exact HW. rewrite skip_non by exact HB.
  destruct (Z.eqb_spec c 91); [contradiction|]. reflexivity.
Qed.
(* a failed stream is not read *)
Lemma read_failed : forall vec s, c_fail s = true -> read_vector num vec s = (vec, s).
Proof. intros vec [l e f] H. cbn in H. subst f. unfold read_vector, in_char, c_good. cbn [c_eof c_fail]. rewrite Bool.orb_true_r. reflexivity. Qed.
End T.

(* ---- integers ---- *)
Lemma digits_suffix : forall l acc v r, digits_in acc l = (v, r) -> exists u, l = u ++ r.
Proof.
  induction l as [|c l IH]; intros acc v r H; cbn [digits_in] in H; [inversion H; exists []; reflexivity|]. destruct (is_dig c).
  - destruct (IH _ _ _ H) as [u ->]. exists (c :: u). reflexivity.
  - inversion H; exists []; reflexivity.
Qed.
Lemma int_wf : forall t, num_wf (num_int t).
Proof.
  intros t l v r. unfold num_int.
  set (nl := match l with c :: r0 => if c =? 45 then (true, r0) else if c =? 43 then (false, r0) else (false, l) | [] => (false, []) end).
  assert (HS: exists u, l = u ++ snd nl). { unfold nl. destruct l as [|c q]; [exists []; reflexivity|]. destruct (c =? 45); [exists [c]; reflexivity|]. destruct (c =? 43); [exists [c]; reflexivity|exists []; reflexivity]. }
  destruct nl as [neg m]. cbn [snd] in HS. destruct HS as [u ->]. destruct m as [|c q]; [intro H; inversion H; subst; exists u; split; [rewrite !app_nil_r; reflexivity|congruence]|].
  destruct (is_dig c) eqn:HD; [|intro H; inversion H; subst; exists u; split; [reflexivity|congruence]].
  destruct (digits_in 0 (c :: q)) as [x r0] eqn:E. cbn [digits_in] in E. rewrite HD in E. destruct (digits_suffix _ _ _ _ E) as [p ->].
  assert (G: forall o, (o, r0) = (v, r) -> exists u0, u ++ c :: p ++ r0 = u0 ++ r /\ (v <> None -> u0 <> [])).
  { intros o H. inversion H; subst. exists (u ++ c :: p). split; [rewrite <- app_assoc; reflexivity|]. intros _ HN. apply app_eq_nil in HN. destruct HN; discriminate. }
  destruct (sgn t); [destruct (_ && _)%bool; apply G|destruct (x <=? imax t); apply G].
Qed.
Lemma int_bracket : forall t, bracket_ok (num_int t).
Proof. intros t r. reflexivity. Qed.
Lemma digits_dec : forall n c r, 0 <= n < 10 ^ 20 -> is_dig c = false -> digits_in 0 (dec 20 n ++ c :: r) = (n, c :: r).
Proof.
  intros n c r Hn HC. destruct (dec_read 20 n 0 (c :: r)) as (k & E); [change (10 ^ Z.of_nat 20) with (10 ^ 20); exact Hn|]. rewrite E. replace (0 * 10 ^ k + n) with n by lia. cbn [digits_in]. rewrite HC. reflexivity.
Qed.
Lemma int_elem : forall t v, 1 <= bits t <= 64 -> imin t <= v <= imax t -> elem_ok put_int (num_int t) v.
Proof.
  intros t v HB HV. assert (B64: 2 ^ bits t <= 2 ^ 64) by (apply Z.pow_le_mono_r; lia). assert (BP: 2 ^ (bits t - 1) <= 2 ^ 64) by (apply Z.pow_le_mono_r; lia).
  assert (VR: - 2 ^ 64 <= v <= 2 ^ 64). { unfold imin, imax in HV. destruct (sgn t); lia. } assert (T20: 2 ^ 64 < 10 ^ 20) by reflexivity.
  unfold elem_ok, put_int. destruct (Z.ltb_spec v 0) as [N|N].
  - assert (SG: sgn t = true) by (unfold imin in HV; destruct (sgn t); [reflexivity|lia]). split; [eexists 45, _; split; [reflexivity|unfold blank; lia]|].
    intros c r HC. cbn [app]. unfold num_int. change (45 =? 45) with true. cbv iota. destruct (dec_head 20 (- v) ltac:(lia) ltac:(lia)) as (d & q & E & HD).
    pose proof (digits_dec (- v) c r ltac:(lia) ltac:(destruct HC as [-> | ->]; reflexivity)) as DD. rewrite E in *. cbn [app] in *. rewrite HD, DD, SG. replace (- - v) with v by lia.
    rewrite (proj2 (Z.leb_le _ _) (proj1 HV)), (proj2 (Z.leb_le _ _) (proj2 HV)). reflexivity.
  - destruct (dec_head 20 v ltac:(lia) ltac:(lia)) as (d & q & E & HD). rewrite E. split; [exists d, q; split; [reflexivity|intro H; apply ws_blank in H; rewrite dig_not_ws in H by exact HD; discriminate]|].
    intros c r HC. pose proof (digits_dec v c r ltac:(lia) ltac:(destruct HC as [-> | ->]; reflexivity)) as DD. rewrite E in DD. cbn [app] in *. unfold num_int.
    assert (D1: (d =? 45) = false) by (unfold is_dig in HD; apply Bool.andb_true_iff in HD; rewrite !Z.leb_le in HD; apply Z.eqb_neq; lia).
    assert (D2: (d =? 43) = false) by (unfold is_dig in HD; apply Bool.andb_true_iff in HD; rewrite !Z.leb_le in HD; apply Z.eqb_neq; lia). rewrite D1, D2, HD, DD.
    rewrite (proj2 (Z.leb_le _ _) (proj2 HV)), (proj2 (Z.leb_le _ _) (proj1 HV)). cbn [andb]. destruct (sgn t) eqn:SG; [reflexivity|]. unfold wrap. rewrite Z.mod_small; [reflexivity|]. unfold imax in HV. rewrite SG in HV. lia.
Qed.
