(* C76: uniform_on_sphere. *)
From Coq Require Import Lqa Reals Lra Qreals.
From Verif Require Import Base ProgModel ProgSpec ProgProofs UIntModel UIntSpec FloatModel FloatSpec FloatProofs RealModel RealSpec RealProofs UniProofs Disc4Proofs BinSpec IfpModel IfpSpec Inv1Proofs GamSpec
  PoisRSpec Pois3Proofs Pois3Props InvModel InvSpec Bin9Proofs ZigModel ZigSpec Zig6Proofs Zig7Proofs SphModel SphSpec SphProofs Sph2Proofs Sph3Proofs Sph4Proofs Sph5Proofs.
Ltac Zify.zify_post_hook ::= idtac.
Open Scope R_scope.

Lemma u_src : forall f md F tb bmin bmax, fmt_ok f -> eng_wf tb bmin bmax -> (bmax - bmin <= imax tb)%Z ->
  source bmin bmax F (uniform_01 f md F tb bmin bmax) (fun u => (0 <= u < 1)%Q /\ representable f u).
Proof.
  intros f md F tb bmin bmax Hf He HR ds Hv HF. destruct (u01_run2 f md tb bmin bmax F ds Hf He HR Hv HF) as [E|(u & r & E & L & U0 & U1 & RU)]; [left; exact E|right].
  exists u, r. split; [exact E|]. split; [exact L|]. split; [split; assumption|exact RU].
Qed.

Lemma lo_lem : forall e s X, 0 < e -> e <= 1 / 400000 -> - (4 * 2 * e * s) <= X - s -> 1 < s -> 1 - 10 * e <= X.
Proof. intros e s X E0 E1 D H. assert ((1 - 4 * 2 * e) * 1 <= (1 - 4 * 2 * e) * s) by (apply Rmult_le_compat_l; lra). lra. Qed.
Lemma hi_lem : forall e s X, 0 < e -> X - s <= 4 * 2 * e * s -> 0 <= s -> s <= 1 -> X <= 1 + 10 * e.
Proof. intros e s X E0 D S0 H. assert (4 * 2 * e * s <= 4 * 2 * e * 1) by (apply Rmult_le_compat_l; lra). lra. Qed.

(* The container has dim() elements, whatever was done before *)
Theorem C76_size : forall s d s', (0 <= d)%Z ->
  (exists s0, sp_make d = Some s0 /\ sp_dim s0 = d /\ Z.of_nat (length (sp_cont s0)) = d) /\
  (sp_set s d = Some s' -> sp_dim s' = d /\ Z.of_nat (length (sp_cont s')) = d) /\
  exists lo hi, sp_min (Sph (sp_cont s) d) = Some lo /\ sp_max (Sph (sp_cont s) d) = Some hi /\ Z.of_nat (length lo) = d /\ Z.of_nat (length hi) = d /\
    forall i, (0 <= i < d)%Z -> (nth (Z.to_nat i) lo 7 == if (i =? 0)%Z then -1 else 0)%Q /\ (nth (Z.to_nat i) hi 7 == if (i =? 0)%Z then 1 else 0)%Q.
Proof.
  intros s d s' D0. assert (L: forall c, exists c', sp_resize c d = Some c' /\ Z.of_nat (length c') = d).
  { intro c. unfold sp_resize. destruct (Z.ltb_spec d 0) as [N|N]; [lia|]. eexists. split; [reflexivity|]. rewrite app_length, firstn_length, repeat_length. lia. }
  split; [|split].
  - destruct (L []) as (c & E & LC). exists (Sph c d). unfold sp_make. rewrite E. split; [reflexivity|]. split; [reflexivity|exact LC].
  - unfold sp_set. destruct (L (sp_cont s)) as (c & E & LC). rewrite E. cbn [bind]. intro H. inversion H. split; [reflexivity|exact LC].
  - unfold sp_min, sp_max, sp_bound. cbn [sp_dim]. destruct (L []) as (c & E & LC). rewrite E. cbn [bind]. destruct (Z.eqb_spec d 0) as [Z|N]; [exists c, c; split; [reflexivity|]; split; [reflexivity|]; split; [exact LC|]; split; [exact LC|]; intros; lia|].
    assert (CZ: c = repeat 0%Q (Z.to_nat d)). { unfold sp_resize in E. destruct (Z.ltb_spec d 0); [lia|]. rewrite firstn_nil, Nat.sub_0_r in E. inversion E. reflexivity. }
    destruct c as [|a c]; [cbn in LC; lia|]. do 2 eexists. split; [reflexivity|]. split; [reflexivity|]. split; [exact LC|]. split; [exact LC|].
    intros i Hi. destruct (Z.eqb_spec i 0) as [->|NI]; [split; reflexivity|]. destruct (Z.to_nat d) as [|m] eqn:ED; [discriminate|]. cbn [repeat] in CZ. inversion CZ as [[CA CC]]. 
    destruct (Z.to_nat i) as [|j] eqn:EI; [lia|]. assert (NT: nth j (repeat 0%Q m) 7%Q = 0%Q). { rewrite (nth_indep _ 7%Q 0%Q) by (rewrite repeat_length; lia). apply nth_repeat. } cbn [nth]. rewrite NT. split; reflexivity.
Qed.
Print Assumptions C76_size.
Example C76_ex_size : sp_set (Sph [1; 2; 3]%Q 3) 5 = Some (Sph [1; 2; 3; 0; 0]%Q 5) /\ sp_set (Sph [1; 2; 3]%Q 3) 2 = Some (Sph [1; 2]%Q 2) /\ sp_max (Sph [1; 2; 3]%Q 3) = Some [1; 0; 0]%Q.
Proof. split; [|split]; reflexivity. Qed.

(* The result does not depend on the previous content of the container, and
   operator()(eng, parm) gives the same as a distribution of that dimension *)
Theorem C76_history : forall f md sq u01 nrm G c d ds, Z.of_nat (length c) = d ->
  exec (sp_op_parm f md sq u01 nrm G d) ds = exec (sp_op f md sq u01 nrm G (Sph c d)) ds.
Proof.
  intros f md sq u01 nrm G c d ds H. unfold sp_op_parm, sp_make, sp_resize. destruct (Z.ltb_spec d 0) as [N|N]; [lia|]. cbn [bind plift pbind length]. rewrite firstn_nil. cbn [app]. rewrite Nat.sub_0_r.
  set (z := repeat 0%Q (Z.to_nat d)). assert (LZ: length z = length c) by (unfold z; rewrite repeat_length; lia).
  unfold sp_op. cbn [sp_dim sp_cont]. destruct (Z.eqb_spec d 0) as [E|_].
  { destruct c; [|cbn in H; lia]. destruct z; [reflexivity|discriminate]. }
  assert (W: forall vs, length vs = length c -> sp_write vs z = sp_write vs c) by (intros vs L; rewrite !write_full; [reflexivity|exact L|lia]).
  destruct (Z.eqb_spec d 1) as [E|_]; [rewrite !exec_bind_eq; destruct (exec u01 ds); try reflexivity; rewrite W; [reflexivity|cbn; lia]|].
  destruct (Z.eqb_spec d 2) as [E|_].
  { rewrite !exec_bind_eq. destruct (exec _ ds) as [xy r| | |]; try reflexivity. unfold sp_map2. destruct (fsqrt sq _) as [q|]; [|reflexivity]. cbn [bind]. destruct (fdiv f md 1 q); [|reflexivity]. cbn [bind]. rewrite W; [reflexivity|cbn; lia]. }
  destruct (Z.eqb_spec d 3) as [E|_].
  { rewrite !exec_bind_eq. destruct (exec _ ds) as [xy r| | |]; try reflexivity. unfold sp_map3. cbv zeta. destruct (fsqrt sq _) as [q|]; [|reflexivity]. cbn [bind]. rewrite W; [reflexivity|cbn; lia]. }
  rewrite LZ. reflexivity.
Qed.
Print Assumptions C76_history.

(* dim() 0: no number is drawn.  dim() 1: -1 or 1, according to which half of
   [0, 1) the uniform number is in. *)
Theorem C76_dim01 : forall f md sq nrm tb bmin bmax F G c ds, fmt_ok f -> eng_wf tb bmin bmax -> (bmax - bmin <= imax tb)%Z -> valid_draws bmin bmax ds -> (length ds < F)%nat ->
  let u01 := uniform_01 f md F tb bmin bmax in
  exec (sp_op f md sq u01 nrm G (Sph [] 0)) ds = ORet [] ds /\
  (exec (sp_op f md sq u01 nrm G (Sph [c] 1)) ds = OMore \/
   exists u rest v, exec u01 ds = ORet u rest /\ exec (sp_op f md sq u01 nrm G (Sph [c] 1)) ds = ORet [v] rest /\ (((u < 1 # 2)%Q /\ v = (-1)%Q) \/ ((1 # 2 <= u)%Q /\ v = 1%Q))).
Proof.
  intros f md sq nrm tb bmin bmax F G c ds Hf He HR Hv HF u01. split; [reflexivity|]. unfold sp_op. cbn [sp_dim sp_cont]. cbn [Z.eqb Pos.eqb]. rewrite exec_bind_eq.
  destruct (u_src f md F tb bmin bmax Hf He HR ds Hv HF) as [E|(u & r & E & L & _)]; fold u01 in E; rewrite E; [left; reflexivity|]. right. exists u, r. eexists. split; [reflexivity|]. split; [reflexivity|].
  destruct (qlt u (1 # 2)) eqn:Q; [left|right]; split; try reflexivity; [apply qlt_iff; exact Q|apply qlt_false; exact Q].
Qed.
Print Assumptions C76_dim01.

(* One pass of the loop for dim() 2 (d = false) or 3 (d = true): the point
   (2u-1, 2v-1) of the square is kept if it is in the disc, up to 10 roundings; for
   dim() 2 also not if it is the centre. *)
Theorem C76_disc : forall f md (d : bool) tb bmin bmax F ds, fmt_ok f -> fmt_deep f -> eng_wf tb bmin bmax -> (bmax - bmin <= imax tb)%Z -> valid_draws bmin bmax ds -> (length ds < F)%nat ->
  let u01 := uniform_01 f md F tb bmin bmax in let try := if d then sp_try3 f md u01 else sp_try2 f md u01 in
  exec try ds = OMore \/
  exists u r v rest x y r', exec u01 ds = ORet u r /\ exec u01 r = ORet v rest /\ exec try ds = ORet r' rest /\
    Rabs (Q2R x - (2 * Q2R u - 1)) <= eps f /\ Rabs (Q2R y - (2 * Q2R v - 1)) <= eps f /\
    match r' with
    | Some p => p = (x, y) /\ norm2 [x; y] <= 1 + 10 * eps f /\ (d = false -> 0 < norm2 [x; y])
    | None => 1 - 10 * eps f <= norm2 [x; y] \/ (d = false /\ norm2 [x; y] = 0)
    end.
Proof.
  intros f md d tb bmin bmax F ds Hf Hd He HR Hv HF u01 try. pose proof (u_src f md F tb bmin bmax Hf He HR) as HU. fold u01 in HU.
  destruct (HU ds Hv HF) as [E|(u & r & E & L & [U0 U1] & RU)]; [left; unfold try, sp_try2, sp_try3; destruct d; unfold sp_coord; rewrite !exec_bind_eq, E; reflexivity|].
  destruct (exec_suffix _ _ _ _ _ _ _ E Hv) as [V1 _].
  destruct (HU r V1 ltac:(lia)) as [E2|(v & rest & E2 & L2 & [W0 W1] & RW)].
  { left. unfold try, sp_try2, sp_try3, sp_coord. destruct d; rewrite !exec_bind_eq, E; cbn [exec]; rewrite exec_bind_eq, exec_bind_eq, E2; reflexivity. }
  right. set (x := fround f md (fround f md (u * 2) - 1)). set (y := fround f md (fround f md (v * 2) - 1)).
  destruct (coord_ok f md Hf Hd u U0 ltac:(ql) RU) as (_ & _ & _ & _ & EX). destruct (coord_ok f md Hf Hd v W0 ltac:(ql) RW) as (_ & _ & _ & _ & EY). fold x in EX. fold y in EY.
  assert (CX: sq_coord f md x) by (exists u; split; [split; assumption|]; split; [exact RU|reflexivity]). assert (CY: sq_coord f md y) by (exists v; split; [split; assumption|]; split; [exact RW|reflexivity]).
  destruct (sq2_ok f md Hf Hd x y (proj1 (coord_small f md Hf Hd x CX)) (proj1 (coord_small f md Hf Hd y CY))) as (S & S0 & _ & _). set (s := sp_sq2 f md x y) in *.
  assert (NE: norm2 [x; y] = Q2R x * Q2R x + Q2R y * Q2R y) by (cbn [norm2]; ring). rewrite <- NE in S. set (X := norm2 [x; y]) in *.
  pose proof (e_pos' f) as E0. pose proof (e_small f Hd) as ES.
  pose proof (rn_dist (eps f) E0 2 X (Q2R s) ltac:(lra) ltac:(lra) (rn_sym (eps f) _ _ _ S)) as D1. apply Rabs_le_inv in D1.
  assert (HI: (s <= 1)%Q -> X <= 1 + 10 * eps f). { intro H. apply Qle_Rle in H, S0. rewrite RMicromega.Q2R_1 in H. rewrite RMicromega.Q2R_0 in S0. exact (hi_lem _ _ _ E0 (proj2 D1) S0 H). }
  assert (LO: (1 < s)%Q -> 1 - 10 * eps f <= X). { intro H. apply Qlt_Rlt in H. rewrite RMicromega.Q2R_1 in H. exact (lo_lem _ _ _ E0 ES (proj1 D1) H). }
  exists u, r, v, rest, x, y, (if (if d then qlt 1 s else Qeq_bool s 0 || qlt 1 s) then None else Some (x, y)).
  split; [exact E|]. split; [exact E2|]. split; [|split; [exact EX|]; split; [exact EY|]].
  - unfold try, sp_try2, sp_try3, sp_coord. destruct d; rewrite !exec_bind_eq, E; cbn [exec]; rewrite exec_bind_eq, exec_bind_eq, E2; reflexivity.
  - destruct d.
    + destruct (qlt 1 s) eqn:Q; [left; apply LO, qlt_iff; exact Q|]. split; [reflexivity|]. split; [apply HI, qlt_false; exact Q|discriminate].
    + destruct (Qeq_bool s 0) eqn:Z; cbn [orb].
      * right. split; [reflexivity|]. apply Qeq_bool_iff, Qeq_eqR in Z. rewrite RMicromega.Q2R_0 in Z. rewrite Z, Rmult_0_r, Ropp_0, Rminus_0_r in D1. change (X = 0). clearbody X. lra.
      * destruct (qlt 1 s) eqn:Q; [left; apply LO, qlt_iff; exact Q|]. split; [reflexivity|]. split; [apply HI, qlt_false; exact Q|]. intros _.
        destruct (Rle_lt_or_eq_dec 0 X (norm2_nn _)) as [G|G]; [exact G|]. exfalso. rewrite <- G in S. destruct S as (_ & A & B). rewrite Rmult_0_r in A, B. assert (Z': Q2R s = Q2R 0) by (rewrite RMicromega.Q2R_0; lra).
        apply eqR_Qeq in Z'. apply Qeq_bool_iff in Z'. congruence.
Qed.
Print Assumptions C76_disc.

(* dim() 2: the point of the disc divided by its norm, up to rounding; on the unit
   circle up to rounding.  There is no undefined behaviour. *)
Theorem C76_circle : forall f md sq K nrm tb bmin bmax F c ds, fmt_ok f -> fmt_deep f -> 0 <= K -> sqrt_all f K sq -> (2 * K + 6) * (2 * eps f) <= 1 / 2 ->
  eng_wf tb bmin bmax -> (bmax - bmin <= imax tb)%Z -> valid_draws bmin bmax ds -> (length ds < F)%nat -> length c = 2%nat ->
  let op := sp_op f md sq (uniform_01 f md F tb bmin bmax) nrm F (Sph c 2) in
  exec op ds = OMore \/
  exists x y a b rest, exec op ds = ORet [a; b] rest /\ 0 < norm2 [x; y] <= 1 + 10 * eps f /\
    (let N := sqrt (norm2 [x; y]) in Rabs (Q2R a - Q2R x * / N) <= (12 + 4 * K) * eps f * (Rabs (Q2R x) * / N) /\ Rabs (Q2R b - Q2R y * / N) <= (12 + 4 * K) * eps f * (Rabs (Q2R y) * / N)) /\
    Rabs (norm2 [a; b] - 1) <= (24 + 8 * K) * eps f.
Proof.
  intros f md sq K nrm tb bmin bmax F c ds Hf Hd K0 Hsq HM He HR Hv HF HC op. pose proof (e_pos' f) as E0. pose proof (e_small f Hd) as ES.
  pose proof (u_src f md F tb bmin bmax Hf He HR) as HU. set (u01 := uniform_01 f md F tb bmin bmax) in *. unfold op, sp_op. cbn [sp_dim sp_cont]. cbn [Z.eqb Pos.eqb]. rewrite exec_bind_eq.
  assert (KE: 0 <= K * eps f) by (apply Rmult_le_pos; lra).
  destruct (retry_run bmin bmax F (Q * Q) (sp_try2 f md u01) (fun p => let s := sp_sq2 f md (fst p) (snd p) in sq_coord f md (fst p) /\ sq_coord f md (snd p) /\ ~ (s == 0)%Q /\ (s <= 1)%Q) F ds Hv HF HF) as [E|(p & rest & E & L & CX & CY & NZ & LE)].
  { intros ds' Hv' HF'. destruct (try2_run f md bmin bmax F u01 HU ds' Hv' HF') as [E|(x & y & rest & E & L & CX & CY)]; [left; exact E|right]. eexists. exists rest. split; [exact E|]. split; [exact L|].
    intros [x' y'] A. destruct (Qeq_bool (sp_sq2 f md x y) 0) eqn:Z; cbn [orb] in A; [discriminate|]. destruct (qlt 1 (sp_sq2 f md x y)) eqn:Q; [discriminate|]. inversion A. subst. cbn [fst snd].
    split; [exact CX|]. split; [exact CY|]. split; [intro Y; apply Qeq_bool_iff in Y; congruence|apply qlt_false; exact Q]. }
  - rewrite E. left. reflexivity.
  - rewrite E. destruct p as [x y]. cbn [fst snd] in *. right.
    destruct (coord_small f md Hf Hd x CX) as [SX BX], (coord_small f md Hf Hd y CY) as [SY BY]. destruct (sq2_ok f md Hf Hd x y SX SY) as (S & S0 & _ & RS). unfold sp_map2.
    assert (MN: forall s, (r <- fsqrt sq s;; mult <- fdiv f md 1 r;; Some [fround f md (x * mult); fround f md (y * mult)]) = sp_mapn f md sq [x; y] s) by reflexivity. rewrite MN. clear MN.
    set (s := sp_sq2 f md x y) in *. assert (NE: norm2 [x; y] = Q2R x * Q2R x + Q2R y * Q2R y) by (cbn [norm2]; ring). rewrite <- NE in S.
    destruct (norm_ok f md sq K Hf Hd K0 Hsq [x; y] s 2 ltac:(repeat (constructor; [assumption|]); constructor) ltac:(repeat (constructor; [assumption|]); constructor) ltac:(cbn; lia) ltac:(ql) RS S ltac:(lra) ltac:(lra)) as (rs & ER & LR & N1 & NP & F2).
    destruct rs as [|a [|b [|? ?]]]; try discriminate. rewrite ER. cbn [bind]. rewrite write_full by (rewrite HC; reflexivity). cbn [plift exec].
    exists x, y, a, b, rest. split; [reflexivity|]. split; [split; [exact NP|]|].
    { pose proof (rn_dist (eps f) E0 2 _ (Q2R s) ltac:(lra) ltac:(lra) (rn_sym (eps f) _ _ _ S)) as D1. apply Rabs_le_inv in D1. apply Qle_Rle in LE, S0. rewrite RMicromega.Q2R_1 in LE. rewrite RMicromega.Q2R_0 in S0. exact (hi_lem _ _ _ E0 (proj2 D1) S0 LE). }
    inversion F2 as [|? ? ? ? A1 F3]. inversion F3 as [|? ? ? ? A2 _]. replace (4 * (2 / 2 + K + 2)) with (12 + 4 * K) in A1, A2 by field. split; [cbv zeta; split; assumption|].
    replace (24 + 8 * K) with (4 * (2 + 2 * K + 4)) by ring. apply rn_one; [exact E0|lra|lra|exact N1].
Qed.
Print Assumptions C76_circle.

(* dim() 3: a point (x, y) of the disc; the height is 2(x^2+y^2)-1 up to rounding
   (x^2+y^2 is uniform, and by Archimedes so is the height of a point of the
   sphere), the other coordinates are those of the disc times a common factor; on
   the unit sphere up to rounding *)
Theorem C76_sphere : forall f md sq K nrm tb bmin bmax F c ds, fmt_ok f -> fmt_deep f -> 0 <= K -> sqrt_all f K sq -> (2 * K + 7) * (2 * eps f) <= 1 / 2 ->
  eng_wf tb bmin bmax -> (bmax - bmin <= imax tb)%Z -> valid_draws bmin bmax ds -> (length ds < F)%nat -> length c = 3%nat ->
  let op := sp_op f md sq (uniform_01 f md F tb bmin bmax) nrm F (Sph c 3) in
  exec op ds = OMore \/
  exists x y m v1 v2 v3 rest, exec op ds = ORet [v1; v2; v3] rest /\ norm2 [x; y] <= 1 + 10 * eps f /\
    (0 <= m)%Q /\ v1 = fround f md (x * m) /\ v2 = fround f md (y * m) /\ Rabs (Q2R v3 - (2 * norm2 [x; y] - 1)) <= 20 * eps f /\
    Rabs (norm2 [v1; v2; v3] - 1) <= (28 + 8 * K) * eps f.
Proof.
  intros f md sq K nrm tb bmin bmax F c ds Hf Hd K0 Hsq HM He HR Hv HF HC op. pose proof (e_pos' f) as E0. pose proof (e_small f Hd) as ES.
  pose proof (u_src f md F tb bmin bmax Hf He HR) as HU. set (u01 := uniform_01 f md F tb bmin bmax) in *. unfold op, sp_op. cbn [sp_dim sp_cont]. cbn [Z.eqb Pos.eqb]. rewrite exec_bind_eq.
  destruct (retry_run bmin bmax F (Q * Q) (sp_try3 f md u01) (fun p => let s := sp_sq2 f md (fst p) (snd p) in sq_coord f md (fst p) /\ sq_coord f md (snd p) /\ (s <= 1)%Q) F ds Hv HF HF) as [E|(p & rest & E & L & CX & CY & LE)].
  { intros ds' Hv' HF'. destruct (try3_run f md bmin bmax F u01 HU ds' Hv' HF') as [E|(x & y & rest & E & L & CX & CY)]; [left; exact E|right]. eexists. exists rest. split; [exact E|]. split; [exact L|].
    intros [x' y'] A. destruct (qlt 1 (sp_sq2 f md x y)) eqn:Q; [discriminate|]. inversion A. subst. cbn [fst snd]. split; [exact CX|]. split; [exact CY|apply qlt_false; exact Q]. }
  - rewrite E. left. reflexivity.
  - rewrite E. destruct p as [x y]. cbn [fst snd] in *. right.
    destruct (coord_facts f md Hf Hd x CX) as (_ & _ & _ & BX), (coord_facts f md Hf Hd y CY) as (_ & _ & _ & BY).
    destruct (map3_ok f md sq K Hf Hd K0 Hsq x y BX BY LE HM) as (m & v1 & v2 & v3 & EM & M0 & E1 & E2 & N1 & H3). rewrite EM. cbn [bind]. rewrite write_full by (rewrite HC; reflexivity). cbn [plift exec].
    assert (NE: norm2 [x; y] = Q2R x * Q2R x + Q2R y * Q2R y) by (cbn [norm2]; ring).
    exists x, y, m, v1, v2, v3, rest. split; [reflexivity|]. split.
    { destruct (sq2_ok f md Hf Hd x y (proj1 (coord_small f md Hf Hd x CX)) (proj1 (coord_small f md Hf Hd y CY))) as (S & S0 & _ & RS). rewrite <- NE in S. set (s := sp_sq2 f md x y) in *.
      pose proof (rn_dist (eps f) E0 2 _ (Q2R s) ltac:(lra) ltac:(lra) (rn_sym (eps f) _ _ _ S)) as D1. apply Rabs_le_inv in D1. apply Qle_Rle in LE, S0. rewrite RMicromega.Q2R_1 in LE. rewrite RMicromega.Q2R_0 in S0. exact (hi_lem _ _ _ E0 (proj2 D1) S0 LE). }
    split; [exact M0|]. split; [exact E1|]. split; [exact E2|]. split; [rewrite NE; exact H3|].
    replace (28 + 8 * K) with (4 * (2 * K + 7)) by ring. apply rn_one; [exact E0|lra|lra|exact N1].
Qed.
Print Assumptions C76_sphere.

(* dim() >= 4: dim() numbers of the unit normal distribution (C65), divided by
   their norm up to rounding, if none of them is larger than 2^digits *)
Theorem C76_general : forall f md ex sq K Ke tb bmin bmax F s ds, fmt_ok f -> fmt_wide f -> fmt_deep f -> 0 <= K -> sqrt_all f K sq -> 0 <= Ke -> exp_ok f Ke ex ->
  eng_wf tb bmin bmax -> (32 <= bits tb <= 64)%Z -> (bmax - bmin <= imax tb)%Z -> no_full_last (prec f) (digit_bits bmin bmax) 8 -> (digit_bits bmin bmax - 8 mod digit_bits bmin bmax <= prec f)%Z ->
  valid_draws bmin bmax ds -> (length ds < F)%nat -> (4 <= sp_dim s < 2 ^ 31)%Z -> Z.of_nat (length (sp_cont s)) = sp_dim s -> (IZR (sp_dim s) + 2 * K + 5) * (2 * eps f) <= 1 / 2 ->
  let u01 := uniform_01 f md F tb bmin bmax in let nrm := nz_unit f md ex (int_float_pair f md F 8 tb bmin bmax) u01 F in let op := sp_op f md sq u01 nrm F s in
  exec op ds = OMore \/
  exists vs rs rest, exec op ds = ORet rs rest /\ length vs = length (sp_cont s) /\ length rs = length vs /\
    Forall (fun v => exists m, nz_point f md ((218 + Ke) * unit_err f) m /\ (v == m \/ v == - m)%Q) vs /\
    (Forall (fun v => Qabs v <= p2 (prec f))%Q vs ->
     Rabs (norm2 rs - 1) <= 4 * (IZR (sp_dim s) + 2 * K + 5) * eps f /\ 0 < norm2 vs /\
     Forall2 (fun v r => let N := sqrt (norm2 vs) in Rabs (Q2R r - Q2R v * / N) <= (2 * IZR (sp_dim s) + 4 * K + 10) * eps f * (Rabs (Q2R v) * / N)) vs rs).
Proof.
  intros f md ex sq K Ke tb bmin bmax F s ds Hf Hw Hd K0 Hsq Ke0 HE He HB HR HN HG Hv HF HD HC HM u01 nrm op. pose proof (e_pos' f) as E0. pose proof (e_small f Hd) as ES.
  assert (Pf: (20 <= prec f)%Z) by apply Hd. assert (KE: 0 <= K * eps f) by (apply Rmult_le_pos; lra).
  set (R := fun v => not_small f v /\ exists m, nz_point f md ((218 + Ke) * unit_err f) m /\ (v == m \/ v == - m)%Q).
  pose proof (pair_src f md F tb bmin bmax Hf Hw Pf He HB HN) as PS. pose proof (u01_src f md F tb bmin bmax Hf He HR) as US.
  assert (SN: source bmin bmax F nrm R).
  { intros ds' Hv' HF'. destruct (unit_run f md ex Ke Hf Hw Pf Ke0 HE bmin bmax F _ _ PS US F ds' (le_n F) Hv' HF') as [E|(v & rest & E & L & PT)]; [left; exact E|right].
    exists v, rest. split; [exact E|]. split; [exact L|]. split; [|exact PT].
    apply (unit_low f md ex Ke Hf Hw Pf Ke0 HE Hd bmin bmax F _ _ PS (pair_grid f md F tb bmin bmax Hf Hw Pf He HB HN HG) US F ds' v rest (le_n F) Hv' HF' E). }
  unfold op, sp_op. destruct (Z.eqb_spec (sp_dim s) 0) as [?|_]; [lia|]. destruct (Z.eqb_spec (sp_dim s) 1) as [?|_]; [lia|]. destruct (Z.eqb_spec (sp_dim s) 2) as [?|_]; [lia|]. destruct (Z.eqb_spec (sp_dim s) 3) as [?|_]; [lia|].
  set (n := length (sp_cont s)) in *. assert (NI: INR n = IZR (sp_dim s)) by (rewrite INR_IZR_INZ, HC; reflexivity). rewrite exec_bind_eq.
  destruct (retry_run bmin bmax F (list Q * Q) (sp_tryn f md nrm n) (fun p => snd p = sp_acc f md 0 (fst p) /\ length (fst p) = n /\ Forall R (fst p) /\ ~ (snd p == 0)%Q) F ds Hv HF HF) as [E|(p & rest & E & L & AC & LP & FR & NZ)].
  { intros ds' Hv' HF'. unfold sp_tryn. rewrite exec_bind_eq. destruct (fill_run f md bmin bmax F nrm R SN n 0 ds' Hv' HF') as [E|(vs & rest & E & L & LV & FV)]; rewrite E; [left; reflexivity|right].
    eexists. exists rest. split; [reflexivity|]. split; [lia|]. cbn [snd]. intros p A. destruct (Qeq_bool (sp_acc f md 0 vs) 0) eqn:Z; [discriminate|]. inversion A. cbn [fst snd].
    split; [reflexivity|]. split; [exact LV|]. split; [exact FV|]. intro Y. apply Qeq_bool_iff in Y. congruence. }
  - rewrite E. left. reflexivity.
  - rewrite E. destruct p as [vs t]. cbn [fst snd] in *. right.
    assert (NS: Forall (not_small f) vs) by (eapply Forall_impl; [|exact FR]; intros v [A _]; exact A).
    destruct (acc_ok f md Hf Hd vs 1 0 0 ltac:(lra) NS ltac:(rewrite RMicromega.Q2R_0; apply (rn_w _ E0 0); [lra|apply rn_0; lra]) ltac:(discriminate) ltac:(left; reflexivity) ltac:(apply repr_0; exact Hf)) as (S & S0 & _ & RS).
    rewrite <- AC in *. rewrite LP, NI, Rplus_0_l in S.
    assert (TP: (0 < t)%Q) by ql.
    assert (MP: exists rs, sp_mapn f md sq vs t = Some rs /\ length rs = length vs).
    { unfold sp_mapn, fsqrt. replace (qlt t 0) with false by (symmetry; apply qlt_false; exact S0). cbn [bind]. unfold fdiv.
      assert (SP: 0 < sqrt (Q2R t)) by (apply sqrt_lt_R0; apply Qlt_Rlt in TP; rewrite RMicromega.Q2R_0 in TP; exact TP).
      pose proof (Hsq t S0 RS) as HS. apply Rabs_le_inv in HS. assert (D4: 4 <= IZR (sp_dim s)) by (apply IZR_le; lia). assert (DE: 0 <= IZR (sp_dim s) * eps f) by (apply Rmult_le_pos; lra). assert (K * eps f * sqrt (Q2R t) <= (1 / 2) * sqrt (Q2R t)) by (apply Rmult_le_compat_r; lra).
      destruct (Qeq_bool (sq t) 0) eqn:Z; [apply Qeq_bool_iff, Qeq_eqR in Z; rewrite RMicromega.Q2R_0 in Z; lra|]. cbn [bind]. eexists. split; [reflexivity|apply map_length]. }
    destruct MP as (rs & ER & LR). rewrite ER. cbn [plift exec]. exists vs, rs, rest. split; [reflexivity|]. split; [exact LP|]. split; [exact LR|].
    split; [eapply Forall_impl; [|exact FR]; intros v [_ A]; exact A|]. intro BV.
    assert (D4: 4 <= IZR (sp_dim s)) by (apply IZR_le; lia).
    destruct (norm_ok f md sq K Hf Hd K0 Hsq vs t (1 + IZR (sp_dim s)) NS BV ltac:(lia) TP RS S ltac:(lra) ltac:(lra)) as (rs' & ER' & _ & N1 & NP & F2). rewrite ER in ER'. inversion ER'. subst rs'.
    assert (DE: 0 <= IZR (sp_dim s) * eps f) by (apply Rmult_le_pos; lra).
    split; [|split; [exact NP|]].
    + replace (IZR (sp_dim s) + 2 * K + 5) with (1 + IZR (sp_dim s) + 2 * K + 4) by ring. apply rn_one; [exact E0|lra|lra|exact N1].
    + replace (2 * IZR (sp_dim s) + 4 * K + 10) with (4 * ((1 + IZR (sp_dim s)) / 2 + K + 2)) by field. exact F2.
Qed.
Print Assumptions C76_general.

(* the hypotheses, for double, a square root with two roundings, and a 32 bit engine *)
Example C76_ex : let f := ieee_double in fmt_ok f /\ fmt_wide f /\ fmt_deep f /\ sqrt_all f 2 zsqrt /\ (2 * 2 + 7) * (2 * eps f) <= 1 / 2 /\ (IZR 1000 + 2 * 2 + 5) * (2 * eps f) <= 1 / 2 /\
  eng_wf u32 0 4294967295 /\ (4294967295 - 0 <= imax u32)%Z /\ no_full_last (prec f) (digit_bits 0 4294967295) 8 /\ (digit_bits 0 4294967295 - 8 mod digit_bits 0 4294967295 <= prec f)%Z.
Proof.
  cbv zeta. split; [split; cbn; lia|]. split; [split; cbn; lia|]. split; [split; cbn; lia|]. split; [exact zsqrt_ok|].
  assert (E: eps ieee_double = / 4503599627370496) by (unfold eps, p2, Q2R; cbn; lra). rewrite E. split; [lra|]. split; [lra|].
  split; [unfold eng_wf, inT; vm_compute; intuition discriminate|]. split; [vm_compute; discriminate|]. split; [right; vm_compute; discriminate|]. vm_compute. discriminate.
Qed.
(* dim() 2: a point outside of the disc is rejected; dim() 3; dim() 1 *)
Example C76_ex_run : let u01 := uniform_01 ieee_double RNE 9 u32 0 4294967295 in let op c d ds := exec (sp_op ieee_double RNE zsqrt u01 u01 9 (Sph c d)) ds in
  op [0; 0]%Q 2%Z [1; 4294967295; 3435973837; 3006477107; 77]%Z = ORet [7494442791961687 # 9007199254740992; 4996295192702307 # 9007199254740992]%Q [77]%Z /\
  op [0; 0; 0]%Q 3%Z [2147483648; 3221225472; 77]%Z = ORet [0; 3900231685776981 # 4503599627370496; -1 # 2]%Q [77]%Z /\
  op [0]%Q 1%Z [2147483648; 77]%Z = ORet [1]%Q [77]%Z /\ op [0]%Q 1%Z [2147483647; 77]%Z = ORet [-1]%Q [77]%Z.
Proof. cbv zeta. split; [|split; [|split]]; vm_compute; reflexivity. Qed.

(* "dist.min() <= x <= dist.max() where x is any value produced": max() is (1, 0) or
   (1, 0, 0).  dim() 2 produces (1, y) with y > 0, dim() 3 a first coordinate above 1. *)
Theorem C76_max_refuted : let u01 := uniform_01 ieee_double RNE 9 u32 0 4294967295 in let op d ds := exec (sp_op ieee_double RNE zsqrt u01 u01 9 (Sph (repeat 0%Q (Z.to_nat d)) d)) ds in
  exists ds2 ds3 v2 v3 m2 m3, valid_draws 0 4294967295 ds2 /\ valid_draws 0 4294967295 ds3 /\ op 2%Z ds2 = ORet v2 [] /\ op 3%Z ds3 = ORet v3 [] /\
    sp_max (Sph [0; 0]%Q 2) = Some m2 /\ sp_max (Sph [0; 0; 0]%Q 3) = Some m3 /\ lex_lt m2 v2 /\ lex_lt m3 v3 /\ (1 < nth 0 v3 0)%Q.
Proof.
  cbv zeta. exists [4294967295; 2147483649]%Z, [3665983897; 2147483648]%Z. do 4 eexists. split; [repeat constructor; lia|]. split; [repeat constructor; lia|].
  split; [vm_compute; reflexivity|]. split; [vm_compute; reflexivity|]. split; [reflexivity|]. split; [reflexivity|]. split; [right; split; [reflexivity|left; reflexivity]|]. split; [left; reflexivity|reflexivity].
Qed.
Print Assumptions C76_max_refuted.
