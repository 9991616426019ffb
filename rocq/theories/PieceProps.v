(* C57, C58: piecewise_constant_distribution and piecewise_linear_distribution *)
From Coq Require Import Lqa Qminmax.
From Verif Require Import Base ProgModel ProgSpec ProgProofs UIntModel UIntSpec FloatModel FloatSpec FloatProofs RealModel RealSpec RealProofs UniProofs
  DiscModel DiscProofs Disc2Proofs Disc4Proofs RDiscModel RDiscSpec RDiscProofs RDisc2Proofs RDisc3Proofs RDisc4Proofs RDisc5Proofs RDisc6Proofs
  PieceModel PieceSpec PieceProofs Piece2Proofs Piece3Proofs Piece4Proofs.
Open Scope Q_scope.

(* ================= C57 ================= *)

(* Strictly increasing boundaries and one weight fewer: every way of making the
   distribution gives a table for these weights, and operator() returns a
   number inside an interval, of positive weight if there are not too many;
   further weights are ignored by the iterator constructors. *)
Theorem C57_distribution : forall f fw md iv ws extra old mk fmax,
  fmt_ok f -> (2 <= prec f)%Z -> is_fmax f fmax -> fmt_ok fw -> (emin fw + 2 * prec fw <= 0)%Z ->
  ivals_ok f fmax iv -> length iv = S (length ws) -> rweights_ok fw szt ws -> (qlen ws + 3) * p2 (1 - prec fw) <= 1 # 8 ->
  In mk [pc_iter fw md iv (ws ++ extra); pc_range fw md iv ws; pc_of_param fw md (pp_range iv ws);
         pc_set_param fw md old (pp_range iv ws); bind (pp_iter iv (ws ++ extra)) (pc_of_param fw md);
         bind (pp_iter iv (ws ++ extra)) (pc_set_param fw md old)] ->
  exists tab, mk = Some (Pcd tab iv) /\ pc_min (Pcd tab iv) = Some (nth 0 iv 0) /\ pc_max (Pcd tab iv) = Some (nth (length iv - 1) iv 0) /\
    splits ws (rd_select tab) (qlen ws * (16 * qlen ws + 26) * p2 (1 - prec fw)) /\
    forall tb bmin bmax, eng_wf tb bmin bmax -> (bmax - bmin <= imax tb)%Z ->
      lands_in bmin bmax (fun F => pc_op f fw md F tb bmin bmax fmax (Pcd tab iv)) iv
        (fun i => qlen ws * (4 * qlen ws + 9) * p2 (1 - prec fw) < 1 -> 0 < qweight ws (Z.of_nat i)).
Proof.
  intros f fw md iv ws extra old mk fmax Hf HP Hm Hfw Hfw2 Hiv HL Hok Hsm Hmk.
  assert (L2: Nat.ltb (length iv) 2 = false) by (apply Nat.ltb_ge; apply Hiv).
  assert (EX: exists tab, mk = Some (Pcd tab iv) /\ bins_for fw ws (qlen ws * (16 * qlen ws + 26) * p2 (1 - prec fw)) tab).
  { assert (TK: take_n (length iv - 1) (ws ++ extra) = Some ws). { rewrite HL. cbn [Nat.sub]. rewrite Nat.sub_0_r. apply take_n_app. }
    assert (B1: exists tab, rd_make fw md szt ws = Some tab /\ bins_for fw ws (qlen ws * (16 * qlen ws + 26) * p2 (1 - prec fw)) tab).
    { destruct (bins_make fw md szt ws [] Hfw Hok Hsm) as (tab & T1 & T2). exists tab. split; [exact T1|]. eapply bins_weaken; [|exact T2].
      pose proof (n_ge1 fw szt ws Hok) as N1. destruct (e_pos fw Hfw) as [E0 _].
      apply Qmult_le_compat_r; [|lra]. rewrite !(Qmult_comm (qlen ws)). apply Qmult_le_compat_r; lra. }
    assert (PR: pp_range iv ws = Pcp iv ws) by (unfold pp_range; rewrite L2; reflexivity).
    assert (PI: pp_iter iv (ws ++ extra) = Some (Pcp iv ws)) by (unfold pp_iter; rewrite L2, TK; reflexivity).
    destruct Hmk as [<-|[<-|[<-|[<-|[<-|[<-|[]]]]]]]; rewrite ?PR, ?PI; cbn [bind].
    - unfold pc_iter. rewrite L2, TK. cbn [bind]. destruct (bins_set fw md ws r_empty Hfw Hfw2 Hok Hsm) as (tab & T1 & T2). rewrite T1. exists tab. split; [reflexivity|exact T2].
    - unfold pc_range. destruct B1 as (tab & T1 & T2). rewrite T1, L2. exists tab. split; [reflexivity|exact T2].
    - unfold pc_of_param. cbn [pp_weights pp_ivals]. destruct B1 as (tab & T1 & T2). rewrite T1. exists tab. split; [reflexivity|exact T2].
    - unfold pc_set_param. cbn [pp_weights pp_ivals]. destruct (bins_set fw md ws (pc_bins old) Hfw Hfw2 Hok Hsm) as (tab & T1 & T2). rewrite T1. exists tab. split; [reflexivity|exact T2].
    - unfold pc_of_param. cbn [pp_weights pp_ivals]. destruct B1 as (tab & T1 & T2). rewrite T1. exists tab. split; [reflexivity|exact T2].
    - unfold pc_set_param. cbn [pp_weights pp_ivals]. destruct (bins_set fw md ws (pc_bins old) Hfw Hfw2 Hok Hsm) as (tab & T1 & T2). rewrite T1. exists tab. split; [reflexivity|exact T2]. }
  destruct EX as (tab & E & B). exists tab. split; [exact E|]. 
  destruct iv as [|a iv']; [cbn in HL; lia|]. split; [reflexivity|]. split; [apply pc_max_nth; discriminate|].
  split; [apply (bins_splits fw); exact B|]. intros tb bmin bmax Hb HR. eapply pc_lands; eassumption.
Qed.
Print Assumptions C57_distribution.

(* initializer list and function: the weights are the values of the function at
   points inside the intervals *)
Theorem C57_list : forall f fw md iv g fmax,
  fmt_ok f -> (2 <= prec f)%Z -> is_fmax f fmax -> fmt_ok fw -> (emin fw + 2 * prec fw <= 0)%Z -> ivals_ok f fmax iv ->
  exists ms, length iv = S (length ms) /\
    (forall i, (S i < length iv)%nat -> nth i iv 0 <= nth i ms 0 /\ nth i ms 0 <= nth (S i) iv 0) /\
    forall ws, ws = map (fun x => fround fw md (g x)) ms -> rweights_ok fw szt ws -> (qlen ws + 3) * p2 (1 - prec fw) <= 1 # 8 ->
      pp_list f fw md iv g = Pcp iv ws /\
      exists tab, pc_list f fw md iv g = Some (Pcd tab iv) /\
        splits ws (rd_select tab) (qlen ws * (16 * qlen ws + 26) * p2 (1 - prec fw)) /\
        forall tb bmin bmax, eng_wf tb bmin bmax -> (bmax - bmin <= imax tb)%Z ->
          lands_in bmin bmax (fun F => pc_op f fw md F tb bmin bmax fmax (Pcd tab iv)) iv
            (fun i => qlen ws * (4 * qlen ws + 9) * p2 (1 - prec fw) < 1 -> 0 < qweight ws (Z.of_nat i)).
Proof.
  intros f fw md iv g fmax Hf HP Hm Hfw Hfw2 Hiv. exists (midpoints f md iv). pose proof Hiv as (HL & HF & HI).
  assert (LL: length iv = S (length (midpoints f md iv))) by (rewrite midpoints_len; lia).
  split; [exact LL|]. split.
  - intros i Hi. rewrite midpoints_nth by exact Hi. rewrite Forall_forall in HF. apply midpoint_in; [exact Hf| | |].
    + apply HF. apply nth_In. lia.
    + apply HF. apply nth_In. lia.
    + specialize (HI i Hi). lra.
  - intros ws HW Hok Hsm. assert (L2: Nat.ltb (length iv) 2 = false) by (apply Nat.ltb_ge; exact HL).
    split; [unfold pp_list; rewrite L2, HW; reflexivity|].
    destruct (bins_set fw md ws r_empty Hfw Hfw2 Hok Hsm) as (tab & T1 & T2). exists tab.
    split; [unfold pc_list; rewrite L2, <- HW, T1; reflexivity|]. split; [apply (bins_splits fw); exact T2|].
    intros tb bmin bmax Hb HR. eapply pc_lands; try eassumption. rewrite LL, HW, map_length. reflexivity.
Qed.
Print Assumptions C57_list.

(* nw equal intervals: if each is at least 32 units in the last place of the
   larger bound wide, the computed boundaries are strictly increasing from xmin
   to xmax, and close to where they should be *)
Theorem C57_function_partial : forall f fw md nw n xmin xmax g fmax M dd,
  fmt_ok f -> (2 <= prec f)%Z -> is_fmax f fmax -> fmt_ok fw ->
  n = Nat.max 1 nw -> representable f xmin -> representable f xmax -> xmin < xmax -> - fmax <= xmin -> xmax <= fmax ->
  Qabs xmin <= M -> Qabs xmax <= M ->
  let D := (xmax - xmin) / inject_Z (Z.of_nat n) in
  p2 (emin f + prec f) <= D -> 32 * p2 (1 - prec f) * M <= D ->
  fdiv ieee_double md (fround ieee_double md (xmax - xmin)) (fround ieee_double md (inject_Z (Z.of_nat n))) = Some dd ->
  let ws := map (fun x => fround fw md (g (fround ieee_double md (x + fround ieee_double md (dd / 2)))))
                (steps (fround ieee_double md) n xmin dd) in
  rweights_ok fw szt ws -> (qlen ws + 3) * p2 (1 - prec fw) <= 1 # 8 ->
  exists tab iv, pc_fun f fw md nw xmin xmax g = Some (Pcd tab iv) /\ ivals_ok f fmax iv /\ length iv = S n /\
    nth 0 iv 0 == xmin /\ nth n iv 0 = xmax /\
    (forall k, (k <= n)%nat -> Qabs (nth k iv 0 - (xmin + inject_Z (Z.of_nat k) * D)) <= (25 # 2) * p2 (1 - prec f) * M) /\
    splits ws (rd_select tab) (qlen ws * (8 * qlen ws + 18) * p2 (1 - prec fw)) /\
    forall tb bmin bmax, eng_wf tb bmin bmax -> (bmax - bmin <= imax tb)%Z ->
      lands_in bmin bmax (fun F => pc_op f fw md F tb bmin bmax fmax (Pcd tab iv)) iv
        (fun i => qlen ws * (4 * qlen ws + 9) * p2 (1 - prec fw) < 1 -> 0 < qweight ws (Z.of_nat i)).
Proof.
  intros f fw md nw n xmin xmax g fmax M dd Hf HP Hm Hfw Hn Ra Rb Hab Fa Fb Ma Mb D HD1 HD2 Hdd ws Hok Hsm.
  destruct (fun_ivals f md Hf xmin xmax M n ltac:(lia) Ra Rb Hab Ma Mb HD1 HD2 fmax Fa Fb) as (delta & E1 & Iok & IL & I0 & IE).
  destruct (bins_make fw md szt ws [] Hfw Hok Hsm) as (tab & T1 & T2).
  assert (NE: (if Nat.eqb nw 0 then 1%nat else nw) = n) by (destruct nw; cbn [Nat.eqb]; lia).
  exists tab, (steps (fround f md) n xmin delta ++ [xmax]). split.
  - unfold pc_fun. rewrite NE, Hdd. cbn [bind]. fold ws. unfold rd_make. rewrite T1. cbn [bind]. rewrite E1. reflexivity.
  - assert (LX: length (steps (fround f md) n xmin delta) = n) by (unfold steps; rewrite map_length, seq_length; reflexivity).
    split; [exact Iok|]. split; [exact IL|]. split; [exact I0|]. split; [rewrite app_nth2, LX, Nat.sub_diag by lia; reflexivity|].
    split; [exact IE|]. split; [apply (bins_splits fw); exact T2|].
    intros tb bmin bmax Hb HR. eapply pc_lands; try eassumption. unfold ws. rewrite map_length. unfold steps at 2. rewrite map_length, seq_length. exact IL.
Qed.
Print Assumptions C57_function_partial.

(* fewer than two boundaries, iterators or initializer list: as the default
   distribution, uniform on [0,1) *)
Theorem C57_default : forall f fw md iv ws g fmax, (length iv < 2)%nat ->
  pc_iter fw md iv ws = Some pc_default /\ pc_list f fw md iv g = Some pc_default /\
  pp_iter iv ws = Some pp_default /\ pp_list f fw md iv g = pp_default /\
  (fmt_ok f -> (2 <= prec f)%Z -> is_fmax f fmax -> 1 <= fmax -> fmt_ok fw -> (emin fw + prec fw + 1 <= 0)%Z ->
   forall tb bmin bmax, eng_wf tb bmin bmax -> (bmax - bmin <= imax tb)%Z ->
     lands_in bmin bmax (fun F => pc_op f fw md F tb bmin bmax fmax pc_default) [0; 1] (fun _ => True)).
Proof.
  intros f fw md iv ws g fmax HL. assert (L2: Nat.ltb (length iv) 2 = true) by (apply Nat.ltb_lt; exact HL).
  unfold pc_iter, pc_list, pp_iter, pp_list. rewrite L2. do 4 (split; [reflexivity|]).
  intros Hf HP Hm H1 Hfw He tb bmin bmax Hb HR F ds HF Hd.
  assert (Hiv: ivals_ok f fmax [0; 1]).
  { split; [cbn; lia|]. split.
    - constructor; [split; [apply repr_0; exact Hf|split; lra]|]. constructor; [split; [apply repr_1; exact Hf|split; lra]|constructor].
    - intros i Hi. assert (i = 0%nat) by (cbn in Hi; lia). subst i. reflexivity. }
  destruct (pc_lands f fw md [0; 1] [1] 0 r_empty tb bmin bmax fmax Hf HP Hm Hfw Hiv eq_refl (wok_1 fw Hfw He) (bins_default fw Hfw) Hb HR F ds HF Hd)
    as [E|(q & rest & i & E & H2 & H3 & H4 & H5 & H6 & _)]; [left; exact E|right].
  exists q, rest, i. split; [exact E|]. split; [exact H2|]. auto.
Qed.
Print Assumptions C57_default.

(* "If there are less than two interval boundaries, this is equivalent to the
   default constructor": not so for the range constructors, which keep the
   weights; operator() then reads beyond the boundaries *)
Theorem C57_range_default_refuted : exists iv ws d v p, (length iv < 2)%nat /\
  pc_range ieee_double RNE iv ws = Some d /\ (forall x, In x v -> 0 <= x < 2 ^ 32)%Z /\
  exec (pc_op ieee_double ieee_double RNE 9 u32 0 (2 ^ 32 - 1) p d) v = OUB /\
  exec (pc_op_parm ieee_double ieee_double RNE 9 u32 0 (2 ^ 32 - 1) p (pp_range iv ws)) v = OUB.
Proof.
  exists [], [1; 1]. eexists. exists [3000000000; 0; 0]%Z, (inject_Z (2 ^ 53 - 1) * p2 971). split; [cbn; lia|].
  split; [vm_compute; reflexivity|]. split; [intros x [<-|[<-|[<-|[]]]]; lia|]. split; vm_compute; reflexivity.
Qed.
Print Assumptions C57_range_default_refuted.

(* "This range is divided into nw equally sized intervals": 3 intervals in
   [1, 1 + 2^-52] have boundaries 1, 1, 1 + 2^-52, 1 + 2^-52, and operator()
   does not return: uniform_real(1,1) repeats for ever *)
Theorem C57_function_refuted : exists nw xmin xmax d fmax v, xmin < xmax /\ is_fmax ieee_double fmax /\
  representable ieee_double xmin /\ representable ieee_double xmax /\
  pc_fun ieee_double ieee_double RNE nw xmin xmax (fun _ => 1) = Some d /\
  nth 0 (pc_ivals d) 0 == nth 1 (pc_ivals d) 0 /\ (forall x, In x v -> 0 <= x < 2 ^ 32)%Z /\
  exec (pc_op ieee_double ieee_double RNE 9 u32 0 (2 ^ 32 - 1) fmax d) (v ++ repeat 7%Z 3) = OMore.
Proof.
  exists 3%nat, 1, (1 + p2 (-52)). eexists. exists (inject_Z (2 ^ 53 - 1) * p2 971), [0; 0]%Z. split; [reflexivity|]. split; [exists 971%Z; split; [cbn; lia|reflexivity]|].
  split; [exists 1%Z, 0%Z; split; [cbn; lia|split; [cbn; lia|reflexivity]]|].
  split; [exists (2 ^ 52 + 1)%Z, (-52)%Z; split; [cbn; lia|split; [cbn; lia|reflexivity]]|].
  split; [vm_compute; reflexivity|]. split; [vm_compute; reflexivity|]. split; [intros x [<-|[<-|[]]]; lia|].
  vm_compute. reflexivity.
Qed.
Print Assumptions C57_function_refuted.

(* The same arguments give a param_type with other boundaries than the
   distribution itself: float, 9 intervals in [1,2] *)
Theorem C57_function_param_refuted : exists nw xmin xmax d p, xmin < xmax /\
  representable ieee_single xmin /\ representable ieee_single xmax /\
  pc_fun ieee_single ieee_single RNE nw xmin xmax (fun _ => 1) = Some d /\
  pp_fun ieee_single ieee_single RNE nw xmin xmax (fun _ => 1) = Some p /\
  ~ nth 6 (pc_ivals d) 0 == nth 6 (pp_ivals p) 0.
Proof.
  exists 9%nat, 1, 2. do 2 eexists. split; [reflexivity|].
  split; [exists 1%Z, 0%Z; split; [cbn; lia|split; [cbn; lia|reflexivity]]|].
  split; [exists 1%Z, 1%Z; split; [cbn; lia|split; [cbn; lia|reflexivity]]|].
  split; [vm_compute; reflexivity|]. split; [vm_compute; reflexivity|]. vm_compute. discriminate.
Qed.
Print Assumptions C57_function_param_refuted.

(* but the same number of intervals, and the same first and last boundary *)
Theorem C57_function_param : forall f fw md nw xmin xmax g p,
  fmt_ok f -> representable f xmin -> representable ieee_double xmin -> pp_fun f fw md nw xmin xmax g = Some p ->
  (length (pp_ivals p) = S (Nat.max 1 nw))%nat /\ (length (pp_weights p) = Nat.max 1 nw)%nat /\ nth 0 (pp_ivals p) 0 == xmin /\ last (pp_ivals p) 0 = xmax.
Proof.
  intros f fw md nw xmin xmax g p Hf R1 R2 H. unfold pp_fun in H. destruct (dbl_delta f md _ xmin xmax) as [d|]; [|discriminate]. cbn [bind] in H. injection H as <-.
  assert (N: ((if Nat.eqb nw 0 then 1 else nw) = Nat.max 1 nw)%nat) by (destruct nw; reflexivity). rewrite N.
  assert (Hd: fmt_ok ieee_double) by (split; cbn; lia).
  cbn [pp_ivals pp_weights]. rewrite app_length, !map_length. unfold steps. rewrite map_length, seq_length.
  split; [cbn [length]; lia|]. split; [reflexivity|]. split; [|apply last_last].
  destruct (Nat.max 1 nw) as [|n] eqn:E; [lia|]. cbn [seq map app nth]. set (r := fround ieee_double md).
  assert (Z0: forall z, z == 0 -> r z == 0).
  { intros z Hz. unfold r. rewrite (rnd_compat _ md Hd _ _ Hz). apply rnd_fix; [exact Hd|apply repr_0; exact Hd]. }
  assert (E1: xmin + r (r (inject_Z (Z.of_nat 0)) * d) == xmin).
  { rewrite (Z0 (r (inject_Z (Z.of_nat 0)) * d)); [ring|]. rewrite (Z0 (inject_Z (Z.of_nat 0))); [ring|reflexivity]. }
  eapply Qeq_trans; [exact (rnd_compat f md Hf _ _ (rnd_compat _ md Hd _ _ E1))|].
  eapply Qeq_trans; [exact (rnd_compat f md Hf _ _ (rnd_fix _ md Hd _ R2))|]. apply rnd_fix; assumption.
Qed.
Print Assumptions C57_function_param.
Example C57_ex_param : match pp_fun ieee_single ieee_double RNE 4 1 3 (fun x => x) with
  | Some p => forallb (fun '(x, y) => Qeq_bool x y) (combine (pp_ivals p) [1; 3#2; 2; 5#2; 3])
  | None => false end = true.
Proof. vm_compute. reflexivity. Qed.

Lemma dbl_max : is_fmax ieee_double (inject_Z (2 ^ 53 - 1) * p2 971).
Proof. exists 971%Z. split; [cbn; lia|reflexivity]. Qed.

(* the example of the documentation, and one with a gap: intervals {0,1,4,5},
   weights {1,0,3} *)
Example C57_ex :
  let fmax := inject_Z (2 ^ 53 - 1) * p2 971 in
  let iv := [0; 1; 4; 5] in let ws := [1; 0; 3] in
  is_fmax ieee_double fmax /\ (emin ieee_double + 2 * prec ieee_double <= 0)%Z /\ ivals_ok ieee_double fmax iv /\
  length iv = S (length ws) /\ rweights_ok ieee_double szt ws /\ (qlen ws + 3) * p2 (1 - prec ieee_double) <= 1 # 8 /\
  qlen ws * (4 * qlen ws + 9) * p2 (1 - prec ieee_double) < 1 /\
  exists d, pc_iter ieee_double RNE iv (ws ++ [7]) = Some d /\
    map (fun x => match exec (pc_op ieee_double ieee_double RNE 9 u32 0 (2 ^ 32 - 1) fmax d) [x; 1000000000; 2147483648]%Z with
                  | ORet q [] => Some (Qred q) | _ => None end) [0; 1500000000; 3000000000]%Z
      = [Some (1 # 2); Some (9 # 2); Some (9 # 2)].
Proof.
  assert (RZ: forall z, (Z.abs z <= 2 ^ 53)%Z -> representable ieee_double (inject_Z z)).
  { intros z Hz. exists z, 0%Z. split; [cbn; lia|]. split; [exact Hz|]. unfold p2. cbn. ring. }
  cbn zeta. split; [exact dbl_max|]. split; [cbn; lia|]. split; [|split; [reflexivity|split; [|split; [vm_compute; discriminate|split; [reflexivity|]]]]].
  - split; [cbn; lia|]. split.
    + apply Forall_cons; [split; [apply (RZ 0%Z); cbn; lia|split; vm_compute; discriminate]|].
      apply Forall_cons; [split; [apply (RZ 1%Z); cbn; lia|split; vm_compute; discriminate]|].
      apply Forall_cons; [split; [apply (RZ 4%Z); cbn; lia|split; vm_compute; discriminate]|].
      apply Forall_cons; [split; [apply (RZ 5%Z); cbn; lia|split; vm_compute; discriminate]|]. apply Forall_nil.
    + intros i Hi. cbn [length] in Hi. destruct i as [|[|[|i]]]; try reflexivity. lia.
  - unfold rweights_ok. split; [cbn; lia|]. split; [discriminate|]. split; [cbn; lia|]. split; [|vm_compute; discriminate].
    apply Forall_cons; [split; [apply (RZ 1%Z); cbn; lia|discriminate]|].
    apply Forall_cons; [split; [apply (RZ 0%Z); cbn; lia|discriminate]|].
    apply Forall_cons; [split; [apply (RZ 3%Z); cbn; lia|discriminate]|]. apply Forall_nil.
  - eexists. split; [vm_compute; reflexivity|]. vm_compute. reflexivity.
Qed.

(* [C57_function_partial]: ten intervals in [1,3] *)
Example C57_function_ex : exists dd, fdiv ieee_double RNE (fround ieee_double RNE (3 - 1)) (fround ieee_double RNE (inject_Z (Z.of_nat 10))) = Some dd /\
  p2 (emin ieee_double + prec ieee_double) <= (3 - 1) / inject_Z (Z.of_nat 10) /\
  32 * p2 (1 - prec ieee_double) * 3 <= (3 - 1) / inject_Z (Z.of_nat 10) /\
  let ws := map (fun x => fround ieee_double RNE ((fun y => y * y) (fround ieee_double RNE (x + fround ieee_double RNE (dd / 2)))))
                (steps (fround ieee_double RNE) 10 1 dd) in
  rweights_ok ieee_double szt ws /\ (qlen ws + 3) * p2 (1 - prec ieee_double) <= 1 # 8.
Proof.
  eexists. split; [vm_compute; reflexivity|]. split; [vm_compute; discriminate|]. split; [vm_compute; discriminate|].
  cbn zeta. split; [|vm_compute; discriminate].
  unfold rweights_ok. split; [cbn; lia|]. split; [vm_compute; discriminate|]. split; [vm_compute; discriminate|]. split; [|vm_compute; discriminate].
  apply Forall_forall. intros x Hx. apply in_map_iff in Hx. destruct Hx as (y & <- & _). split; [apply rnd_repr; split; cbn; lia|].
  apply rnd_nonneg. nra.
Qed.

(* ================= C58 ================= *)

(* As many weights as strictly increasing boundaries: every way of making the
   distribution gives a table for the areas of the rectangles and triangles
   under the graph, and operator() returns a number inside an interval, of
   positive density if there are not too many. *)
Theorem C58_distribution : forall f md iv ws extra old mk fmax,
  fmt_ok f -> (2 <= prec f)%Z -> is_fmax f fmax -> (emin f + 2 * prec f <= 0)%Z ->
  ivals_ok f fmax iv -> lweights_ok f iv ws -> let n := qlen (lin_bins iv ws) in (n + 3) * p2 (1 - prec f) <= 1 # 8 ->
  In mk [pl_iter f md iv (ws ++ extra); pl_range f md iv ws; pl_of_param f md iv ws; pl_set_param f md old iv ws] ->
  exists tab, mk = Some (Pld tab iv ws) /\ splits (lin_bins iv ws) (rd_select tab) (n * (16 * n + 48) * p2 (1 - prec f)) /\
    forall tb bmin bmax, eng_wf tb bmin bmax -> (bmax - bmin <= imax tb)%Z ->
      lands_in bmin bmax (fun F => pl_op f md F tb bmin bmax fmax (Pld tab iv ws)) iv
        (fun i => n * (4 * n + 9) * p2 (1 - prec f) < 1 -> 0 < nth i ws 0 + nth (S i) ws 0).
Proof.
  intros f md iv ws extra old mk fmax Hf HP Hm Hf2 Hiv Hws n Hsm Hmk.
  destruct (pl_make f md Hf Hf2 iv ws fmax Hiv Hws Hsm) as (bw & Bok & BL & BL2 & QL & BX & MK).
  assert (L2: Nat.ltb (length iv) 2 = false) by (apply Nat.ltb_ge; apply Hiv).
  assert (TK: take_n (length iv) (ws ++ extra) = Some ws). { destruct Hws as [<- _]. apply take_n_app. }
  assert (EX: exists o, mk = pl_init f md o iv ws).
  { destruct Hmk as [<-|[<-|[<-|[<-|[]]]]].
    - exists r_empty. unfold pl_iter. rewrite L2, TK. reflexivity.
    - exists r_empty. unfold pl_range. rewrite L2. reflexivity.
    - exists r_empty. reflexivity.
    - exists (pl_bins old). reflexivity. }
  destruct EX as (o & ->). destruct (MK o) as (tab & T1 & T2 & T3). exists tab. split; [exact T1|]. split; [exact T3|].
  intros tb bmin bmax Hb HR. eapply pl_lands; eassumption.
Qed.
Print Assumptions C58_distribution.

(* the bins belong to the graph: their total is the area of the trapezoids *)
Theorem C58_area : forall iv ws, length ws = length iv ->
  qtotal (lin_bins iv ws) == qtotal (map (fun i => (nth i ws 0 + nth (S i) ws 0) / 2 * (nth (S i) iv 0 - nth i iv 0)) (seq 0 (length iv - 1))).
Proof. exact lin_total. Qed.
Print Assumptions C58_area.

(* operator() returns a number from one uniform_real in the rectangles, and the
   larger or smaller of two in the triangles *)
Theorem C58_operator : forall f md F tb bmin bmax fmax d ds q rest,
  exec (pl_op f md F tb bmin bmax fmax d) ds = ORet q rest ->
  exists j r1 a b, exec (rd_op f md szt F tb bmin bmax (pl_bins d)) ds = ORet j r1 /\
    at_ (pl_ivals d) (j / 2) = Some a /\ at_ (pl_ivals d) (j / 2 + 1) = Some b /\
    ((j mod 2 = 0)%Z /\ exec (uniform_real f md F tb bmin bmax fmax a b) r1 = ORet q rest \/
     (j mod 2 <> 0)%Z /\ exists x y r2 w1 w2, exec (uniform_real f md F tb bmin bmax fmax a b) r1 = ORet x r2 /\
      exec (uniform_real f md F tb bmin bmax fmax a b) r2 = ORet y rest /\
      at_ (pl_weights d) (j / 2) = Some w1 /\ at_ (pl_weights d) (j / 2 + 1) = Some w2 /\
      (w1 < w2 -> q == Qmax x y) /\ (w2 < w1 -> q == Qmin x y)).
Proof. exact pl_shape. Qed.
Print Assumptions C58_operator.

(* ... and this gives the linear density: let l be the equally likely results
   of uniform_real on an interval.  Of all pairs of them, the rectangle counted
   with the smaller weight and the triangle with half the difference, the
   proportion that ends below x is the area under the line from w1 to w2, left
   of the point below which that proportion of l lies. *)
Theorem C58_density : forall w1 w2 x l, l <> [] ->
  let N := Z.of_nat (length l) in
  let c := Z.of_nat (length (filter (fun y => negb (Qle_bool x y)) l)) in
  let pairs := filter (fun p => negb (Qle_bool x (if negb (Qle_bool w2 w1) then Qmax (fst p) (snd p) else Qmin (fst p) (snd p)))) (list_prod l l) in
  Qmin w1 w2 * inject_Z (N * c) + Qabs (w1 - w2) / 2 * inject_Z (Z.of_nat (length pairs))
  == inject_Z (N * N) * lin_area w1 w2 (inject_Z c / inject_Z N).
Proof. exact density_pairs. Qed.
Print Assumptions C58_density.

(* fewer than two boundaries *)
Theorem C58_default : forall f md iv ws g fmax, (length iv < 2)%nat ->
  pl_iter f md iv ws = pl_default f md /\ pl_list f md iv g = pl_default f md /\ pl_range f md iv ws = pl_default f md /\
   (fmt_ok f -> (7 <= prec f)%Z -> is_fmax f fmax -> 1 <= fmax -> (emin f + 2 * prec f <= 0)%Z ->
   exists tab, pl_default f md = Some (Pld tab [0; 1] [1; 1]) /\
   forall tb bmin bmax, eng_wf tb bmin bmax -> (bmax - bmin <= imax tb)%Z ->
     lands_in bmin bmax (fun F => pl_op f md F tb bmin bmax fmax (Pld tab [0; 1] [1; 1])) [0; 1] (fun _ => True)).
Proof.
  intros f md iv ws g fmax HL. assert (L2: Nat.ltb (length iv) 2 = true) by (apply Nat.ltb_lt; exact HL).
  unfold pl_iter, pl_list, pl_range. rewrite L2. do 3 (split; [reflexivity|]).
  intros Hf HP Hm H1 Hf2.
  assert (Hiv: ivals_ok f fmax [0; 1]).
  { split; [cbn; lia|]. split.
    - constructor; [split; [apply repr_0; exact Hf|split; lra]|]. constructor; [split; [apply repr_1; exact Hf|split; lra]|constructor].
    - intros i Hi. assert (i = 0%nat) by (cbn in Hi; lia). subst i. reflexivity. }
  assert (Hws: lweights_ok f [0; 1] [1; 1]).
  { split; [reflexivity|]. split; [cbn; lia|]. split.
    - constructor; [split; [apply repr_1; exact Hf|lra]|]. constructor; [split; [apply repr_1; exact Hf|lra]|constructor].
    - change (qlen (lin_bins [0; 1] [1; 1])) with 2. change (qtotal (lin_bins [0; 1] [1; 1])) with (Qmin 1 1 * (1 - 0) + (Qabs (1 - 1) * (1 - 0) / 2 + 0)).
      pose proof (p2_le (emin f + prec f + 2) (-1) ltac:(lia)) as PL. change (p2 (-1)) with (1 # 2) in PL.
      assert (X: Qmin 1 1 * (1 - 0) + (Qabs (1 - 1) * (1 - 0) / 2 + 0) == 1) by reflexivity. lra. }
  assert (Hsm: (qlen (lin_bins [0; 1] [1; 1]) + 3) * p2 (1 - prec f) <= 1 # 8).
  { change (qlen (lin_bins [0; 1] [1; 1])) with 2. pose proof (p2_le (1 - prec f) (-6) ltac:(lia)) as PL. change (p2 (-6)) with (1 # 64) in PL.
    lra. }
  destruct (pl_make f md Hf Hf2 [0; 1] [1; 1] fmax Hiv Hws Hsm) as (bw & Bok & BL & BL2 & QL & BX & MK).
  destruct (MK r_empty) as (tab & T1 & T2 & T3). exists tab. split; [exact T1|].
  intros tb bmin bmax Hb HR F ds HF Hd.
  destruct (pl_lands f md Hf [0; 1] [1; 1] fmax Hiv Hws bw _ tab tb bmin bmax ltac:(lia) Hm Bok BL2 QL BX T2 Hb HR F ds HF Hd)
    as [E|(q & rest & i & E & H2 & H3 & H4 & H5 & H6 & _)]; [left; exact E|right].
  exists q, rest, i. split; [exact E|]. split; [exact H2|]. auto.
Qed.
Print Assumptions C58_default.

(* objects that compare equal return the same numbers, whatever the alias
   tables held before *)
Theorem C58_equal : forall f md iv ws fmax old1 old2 tb bmin bmax F ds,
  fmt_ok f -> (emin f + 2 * prec f <= 0)%Z -> ivals_ok f fmax iv -> lweights_ok f iv ws ->
  (qlen (lin_bins iv ws) + 3) * p2 (1 - prec f) <= 1 # 8 ->
  eng_wf tb bmin bmax -> (bmax - bmin <= imax tb)%Z -> (length ds < F)%nat -> valid_draws bmin bmax ds ->
  exists d1 d2, pl_init f md old1 iv ws = Some d1 /\ pl_init f md old2 iv ws = Some d2 /\ pl_eqb d1 d2 = true /\
    exec (pl_op f md F tb bmin bmax fmax d1) ds = exec (pl_op f md F tb bmin bmax fmax d2) ds.
Proof. intros f md iv ws fmax old1 old2 tb bmin bmax F ds Hf Hf2 Hiv Hws Hsm Hb HR HF Hd. eapply pl_same; eassumption. Qed.
Print Assumptions C58_equal.

(* operator== compares all boundaries and all weights *)
Theorem C58_equal_iff : forall x y,
  pl_eqb x y = true <-> Forall2 Qeq (pl_ivals x) (pl_ivals y) /\ Forall2 Qeq (pl_weights x) (pl_weights y).
Proof.
  assert (L: forall l m, qlist_eqb l m = true <-> Forall2 Qeq l m).
  { induction l as [|a l IH]; intros [|b m]; cbn [qlist_eqb]; split; intro H; try discriminate; try constructor; try (inversion H; fail).
    - apply andb_true_iff in H. apply Qeq_bool_eq. tauto.
    - apply andb_true_iff in H. apply IH. tauto.
    - inversion H; subst. apply andb_true_iff. split; [apply Qeq_eq_bool; assumption|apply IH; assumption]. }
  intros x y. unfold pl_eqb. rewrite andb_true_iff, !L. tauto.
Qed.
Print Assumptions C58_equal_iff.

(* initializer list and function: the weights are the values of the function at
   the boundaries *)
Theorem C58_list : forall f md iv g fmax ws,
  fmt_ok f -> (2 <= prec f)%Z -> is_fmax f fmax -> (emin f + 2 * prec f <= 0)%Z -> ivals_ok f fmax iv ->
  length ws = length iv -> (forall i, (i < length iv)%nat -> nth i ws 0 = fround f md (g (nth i iv 0))) ->
  lweights_ok f iv ws -> let n := qlen (lin_bins iv ws) in (n + 3) * p2 (1 - prec f) <= 1 # 8 ->
  exists tab, pl_list f md iv g = Some (Pld tab iv ws) /\ splits (lin_bins iv ws) (rd_select tab) (n * (16 * n + 48) * p2 (1 - prec f)) /\
    forall tb bmin bmax, eng_wf tb bmin bmax -> (bmax - bmin <= imax tb)%Z ->
      lands_in bmin bmax (fun F => pl_op f md F tb bmin bmax fmax (Pld tab iv ws)) iv
        (fun i => n * (4 * n + 9) * p2 (1 - prec f) < 1 -> 0 < nth i ws 0 + nth (S i) ws 0).
Proof.
  intros f md iv g fmax ws Hf HP Hm Hf2 Hiv HL HW Hws n Hsm.
  assert (EW: map (fun x => fround f md (g x)) iv = ws).
  { apply nth_ext with (fround f md (g 0)) 0; [rewrite map_length; congruence|]. intros i Hi. rewrite map_length in Hi.
    rewrite (map_nth (fun x => fround f md (g x))). symmetry. apply HW. exact Hi. }
  destruct (pl_make f md Hf Hf2 iv ws fmax Hiv Hws Hsm) as (bw & Bok & BL & BL2 & QL & BX & MK).
  destruct (MK r_empty) as (tab & T1 & T2 & T3). exists tab. split; [|split; [exact T3|]].
  - unfold pl_list. assert (L2: Nat.ltb (length iv) 2 = false) by (apply Nat.ltb_ge; apply Hiv). rewrite L2, EW. exact T1.
  - intros tb bmin bmax Hb HR. eapply pl_lands; eassumption.
Qed.
Print Assumptions C58_list.

(* nw equal intervals, not too narrow *)
Theorem C58_function_partial : forall f md nw n xmin xmax g fmax M,
  fmt_ok f -> (2 <= prec f)%Z -> is_fmax f fmax -> (emin f + 2 * prec f <= 0)%Z ->
  n = Nat.max 1 nw -> representable f xmin -> representable f xmax -> xmin < xmax -> - fmax <= xmin -> xmax <= fmax ->
  Qabs xmin <= M -> Qabs xmax <= M ->
  let D := (xmax - xmin) / inject_Z (Z.of_nat n) in
  p2 (emin f + prec f) <= D -> 32 * p2 (1 - prec f) * M <= D ->
  exists iv, ivals_ok f fmax iv /\ length iv = S n /\ nth 0 iv 0 == xmin /\ nth n iv 0 = xmax /\
    (forall k, (k <= n)%nat -> Qabs (nth k iv 0 - (xmin + inject_Z (Z.of_nat k) * D)) <= (25 # 2) * p2 (1 - prec f) * M) /\
    forall ws, length ws = length iv -> (forall i, (i < length iv)%nat -> nth i ws 0 = fround f md (g (nth i iv 0))) ->
      lweights_ok f iv ws -> let n := qlen (lin_bins iv ws) in (n + 3) * p2 (1 - prec f) <= 1 # 8 ->
      exists tab, pl_fun f md nw xmin xmax g = Some (Pld tab iv ws) /\ splits (lin_bins iv ws) (rd_select tab) (n * (16 * n + 48) * p2 (1 - prec f)) /\
        forall tb bmin bmax, eng_wf tb bmin bmax -> (bmax - bmin <= imax tb)%Z ->
          lands_in bmin bmax (fun F => pl_op f md F tb bmin bmax fmax (Pld tab iv ws)) iv
            (fun i => n * (4 * n + 9) * p2 (1 - prec f) < 1 -> 0 < nth i ws 0 + nth (S i) ws 0).
Proof.
  intros f md nw n xmin xmax g fmax M Hf HP Hm Hf2 Hn Ra Rb Hab Fa Fb Ma Mb D HD1 HD2.
  destruct (fun_ivals f md Hf xmin xmax M n ltac:(lia) Ra Rb Hab Ma Mb HD1 HD2 fmax Fa Fb) as (delta & E1 & Iok & IL & I0 & IE).
  assert (NE: (if Nat.eqb nw 0 then 1%nat else nw) = n) by (destruct nw; cbn [Nat.eqb]; lia).
  assert (LX: length (steps (fround f md) n xmin delta) = n) by (unfold steps; rewrite map_length, seq_length; reflexivity).
  exists (steps (fround f md) n xmin delta ++ [xmax]). set (iv := steps (fround f md) n xmin delta ++ [xmax]) in *.
  split; [exact Iok|]. split; [exact IL|]. split; [exact I0|]. split; [unfold iv; rewrite app_nth2, LX, Nat.sub_diag by lia; reflexivity|].
  split; [exact IE|]. intros ws HL HW Hws k Hsm.
  destruct (C58_list f md iv g fmax ws Hf HP Hm Hf2 Iok HL HW Hws Hsm) as (tab & T1 & T2 & T3).
  exists tab. split; [|split; assumption]. rewrite <- T1. unfold pl_fun, pl_list. rewrite NE, E1. cbn [bind]. fold iv.
  assert (L2: Nat.ltb (length iv) 2 = false) by (apply Nat.ltb_ge; apply Iok). rewrite L2. reflexivity.
Qed.
Print Assumptions C58_function_partial.

(* the triangle of the documentation, and a piece of density 0 *)
Example C58_ex :
  let fmax := inject_Z (2 ^ 53 - 1) * p2 971 in
  let iv := [0; 1; 2; 4; 5] in let ws := [0; 1; 0; 0; 2] in
  ivals_ok ieee_double fmax iv /\ lweights_ok ieee_double iv ws /\ (qlen (lin_bins iv ws) + 3) * p2 (1 - prec ieee_double) <= 1 # 8 /\
  qlen (lin_bins iv ws) * (4 * qlen (lin_bins iv ws) + 9) * p2 (1 - prec ieee_double) < 1 /\
  exists d, pl_iter ieee_double RNE iv (ws ++ [9]) = Some d /\
    map (fun x => match exec (pl_op ieee_double RNE 9 u32 0 (2 ^ 32 - 1) fmax d) [x; 1000000000; 1073741824; 2147483648]%Z with
                  | ORet q [] => Some (Qred q) | _ => None end) [0; 600000000; 1700000000; 4000000000]%Z
      = [Some (1 # 2); Some (5 # 4); Some (9 # 2); Some (9 # 2)].
Proof.
  assert (RZ: forall z, (Z.abs z <= 2 ^ 53)%Z -> representable ieee_double (inject_Z z)).
  { intros z Hz. exists z, 0%Z. split; [cbn; lia|]. split; [exact Hz|]. unfold p2. cbn. ring. }
  cbn zeta. split; [|split; [|split; [vm_compute; discriminate|split; [reflexivity|]]]].
  - split; [cbn; lia|]. split.
    + apply Forall_cons; [split; [apply (RZ 0%Z); cbn; lia|split; vm_compute; discriminate]|].
      apply Forall_cons; [split; [apply (RZ 1%Z); cbn; lia|split; vm_compute; discriminate]|].
      apply Forall_cons; [split; [apply (RZ 2%Z); cbn; lia|split; vm_compute; discriminate]|].
      apply Forall_cons; [split; [apply (RZ 4%Z); cbn; lia|split; vm_compute; discriminate]|].
      apply Forall_cons; [split; [apply (RZ 5%Z); cbn; lia|split; vm_compute; discriminate]|]. apply Forall_nil.
    + intros i Hi. cbn [length] in Hi. destruct i as [|[|[|[|i]]]]; try reflexivity. lia.
  - split; [reflexivity|]. split; [cbn; lia|]. split; [|vm_compute; discriminate].
    apply Forall_cons; [split; [apply (RZ 0%Z); cbn; lia|discriminate]|].
    apply Forall_cons; [split; [apply (RZ 1%Z); cbn; lia|discriminate]|].
    apply Forall_cons; [split; [apply (RZ 0%Z); cbn; lia|discriminate]|].
    apply Forall_cons; [split; [apply (RZ 0%Z); cbn; lia|discriminate]|].
    apply Forall_cons; [split; [apply (RZ 2%Z); cbn; lia|discriminate]|]. apply Forall_nil.
  - eexists. split; [vm_compute; reflexivity|]. vm_compute. reflexivity.
Qed.

(* [C58_density] with four equally likely values *)
Example C58_density_ex : Qmin 1 3 * inject_Z (4 * 3) + Qabs (1 - 3) / 2 * inject_Z 9 == inject_Z (4 * 4) * lin_area 1 3 (3 # 4).
Proof. reflexivity. Qed.
