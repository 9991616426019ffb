(* C78: vector_io and the stream operators of the parameters made of vectors. *)
From Verif Require Import Base ProgModel ProgSpec QrngModel QTextModel QTextProofs FloatModel RealModel RDiscModel PieceModel HypModel HypProps VioModel VioSpec VioProofs.
Ltac Zify.zify_post_hook ::= idtac.
Open Scope Z_scope.

(* read_vector appends the elements that print_vector wrote, after any white space,
   and stops behind the closing bracket, whatever follows; the stream stays good. *)
Theorem C78_round_trip : forall T (put : T -> list Z) (num : list Z -> option T * list Z) vs vec w tail,
  bracket_ok num -> Forall (elem_ok put num) vs -> Forall blank w ->
  read_vector num vec (cin_of (w ++ print_vector put vs ++ tail)) = (vec ++ vs, cin_of tail).
Proof. intros. apply read_print; assumption. Qed.
Print Assumptions C78_round_trip.
(* for the integer types of up to 64 bits *)
Theorem C78_integers : forall t vs vec w tail, 1 <= bits t <= 64 -> Forall (fun v => imin t <= v <= imax t) vs -> Forall blank w ->
  read_vector (num_int t) vec (cin_of (w ++ print_vector put_int vs ++ tail)) = (vec ++ vs, cin_of tail).
Proof.
  intros t vs vec w tail HB HV HW. apply read_print; [apply int_bracket| |exact HW]. eapply Forall_impl; [|exact HV]. cbn. intros v H. apply int_elem; assumption.
Qed.
Print Assumptions C78_integers.
Example C78_ex_int : print_vector put_int [-12; 0; 345] = [91; 45; 49; 50; 32; 48; 32; 51; 52; 53; 93] /\
  read_vector (num_int i32) [7] (cin_of ([32; 10] ++ print_vector put_int [-12; 0; 345] ++ [91; 49])) = ([7; -12; 0; 345], cin_of [91; 49]).
Proof. split; vm_compute; reflexivity. Qed.

(* What is accepted starts, after white space, with a bracket and ends with one; the
   old elements stay in front.  What starts otherwise is rejected with failbit, nothing
   but white space is taken, and the vector is as before. *)
Theorem C78_accept : forall t vec l vec' s', read_vector (num_int t) vec (cin_of l) = (vec', s') -> c_fail s' = false ->
  exists w body new, Forall blank w /\ l = w ++ 91 :: body ++ 93 :: c_rest s' /\ vec' = vec ++ new /\ c_eof s' = false.
Proof. intros t. exact (read_shape (num_int t) (int_wf t)). Qed.
Print Assumptions C78_accept.
Theorem C78_reject : forall t vec w c r, Forall blank w -> ~ blank c -> c <> 91 ->
  read_vector (num_int t) vec (cin_of (w ++ c :: r)) = (vec, Cin (c :: r) false true).
Proof. intros t. exact (read_reject (num_int t)). Qed.
Print Assumptions C78_reject.
Example C78_ex_reject : Forall blank [32] /\ ~ blank 40 /\ c_fail (snd (read_vector (num_int i32) [] (cin_of [91; 49; 44; 50; 93]))) = true.
Proof. split; [repeat constructor; unfold blank; lia|]. split; [unfold blank; lia|vm_compute; reflexivity]. Qed.
(* Not everything between the brackets becomes an element: a number that is out of
   range, or a sign without digits, is taken and forgotten when a bracket follows. *)
Theorem C78_drop_refuted : exists l l', read_vector (num_int i32) [] (cin_of l) = ([1], cin_of []) /\ l = [91; 49; 32; 57; 57; 57; 57; 57; 57; 57; 57; 57; 57; 93] /\
  read_vector (num_int i32) [] (cin_of l') = ([1], cin_of []) /\ l' = [91; 49; 45; 93].
Proof. exists [91; 49; 32; 57; 57; 57; 57; 57; 57; 57; 57; 57; 57; 93], [91; 49; 45; 93]. repeat split; vm_compute; reflexivity. Qed.
Print Assumptions C78_drop_refuted.

(* discrete_distribution::param_type: the written weights are restored; whatever the
   stream holds, a failed read leaves the parameters alone *)
Theorem C78_discrete : forall T (put : T -> list Z) num ps old w tail s, bracket_ok num -> Forall (elem_ok put num) ps -> Forall blank w ->
  dp_read num old (cin_of (w ++ dp_write put ps ++ tail)) = (ps, cin_of tail) /\
  (c_fail (snd (dp_read num old s)) = true -> fst (dp_read num old s) = old).
Proof.
  intros T put num ps old w tail s HB HE HW. unfold dp_read, dp_write. rewrite (read_print put num ps [] w tail HB HE HW). cbn. split; [reflexivity|].
  destruct (read_vector num [] s) as [v s']. cbn. destruct (c_fail s'); [reflexivity|discriminate].
Qed.
Print Assumptions C78_discrete.
(* piecewise_constant_distribution and piecewise_linear_distribution: two vectors one
   after the other; if either fails, so does the whole *)
Theorem C78_piecewise : forall put num p old w tail s, bracket_ok num -> Forall (elem_ok put num) (pp_ivals p) -> Forall (elem_ok put num) (pp_weights p) -> Forall blank w ->
  pp_read num old (cin_of (w ++ pp_write put p ++ tail)) = (p, cin_of tail) /\
  (c_fail (snd (pp_read num old s)) = true -> fst (pp_read num old s) = old) /\
  (c_fail (snd (read_vector num [] s)) = true -> pp_read num old s = (old, snd (read_vector num [] s))).
Proof.
  intros put num [iv ws] old w tail s HB HI HW HL. cbn [pp_ivals pp_weights] in *. split; [|split].
  - unfold pp_read, pp_write. cbn [pp_ivals pp_weights]. rewrite <- app_assoc. rewrite (read_print put num iv [] w _ HB HI HL).
    pose proof (read_print put num ws [] [] tail HB HW ltac:(constructor)) as E. cbn [app] in E. rewrite E. reflexivity.
  - unfold pp_read. destruct (read_vector num [] s) as [v s1]. destruct (read_vector num [] s1) as [v2 s2]. cbn. destruct (c_fail s2); [reflexivity|discriminate].
  - unfold pp_read. destruct (read_vector num [] s) as [v s1]. cbn [snd]. intro F. rewrite (read_failed num [] s1 F), F. reflexivity.
Qed.
Print Assumptions C78_piecewise.
(* hyperexponential_distribution::param_type: a blank between the vectors *)
Theorem C78_hyper : forall put num f md p old w tail, bracket_ok num -> Forall (elem_ok put num) (hp_probs p) -> Forall (elem_ok put num) (hp_rates p) -> Forall blank w ->
  hp_probs p <> [] -> length (hp_probs p) = length (hp_rates p) ->
  hp_in num f md old (cin_of (w ++ hp_write put p ++ tail)) = (hp_make f md (hp_probs p) (hp_rates p), cin_of tail).
Proof.
  intros put num f md [ps rs] old w tail HB HP HR HW NE EL. cbn [hp_probs hp_rates] in *. unfold hp_in, hp_write. cbn [hp_probs hp_rates]. rewrite <- app_assoc. cbn [app].
  rewrite (read_print put num ps [] w _ HB HP HW). unfold cin_of at 1. cbn [c_fail].
  assert (EW: in_ws (cin_of (32 :: print_vector put rs ++ tail)) = cin_of (print_vector put rs ++ tail)) by reflexivity. rewrite EW.
  pose proof (read_print put num rs [] [] tail HB HR ltac:(constructor)) as E. cbn [app] in E. rewrite E. unfold cin_of at 1. cbn [c_fail app]. f_equal.
  unfold hp_read. destruct ps as [|x ps]; [congruence|]. destruct rs as [|y rs]; [discriminate|]. rewrite (proj2 (Nat.eqb_eq _ _) EL). reflexivity.
Qed.
Print Assumptions C78_hyper.
(* elements that meet the conditions: integral numbers *)
Definition C78_put (q : Q) : list Z := put_int (Qnum q).
Definition C78_num (l : list Z) : option Q * list Z := let '(v, r) := num_int i32 l in (option_map inject_Z v, r).
Example C78_ex_elem : bracket_ok C78_num /\ Forall (elem_ok C78_put C78_num) (map inject_Z [-5; 0; 7]) /\
  hp_in C78_num ieee_double RNE (HParam [] []) (cin_of (hp_write C78_put (HParam [3; 1]%Q [2; 5]%Q) ++ [33])) = (Some (HParam [3 # 4; 1 # 4]%Q [2; 5]%Q), cin_of [33]).
Proof.
  assert (E: forall v, -100 <= v <= 100 -> elem_ok C78_put C78_num (inject_Z v)).
  { intros v Hv. destruct (int_elem i32 v ltac:(cbn; lia) ltac:(unfold imin, imax; cbn; lia)) as [H1 H2]. split; [exact H1|]. intros c r HC. unfold C78_num, C78_put. cbn [Qnum inject_Z]. rewrite H2 by exact HC. reflexivity. }
  split; [intro r; reflexivity|]. split; [repeat constructor; apply E; lia|vm_compute; reflexivity].
Qed.

(* piecewise_constant_distribution itself: what was written becomes the parameter, and
   after a failed read the distribution is as before *)
Theorem C78_piecewise_distribution : forall put num f fw md d p w tail s, bracket_ok num -> Forall (elem_ok put num) (pp_ivals p) -> Forall (elem_ok put num) (pp_weights p) -> Forall blank w ->
  pc_read num f fw md d (cin_of (w ++ pp_write put p ++ tail)) = (pc_set_param fw md d p, cin_of tail) /\
  (c_fail (snd (pc_read num f fw md d s)) = true -> fst (pc_read num f fw md d s) = Some d).
Proof.
  intros put num f fw md d p w tail s HB HI HW HL. unfold pc_read. split.
  - rewrite (proj1 (C78_piecewise put num p pp_default w tail s HB HI HW HL)). reflexivity.
  - destruct (pp_read num pp_default s) as [q s']. cbn [fst snd]. destruct (c_fail s'); [reflexivity|discriminate].
Qed.
Print Assumptions C78_piecewise_distribution.
Example C78_ex_failed : c_fail (snd (pc_read (fun l => (None, l)) ieee_double ieee_double RNE pc_default (cin_of [91; 49]))) = true.
Proof. vm_compute. reflexivity. Qed.

(* Well formed text is not enough: "[][]" is accepted by piecewise_constant_distribution,
   and the next call of operator() reads outside of the empty vector of boundaries. *)
Theorem C78_empty_refuted : exists d d' s, pc_read C78_num ieee_double ieee_double RNE d (cin_of [91; 93; 91; 93]) = (Some d', s) /\ c_fail s = false /\
  d = pc_default /\ forall fmax, exec (pc_op ieee_double ieee_double RNE 5 u32 0 (2 ^ 32 - 1) fmax d') [1; 2; 3] = OUB.
Proof. exists pc_default. eexists _, _. split; [vm_compute; reflexivity|]. split; [reflexivity|]. split; [reflexivity|]. intro fmax. vm_compute. reflexivity. Qed.
Print Assumptions C78_empty_refuted.
