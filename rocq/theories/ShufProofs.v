From Coq Require Import Permutation.
From Verif Require Import Base StreamModel RingModel RingProofs WinProofs UIntModel UIntProofs ArithModel ArithSpec ArithProofs
  AdaptModel AdaptSpec.

Lemma muldiv_zero : forall a b, 0 <= a < 2 ^ 64 -> 0 <= b < 2 ^ 64 -> muldiv a b 0 = Some ((a mod 2) * b / 2).
Proof.
  intros a b Ha Hb. unfold muldiv, muldivmod. change (63 - integer_log2_64 0) with 63.
  rewrite !shiftl_mul by lia. unfold w64. change (0 * 2 ^ 63 mod 2 ^ 64) with 0.
  assert (EA: (a * 2 ^ 63) mod 2 ^ 64 = (a mod 2) * 2 ^ 63).
  { change (2 ^ 64) with (2 * 2 ^ 63). rewrite Z.mul_mod_distr_r by lia. reflexivity. }
  rewrite EA. set (A := (a mod 2) * 2 ^ 63).
  assert (HA0: 0 <= a mod 2 < 2) by (apply Z.mod_pos_bound; lia).
  assert (HAr: 0 <= A < 2 ^ 64) by (subst A; lia).
  rewrite !hi32_eq, !lo32_eq.
  rewrite (Z.mod_small (A / 2 ^ 32)), (Z.mod_small (b / 2 ^ 32)) by lia.
  set (a0 := A mod 2 ^ 32). set (a1 := A / 2 ^ 32). set (b0 := b mod 2 ^ 32). set (b1 := b / 2 ^ 32).
  assert (HA : A = a1 * 2 ^ 32 + a0) by (subst a0 a1; lia).
  assert (HB : b = b1 * 2 ^ 32 + b0) by (subst b0 b1; lia).
  assert (Ha0 : 0 <= a0 < 2 ^ 32) by (subst a0; lia). assert (Ha1 : 0 <= a1 < 2 ^ 32) by (subst a1; lia).
  assert (Hb0 : 0 <= b0 < 2 ^ 32) by (subst b0; lia). assert (Hb1 : 0 <= b1 < 2 ^ 32) by (subst b1; lia).
  destruct (mul_row_correct a0 b0 b1 0 0 0) as (p0 & p1 & p2 & E1 & Hp0 & Hp1 & Hp2 & Hprod1); try lia.
  rewrite E1.
  destruct (mul_row_correct a1 b0 b1 p1 p2 0) as (p1' & p2' & p3 & E2 & Hp1' & Hp2' & Hp3 & Hprod2); try lia.
  rewrite E2. change (0 =? 0) with true. cbn [bind fst].
  assert (Hprod : p0 + p1' * 2 ^ 32 + p2' * 2 ^ 64 + p3 * 2 ^ 96 = A * b).
  { change (2 ^ 96) with (2 ^ 32 * 2 ^ 64). change (2 ^ 64) with (2 ^ 32 * 2 ^ 32) in *.
    rewrite HA, HB.
    replace ((a1 * 2 ^ 32 + a0) * (b1 * 2 ^ 32 + b0))
      with (2 ^ 32 * (a1 * (b0 + b1 * 2 ^ 32)) + a0 * (b0 + b1 * 2 ^ 32)) by ring.
    lia. }
  rewrite lor_shiftl_add by lia. f_equal.
  transitivity (A * b / 2 ^ 64).
  - apply Z.div_unique with (p0 + p1' * 2 ^ 32); [left; lia|]. clear -Hprod. lia.
  - unfold A. rewrite <- Z.mul_assoc, (Z.mul_comm (2 ^ 63)), Z.mul_assoc. change (2 ^ 64) with (2 * 2 ^ 63).
    rewrite Z.div_mul_cancel_r by lia. reflexivity.
Qed.

Lemma div_bound : forall M k R, 1 <= k -> 0 <= M -> R < M / k -> (R + 1) * k <= M.
Proof.
  intros M k R Hk HM H. pose proof (Z.mul_div_le M k ltac:(lia)).
  assert ((R + 1) * k <= M / k * k) by (apply Z.mul_le_mono_nonneg_r; lia). lia.
Qed.
Lemma idx_bound : forall k off R, 1 <= k -> 0 <= off <= R -> 0 <= k * off / (R + 1) < k.
Proof.
  intros k off R Hk Ho. split; [apply Z.div_pos; nia|]. apply Z.div_lt_upper_bound; nia.
Qed.

Lemma span : forall tb bmin bmax, type_ok tb bmin bmax -> 0 <= bmax - bmin <= 2 ^ bits tb - 1.
Proof.
  intros [b sg] bmin bmax (H1 & H2 & H3 & H4). unfold inT, imin, imax in *. cbn [bits sgn] in *.
  rewrite (pow_half b) in * by lia. destruct sg; lia.
Qed.

(* the quotient before it is stored in base_unsigned *)
Lemma index_core : forall tb bmin bmax k y, type_ok tb bmin bmax -> bmin <= y <= bmax -> 1 <= k <= 2 ^ 32 - 2 ->
  exists q, so_index tb bmin bmax k y = Some (wrap (bits tb) q) /\
    (bmax - bmin + 1 < 2 ^ 64 \/ k = 1 -> q = k * (y - bmin) / (bmax - bmin + 1)) /\
    (bmax - bmin + 1 = 2 ^ 64 -> k <> 1 -> q = ((y - bmin) mod 2) * k / 2).
Proof.
  intros tb bmin bmax k y HT Hy Hk. pose proof (span tb bmin bmax HT) as HS. pose proof HT as (H1 & H2 & H3 & H4).
  unfold so_index. rewrite usub_ok; try assumption; [|lia]. cbn [bind].
  rewrite usub_ok; try assumption; [|lia|apply inT_between with bmin bmax; assumption|lia]. cbn [bind].
  set (R := bmax - bmin) in *. set (off := y - bmin). assert (Ho: 0 <= off <= R) by (unfold off, R; lia).
  assert (HW: 2 ^ bits tb <= 2 ^ 64) by (apply Z.pow_le_mono_r; lia).
  pose proof (idx_bound k off R ltac:(lia) Ho) as HI.
  destruct (Z.eqb_spec k 1) as [->|Hk1].
  { exists 0. split; [unfold wrap; rewrite Z.mod_0_l; [reflexivity|apply Z.pow_nonzero; lia]|]. split; [intros _; lia|]. intros _ []; reflexivity. }
  destruct (Z.ltb_spec R ((2 ^ bits tb - 1) / k)) as [L|L].
  { apply div_bound in L; [|lia|lia]. assert (k * off <= R * k) by (rewrite (Z.mul_comm k); apply Z.mul_le_mono_nonneg_r; lia).
    replace (wrap (bits tb) (R + 1)) with (R + 1) by (unfold wrap; rewrite Z.mod_small; nia). destruct (Z.eqb_spec (R + 1) 0); [lia|].
    eexists. split; [reflexivity|]. unfold w64. rewrite Z.mod_small by nia. split; [reflexivity|]. intros E. nia. }
  destruct (Z.ltb_spec R ((2 ^ 64 - 1) / k)) as [L2|L2].
  { apply div_bound in L2; [|lia|lia]. assert (k * off <= R * k) by (rewrite (Z.mul_comm k); apply Z.mul_le_mono_nonneg_r; lia).
    unfold w64. rewrite (Z.mod_small (R + 1)) by nia. destruct (Z.eqb_spec (R + 1) 0); [lia|].
    eexists. split; [reflexivity|]. rewrite Z.mod_small by nia. split; [intros _; f_equal; lia|]. intros E. nia. }
  destruct (Z.eq_dec (R + 1) (2 ^ 64)) as [E|E].
  - replace (w64 (R + 1)) with 0 by (unfold w64; rewrite E; reflexivity).
    rewrite muldiv_zero by lia. cbn [bind]. eexists. split; [reflexivity|]. split; [intros [?|?]; lia|]. reflexivity.
  - unfold w64. rewrite (Z.mod_small (R + 1)) by lia. unfold muldiv. rewrite muldivmod_correct by lia. cbn [bind fst].
    eexists. split; [reflexivity|]. split; [intros _; f_equal; lia|]. intros; lia.
Qed.

Lemma index_formula : forall tb bmin bmax k y, type_ok tb bmin bmax -> bmin <= y <= bmax -> 1 <= k <= 2 ^ 32 - 2 ->
  k <= 2 ^ bits tb -> bmax - bmin + 1 < 2 ^ 64 \/ k = 1 ->
  so_index tb bmin bmax k y = Some (k * (y - bmin) / (bmax - bmin + 1)).
Proof.
  intros tb bmin bmax k y HT Hy Hk HW HR. destruct (index_core tb bmin bmax k y HT Hy Hk) as (q & E & H1 & _).
  rewrite E, (H1 HR). pose proof (idx_bound k (y - bmin) (bmax - bmin) ltac:(lia) ltac:(lia)). unfold wrap.
  rewrite Z.mod_small by lia. reflexivity.
Qed.

Lemma half_bound : forall a k, 1 <= k -> 0 <= a mod 2 * k / 2 < k.
Proof.
  intros a k Hk. pose proof (Z.mod_pos_bound a 2 ltac:(lia)). split; [apply Z.div_pos; nia|]. apply Z.div_lt_upper_bound; nia.
Qed.

Lemma index_bounds : forall tb bmin bmax k y, type_ok tb bmin bmax -> bmin <= y <= bmax -> 1 <= k <= 2 ^ 32 - 2 ->
  exists j, so_index tb bmin bmax k y = Some j /\ 0 <= j < k.
Proof.
  intros tb bmin bmax k y HT Hy Hk. destruct (index_core tb bmin bmax k y HT Hy Hk) as (q & E & H1 & H2).
  pose proof (span tb bmin bmax HT) as HS.
  assert (HB: 0 <= q < k).
  { pose proof (idx_bound k (y - bmin) (bmax - bmin) ltac:(lia) ltac:(lia)).
    destruct (Z.eq_dec (bmax - bmin + 1) (2 ^ 64)) as [E1|E1]; [destruct (Z.eq_dec k 1) as [E2|E2]|].
    - rewrite H1 by (right; exact E2). lia.
    - rewrite H2 by assumption. apply half_bound. lia.
    - rewrite H1; [lia|left]. destruct HT as (? & _). assert (2 ^ bits tb <= 2 ^ 64) by (apply Z.pow_le_mono_r; lia). lia. }
  exists (wrap (bits tb) q). split; [exact E|]. unfold wrap.
  assert (0 < 2 ^ bits tb) by (apply Z.pow_pos_nonneg; [lia|]; destruct HT; lia).
  pose proof (Z.mod_pos_bound q (2 ^ bits tb) ltac:(lia)). pose proof (Z.mod_le q (2 ^ bits tb) ltac:(lia) ltac:(lia)). lia.
Qed.

Lemma index_full64 : forall k y, 2 <= k <= 2 ^ 32 - 2 -> 0 <= y < 2 ^ 64 ->
  so_index u64 0 (2 ^ 64 - 1) k y = Some ((y mod 2) * k / 2).
Proof.
  intros k y Hk Hy.
  assert (HT: type_ok u64 0 (2 ^ 64 - 1)) by (unfold type_ok, inT, u64; cbn [bits]; unfold imin, imax; cbn [bits sgn]; lia).
  destruct (index_core u64 0 (2 ^ 64 - 1) k y HT ltac:(lia) ltac:(lia)) as (q & E & _ & H2).
  rewrite E, H2 by lia. pose proof (half_bound (y - 0) k ltac:(lia)). unfold wrap. cbn [bits u64].
  rewrite Z.mod_small by lia. rewrite Z.sub_0_r. reflexivity.
Qed.
Lemma index_full64_wrong : exists k y, 1 <= k /\ 0 <= y < 2 ^ 64 /\ so_index u64 0 (2 ^ 64 - 1) k y <> Some (k * y / 2 ^ 64).
Proof. exists 256, (2 ^ 63 + 2 ^ 62). split; [lia|]. split; [lia|]. rewrite index_full64 by lia. vm_compute. discriminate. Qed.
(* an 8-bit engine with a table of 1000 entries *)
Lemma index_narrow_wrong : exists tb bmin bmax k y, type_ok tb bmin bmax /\ bmin <= y <= bmax /\ 1 <= k <= 2 ^ 32 - 2 /\
  bmax - bmin + 1 < 2 ^ 64 /\ so_index tb bmin bmax k y <> Some (k * (y - bmin) / (bmax - bmin + 1)).
Proof.
  exists (Ity 8 false), 0, 255, 1000, 200. split; [unfold type_ok, inT, imin, imax; cbn [bits sgn]; lia|].
  split; [lia|]. split; [lia|]. split; [lia|]. vm_compute. discriminate.
Qed.

(* ---- table ---- *)
Lemma so_get_in : forall v j, 0 <= j < Z.of_nat (length v) -> so_get v j = Some (nth (Z.to_nat j) v 0).
Proof.
  intros v j H. unfold so_get. destruct (Z.ltb_spec j 0); [lia|]. apply nth_error_nth'. lia.
Qed.
Lemma so_set_app : forall v j x, (j < length v)%nat -> so_set v j x = firstn j v ++ x :: skipn (S j) v.
Proof.
  induction v as [|a v IH]; intros j x H; [simpl in H; lia|]. destruct j as [|j]; [reflexivity|].
  cbn [so_set firstn skipn app]. f_equal. rewrite IH by (cbn [length] in H; lia). reflexivity.
Qed.
Lemma so_set_length : forall v j x, length (so_set v j x) = length v.
Proof. induction v as [|a v IH]; intros [|j] x; try reflexivity. cbn [so_set length]. rewrite IH. reflexivity. Qed.
Lemma split_nth : forall (v : list Z) j, (j < length v)%nat -> v = firstn j v ++ nth j v 0 :: skipn (S j) v.
Proof.
  induction v as [|a v IH]; intros j H; [simpl in H; lia|]. destruct j as [|j]; [reflexivity|].
  cbn [firstn skipn nth app]. f_equal. apply IH. cbn [length] in H. lia.
Qed.
Lemma so_set_perm : forall v j x, (j < length v)%nat -> Permutation (x :: v) (nth j v 0 :: so_set v j x).
Proof.
  intros v j x H. rewrite so_set_app by exact H. rewrite (split_nth v j H) at 1.
  transitivity (x :: nth j v 0 :: firstn j v ++ skipn (S j) v).
  - constructor. symmetry. apply Permutation_middle.
  - rewrite perm_swap. constructor. apply Permutation_middle.
Qed.
Lemma so_set_in : forall v j x u, In u (so_set v j x) -> u = x \/ In u v.
Proof.
  induction v as [|a v IH]; intros [|j] x u H; cbn [so_set] in H; try (destruct H; fail).
  - destruct H as [<-|H]; [left; reflexivity|right; right; exact H].
  - destruct H as [<-|H]; [right; left; reflexivity|]. destruct (IH _ _ _ H) as [E|E]; [left; exact E|right; right; exact E].
Qed.

Section So.
Variable St : Type.
Variable f : St -> Z * St.
Variable P : St -> Prop.
Variable bmin bmax : Z.
Hypothesis HR : ranged f P bmin bmax.
Notation adv := (fun x => snd (f x)).

Definition so_ok (k : Z) (o : sho St) : Prop :=
  P (so_base o) /\ Z.of_nat (length (so_v o)) = k /\ bmin <= so_y o <= bmax /\
  forall u, In u (so_v o) -> bmin <= u <= bmax.

Lemma fill_ok : forall k s, so_fill f k s = (eng_outs f s k, iter k adv s).
Proof.
  induction k as [|k IH]; intro s; cbn [so_fill iter]; [reflexivity|].
  unfold eng_outs. cbn [seq map]. destruct (f s) as [x s1] eqn:E. rewrite IH. f_equal.
  unfold eng_outs. f_equal; [unfold eng_out; cbn [iter]; rewrite E; reflexivity|].
  rewrite <- seq_shift, map_map. apply map_ext. intro n. unfold eng_out. cbn [iter]. rewrite E. reflexivity.
Qed.
Lemma fill_snd : forall k s, snd (so_fill f k s) = iter k adv s.
Proof. intros. rewrite fill_ok. reflexivity. Qed.
Lemma iter_P : forall n s, P s -> P (iter n adv s).
Proof. induction n as [|n IH]; intros s H; [exact H|]. cbn [iter]. apply IH. apply HR. exact H. Qed.
Lemma out_range : forall n s, P s -> bmin <= eng_out f s n <= bmax.
Proof. intros n s H. unfold eng_out. apply HR. apply iter_P. exact H. Qed.

Lemma init_eq : forall k s, so_init f k s = Sho (iter (S k) adv s) (eng_outs f s k) (eng_out f s k).
Proof.
  intros k s. unfold so_init. rewrite fill_ok. unfold eng_out. rewrite iter_succ.
  destruct (f (iter k adv s)) as [x s2]. reflexivity.
Qed.
Lemma init_ok : forall k s, P s -> so_ok (Z.of_nat k) (so_init f k s).
Proof.
  intros k s H. rewrite init_eq. unfold so_ok. cbn [so_base so_v so_y]. split; [apply iter_P; exact H|].
  split; [unfold eng_outs; rewrite map_length, seq_length; reflexivity|]. split; [apply out_range; exact H|].
  intros u Hu. unfold eng_outs in Hu. apply in_map_iff in Hu. destruct Hu as (n & <- & _). apply out_range. exact H.
Qed.

Variable tb : ity.
Hypothesis HT : type_ok tb bmin bmax.
Variable k : Z.
Hypothesis Hk : 1 <= k <= 2 ^ 32 - 2.

Lemma step_ok : forall o, so_ok k o -> exists j, so_index tb bmin bmax k (so_y o) = Some j /\ 0 <= j < k /\
  so_next tb bmin bmax k f o =
    Some (nth (Z.to_nat j) (so_v o) 0,
          Sho (adv (so_base o)) (so_set (so_v o) (Z.to_nat j) (fst (f (so_base o)))) (nth (Z.to_nat j) (so_v o) 0)) /\
  so_ok k (Sho (adv (so_base o)) (so_set (so_v o) (Z.to_nat j) (fst (f (so_base o)))) (nth (Z.to_nat j) (so_v o) 0)).
Proof.
  intros o (O1 & O2 & O3 & O4). destruct (index_bounds tb bmin bmax k (so_y o) HT O3 Hk) as (j & E & Hj).
  exists j. split; [exact E|]. split; [exact Hj|]. split.
  - unfold so_next. rewrite E. cbn [bind]. rewrite so_get_in by lia. cbn [bind]. destruct (f (so_base o)) as [x s1]. reflexivity.
  - unfold so_ok. cbn [so_base so_v so_y]. destruct (HR _ O1) as [R1 R2]. split; [exact R2|].
    split; [rewrite so_set_length; exact O2|]. split; [apply O4, nth_In; lia|].
    intros u Hu. apply so_set_in in Hu. destruct Hu as [->|Hu]; [exact R1|apply O4; exact Hu].
Qed.

Lemma run_ok : forall n o s m cons, so_ok k o -> so_base o = iter m adv s -> 
  exists outs o', run (so_next tb bmin bmax k f) n o = Some (outs, o') /\ so_ok k o' /\ length outs = n /\
    so_base o' = iter (m + n) adv s /\
    Forall (fun v => bmin <= v <= bmax) outs /\
    so_y o' = last outs (so_y o) /\
    (Permutation (eng_outs f s m) (cons ++ so_v o) -> Permutation (eng_outs f s (m + n)) (cons ++ outs ++ so_v o')).
Proof.
  induction n as [|n IH]; intros o s m cons HO HB; cbn [run].
  - eexists. eexists. split; [reflexivity|]. split; [exact HO|]. split; [reflexivity|]. rewrite Nat.add_0_r.
    split; [exact HB|]. split; [constructor|]. split; [reflexivity|]. intro HP. exact HP.
  - destruct (step_ok o HO) as (j & _ & Hj & E & HO'). rewrite E. cbn [bind snd fst].
    set (y := nth (Z.to_nat j) (so_v o) 0) in *.
    destruct (IH (Sho (adv (so_base o)) (so_set (so_v o) (Z.to_nat j) (fst (f (so_base o)))) y) s (S m) (cons ++ [y]) HO')
      as (outs & o' & E' & K1 & K2 & K3 & K4 & K5 & K6).
    { cbn [so_base]. rewrite HB, iter_succ. reflexivity. }
    rewrite E'. cbn [bind fst snd]. eexists. eexists. split; [reflexivity|]. split; [exact K1|]. split; [cbn [length]; lia|].
    split; [rewrite K3; f_equal; lia|]. split.
    { constructor; [|exact K4]. destruct HO as (_ & O2 & _ & O4). apply O4. apply nth_In. lia. }
    split.
    { rewrite K5. cbn [so_y]. destruct outs as [|u outs]; [reflexivity|]. cbn [last].
      clear. revert u. induction outs as [|w outs IHo]; intro u; [reflexivity|]. cbn [last] in *. apply IHo. }
    intro HP. replace (m + S n)%nat with (S m + n)%nat by lia.
    replace (cons ++ (y :: outs) ++ so_v o') with ((cons ++ [y]) ++ outs ++ so_v o') by (rewrite <- app_assoc; reflexivity).
    apply K6. cbn [so_v]. unfold eng_outs. rewrite seq_S, map_app. cbn [Nat.add map].
    fold (eng_outs f s m). rewrite HP. unfold eng_out. rewrite <- HB.
    rewrite <- !app_assoc. apply Permutation_app_head.
    transitivity (fst (f (so_base o)) :: so_v o); [symmetry; apply Permutation_cons_append|].
    apply so_set_perm. destruct HO as (_ & O2 & _). lia.
Qed.
End So.

Lemma so_run : forall St (f : St -> Z * St) P tb bmin bmax k s n,
  ranged f P bmin bmax -> type_ok tb bmin bmax -> (1 <= k)%nat -> Z.of_nat k <= 2 ^ 32 - 2 -> P s ->
  exists outs o, run (so_next tb bmin bmax (Z.of_nat k) f) n (so_init f k s) = Some (outs, o) /\
    length outs = n /\ Forall (fun v => bmin <= v <= bmax) outs /\
    Permutation (eng_outs f s (k + 1 + n)) (so_y (so_init f k s) :: outs ++ so_v o).
Proof.
  intros St f P tb bmin bmax k s n HR HT Hk1 Hk2 HP.
  destruct (run_ok St f P bmin bmax HR tb HT (Z.of_nat k) ltac:(lia) n (so_init f k s) s (S k) [so_y (so_init f k s)]) as
    (outs & o & E & K1 & K2 & K3 & K4 & K5 & K6).
  - apply (init_ok St f P bmin bmax HR); exact HP.
  - rewrite init_eq. reflexivity.
  - exists outs, o. split; [exact E|]. split; [exact K2|]. split; [exact K4|].
    replace (k + 1 + n)%nat with (S k + n)%nat by lia. apply K6. rewrite init_eq. cbn [so_y so_v].
    unfold eng_outs. rewrite seq_S, map_app. cbn [Nat.add map]. symmetry. apply Permutation_cons_append.
Qed.

(* one call: the standard's algorithm *)
Lemma so_step : forall St (f : St -> Z * St) P tb bmin bmax o,
  ranged f P bmin bmax -> type_ok tb bmin bmax -> sho_ok P bmin bmax o ->
  1 <= Z.of_nat (length (so_v o)) <= 2 ^ 32 - 2 -> Z.of_nat (length (so_v o)) <= 2 ^ bits tb -> bmax - bmin + 1 < 2 ^ 64 ->
  let k := Z.of_nat (length (so_v o)) in
  let j := Z.to_nat (k * (so_y o - bmin) / (bmax - bmin + 1)) in
  exists y l1 l2, so_v o = l1 ++ y :: l2 /\ length l1 = j /\
    so_next tb bmin bmax k f o = Some (y, Sho (snd (f (so_base o))) (l1 ++ fst (f (so_base o)) :: l2) y).
Proof.
  intros St f P tb bmin bmax o HR HT HO0 Hk HW HS k j.
  assert (HO: so_ok St P bmin bmax k o) by (destruct HO0 as (A & B & C); repeat split; try assumption; try apply B; apply C; assumption).
  destruct (step_ok St f P bmin bmax HR tb HT k Hk o HO) as (j' & E & Hj & EN & _).
  assert (Hy: bmin <= so_y o <= bmax) by (destruct HO as (_ & _ & H & _); exact H).
  rewrite (index_formula tb bmin bmax k (so_y o) HT Hy Hk HW (or_introl HS)) in E. apply Some_eq_inj in E. fold k in E. subst j'. fold j in EN.
  assert (Hj2: (j < length (so_v o))%nat) by (unfold j; lia).
  exists (nth j (so_v o) 0), (firstn j (so_v o)), (skipn (S j) (so_v o)).
  split; [apply split_nth; exact Hj2|]. split; [apply firstn_length_le; lia|].
  rewrite EN. rewrite so_set_app by exact Hj2. reflexivity.
Qed.
