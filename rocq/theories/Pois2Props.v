(* C62: poisson_distribution, rejection *)
From Coq Require Import Lqa.
From Verif Require Import Base ProgModel ProgSpec ProgProofs UIntModel UIntSpec FloatModel FloatSpec FloatProofs RealModel RealSpec RealProofs UniProofs
  Disc4Proofs RDiscProofs BinModel BinSpec BinProofs Bin2Proofs Bin3Proofs Bin4Proofs Bin6Proofs Bin7Proofs BinProps PoisModel PoisSpec PoisProofs Pois2Proofs.
Open Scope Q_scope.

(* From mean 10 on the rejection algorithm is used.  Every result is in
   [min(), max()], no assertion fails and nothing is divided by 0.  The
   behaviour can be undefined only in the conversion of line 308, when a k above
   max() is accepted, and then us * max() < 2 * mean; the full claim, that it
   is never undefined, is refuted below. *)
Theorem C62_range_partial : forall f g md ti ex sq lg mean tb bmin bmax F ds,
  fmt_ok f -> fmt_ok g -> fmt_wide f -> (20 <= prec f)%Z -> (prec f <= prec g)%Z -> (emin g <= emin f)%Z -> sqrt_ok sq ->
  (32 <= bits ti)%Z -> eng_wf tb bmin bmax -> (bmax - bmin <= imax tb)%Z ->
  10 <= mean -> 2 * mean <= qZ (po_max ti) -> valid_draws bmin bmax ds -> (length ds < F)%nat ->
  exists p, po_init f g md ex sq mean = Some (Pois mean (UPtrd p)) /\
  match exec (po_op f g md ti lg F (uniform_01 f md F tb bmin bmax) (Pois mean (UPtrd p))) ds with
  | ORet k _ => (po_min <= k <= po_max ti)%Z
  | OUB => exists u, Qabs u <= 1 # 2 /\
      let us := fround f md (fround g md ((1 # 2) - Qabs u)) in
      0 < us /\ us * qZ (po_max ti) < 2 * mean /\ exists k, po_hat f g md p mean u us = Some k /\ (po_max ti < k)%Z
  | _ => True
  end.
Proof.
  intros f g md ti ex sq lg mean tb bmin bmax F ds Hf Hg Hw Pf Pg Eg Hsq Hti He HR M0 M1 Hv HF.
  exact (ptrd_op f g md ti ex sq lg mean tb bmin bmax F ds Hf Hg Hw Pf Pg Eg Hsq Hti He HR M0 M1 Hv HF).
Qed.
Print Assumptions C62_range_partial.

(* Without a second uniform number (v at most 0.86 v_r, line 278) the result is at most 2 * mean. *)
Theorem C62_quick : forall f g md ti sq mean p v,
  fmt_ok f -> fmt_ok g -> fmt_wide f -> (20 <= prec f)%Z -> (prec f <= prec g)%Z -> (emin g <= emin f)%Z -> sqrt_ok sq ->
  (32 <= bits ti)%Z -> 10 <= mean -> 2 * mean <= qZ (po_max ti) -> po_ptrd f g md sq mean = Some p ->
  0 <= v -> v <= fround g md (dlit (86 # 100) * pt_vr p) ->
  exists k, po_quick f g md ti p mean v = Some k /\ (0 <= k)%Z /\ qZ k <= 2 * mean.
Proof.
  intros f g md ti sq mean p v Hf Hg Hw Pf Pg Eg Hsq Hti M0 M1 HP V0 V1.
  destruct (ptrd_facts f g md sq mean Hf Hg Hw Pf Pg Eg M0 Hsq) as (p' & EP & FP). rewrite EP in HP. injection HP as ->.
  exact (pquick_ok f g md ti sq mean Hf Hg Hw Pf Pg Eg Hti M0 M1 p FP v V0 V1).
Qed.
Print Assumptions C62_quick.

(* A second uniform number 0 makes log(v*smu) minus infinity, so that every k is
   accepted: here with mean 1000000 and a 32 bit engine one above INT_MAX. *)
Theorem C62_cast_refuted : exists d ds, po_init ieee_double ieee_double RNE (fun x => x) sq_ex 1000000 = Some d /\ sqrt_ok sq_ex /\
  valid_draws 0 (2 ^ 32 - 1) ds /\
  forall lg F, exec (po_op ieee_double ieee_double RNE i32 lg (S F) (uniform_01 ieee_double RNE 9 u32 0 (2 ^ 32 - 1)) d) ds = OUB.
Proof.
  eexists. exists [3699808881; 0]%Z. split; [vm_compute; reflexivity|]. split; [exact sq_ex_ok|].
  split; [apply Forall_cons; [lia|apply Forall_cons; [lia|apply Forall_nil]]|]. intros lg F. vm_compute. reflexivity.
Qed.
Print Assumptions C62_cast_refuted.

(* mean 100 *)
Example C62_ex :
  let f := ieee_double in
  fmt_ok f /\ fmt_wide f /\ sqrt_ok sq_ex /\ eng_wf u64 0 (2 ^ 64 - 1) /\
  exists p, po_ptrd f f RNE sq_ex 100 = Some p /\ po_init f f RNE (fun x => x) sq_ex 100 = Some (Pois 100 (UPtrd p)) /\
    map (fun x => exec (po_op f f RNE i32 (fun x => x) 9 (uniform_01 f RNE 9 u64 0 (2 ^ 64 - 1)) (Pois 100 (UPtrd p))) [x])
        [0; 2 ^ 61; 2 ^ 62; 2 ^ 63]%Z = [ORet 81 []; ORet 91 []; ORet 97 []; ORet 106 []]%Z.
Proof.
  cbn zeta. split; [split; cbn; lia|]. split; [split; cbn; lia|]. split; [exact sq_ex_ok|]. split; [repeat split; vm_compute; discriminate|].
  eexists. split; [vm_compute; reflexivity|]. split; [vm_compute; reflexivity|]. vm_compute. reflexivity.
Qed.
