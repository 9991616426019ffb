(* Engines as streams of outputs. *)
From Verif Require Import Base StreamModel AdaptModel.

(* the n-th output (n = 0, 1, ...) of an engine, and the list of the first n *)
Definition eng_out {S} (f : S -> Z * S) (s : S) (n : nat) : Z := fst (f (iter n (fun x => snd (f x)) s)).
Definition eng_outs {S} (f : S -> Z * S) (s : S) (n : nat) : list Z := map (eng_out f s) (seq 0 n).

(* an engine with outputs in [bmin,bmax] in all states that satisfy P *)
Definition ranged {S} (f : S -> Z * S) (P : S -> Prop) (bmin bmax : Z) : Prop :=
  forall s, P s -> bmin <= fst (f s) <= bmax /\ P (snd (f s)).

(* the result type of an integral engine with outputs in [bmin,bmax] *)
Definition type_ok (tb : ity) (bmin bmax : Z) : Prop :=
  2 <= bits tb <= 64 /\ inT tb bmin /\ inT tb bmax /\ bmin <= bmax.

(* writing and reading back gives an equal engine and leaves the rest of the stream alone *)
Definition restores {S} (wr : S -> list tok) (rd : S -> istr -> S * istr) (eq : S -> S -> bool) (P : S -> Prop) : Prop :=
  forall s old ts, P s -> exists s', rd old (good_in (wr s ++ ts)) = (s', good_in ts) /\ eq s' s = true.

(* engines that compare equal produce the same outputs *)
Definition eq_sound {S} (eq : S -> S -> bool) (f : S -> Z * S) (P : S -> Prop) : Prop :=
  forall s1 s2, P s1 -> P s2 -> eq s1 s2 = true -> forall n, eng_out f s1 n = eng_out f s2 n.

(* a shuffle_order_engine whose stored values are outputs of the base engine's range *)
Definition sho_ok {S} (P : S -> Prop) (bmin bmax : Z) (o : sho S) : Prop :=
  P (so_base o) /\ bmin <= so_y o <= bmax /\ forall u, In u (so_v o) -> bmin <= u <= bmax.


(* L'Ecuyer's published C code of taus88 (Mathematics of Computation 65, 1996,
   Figure 1), 32-bit arithmetic:
     b = (((s1 << 13) ^ s1) >> 19); s1 = (((s1 & 4294967294) << 12) ^ b);
     b = (((s2 << 2) ^ s2) >> 25);  s2 = (((s2 & 4294967288) << 4) ^ b);
     b = (((s3 << 3) ^ s3) >> 11);  s3 = (((s3 & 4294967280) << 17) ^ b);
     return s1 ^ s2 ^ s3; *)
Definition tausworthe_c (q r mask t s : Z) : Z :=
  let b := Z.lxor ((s * 2 ^ q) mod 2 ^ 32) s / 2 ^ r in
  Z.lxor ((Z.land s mask * 2 ^ t) mod 2 ^ 32) b.
Definition taus88_published (s : (Z * Z) * Z) : Z * ((Z * Z) * Z) :=
  let '(s1, s2, s3) := s in
  let s1 := tausworthe_c 13 19 4294967294 12 s1 in
  let s2 := tausworthe_c 2 25 4294967288 4 s2 in
  let s3 := tausworthe_c 3 11 4294967280 17 s3 in
  (Z.lxor (Z.lxor s1 s2) s3, (s1, s2, s3)).

(* engines with possibly undefined steps: equal ones produce the same outputs *)
Definition eq_sound_opt {S} (eq : S -> S -> bool) (f : S -> option (Z * S)) : Prop :=
  forall s1 s2, eq s1 s2 = true -> forall n, option_map fst (run f n s1) = option_map fst (run f n s2).
