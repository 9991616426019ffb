(* What a Mersenne twister is specified to do (Matsumoto and Nishimura 1998). *)
From Verif Require Import Base MtModel.

Definition mt_params (p : mtp) : Prop :=
  32 <= mW p <= 64 /\ 2 <= mw p <= mW p /\ (1 <= mm p < mn p)%nat /\ 1 <= mr p < mw p /\ 0 <= ma p < 2 ^ mw p.
(* the parameters of the output function *)
Definition mt_temper_params (p : mtp) : Prop :=
  1 <= mw p <= mW p /\ 1 <= mu p /\ 1 <= ms p /\ 1 <= mt_ p /\ 1 <= ml p /\
  0 <= md p < 2 ^ mW p /\ 0 <= mb p < 2 ^ mw p /\ 0 <= mc p < 2 ^ mw p.
(* the parameters for which the state can be run backwards with the words at hand *)
Definition mt_reversible (p : mtp) : Prop := 2 ^ (mw p - 1) <= ma p /\ (2 <= mm p)%nat.

(* (upper(u) | lower(v)) A *)
Definition twist_word (p : mtp) (u v : Z) : Z :=
  let y := (u - u mod 2 ^ mr p) + v mod 2 ^ mr p in
  Z.lxor (y / 2) (if Z.odd y then ma p else 0).

(* X(0), X(1), ... starts with the words x and satisfies
   X(k+n) = X(k+m) xor (upper(X(k)) | lower(X(k+1))) A *)
Definition mt_sequence (p : mtp) (x : list Z) (X : nat -> Z) : Prop :=
  (forall j, (j < mn p)%nat -> X j = nth j x 0) /\
  (forall k, X (k + mn p)%nat = Z.lxor (X (k + mm p)%nat) (twist_word p (X k) (X (k + 1)%nat))).

(* the output transformation on words of w bits *)
Definition tempered (p : mtp) (y : Z) : Z :=
  let y1 := Z.lxor y (Z.land (y / 2 ^ mu p) (md p)) in
  let y2 := Z.lxor y1 (Z.land (y1 * 2 ^ ms p mod 2 ^ mw p) (mb p)) in
  let y3 := Z.lxor y2 (Z.land (y2 * 2 ^ mt_ p mod 2 ^ mw p) (mc p)) in
  Z.lxor y3 (y3 / 2 ^ ml p).

Definition mt_words (p : mtp) (x : list Z) : Prop :=
  length x = mn p /\ (forall v, In v x -> 0 <= v < 2 ^ mw p).
Definition mt_wf (p : mtp) (st : mt) : Prop := mt_words p (mx st) /\ (mi st <= mn p)%nat.

(* the words could have been produced by the generator: there is a word before x[0] *)
Definition mt_normal (p : mtp) (x : list Z) : Prop :=
  exists v, 0 <= v < 2 ^ mw p /\
    nth (mn p - 1) x 0 = Z.lxor (nth (mm p - 1) x 0) (twist_word p v (nth 0 x 0)).

Definition mt_outputs (p : mtp) (n : nat) (st : mt) : option (list Z) :=
  r <- run (mt_next p) n st;; Some (fst r).
Definition mt_same_future (p : mtp) (a b : mt) : Prop := forall n, mt_outputs p n a = mt_outputs p n b.

(* the standard initialisation: S(0) = v mod 2^w,
   S(i) = f * (S(i-1) xor (S(i-1) >> (w-2))) + i mod 2^w *)
Definition mt_init (p : mtp) (v : Z) (S : nat -> Z) : Prop :=
  S O = v mod 2 ^ mw p /\
  forall i, S (i + 1)%nat = (mf p * Z.lxor (S i) (S i / 2 ^ (mw p - 2)) + Z.of_nat (i + 1)) mod 2 ^ mw p.
