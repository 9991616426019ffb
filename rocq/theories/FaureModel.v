(* faure.hpp: the Faure engine.

   SeqSizeT is an unsigned type of Ws >= 32 bits (so that there are no integer
   promotions), RealType is the format [f] with rounding direction [md].
   Products of indices (at most Ws + 1) are not wrapped: they are below 2^14. *)
From Verif Require Import Base QrngModel FloatModel RealModel PolyModel.
Open Scope Z_scope.

(* faure.hpp:42-58: the table *)
Definition faure_primes : list Z := [
  2; 3; 5; 7; 11; 13; 17; 19; 23; 29; 31; 37; 41; 43; 47; 53;
  59; 61; 67; 71; 73; 79; 83; 89; 97; 101; 103; 107; 109; 113;
  127; 131; 137; 139; 149; 151; 157; 163; 167; 173; 179; 181;
  191; 193; 197; 199; 211; 223; 227; 229; 233; 239; 241; 251;
  257; 263; 269; 271; 277; 281; 283; 293; 307; 311; 313; 317;
  331; 337; 347; 349; 353; 359; 367; 373; 379; 383; 389; 397;
  401; 409; 419; 421; 431; 433; 439; 443; 449; 457; 461; 463;
  467; 479; 487; 491; 499; 503; 509; 521; 523; 541; 547; 557;
  563; 569; 571; 577; 587; 593; 599; 601; 607; 613; 617; 619;
  631; 641; 643; 647; 653; 659; 661; 673; 677; 683; 691; 701;
  709; 719; 727; 733; 739; 743; 751; 757; 761; 769; 773; 787;
  797; 809; 811; 821; 823; 827; 829; 839; 853; 857; 859; 863;
  877; 881; 883; 887; 907; 911; 919; 929; 937; 941; 947; 953;
  967; 971; 977; 983; 991; 997; 1009; 1013; 1019; 1021; 1031;
  1033; 1039; 1049; 1051; 1061; 1063; 1069; 1087; 1091; 1093;
  1097; 1103; 1109; 1117].

(* faure.hpp:39-63, lower_bound, with dimension_assert (qrng_base.hpp:273-282);
   None: throws invalid_argument *)
Definition primes_lower_bound (n : Z) : option Z :=
  if (n =? 0) || (last faure_primes 0 <? n) then None
  else find (fun p => n <=? p) faure_primes.

(* faure.hpp:76-85, integer_log; None: division by zero, or the loop does not
   end (base 1; for base >= 2 it ends within Ws iterations) *)
Fixpoint integer_log (fuel : nat) (base arg ilog : Z) : option Z :=
  if base <=? arg then
    match fuel with
    | O => None
    | S k => if base =? 0 then None else integer_log k base (arg / base) (ilog + 1)
    end
  else Some ilog.

(* faure.hpp:88-100, integer_pow; e has at most Ws bits *)
Fixpoint integer_pow (fuel : nat) (Ws base e result : Z) : Z :=
  if e =? 0 then result else
  match fuel with
  | O => result
  | S k =>
      let result := if Z.land e 1 =? 0 then result else wrap Ws (result * base) in
      integer_pow k Ws (wrap Ws (base * base)) (Z.shiftr e 1) result
  end.

(* faure.hpp:229-236: the data members of binomial_coefficients *)
Record flat := Fl { f_base : Z; f_coeff : list Z; f_y : list Q; f_pow : Z }.

(* faure.hpp:123-130, resize; lower_bound is PrimeTable::lower_bound *)
Definition f_resize (lower_bound : Z -> option Z) (l : flat) (dim : Z) : option flat :=
  b <- lower_bound dim;; Some (Fl b [] (f_y l) (f_pow l)).

(* faure.hpp:170-173 *)
Definition size_hint (n : nat) : nat := (n * (n + 1) / 2)%nat.

(* faure.hpp:175-181: the index in coeff.  BOOST_ASSERT is not modelled. *)
Definition upper_index (i j dim : nat) : nat := (i * (2 * dim - i + 1) / 2 + j - i)%nat.

(* for(i = from; i != from + cnt; ++i) *)
Fixpoint nfor {A} (from cnt : nat) (body : nat -> A -> option A) (a : A) : option A :=
  match cnt with
  | O => Some a
  | S k => a' <- body from a;; nfor (S from) k body a'
  end.

(* faure.hpp:222-223: one iteration; the sum of two unsigned shorts is an int *)
Definition cc_step (base : Z) (n i j : nat) (c : list Z) : option (list Z) :=
  x <- rd c (upper_index i (j - 1) n);;
  y <- rd c (upper_index (i - 1) (j - 1) n);;
  if base =? 0 then None else wr c (upper_index i j n) (wrap 16 ((x + y) mod base)).

(* faure.hpp:203-226, compute_coefficients(n) *)
Definition compute_coefficients (base : Z) (n : nat) : option (list Z) :=
  let c := repeat 0 (size_hint n) in
  c <- wr c (upper_index 0 0 n) 1;;
  c <- nfor 1 (n - 1) (fun i c => c <- wr c (upper_index 0 i n) 1;; wr c (upper_index i i n) 1) c;;
  nfor 1 (n - 1) (fun i c => nfor (i + 1) (n - (i + 1)) (cc_step base n i) c) c.

Section Real.
Variables (f : fmt) (md : rmode).
Local Notation rnd := (fround f md).
Local Notation ofZ z := (fround f md (inject_Z z)).

(* std::fmod(x, y) for x >= 0, y > 0: exact *)
Definition fmod (x y : Q) : Q := Qred (x - y * inject_Z (Qfloor (x / y))).

(* faure.hpp:183-201, compute_recip: the value r, and ytemp; out is the number of
   elements of ytemp that are not yet written (they are written from the end) *)
Fixpoint compute_recip (base : Z) (fuel : nat) (seq k : Z) (out : nat) (r : Q) (y : list Q) : option (Q * list Q) :=
  if k =? 0 then Some (r, y) else
  match fuel, out with
  | S fl, S o =>
      let m := seq mod k in
      let v := ofZ ((seq - m) / k) in
      r <- fdiv f md (rnd (r + v)) (ofZ base);;
      y <- wr y o v;;
      compute_recip base fl m (k / base) o r y
  | _, _ => None
  end.

(* faure.hpp:156-158: the sum for row i, summed up from column j on *)
Fixpoint row_sum (c : list Z) (y : list Q) (hisum i : nat) (cnt j : nat) (z : Q) : option Q :=
  match cnt with
  | O => Some z
  | S k =>
      yj <- rd y j;; cij <- rd c (upper_index i j hisum);;
      row_sum c y hisum i k (S j) (rnd (z + rnd (yj * ofZ cij)))
  end.

(* faure.hpp:152-164: the loop over i; r and *first *)
Fixpoint next_coord (base : Z) (c : list Z) (hisum : nat) (cnt i : nat) (r first : Q) (y : list Q) : option (Q * list Q) :=
  match cnt with
  | O => Some (first, y)
  | S k =>
      yi <- rd y i;; cii <- rd c (upper_index i i hisum);;
      z <- row_sum c y hisum i (hisum - (i + 1)) (i + 1) (rnd (yi * ofZ cii));;
      let yi := fmod z (ofZ base) in
      y <- wr y i yi;;
      let r := rnd (r * ofZ base) in
      q <- fdiv f md yi r;;
      next_coord base c hisum k (S i) r (rnd (first + q)) y
  end.

(* faure.hpp:149-165: the coordinates after the first *)
Fixpoint coords (base : Z) (c : list Z) (hisum : nat) (cnt : nat) (y : list Q) : option (list Q * list Q) :=
  match cnt with
  | O => Some ([], y)
  | S k =>
      q <- next_coord base c hisum hisum 0 1 0 y;;
      r <- coords base c hisum k (snd q);;
      Some (fst q :: fst r, snd r)
  end.

(* faure.hpp:132-167, update(seq, first, last) for a range of dim elements *)
Definition f_update (Ws : Z) (seq : Z) (dim : nat) (l : flat) : option (list Q * flat) :=
  match dim with
  | O => Some ([], l)
  | S d =>
      let base := wrap Ws (f_base l) in
      ilog <- integer_log (Z.to_nat Ws) base seq 0;;
      let hisum := Z.to_nat (ilog + 1) in
      l <- (if (length (f_coeff l) =? size_hint hisum)%nat then Some l else
            c <- compute_coefficients (f_base l) hisum;;
            Some (Fl (f_base l) c (vresize 0%Q hisum (f_y l)) (integer_pow (Z.to_nat Ws) Ws base ilog 1)));;
      q <- compute_recip (f_base l) (S (Z.to_nat Ws)) seq (f_pow l) (length (f_y l)) 0 (f_y l);;
      r <- coords (f_base l) (f_coeff l) hisum d (snd q);;
      Some (fst q :: fst r, Fl (f_base l) (f_coeff l) (snd r) (f_pow l))
  end.

Definition feng := qeng flat Q.

(* faure.hpp:348-352, compute_seq; the type is unsigned, check_seed_sign does nothing *)
Definition f_comp (Ws : Z) (e : feng) (seq : Z) : res feng unit :=
  match f_update Ws seq (length (q_st e)) (q_lat e) with
  | Some (st, l) => Ret (Qe (q_curr e) (q_seq e) l st) tt
  | None => Bad
  end.

(* faure.hpp:303-307, seed(init) *)
Definition f_seed (Ws : Z) (e : feng) (init : Z) : res feng unit :=
  match f_comp Ws e init with
  | Ret e' _ => Ret (reset_seq e' init) tt
  | Thr e' => Thr e'
  | Bad => Bad
  end.

Definition faure_ops (Ws : Z) : dops flat Q := Dops (f_seed Ws) (f_comp Ws).

(* faure.hpp:296-298 and 118-121, qrng_base.hpp:64-70: the constructor; None when
   it throws.  Members that are not initialised before seed() are 0. *)
Definition f_new (Ws : Z) (lower_bound : Z -> option Z) (dim : Z) : option (res feng unit) :=
  if dim =? 0 then None else
  lat <- f_resize lower_bound (Fl 0 [] [] 0) dim;;
  Some (f_seed Ws (Qe 0 0 lat (repeat 0%Q (Z.to_nat dim))) 0).

(* faure.hpp:285-291 *)
Definition f_min : Q := 0.
Definition f_max : Q := 1.
End Real.
