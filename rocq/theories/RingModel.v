(* Arrays used by the engines; out-of-bounds access is undefined behaviour. *)
From Verif Require Import Base StreamModel.

(* x[i] *)
Definition get (x : list Z) (i : nat) : option Z := nth_error x i.

(* x[i] = v *)
Definition upd (x : list Z) (i : nat) (v : Z) : option (list Z) :=
  if (i <? length x)%nat then Some (firstn i x ++ v :: skipn (S i) x) else None.

(* is >> f.x[j] for j = from .. from+n-1.  A failed extraction stores 0 in the
   element (C++11 num_get) and the following ones keep their values. *)
Fixpoint read_arr (t : ity) (n from : nat) (x : list Z) (s : istr) : list Z * istr :=
  match n with
  | O => (x, s)
  | S n' =>
      match get_int t s with
      | (Some v, s') => read_arr t n' (S from) (firstn from x ++ v :: skipn (S from) x) s'
      | (None, s') => (if failb s then x else firstn from x ++ 0 :: skipn (S from) x, s')
      end
  end.
