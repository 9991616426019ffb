(* A text stream seen as the sequence of its blank separated tokens.
   Simplification: iostream formatting flags, locale and buffer errors are not
   modelled; the streams are in their default (decimal, skipws) state. *)
From Verif Require Import Base.

(* a token is the decimal text of an integer or something that is no number *)
Inductive tok := TInt (z : Z) | TJunk.

(* std::basic_istream: remaining tokens and the failbit *)
Record istr := IStr { toks : list tok; failb : bool }.

Definition good_in (ts : list tok) : istr := IStr ts false.

(* is >> x for a variable of integer type t ([istream::operator>>], num_get):
   None = extraction failed (failbit set, value not usable) *)
Definition get_int (t : ity) (s : istr) : option Z * istr :=
  if failb s then (None, s) else
  match toks s with
  | TInt z :: r => if (imin t <=? z) && (z <=? imax t) then (Some z, IStr r false) else (None, IStr r true)
  | _ => (None, IStr (toks s) true)
  end.

(* is.setstate(std::ios_base::failbit) *)
Definition set_fail (s : istr) : istr := IStr (toks s) true.
