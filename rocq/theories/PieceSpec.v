(* Piecewise constant and piecewise linear densities. *)
From Coq Require Import Qminmax.
From Verif Require Import Base ProgModel ProgSpec FloatModel FloatSpec RealSpec RDiscSpec.
Open Scope Q_scope.

(* strictly increasing boundaries of the format *)
Definition ivals_ok (f : fmt) (fmax : Q) (iv : list Q) : Prop :=
  (2 <= length iv)%nat /\ Forall (fun x => representable f x /\ - fmax <= x /\ x <= fmax) iv /\
  forall i, (S i < length iv)%nat -> nth i iv 0 < nth (S i) iv 0.

(* the area under the graph through (0,w1), (1,w2), left of u *)
Definition lin_area (w1 w2 u : Q) : Q := w1 * u + (w2 - w1) * u * u / 2.

(* a program that, on any valid draws, runs out of them or returns a number of
   some interval i for which pos i holds *)
Definition lands_in (bmin bmax : Z) (p : nat -> prog Q) (iv : list Q) (pos : nat -> Prop) : Prop :=
  forall F ds, (length ds < F)%nat -> valid_draws bmin bmax ds ->
    exec (p F) ds = OMore \/
    exists q rest i, exec (p F) ds = ORet q rest /\ (S i < length iv)%nat /\
      nth i iv 0 <= q /\ q < nth (S i) iv 0 /\ nth 0 iv 0 <= q /\ q < nth (length iv - 1) iv 0 /\ pos i.

(* a table that splits n columns of height 1 such that the areas of the values
   are n times their probabilities, up to err; [sel] chooses by the column and
   a number below 1 *)
Definition splits (ws : list Q) (sel : Z -> Q -> option Z) (err : Q) : Prop :=
  exists h s,
    (forall c v, (0 <= c < Z.of_nat (length ws))%Z -> v < 1 -> sel c v = Some (if Qle_bool (h c) v then s c else c)) /\
    (forall c, (0 <= c < Z.of_nat (length ws))%Z -> 0 <= h c /\ h c <= 1 /\ (0 <= s c < Z.of_nat (length ws))%Z) /\
    (forall i, (0 <= i < Z.of_nat (length ws))%Z ->
       Qabs (area (length ws) h s i - qlen ws * qweight ws i / qtotal ws) <= err).

(* the density through the points (iv_i, ws_i): every interval contributes a
   rectangle and a triangle *)
Fixpoint lin_bins (iv ws : list Q) : list Q :=
  match iv, ws with
  | a :: ((b :: _) as r), w1 :: ((w2 :: _) as wr) =>
      Qmin w1 w2 * (b - a) :: Qabs (w1 - w2) * (b - a) / 2 :: lin_bins r wr
  | _, _ => []
  end.

(* non-negative weights of the format; the area is not so small that it
   underflows *)
Definition lweights_ok (f : fmt) (iv ws : list Q) : Prop :=
  length ws = length iv /\ (2 * Z.of_nat (length iv) - 2 < 2 ^ 64)%Z /\ Forall (fun w => representable f w /\ 0 <= w) ws /\
  qlen (lin_bins iv ws) * p2 (emin f + prec f + 2) <= qtotal (lin_bins iv ws).
