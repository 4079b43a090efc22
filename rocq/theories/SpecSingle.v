(** The conversion of samples to float32 inside scikit-learn's trees (statement side only). *)
From Coq Require Import Qabs.
From Verif Require Import Base TreeModel ExpModel SpecExp SpecPrep.
Open Scope nat_scope.

(** The numbers m * 2^e with |m| < 2^p and emin <= e <= emax. *)
Definition binary (p emin emax : Z) (q : Q) : Prop :=
  exists m e : Z, (Z.abs m < 2 ^ p)%Z /\ (emin <= e <= emax)%Z /\ (q == inject_Z m * 2 ^ e)%Q.
Definition float32 : Q -> Prop := binary 24 (-149) 104.
Definition float64 : Q -> Prop := binary 53 (-1074) 971.
(** [r] is a number of format [F] that is closest to [q]. *)
Definition closest (F : Q -> Prop) (q r : Q) : Prop := F r /\ forall r', F r' -> (Qabs (r - q) <= Qabs (r' - q))%Q.

(** The feature values are float64 numbers, and [single] rounds each of them to a closest float32 number (either one in case of
    a tie). *)
Definition converts (single : Q -> Q) (X : list sample) : Prop :=
  forall x q, In x X -> In q x -> float64 q /\ closest float32 q (single q).
(** The test of node [i] of CART tree [c] as scikit-learn chooses it: the threshold is the midpoint of two float32 numbers a < b,
    rounded to float64, and no converted sample at the node lies between them. *)
Definition halfway (single : Q -> Q) (X : list sample) (c : cart) (i f : nat) (t a b : Q) : Prop :=
  float32 a /\ float32 b /\ (a < b)%Q /\ closest float64 ((a + b) / 2) t /\
  forall x k, In x X -> descends c (map single x) k i -> (single (nth f x 0%Q) <= a \/ b <= single (nth f x 0%Q))%Q.
(** All tests of [c] are of that kind, and a training sample at a node that has exactly the threshold as its value is rounded
    downwards.  (If it is rounded upwards, CART sends it to the right and the raw value goes to the left.) *)
Definition clean_cart (single : Q -> Q) (X : list sample) (c : cart) : Prop :=
  forall i f t, cart_test c i f t -> exists a b, halfway single X c i f t a b /\
    forall x k, In x X -> descends c (map single x) k i -> (nth f x 0 == t)%Q -> (single (nth f x 0) <= a)%Q.
(** The class that scikit-learn's predict gives to sample [x]. *)
Definition single_class (single : Q -> Q) (c : cart) (label : nat -> nat) (x : sample) (t : nat) : Prop := cart_class c label (map single x) t.
