(** * Double precision numbers *)
From Coq Require Import Reals ZArith List.
Open Scope R_scope.

(** A double precision number of IEEE 754, without an upper bound on its magnitude: at
    most 53 binary digits, the last of them not below [2^-1074]. *)
Definition double (x : R) : Prop :=
  exists m e : Z, (Z.abs m < 2 ^ 53)%Z /\ (-1074 <= e)%Z /\ x = IZR m * powerRZ 2 e.
(** Below the largest finite number. *)
Definition finite (x : R) : Prop := Rabs x < powerRZ 2 1024.
(** [y] is a nearest double to [x]. *)
Definition nearest_double (x y : R) : Prop := double y /\ forall z, double z -> Rabs (y - x) <= Rabs (z - x).
(** The distance of the sum of doubles computed one by one is measured against this sum. *)
Definition total_of (l : list R) : R := fold_right Rplus 0 l.
(** Length of a vector. *)
Definition norm2 (v : R * R) : R := sqrt (fst v * fst v + snd v * snd v).
(** What is required of [hypot]: a double, zero only for the zero vector, and off by at
    most one part in [2^52], or [2^-1074] for subnormal lengths. *)
Definition good_hypot (hypot : R -> R -> R) : Prop := forall x y, double x -> double y ->
  double (hypot x y) /\ 0 <= hypot x y /\ (hypot x y = 0 <-> x = 0 /\ y = 0) /\
  Rabs (hypot x y - norm2 (x, y)) <= Rmax (powerRZ 2 (-52) * norm2 (x, y)) (powerRZ 2 (-1074)).
