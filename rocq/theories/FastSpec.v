(** Specification side for the kernels of the build tag fastmath: what normal
    floats are, and what is asked of a reciprocal, of a hyperbolic tangent and of
    a logistic function.  Independent of the model. *)
From Coq Require Import Reals ZArith.
Open Scope R_scope.

(** A normal float64 by its sign, its exponent field and its mantissa field: its
    bits and the number it stands for (IEEE 754). *)
Definition normal64 (neg : bool) (e m bits : Z) (x : R) : Prop :=
  (0 < e < 2047)%Z /\ (0 <= m < 4503599627370496)%Z /\
  bits = ((if neg then 9223372036854775808 else 0) + e * 4503599627370496 + m)%Z /\
  x = (if neg then -1 else 1) * powerRZ 2 (e - 1023) * (1 + IZR m / 4503599627370496).

(** The same for float32. *)
Definition normal32 (neg : bool) (e m bits : Z) (x : R) : Prop :=
  (0 < e < 255)%Z /\ (0 <= m < 8388608)%Z /\
  bits = ((if neg then 2147483648 else 0) + e * 8388608 + m)%Z /\
  x = (if neg then -1 else 1) * powerRZ 2 (e - 127) * (1 + IZR m / 8388608).

(** How far [y] is from the reciprocal of [x], relative to it. *)
Definition relErr (x y : R) : R := Rabs (1 - x * y).

(** The logistic function. *)
Definition logistic (x : R) : R := 1 / (1 + exp (- x)).
