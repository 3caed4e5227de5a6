(** Model of the float32 kernels of sigmoid and softplus with their cut-offs (math.go,
    math_nooptim.go); the float64 ones are in CalcModel.  Simplified: exact reals; the roundings
    of float32(…), math.Exp and math.Log1p are left out. *)
Require Import Coq.Reals.Reals.
Local Open Scope R_scope.

(** math_nooptim.go:36-44 [_sigmoidf32]. *)
Definition sigmoid32 (x : R) : R :=
  if Rlt_dec x (-88) then 0
  else if Rlt_dec 15 x then 1
  else 1 / (1 + exp (- x)).

(** math.go:60-68 [_softplusf32]. *)
Definition softplus32 (x : R) : R :=
  if Rlt_dec x (-103) then 0
  else if Rlt_dec 14 x then x
  else ln (1 + exp x).
