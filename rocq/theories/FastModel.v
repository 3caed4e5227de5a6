(** Model of math_fast.go, the scalar kernels of the build tag [fastmath].  No
    proofs in this file.

    Simplifications common to the file: a float is handled through its bits (an
    integer) where the code handles the bits, and as the real number it denotes
    where the code computes; the arithmetic on numbers is exact, while the
    arithmetic on bits is the wrapping one of the machine.  At the pinned commit
    operatorPointwise_unary_const.go:29,61 names [_inverseSqrtf64] and
    [_inverseSqrtf32], which exist only in math_nooptim.go:46-52, so the package
    as a whole does not build with the tag; the functions below are those of the
    file. *)
From Coq Require Import Reals ZArith.
From Verif Require Import BroadcastModel.
Open Scope R_scope.

(** math_fast.go:15-16 [castUF64], [castUF32]: the number that bits denote; [ew]
    and [mw] are the widths of the exponent and of the mantissa (11 and 52 for
    float64, 8 and 23 for float32).  The infinities and the not-a-numbers denote
    no number. *)
Definition castUF (ew mw : Z) (u : Z) : option R :=
  let s := (u / 2 ^ (ew + mw))%Z in
  let e := ((u / 2 ^ mw) mod 2 ^ ew)%Z in
  let m := (u mod 2 ^ mw)%Z in
  let bias := (2 ^ (ew - 1) - 1)%Z in
  let sg := if (s =? 0)%Z then 1 else -1 in
  if (e =? 2 ^ ew - 1)%Z then None
  else if (e =? 0)%Z then Some (sg * powerRZ 2 (1 - bias) * (IZR m / IZR (2 ^ mw)))
  else Some (sg * powerRZ 2 (e - bias) * (1 + IZR m / IZR (2 ^ mw))).

(** math_fast.go:47-49 and 67-69: the refinement loop with [n] rounds. *)
Fixpoint refine (n : nat) (x f : R) : R :=
  match n with
  | O => f
  | S n' => refine n' x (2 * f - f * f * x)
  end.

(** math_fast.go:40-51 [_inversef64].  The argument is given by its bits (line 41
    reads them); lines 41-44 and 47-50.  [None]: one of the two floats is no
    number. *)
Definition inversef64 (bx : Z) : option R :=
  let u := ((0x7FDE623822FC16E6 - bx) mod 2 ^ 64)%Z in
  match castUF 11 52 bx, castUF 11 52 u with
  | Some x, Some f => Some (refine 3 x f)
  | _, _ => None
  end.

(** math_fast.go:62-71 [_inversef32]: the loop of lines 67-69 runs on [f], the
    result of line 70 is read from [u] again. *)
Definition inversef32 (bx : Z) : option R :=
  let u := ((0x7F000000 - bx) mod 2 ^ 32)%Z in
  match castUF 8 23 bx, castUF 8 23 u with
  | Some x, Some f => let _ := refine 2 x f in castUF 8 23 u
  | _, _ => None
  end.

(** math_fast.go:110-120 and 136-146: the cases of level 2 ("Anguita"), in their
    order; no case taken falls out of the switch. *)
Definition anguita (x : R) : option R :=
  if Rlt_dec (192033/100000) x then Some (96016/100000)
  else if Rlt_dec 0 x then
    Some (96016/100000 - 26037/100000 * (x - 192033/100000) * (x - 192033/100000))
  else if Rle_dec x (- (192033/100000)) then Some (- (96016/100000))
  else if Rlt_dec x 0 then
    Some (26037/100000 * (x + 192033/100000) * (x + 192033/100000) - 96016/100000)
  else None.

(** math_fast.go:104-122 [_tanhf32]; [lvl] is the variable optimizationLevel of
    opt.go:7. *)
Definition tanhf32 (lvl : Z) (x : R) : res R :=
  if ((lvl =? 0) || (lvl =? 1))%Z%bool then Ok (tanh x)
  else if (lvl =? 2)%Z then
    match anguita x with Some y => Ok y | None => Panic end
  else Panic.

(** math_fast.go:130-133: level 1 ("Variety of Sound"). *)
Definition lambert (x : R) : R :=
  let x2 := x * x in
  let a := x * (135135 + x2 * (17325 + x2 * (378 + x2))) in
  let b := 135135 + x2 * (62370 + x2 * (3150 + x2 * 28)) in
  a / b.

(** math_fast.go:124-148 [_tanhf64]. *)
Definition tanhf64 (lvl : Z) (x : R) : res R :=
  if (lvl =? 0)%Z then Ok (tanh x)
  else if (lvl =? 1)%Z then Ok (lambert x)
  else if (lvl =? 2)%Z then
    match anguita x with Some y => Ok y | None => Panic end
  else Panic.

(** math_fast.go:150-152 [_sigmoidf64] and 154-156 [_sigmoidf32]. *)
Definition sigmoidf64 (x : R) : R := 0.
(** math_fast.go:154-156 [_sigmoidf32]. *)
Definition sigmoidf32 (x : R) : R := 0.
