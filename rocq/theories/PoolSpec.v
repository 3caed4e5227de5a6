(** Independent specification for C23-C25: windows on a plane, the sum over a
    window of the zero-padded plane, an order for the maximum. *)
From Coq Require Import Arith ZArith Reals List.
From Verif Require Import Sums.
Import ListNotations.

(** Pixel [i] of an inH x inW plane lies in the window of output (ph, pw), the
    plane being extended by padH rows above and padW columns to the left. *)
Definition in_window (kh kw padH padW sH sW inH inW ph pw i : nat) : Prop :=
  exists r c, (r < inH)%nat /\ (c < inW)%nat /\ i = (r * inW + c)%nat /\
    (ph * sH <= r + padH < ph * sH + kh)%nat /\ (pw * sW <= c + padW < pw * sW + kw)%nat.

(** The comparison of the values is a strict weak order. *)
Definition strict_order {V : Type} (gtb : V -> V -> bool) : Prop :=
  (forall x, gtb x x = false) /\
  (forall x o y, gtb x o = false -> gtb y o = true -> gtb x y = false).

(** A pixel of a plane, zero outside of it. *)
Definition pixel {A : Type} {CR : CRing A} (inH inW : nat) (plane : list A) (r c : Z) : A :=
  if (Z.leb 0 r && Z.ltb r (Z.of_nat inH) && Z.leb 0 c && Z.ltb c (Z.of_nat inW))%bool
  then nth (Z.to_nat r * inW + Z.to_nat c) plane r0 else r0.

(** The sum of the window of (ph, pw) on the zero-padded plane. *)
Definition window_sum {A : Type} {CR : CRing A} (kh kw padH padW sH sW inH inW ph pw : nat)
  (plane : list A) : A :=
  sum kh (fun y => sum kw (fun x => pixel inH inW plane
    (Z.of_nat ph * Z.of_nat sH + Z.of_nat y - Z.of_nat padH)
    (Z.of_nat pw * Z.of_nat sW + Z.of_nat x - Z.of_nat padW))).
