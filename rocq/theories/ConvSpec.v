(** Independent specification for C21 and C22: the zero-padded image, and the
    convolution sum. *)
From Coq Require Import Arith ZArith List.
From Verif Require Import Sums.
Import ListNotations.

Section Spec.
Context {A : Type} {CR : CRing A}.

(** The pixel of a (batch, channel, height, width) image, zero outside of it. *)
Definition padded (c h w : nat) (im : list A) (bi ch : nat) (r k : Z) : A :=
  if (Z.leb 0 r && Z.ltb r (Z.of_nat h) && Z.leb 0 k && Z.ltb k (Z.of_nat w))%bool
  then nth (((bi * c + ch) * h + Z.to_nat r) * w + Z.to_nat k) im r0
  else r0.

(** The convolution sum at output row [i], column [j] for layer [l]. *)
Definition conv_at (c h w KH KW pH pW sH sW dH dW : nat) (im filter : list A)
  (bi l i j : nat) : A :=
  sum c (fun ch => sum KH (fun y => sum KW (fun x =>
    rmul (padded c h w im bi ch
            (Z.of_nat i * Z.of_nat sH + Z.of_nat y * Z.of_nat dH - Z.of_nat pH)
            (Z.of_nat j * Z.of_nat sW + Z.of_nat x * Z.of_nat dW - Z.of_nat pW))
         (nth (((l * c + ch) * KH + y) * KW + x) filter r0)))).

(** Inner product of two vectors of the same length. *)
Fixpoint dot (u v : list A) : A :=
  match u, v with
  | a :: u', b :: v' => radd (rmul a b) (dot u' v')
  | _, _ => r0
  end.
End Spec.
