(** What the gradient of Conv2d should be. *)
From Coq Require Import Arith List.
From Verif Require Import Sums ConvSpec.
Import ListNotations.

Section Spec.
Context {A : Type} {CR : CRing A}.
(** The convolution sum at every output position, weighted by [grad] of shape
    (b, layer, m, n): linear in the image and in the filter. *)
Definition weighted (b c h w layer m n KH KW pH pW sH sW dH dW : nat) (grad im filter : list A) : A :=
  sum b (fun bi => sum layer (fun l => sum m (fun i => sum n (fun j =>
    rmul (conv_at c h w KH KW pH pW sH sW dH dW im filter bi l i j)
         (nth (((bi * layer + l) * m + i) * n + j) grad r0))))).
End Spec.
