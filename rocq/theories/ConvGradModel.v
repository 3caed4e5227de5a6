(** The gradient of Conv2d as Backpropagate composes it from the gradients of its parts.
    Proof-free. *)
From Coq Require Import Arith List.
From Verif Require Import Sums LoopModel MatModel ConvModel.
Import ListNotations.
Local Open Scope nat_scope.

Section Kernels.
Context {A : Type} {CR : CRing A}.

(** A matrix' data, row by row.
    (Layout of a dense tensor, library; op_tensor.go:1153-1189 keeps the data.) *)
Definition flatten (m : mat A) : list A := flat_map (fun i => map (el m i) (seq 0 (cols m))) (seq 0 (rows m)).
(** op_tensor.go:897-907: the gradient of the transposition (0, 3, 1, 2) is the
    transposition by (0, 2, 3, 1); op_tensor.go:1251-1258: the gradient of the reshape to
    (b, m, n, layer) is the reshape to (b*m*n, layer). [grad] has shape (b, layer, m, n). *)
Definition resGrad (b m n layer : nat) (grad : list A) : mat A :=
  asMat (b * m * n) layer
    (flat_map (fun bi => flat_map (fun i => flat_map (fun j => map (fun l =>
       nth (((bi * layer + l) * m + i) * n + j) grad r0) (seq 0 layer)) (seq 0 n)) (seq 0 m)) (seq 0 b)).
(** nn.go:211-305: the gradients of image and filter; the matrix product's are
    operatorLinAlg.go:51-101, those of the two other reshapes change the shape only, and
    that of Im2Col is op_nn.go:239-265. *)
Definition conv2dGrad (op : im2colOp) (b c h w : nat) (layer kernel row col : nat)
  (im filter grad : list A) : option (list A * list A) :=
  if negb (im2colOk op) then None
  else
    let m := retH op h in
    let n := retW op w in
    let z := c * kw op * kh op in
    match im2colDo op b c h w im (repeat r0 (b * (m * n * z))) with
    | None => None
    | Some colIm =>
        match matMulDiffExpr false true (asMat (b * m * n) z colIm) (asMat layer (kernel * row * col) filter) (resGrad b m n layer grad) with
        | (Some gPatch, Some gFlat) =>
            match im2colGrad op b c h w (flatten gPatch) with
            | Some gIm => Some (gIm, flatten gFlat)
            | None => None
            end
        | _ => None
        end
    end.
End Kernels.
