(** [ByIndices] with its gradients (op_by_indices.go). Nodes are modelled as in
    BroadcastModel.v by their shape and their value; the indices, an int tensor of one
    axis, are a list. What is said of the tensor library is assumed. Proof-free. *)
From Coq Require Import List ZArith Bool.
From Verif Require Import Sums BroadcastModel ShapeGradModel.
Import ListNotations.
Local Open Scope Z_scope.

(** newByIndicesOp (op_by_indices.go:16-24). *)
Definition newByIndicesOp (axis : Z) : Z := if axis <? 0 then 0 else axis.
(** byIndicesOp.InferShape (op_by_indices.go:48-58): [s[op.axis]] panics past the end. A
    shape with one axis is always vector-like. *)
Definition byIndicesShape (axis : Z) (s : list Z) (indices : list Z) : res (list Z) :=
  if Z.of_nat (length s) <=? axis then Panic else Ok (setZ s (Z.to_nat axis) (Z.of_nat (length indices))).
(** The coordinate read for a coordinate of the result.
    (tensor.ByIndices, library, called at op_by_indices.go:95.) *)
Definition selected (axis : Z) (indices idx : list Z) : list Z :=
  setZ idx (Z.to_nat axis) (nth (Z.to_nat (nth (Z.to_nat axis) idx 0)) indices 0).

Section Model.
Context {A : Type} {CR : CRing A}.
Notation tens := (@BroadcastModel.tens A).
(** ByIndices (op_by_indices.go:28-32) and byIndicesOp.Do (89-96). tensor.ByIndices
    (library): an index out of range fails; otherwise the entries along the axis are those
    at the indices. *)
Definition byIndices (x : tens) (indices : list Z) (axis : Z) : res tens :=
  let a := newByIndicesOp axis in
  bind (byIndicesShape a (shp x) indices) (fun s =>
  if existsb (fun i => (i <? 0) || (nth (Z.to_nat a) (shp x) 0 <=? i)) indices then Err
  else Ok (Tn s (fun idx => at_ x (selected a indices idx)))).
(** A value handed to an operator: a tensor of numbers, or of indices.
    (op_by_indices.go:191-244.) *)
Inductive operand := Num (t : tens) | Idx (l : list Z).
(** byIndicesOpDiffOp.Do (op_by_indices.go:232-244) with checkInput (191-230), where
    checkArity (utils.go:250-255) wants three values: input, gradient, indices (checkInput
    calls the second "indices" and the third "gradient", Do calls them the other way
    round). tensor.ByIndicesB (library): a zero tensor of the input's shape, every entry of
    the gradient added where its value was read. *)
Definition byIndicesDiffDo (a : Z) (inputs : list operand) : res tens :=
  match inputs with
  | [Num x; Num grad; Idx indices] =>
      Ok (Tn (shp x) (fun idx => over (shp grad) (fun full => if eqShape (selected a indices full) idx then at_ grad full else r0)))
  | _ => Err
  end.
(** byIndicesOp.SymDiff (op_by_indices.go:130-145): the gradient of the first input; the
    second has none. *)
Definition byIndicesSymDiff (axis : Z) (x : tens) (indices : list Z) (grad : tens) : res tens :=
  byIndicesDiffDo (newByIndicesOp axis) [Num x; Num grad; Idx indices].
(** byIndicesOp.DoDiff (op_by_indices.go:99-127): the operator is given the two inputs
    only; the sum goes into the output's value [out] and becomes the output's derivative.
    Returned is the output's derivative. *)
Definition byIndicesDoDiff (axis : Z) (x : tens) (indices : list Z) (out : tens) : res tens :=
  bind (byIndicesDiffDo (newByIndicesOp axis) [Num x; Idx indices]) (fun result =>
  addInto out (Tn (shp out) (at_ result))).
End Model.
