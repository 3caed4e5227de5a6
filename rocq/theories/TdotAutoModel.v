(** Model of the automatic gradient of a tensor contraction (op_math.go:916-1087,
    tensordotOp.DoDiff). No proofs in this file.

    Taken over from the library, as in TdotModel: TensorMul is [tensordotApi] without the
    checks gorgonia adds, tensor.T permutes the axes, MatMul multiplies two matrices.
    The derivatives are taken to be dense tensors (the code asserts it at 917-918, 945). *)
From Coq Require Import List ZArith Bool.
From Verif Require Import Sums BroadcastModel ShapeGradModel ReduceModel TdotModel.
Import ListNotations.
Local Open Scope Z_scope.

Section Model.
Context {A : Type} {CR : CRing A}.
Notation tens := (@BroadcastModel.tens A).

(** Dense.MulScalar (library, called at op_math.go:1017): every entry, in row-major
    order, times the one entry of the scalar. *)
Definition mulScalar (t s : tens) : tens :=
  Tn (shp t) (fun idx => rmul (at_ t (unravel (shp t) (ravel (shp t) idx))) (at_ s (unravel (shp s) 0))).

(** Dense.TensorMul (library, called at op_math.go:1060): the axes must be as many and
    their sizes must agree. *)
Definition tensorMul (aAxes bAxes : list Z) (a b : tens) : res tens :=
  if Nat.eqb (length aAxes) (length bAxes) && eqShape (permuteShape aAxes (shp a)) (permuteShape bAxes (shp b))
  then Ok (Tn (dropAxes aAxes (shp a) ++ dropAxes bAxes (shp b)) (contract aAxes bAxes a b))
  else Err.

(** tensor.T (library, called at op_math.go:1067): no axes reverse the order, the identity
    is accepted. *)
Definition libT (t : tens) (axes : list Z) : res tens :=
  let n := length (shp t) in
  let axes' := if Nat.eqb (length axes) 0 then rev (iota n) else axes in
  if negb (Nat.eqb (length axes') n) || negb (permOk axes' n) then Err
  else Ok (Tn (permuteShape axes' (shp t)) (fun idx => at_ t (scatter axes' idx (repeat 0 (length axes'))))).

(** d.Add(tensordotPermDense, tensor.UseUnsafe()) (op_math.go:1075): its error is not
    looked at, so when the shapes do not agree nothing is added. *)
Definition addIgnored (d t : tens) : tens := match addInto d t with Ok d' => d' | _ => d end.

(** One pass of the loop (op_math.go:920-1084) for an input with shape [inShape] and
    derivative [d]. *)
Definition tensordotDoDiff1 (iWasFirstArgument : bool) (iAxes otherAxes inShape : list Z) (other odvd d : tens) : res tens :=
  let pattern := if scalarEquiv inShape then [] else gradPattern iAxes otherAxes (length inShape) in
  let dO := dOtherAxes otherAxes (shp other) in
  let dG := dGradAxes iWasFirstArgument (length (shp odvd)) (length dO) in
  bind (if scalarEquiv (shp odvd) then Ok (mulScalar other odvd)
        else if isVector (shp other) && isVector (shp odvd) && Nat.eqb (length dO) 0 then
          bind (if isColVec (shp other) then Ok other else reshape other [nth 0 (shp other) 0; 1]) (fun o =>
          bind (if isRowVec (shp odvd) then Ok odvd else reshape odvd [1; nth 0 (shp odvd) 0]) (fun g =>
          matMul o g))
        else tensorMul dO dG other odvd) (fun t =>
  bind (libT t pattern) (fun p => Ok (addIgnored d p))).

(** tensordotOp.DoDiff (op_math.go:916-1087) for two different nodes, with derivatives
    [da] and [db]; an error in the second pass leaves the first sum in place, which the
    result does not show. *)
Definition tensordotDoDiff (aAxes bAxes : list Z) (a b odvd da db : tens) : res (tens * tens) :=
  bind (tensordotDoDiff1 true aAxes bAxes (shp a) b odvd da) (fun da' =>
  bind (tensordotDoDiff1 false bAxes aAxes (shp b) a odvd db) (fun db' =>
  Ok (da', db'))).
(** The same when both inputs are one node (op_math.go:944-945: both passes read and write
    the derivative of that node). *)
Definition tensordotDoDiffSame (aAxes bAxes : list Z) (x odvd dx : tens) : res tens :=
  bind (tensordotDoDiff1 true aAxes bAxes (shp x) x odvd dx) (fun dx' =>
  tensordotDoDiff1 false bAxes aAxes (shp x) x odvd dx').
End Model.
