(** The automatic gradient of [Sum] (op_reduction.go). Values as in ShapeGradModel.v; a
    scalar value has the shape []. Proof-free. *)
From Coq Require Import List ZArith Bool.
From Verif Require Import Sums BroadcastModel ShapeGradModel.
Import ListNotations.
Local Open Scope Z_scope.

Section Model.
Context {A : Type} {CR : CRing A}.
Notation tens := (@BroadcastModel.tens A).
(** tensor.Dense.Reshape (library): same data, new shape; an error leaves the tensor as it
    was if the sizes differ. *)
Definition reshapeInPlace (t : tens) (to : list Z) : tens :=
  if totalSize (shp t) =? totalSize to then Tn to (fun idx => at_ t (unravel (shp t) (ravel to idx))) else t.
(** The loop of op_reduction.go:291-301: one repetition per axis whose size is not one.
    tensor.Repeat (library) as in BroadcastModel.v. *)
Fixpoint repeatLoop (xShape along : list Z) (t : tens) : res tens :=
  match along with
  | [] => Ok t
  | a :: along' =>
      let d := nth (Z.to_nat a) xShape 0 in
      if d =? 1 then repeatLoop xShape along' t
      else bind (repeatNode t a d) (fun t' => repeatLoop xShape along' t')
  end.
(** sumOp.DoDiff (op_reduction.go:257-334) on one device: [xd] is the derivative of the
    input, which has the shape of the input, [yd] that of the output. Returned are the two
    derivatives afterwards: [yd] may be left with another shape (line 279; the error of
    Reshape is dropped). The axes are in range, as reductionInferShape checked. *)
Definition sumDoDiff (along : list Z) (xd yd : tens) : res (tens * tens) :=
  match shp yd with
  | [] => Ok (addSame xd (Tn (shp xd) (fun _ => at_ yd [])), yd)
  | _ =>
      let yd' := if Z.of_nat (length (shp yd)) =? Z.of_nat (length (shp xd)) - Z.of_nat (length along)
                 then reshapeInPlace yd (fold_left (fun s a => setZ s (Z.to_nat a) 1) along (shp xd)) else yd in
      bind (if shapeEq (shp yd') (shp xd) then Ok yd' else repeatLoop (shp xd) along yd') (fun val =>
      bind (addInto xd val) (fun d => Ok (d, yd')))
  end.
End Model.
