(** KeepDims, ReduceAdd, ReduceMul and GlobalAveragePool2D. *)
From Coq Require Import List ZArith QArith Bool.
From Verif Require Import BroadcastModel ShapeGradModel.
Import ListNotations.
Local Open Scope Z_scope.

(** KeepDims (shape.go:77-111). Shape.Eq (library, shape.go:87) lets a vector equal its
    column and row. A result with more axes is an error (the node returned beside the error
    is not modelled). [fn] may do anything to the node. *)
Definition keepDimsApi {V} (a : @tens V) (expandLeft : bool) (fn : @tens V -> res (@tens V)) : res (@tens V) :=
  bind (fn a) (fun b =>
  if shapeEq (shp b) (shp a) then Ok b
  else if Nat.ltb (length (shp a)) (length (shp b)) then Err
  else
    let diff := (length (shp a) - length (shp b))%nat in
    reshape b (if expandLeft then repeat 1 diff ++ shp b else shp b ++ repeat 1 diff)).

(** The loop at the end of ReduceAdd (operations.go:346-359) and ReduceMul
    (operations.go:381-394); [op] is Add or Mul and [opts] applies the construction options
    to the node made. *)
Fixpoint reduceLoop {N} (op : N -> N -> res N) (opts : N -> N) (acc : N) (rest : list N) : res N :=
  match rest with
  | [] => Ok acc
  | n :: rest' => bind (op acc n) (fun r => reduceLoop op opts (opts r) rest')
  end.
(** ReduceAdd (operations.go:329-360) and ReduceMul (operations.go:363-395); [None] is the
    nil node returned without an error. *)
Definition reduceNodes {N} (op : N -> N -> res N) (opts : N -> N) (nodes : list N) : res (option N) :=
  match nodes with
  | [] => Ok None
  | [n] => Ok (Some n)
  | [a; b] => bind (op a b) (fun r => Ok (Some (opts r)))
  | a :: rest => bind (reduceLoop op opts a rest) (fun r => Ok (Some r))
  end.

(** Element types: globalAveragePoolOp.Do (op_nn.go:1986-2024) knows two of them. *)
Inductive gapType := G64 | G32 | GOther.
(** InferShape (op_nn.go:1958-1975); DimSize (library) fails beyond the last axis. *)
Definition gapShape (s : list Z) : res (list Z) :=
  match nth_error s 0, nth_error s 1, nth_error s 2, nth_error s 3 with
  | Some b, Some c, Some _, Some _ => Ok [b; c; 1; 1]
  | _, _, _, _ => Err
  end.
(** The running sum over one plane (op_nn.go:1990-1999, 2008-2017), in exact numbers. *)
Definition planeSum (at4 : list Z -> Q) (b c h w : Z) : Q :=
  fold_left (fun acc i => fold_left (fun acc j => (acc + at4 [b; c; i; j])%Q) (iota (Z.to_nat w)) acc) (iota (Z.to_nat h)) 0%Q.
(** globalAveragePoolOp.Do (op_nn.go:1977-2030) after the type of GlobalAveragePool2D
    (nn.go:447-449, op_nn.go:1952-1956) has asked for four axes. *)
Definition gapDo (ty : gapType) (t : @tens Q) : res (@tens Q) :=
  match shp t with
  | [_; _; h; w] =>
      bind (gapShape (shp t)) (fun s =>
      match ty with
      | GOther => Err
      | _ => Ok (Tn s (fun idx => (planeSum (at_ t) (nth 0 idx 0%Z) (nth 1 idx 0%Z) h w / inject_Z (h * w))%Q))
      end)
  | _ => Err
  end.
