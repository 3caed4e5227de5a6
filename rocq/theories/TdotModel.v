(** [Tensordot] with its symbolic gradient (operations.go, op_math.go, op_tensor.go).
    Nodes are modelled as in BroadcastModel.v by their shape and their value; entries come
    from a commutative ring. What is said of the tensor library is assumed. Proof-free. *)
From Coq Require Import List ZArith Bool.
From Verif Require Import Sums BroadcastModel ShapeGradModel ReduceModel.
Import ListNotations.
Local Open Scope Z_scope.

(** contains (op_tensor.go:1277-1289): the index of the first occurrence, [None] for -1. *)
Fixpoint contains (slice : list Z) (value : Z) : option nat :=
  match slice with
  | [] => None
  | v :: slice' => if value =? v then Some O else option_map S (contains slice' value)
  end.
(** containsDuplicate (operations.go:660-674). *)
Fixpoint containsDuplicate (slice : list Z) : bool :=
  match slice with [] => false | v :: slice' => existsb (Z.eqb v) slice' || containsDuplicate slice' end.
(** sort.Ints (standard library, called at op_tensor.go:1303), as an insertion sort. *)
Fixpoint insertInt (v : Z) (l : list Z) : list Z :=
  match l with [] => [v] | x :: l' => if v <=? x then v :: l else x :: insertInt v l' end.
(** sort.Ints (Go library), called at op_tensor.go:1303. *)
Fixpoint sortInts (l : list Z) : list Z :=
  match l with [] => [] | v :: l' => insertInt v (sortInts l') end.
(** sort.SearchInts on a sorted slice (standard library, op_tensor.go:1307): the first
    index whose element is at least the value. *)
Fixpoint searchInts (l : list Z) (v : Z) : nat :=
  match l with [] => O | x :: l' => if v <=? x then O else S (searchInts l' v) end.
(** The loop of sortUniqueIntWithImitator (op_tensor.go:1306-1310) over the backups:
    [imitator[SearchInts(toBeSorted, originalValue)] = imitatorBackup[originalIndex]]. *)
Fixpoint imitateLoop (toBeSorted backup imitatorBackup imitator : list Z) : list Z :=
  match backup, imitatorBackup with
  | v :: backup', w :: imitatorBackup' =>
      imitateLoop toBeSorted backup' imitatorBackup' (setZ imitator (searchInts toBeSorted v) w)
  | _, _ => imitator
  end.
(** sortUniqueIntWithImitator (op_tensor.go:1292-1313): both slices as they are left. *)
Definition sortUniqueIntWithImitator (toBeSorted imitator : list Z) : list Z * list Z :=
  (sortInts toBeSorted, imitateLoop (sortInts toBeSorted) toBeSorted imitator imitator).
(** The axes of a tensor that were not contracted, in order
    (op_math.go:866-871, 1152-1158: [0 > contains(axes, axis)]). *)
Definition freeAxes (axes : list Z) (dims : nat) : list Z :=
  filter (fun a => match contains axes a with Some _ => false | None => true end) (iota dims).

(** ** The gradient's bookkeeping *)
(** The pattern of axes (op_math.go:1131-1142). *)
Fixpoint patternLoop (iAxesCoSorted : list Z) (todo : list Z) (counter : Z) : list Z :=
  match todo with
  | [] => []
  | p :: todo' =>
      match contains iAxesCoSorted p with
      | Some k => Z.of_nat k :: patternLoop iAxesCoSorted todo' counter
      | None => counter :: patternLoop iAxesCoSorted todo' (counter + 1)
      end
  end.
(** op_math.go:1117-1142 for an input with [dims] axes. *)
Definition gradPattern (iAxes otherAxes : list Z) (dims : nat) : list Z :=
  patternLoop (snd (sortUniqueIntWithImitator otherAxes iAxes)) (iota dims) (Z.of_nat (length iAxes)).
(** The axes of the other input to contract with (op_math.go:1147-1159): for a shape of
    ones the slice of zeros as it was made. *)
Definition dOtherAxes (otherAxes otherShape : list Z) : list Z :=
  if scalarEquiv otherShape then repeat 0 (length otherShape)
  else freeAxes otherAxes (length otherShape).
(** The axes of the gradient to contract with (op_math.go:1162-1173). *)
Definition dGradAxes (iWasFirstArgument : bool) (gradDims n : nat) : list Z :=
  if iWasFirstArgument then map (fun axis => Z.of_nat gradDims - Z.of_nat n + axis) (iota n) else iota n.

Section Model.
Context {A : Type} {CR : CRing A}.
Notation tens := (@BroadcastModel.tens A).

(** ** Forward *)
(** tensordotOp.InferShape (op_math.go:845-882) with [retDims] of makeTensordotOp
    (op_math.go:806-821): a slice of [retDims] zeros is filled, one past its end panics. *)
Definition tensordotShape (aAxes bAxes aShape bShape : list Z) : res (list Z) :=
  let retDims := Z.to_nat (Z.of_nat (length aShape) + Z.of_nat (length bShape) - 2 * Z.of_nat (length aAxes)) in
  let filled := map (fun i => nth (Z.to_nat i) aShape 0) (freeAxes aAxes (length aShape)) ++
                map (fun i => nth (Z.to_nat i) bShape 0) (freeAxes bAxes (length bShape)) in
  if Nat.leb (length filled) retDims then Ok (filled ++ repeat 0 (retDims - length filled)%nat) else Panic.
(** tensor.Contract (library, called at op_math.go:894): the sum of the products of all
    pairs of entries whose coordinates agree along the axes; the remaining coordinates,
    those of [a] before those of [b], are the coordinate of the result. *)
Definition contract (aAxes bAxes : list Z) (a b : tens) : list Z -> A :=
  fun idx =>
    over (shp a) (fun i => over (shp b) (fun j =>
      if eqShape (permuteShape aAxes i) (permuteShape bAxes j) && eqShape (dropAxes aAxes i ++ dropAxes bAxes j) idx
      then rmul (at_ a i) (at_ b j) else r0)).
(** [for aAxis, aDim := range aAxes { if aShape[aDim] != bShape[bAxes[aAxis]] ... }]
    (operations.go:623-627): a negative axis panics. *)
Fixpoint dimsLoop (aAxes bAxes aShape bShape : list Z) : res unit :=
  match aAxes, bAxes with
  | x :: aAxes', y :: bAxes' =>
      if (x <? 0) || (y <? 0) then Panic
      else if nth (Z.to_nat x) aShape 0 =? nth (Z.to_nat y) bShape 0 then dimsLoop aAxes' bAxes' aShape bShape
      else Err
  | _, _ => Ok tt
  end.
(** Tensordot (operations.go:589-633) and the value of its node (op_math.go:884-895). *)
Definition tensordotApi (aAxes bAxes : list Z) (a b : tens) : res tens :=
  if Nat.ltb (length (shp a)) 1 || Nat.ltb (length (shp b)) 1 then Err
  else if negb (Nat.eqb (length aAxes) (length bAxes)) then Err
  else if containsDuplicate aAxes || containsDuplicate bAxes then Err
  else if existsb (fun x => Z.of_nat (length (shp a)) <=? x) aAxes then Err
  else if existsb (fun x => Z.of_nat (length (shp b)) <=? x) bAxes then Err
  else bind (dimsLoop aAxes bAxes (shp a) (shp b)) (fun _ =>
       bind (tensordotShape aAxes bAxes (shp a) (shp b)) (fun s =>
       Ok (Tn s (contract aAxes bAxes a b)))).

(** ** Gradient *)
(** HadamardProd (api_gen.go:72) of two nodes: the shape of op_math.go:137-189,
    entries paired in row-major order, a scalar with every entry. *)
Definition hadamardProd (a b : tens) : res tens :=
  bind (ewiseShape (shp a) (shp b)) (fun s =>
  Ok (Tn s (fun idx => rmul (at_ a (unravel (shp a) (ravel s idx))) (at_ b (unravel (shp b) (ravel s idx)))))).
(** tensor.Shape.IsColVec and IsRowVec (library, used at op_math.go:1193,1211). *)
Definition isColVec (s : list Z) : bool := match s with [x; y] => (y =? 1) && (1 <? x) | _ => false end.
(** tensor.Shape.IsRowVec (library, used at op_math.go:1193, 1211). *)
Definition isRowVec (s : list Z) : bool := match s with [x; y] => (x =? 1) && (1 <? y) | _ => false end.
(** The product of two matrices (linAlgBinOp with matMulOperator, op_math.go:1223). *)
Definition matMul (a b : tens) : res tens :=
  match shp a, shp b with
  | [n; k], [k'; m] =>
      if k =? k' then
        Ok (Tn [n; m] (fun idx =>
          match idx with
          | [i; j] => sum (Z.to_nat k) (fun l => rmul (at_ a [i; Z.of_nat l]) (at_ b [Z.of_nat l; j]))
          | _ => r0
          end))
      else Err
  | _, _ => Err
  end.
(** One pass of the loop of tensordotOp.SymDiff (op_math.go:1104-1243) for an input with
    shape [inShape]. *)
Definition tensordotSymDiff1 (iWasFirstArgument : bool) (iAxes otherAxes inShape : list Z) (other grad : tens) : res tens :=
  let pattern := gradPattern iAxes otherAxes (length inShape) in
  let dO := dOtherAxes otherAxes (shp other) in
  let dG := dGradAxes iWasFirstArgument (length (shp grad)) (length dO) in
  bind (if scalarEquiv (shp grad) then hadamardProd other grad
        else if isVector (shp other) && isVector (shp grad) && Nat.eqb (length dO) 0 then
          bind (if isColVec (shp other) then Ok other else reshape other [nth 0 (shp other) 0; 1]) (fun o =>
          bind (if isRowVec (shp grad) then Ok grad else reshape grad [1; nth 0 (shp grad) 0]) (fun g =>
          matMul o g))
        else tensordotApi dO dG other grad) (fun t =>
  transposeApi t pattern).
(** tensordotOp.SymDiff (op_math.go:1097-1246). *)
Definition tensordotSymDiff (aAxes bAxes : list Z) (a b grad : tens) : res (tens * tens) :=
  bind (tensordotSymDiff1 true aAxes bAxes (shp a) b grad) (fun ga =>
  bind (tensordotSymDiff1 false bAxes aAxes (shp b) a grad) (fun gb =>
  Ok (ga, gb))).
End Model.
