(** How the shape a new node asks for is checked against its type (node.go, type.go,
    op_reduction.go). Proof-free. *)
From Coq Require Import List ZArith Bool.
From Verif Require Import BroadcastModel.
Import ListNotations.
Local Open Scope Z_scope.

(** tensor.Shape.IsColVec, IsRowVec (library). *)
Definition colVec (s : list Z) : bool := match s with [x; y] => (y =? 1) && (1 <? x) | _ => false end.
(** tensor.Shape.IsRowVec (library). *)
Definition rowVec (s : list Z) : bool := match s with [x; y] => (x =? 1) && (1 <? y) | _ => false end.
(** utils.go:303-313 [scalarEquiv]. *)
Definition prodOne (s : list Z) : bool := totalSize s =? 1.
(** WithShape (node.go:210-230) on a node that has a type of [typeDims] axes and no shape
    yet (node.go:458-470), followed by fix (node.go:780-783), which takes the shape of a
    node of scalar type away. *)
Definition nodeShape (scalarType : bool) (typeDims : Z) (s : list Z) : res (list Z) :=
  let acceptVec := (colVec s || rowVec s) && (typeDims =? 1) in
  let sameDims := typeDims =? Z.of_nat (length s) in
  let acceptScalar := (typeDims =? 0) && prodOne s in
  if acceptVec || sameDims || acceptScalar then Ok (if scalarType then [] else s) else Panic.
(** The result of reductionType (op_reduction.go:22-44): whether it is a scalar type, and
    its number of axes. [axes] is a map, so axes named twice count once in it. *)
Definition reductionRet (d : nat) (along : list Z) : bool * Z :=
  let axes := nodup Z.eq_dec (filter (fun axis => axis <? Z.of_nat d) along) in
  if Nat.eqb d 1 || Nat.eqb (length axes) 0 || Nat.eqb (length axes) d then (true, 0)
  else if Nat.eqb (length axes) (d - 1) then (false, 1)
  else (false, Z.of_nat d - Z.of_nat (length along)).
