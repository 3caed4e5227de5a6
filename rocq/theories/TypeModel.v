(** The types of nodes: how ApplyOp infers the type of a new node and checks it against the
    inferred shape (typeSystem.go, op.go, type.go and the Type methods of the operators).
    Proof-free. *)
From Coq Require Import List ZArith Bool.
From Verif Require Import BroadcastModel NodeShapeModel ShapeGradModel ReduceModel TdotModel LinAlgModel.
Import ListNotations.
Local Open Scope Z_scope.

(** tensor.Dtype (type.go:10-29), the ones that occur below. *)
Inductive dtype := F64 | F32 | Int | BoolT | OtherT (n : nat).
(** hm.Type as used here: a type variable, a Dtype, or TensorType (type.go:55-59) with its
    number of axes. Function types occur only as operator types and are lists below. *)
Inductive ty := Var (v : nat) | Dt (d : dtype) | Ten (dims : Z) (of : ty).
(** hm.TypeVariable of the operators (operators.go, op_tensor.go:675). *)
Definition va := Var 0.
(** Equality of Dtypes (library), as TensorType.Eq uses it (type.go:138-146). *)
Definition dtype_eq (x y : dtype) : bool :=
  match x, y with F64, F64 | F32, F32 | Int, Int | BoolT, BoolT => true | OtherT m, OtherT n => Nat.eqb m n | _, _ => false end.
(** TensorType.Eq (type.go:138-146) and the Eq of Dtype and TypeVariable (library). *)
Fixpoint tyEq (x y : ty) : bool :=
  match x, y with
  | Var v, Var w => Nat.eqb v w
  | Dt d, Dt e => dtype_eq d e
  | Ten m a, Ten n b => tyEq a b && (m =? n)
  | _, _ => false
  end.
(** hm.Subs, and TensorType.Apply (type.go:125-128). *)
Definition subs := list (nat * ty).
(** TensorType.Apply (type.go:125-128), and Apply of the library's types. *)
Fixpoint applySub (s : subs) (t : ty) : ty :=
  match t with
  | Var v => match find (fun p => Nat.eqb (fst p) v) s with Some (_, u) => u | None => t end
  | Dt d => t
  | Ten n u => Ten n (applySub s u)
  end.
(** hm.Unify (library, assumed) of the type of an operand, which has no variables, with the
    type of the operator's argument: equal types unify, a variable is bound, otherwise the
    lists Types() are unified. Types() of a TensorType (type.go:113) is the type of its
    entries only; that of a Dtype is empty. *)
Fixpoint unify (g p : ty) : option subs :=
  if tyEq g p then Some []
  else match p with
       | Var v => Some [(v, g)]
       | _ => match g, p with Ten _ x, Ten _ y => unify x y | _, _ => None end
       end.
(** inferNodeType (typeSystem.go:44-78) through unifyMany (library): the arguments in
    order, each after the substitutions found so far; the result is the operator's return
    type under the substitutions. With too few or too many operands it is an error, or
    becomes one in checkArity (op.go:198-200). *)
Fixpoint unifyArgs (s : subs) (children args : list ty) : option subs :=
  match children, args with
  | [], [] => Some s
  | g :: children', p :: args' => match unify g (applySub s p) with Some s2 => unifyArgs (s ++ s2) children' args' | None => None end
  | _, _ => None
  end.
(** typeSystem.go:44-78. *)
Definition inferNodeType (args : list ty) (ret : ty) (children : list ty) : option ty :=
  match unifyArgs [] children args with Some s => Some (applySub s ret) | None => None end.

(** Node: its type and its shape. (node.go:22-60, fields t and shape.) *)
Record node := Nd { nty : ty; nsh : list Z }.
(** Node.IsScalar (node.go:341), Node.IsVector (node.go:344-350), by the type. *)
Definition isScalarTy (t : ty) : bool := match t with Dt _ => true | _ => false end.
(** Node.IsVector (node.go:344-350). *)
Definition isVectorTy (t : ty) : bool := match t with Ten d _ => d =? 1 | _ => false end.
(** Node.Dims (node.go:458-470) before the node has a shape. *)
Definition dimsTy (t : ty) : Z := match t with Ten d _ => d | _ => 0 end.
(** dtypeOf (typeSystem.go:95-109). *)
Fixpoint dtypeOf (t : ty) : option dtype := match t with Dt d => Some d | Ten _ u => dtypeOf u | Var _ => None end.
(** ApplyOp (op.go:168-214), apart from the graph: the type, then the shape, then the node
    with WithShape and fix. *)
Definition applyOp (args : list ty) (ret : ty) (shape : res (list Z)) (children : list node) : res node :=
  match inferNodeType args ret (map nty children) with
  | None => Err
  | Some t => bind shape (fun s => bind (nodeShape (isScalarTy t) (dimsTy t) s) (fun s' => Ok (Nd t s')))
  end.
(** An input node: NewScalar, NewVector, NewMatrix, NewTensor (gorgonia.go:20-79) with
    WithShape. *)
Definition inputNode (t : ty) (s : list Z) : res node :=
  bind (nodeShape (isScalarTy t) (dimsTy t) s) (fun s' => Ok (Nd t s')).

(** ** Operators *)
(** elemUnaryOp (op_math.go:414-425). *)
Definition unaryN (x : node) : res node := applyOp [va] va (Ok (nsh x)) [x].
(** elemBinOp.InferShape (op_math.go:137-189), without the check of the node. *)
Definition ewiseInfer (x y : list Z) : res (list Z) :=
  if scalarEquiv x && scalarEquiv y then
    match x, y with
    | _ :: _, _ => Ok x
    | [], _ :: _ => Ok y
    | [], [] => Ok []
    end
  else match x, y with
  | [], _ => Ok y
  | _, [] => Ok x
  | _, _ => if shapeEq x y then Ok (if Nat.ltb (length y) (length x) then x else y) else Err
  end.
(** elemBinOp.Type (op_math.go:93-131): the arguments, and the result before the change
    for comparisons. *)
Definition ewiseArgTy (t : ty) : ty := match t with Ten d _ => Ten d va | _ => va end.
(** elemBinOp.Type (op_math.go:93-131), the result. *)
Definition ewiseRetTy (t0 t1 : ty) : ty :=
  let ret0 := ewiseArgTy t0 in
  let d0 := match t0 with Ten d _ => d | _ => 0 end in
  match t1 with Ten d _ => if d0 <=? d then Ten d va else ret0 | _ => ret0 end.
(** The result of a comparison is Bool unless [retSame]. (op_math.go:119-131.) *)
Definition ewiseRet (bools : bool) (t0 t1 : ty) : ty :=
  if bools then match ewiseRetTy t0 t1 with Ten d _ => Ten d (Dt BoolT) | _ => Dt BoolT end else ewiseRetTy t0 t1.
(** A node made by an elementwise operator (op_math.go:93-200, op.go:169-214). *)
Definition ewiseN (bools : bool) (x y : node) : res node :=
  applyOp [ewiseArgTy (nty x); ewiseArgTy (nty y)] (ewiseRet bools (nty x) (nty y)) (ewiseInfer (nsh x) (nsh y)) [x; y].
(** reductionType (op_reduction.go:22-44). *)
Definition reductionTy (d : nat) (along : list Z) : ty * ty :=
  let t := Ten (Z.of_nat d - Z.of_nat (length along)) va in
  let axes := nodup Z.eq_dec (filter (fun axis => axis <? Z.of_nat d) along) in
  if Nat.eqb d 1 || Nat.eqb (length axes) 0 || Nat.eqb (length axes) d then (t, va)
  else if Nat.eqb (length axes) (d - 1) then (t, Ten 1 va)
  else (t, t).
(** Sum and Max (operations.go:211-225, 260-273). *)
Definition reduceN (x : node) (along : list Z) : res node :=
  if isScalarTy (nty x) then Ok x
  else let d := length (nsh x) in
       let along' := match along with [] => iota d | _ => along end in
       applyOp [fst (reductionTy d along')] (snd (reductionTy d along')) (reductionInferShape along' (nsh x)) [x].
(** At (operations.go:191-207) of a tensor, atOp (op_tensor.go:27-38). *)
Definition atN (x : node) : res node := applyOp [Ten (Z.of_nat (length (nsh x))) va] va (Ok []) [x].
(** SizeOf (operations.go:400-412), sizeOp.Type (op_tensor.go:79-90): [x.shape[axis]] panics
    out of range. *)
Definition sizeOfN (axis : nat) (x : node) : res node :=
  match nth_error (nsh x) axis with
  | None => Panic
  | Some _ => applyOp [match nsh x with [] => va | _ => Ten (Z.of_nat (length (nsh x))) va end] va (Ok []) [x]
  end.
(** sliceOp.Type (op_tensor.go:501-523) with the slice [st, en) of any step;
    sliceOp.InferShape (op_tensor.go:525-533): [lib] is the shape tensor.Shape.S (library)
    gives. *)
Definition sliceRetTy (d : nat) (selection : Z) : ty :=
  if selection =? 1 then if Nat.eqb d 1 then va else Ten (Z.of_nat d - 1) va else Ten (Z.of_nat d) va.
(** op_tensor.go:501-533. *)
Definition sliceOpN (x : node) (selection : Z) (lib : res (list Z)) : res node :=
  applyOp [Ten (Z.of_nat (length (nsh x))) va] (sliceRetTy (length (nsh x)) selection) lib [x].
(** transposeOp (op_tensor.go:868-887), [Transpose] with axes other than the identity
    (operations.go:446-470). *)
Definition transposeN (x : node) (pattern : list Z) : res node :=
  applyOp [Ten (Z.of_nat (length pattern)) va] (Ten (Z.of_nat (length pattern)) va)
    (match nsh x with
     | [] => Err
     | _ => if negb (permOk pattern (length (nsh x))) || eqShape pattern (iota (length pattern)) then Err else Ok (permuteShape pattern (nsh x))
     end) [x].
(** reshapeOp.Type (op_tensor.go:1132-1150), InferShape (1151), for a Reshape
    (operations.go:540-579) whose check of the size has passed. *)
Definition reshapeTy (from to : list Z) : ty * ty :=
  let f (s : list Z) := match s with [] => va | _ => Ten (Z.of_nat (length s)) va end in
  if Nat.eqb (length from) (length to) then (va, va) else (f from, f to).
(** operations.go:540-579. *)
Definition reshapeN (x : node) (to : list Z) : res node :=
  bind (fst (reshapeCall (nsh x) to)) (fun to' =>
  applyOp [fst (reshapeTy (nsh x) to')] (snd (reshapeTy (nsh x) to')) (Ok to') [x]).
(** concatOp (op_tensor.go:1004-1025) under Concat's checks (operations.go:473-500). *)
Definition concatN (axis : Z) (xs : list node) : res node :=
  match xs with
  | [] => Err
  | x :: xs' =>
      let d := length (nsh x) in
      if negb (forallb (fun n => Nat.eqb (length (nsh n)) d) xs') then Err
      else if Nat.eqb d 0 then Err
      else if Z.of_nat d <=? axis then Err
      else applyOp (repeat (Ten (Z.of_nat d) va) (length xs)) (Ten (Z.of_nat d) va)
             (if axis <? 0 then Panic else concatShape (Z.to_nat axis) (nsh x) (map nsh xs')) xs
  end.
(** tensordotOp (op_math.go:806-843) applied to axes that Tensordot accepts. *)
Definition tensordotN (aAxes bAxes : list Z) (a b : node) : res node :=
  let da := length (nsh a) in let db := length (nsh b) in
  let retDims := Z.max 0 (Z.of_nat da + Z.of_nat db - 2 * Z.of_nat (length aAxes)) in
  applyOp [Ten (Z.of_nat da) va; Ten (Z.of_nat db) va] (if retDims =? 0 then va else Ten retDims va)
    (tensordotShape aAxes bAxes (nsh a) (nsh b)) [a; b].
(** minBetween and maxBetween (op_minmaxBetween.go:19-37, 88-106). *)
Definition betweenN (x y : node) : res node :=
  applyOp [va; va] va (if shapeEq (nsh x) (nsh y) then Ok (nsh x) else Err) [x; y].
(** dtConvOp (op_types.go:13-44). *)
Definition convTypeN (x : node) (from to : dtype) : res node :=
  let f u := match nsh x with [] => u | _ => Ten (Z.of_nat (length (nsh x))) u end in
  applyOp [f (Dt from)] (f (Dt to)) (Ok (nsh x)) [x].
(** DiagFlat (operations_nondiff.go:8-13) and diagFlatOp (op_nondiff.go:19-33). *)
Definition diagFlatN (x : node) : res node :=
  if scalarEquiv (nsh x) then Err
  else applyOp [va] (Ten 2 va) (Ok [totalSize (nsh x); totalSize (nsh x)]) [x].
(** The linear algebra operators: types (operatorLinAlg_const.go:43-90), shapes
    (op_math.go:543-618, LinAlgModel.v). *)
Definition natShape (f : list nat -> list nat -> res (list nat)) (x y : list Z) : res (list Z) :=
  bind (f (map Z.to_nat x) (map Z.to_nat y)) (fun s => Ok (map Z.of_nat s)).
(** operatorLinAlg_const.go:57-62. *)
Definition matMulN (ta tb : bool) (x y : node) : res node :=
  applyOp [Ten 2 va; Ten 2 va] (Ten 2 va) (natShape (matMulShape ta tb) (nsh x) (nsh y)) [x; y].
(** operatorLinAlg_const.go:45-51. *)
Definition matVecN (ta : bool) (x y : node) : res node :=
  applyOp [Ten 2 va; Ten 1 va] (Ten 1 va) (natShape (matVecShape ta) (nsh x) (nsh y)) [x; y].
(** operatorLinAlg_const.go:68-73. *)
Definition vecDotN (x y : node) : res node := applyOp [Ten 1 va; Ten 1 va] va (Ok []) [x; y].
(** operatorLinAlg_const.go:79-85. *)
Definition outerN (x y : node) : res node :=
  applyOp [Ten 1 va; Ten 1 va] (Ten 2 va) (Ok [totalSize (nsh x); totalSize (nsh y)]) [x; y].
(** The batched product (operatorLinAlg_const.go:87-90; op_math.go:596-618). *)
Definition batchedN (ta tb : bool) (x y : node) : res node :=
  applyOp [va; va] va (natShape (batchedInfer ta tb) (nsh x) (nsh y)) [x; y].
(** Mul (operations.go:52-77), by the types (IsScalar, IsVector) and, for a matrix, the
    number of axes of the shape (node.go:373-378). *)
Definition isMatrixN (x : node) : bool := match nty x with Ten _ _ => Nat.eqb (length (nsh x)) 2 | _ => false end.
(** operations.go:52-110 [Mul]. *)
Definition mulN (a b : node) : res node :=
  if isScalarTy (nty a) || isScalarTy (nty b) then ewiseN false a b
  else if isVectorTy (nty a) && isVectorTy (nty b) then vecDotN a b
  else if isVectorTy (nty a) && isMatrixN b then matVecN true b a
  else if isMatrixN a && isVectorTy (nty b) then matVecN false a b
  else if isMatrixN a && isMatrixN b then matMulN false false a b
  else Err.
