(** Choice of operator and shape inference for [Mul], [OuterProd], [BatchedMatMul] and
    [Div], and the automatic gradients of the linear algebra operators (operations.go,
    op_math.go, operatorLinAlg.go). Matrices, vectors and the numerical kernels as in
    MatModel.v. Proof-free. *)
From Coq Require Import Arith List Bool.
From Verif Require Import Sums MatModel BroadcastModel.
Import ListNotations.

(** ** Building nodes *)
(** The operators of operatorLinAlg.go:12-20 that [Mul] chooses from, with transA, and
    whether the operands are swapped. *)
Inductive mulKind := Elementwise | Dot | MatVec (transA swapped : bool) | MatMat.
(** Mul (operations.go:52-77): decided by the number of axes (node.go:341-378; a node whose
    type is a tensor has as many axes in its shape as in its type). *)
Definition mulChoice (da db : nat) : res mulKind :=
  match da, db with
  | 0, _ | _, 0 => Ok Elementwise
  | 1, 1 => Ok Dot
  | 1, 2 => Ok (MatVec true true)
  | 2, 1 => Ok (MatVec false false)
  | 2, 2 => Ok MatMat
  | _, _ => Err
  end.
(** [x[i]] in Go. (op_math.go:543-618.) *)
Definition idx (x : list nat) (i : nat) : res nat := match nth_error x i with Some d => Ok d | None => Panic end.
(** Sequencing of steps that may return an error or panic (op_math.go:543-618). *)
Definition andThen {B C} (r : res B) (f : B -> res C) : res C := match r with Ok b => f b | Err => Err | Panic => Panic end.
(** transpose2D (shape.go:14-22). *)
Definition transpose2D (x : list nat) : list nat := match x with [a; b] => [b; a] | _ => x end.
(** Transposing if the flag is set (op_math.go:560-566). *)
Definition transIf (t : bool) (x : list nat) : list nat := if t then transpose2D x else x.
(** linAlgBinOp.InferShape (op_math.go:543-618), matMulOperator. *)
Definition matMulShape (ta tb : bool) (x y : list nat) : res (list nat) :=
  let x := transIf ta x in let y := transIf tb y in
  andThen (idx x 1) (fun x1 => andThen (idx y 0) (fun y0 =>
  if negb (Nat.eqb x1 y0) then Err
  else andThen (idx x 0) (fun x0 => andThen (idx y 1) (fun y1 => Ok [x0; y1])))).
(** The same, matVecMulOperator: the first case that fits, whether or not it is the inner
    axis. (op_math.go:543-618.) *)
Definition matVecShape (ta : bool) (x y : list nat) : res (list nat) :=
  let x := transIf ta x in
  andThen (idx x 0) (fun x0 => andThen (idx y 0) (fun y0 => andThen (idx x 1) (fun x1 =>
  if negb (Nat.eqb x0 y0) && negb (Nat.eqb x1 y0) then Err
  else if Nat.eqb x0 y0 then Ok [x1] else Ok [x0]))).
(** tensor.Shape.Eq (library) of a vector and a matrix: a vector equals the column and the
    row of its length. *)
Definition vecEqMat (n r c : nat) : bool := (Nat.eqb c 1 && Nat.ltb 1 r && Nat.eqb r n) || (Nat.eqb r 1 && Nat.ltb 1 c && Nat.eqb c n).
(** tensor.Shape.Eq (library). *)
Definition shapeEqN (s t : list nat) : bool :=
  match s, t with
  | [x; y], [z] => vecEqMat z x y
  | [z], [x; y] => vecEqMat z x y
  | _, _ => listEq s t
  end.
(** The same, batchedMatMulOperator. The outer axes are compared with Shape.Eq, the inner
    sizes not at all. A shape with less than two axes panics when sliced. (op_math.go:543-618.) *)
Definition batchedInfer (ta tb : bool) (x y : list nat) : res (list nat) :=
  if (length x <? 2) || (length y <? 2) then Panic
  else
    let ox := firstn (length x - 2) x in let oy := firstn (length y - 2) y in
    let ix := transIf ta (skipn (length x - 2) x) in let iy := transIf tb (skipn (length y - 2) y) in
    if negb (shapeEqN ox oy) then Err
    else andThen (idx ix 0) (fun i0 => andThen (idx iy 1) (fun i1 => Ok (ox ++ [i0; i1]))).
(** BatchedMatMul (operations.go:82-101): the type a -> a -> a of the operator
    (operatorLinAlg_const.go:87-90) is checked first: a scalar does not unify with a tensor,
    but tensors of different numbers of axes do (typeSystem.go:44-78; TypeModel.v). *)
Definition batchedShape (ta tb : bool) (x y : list nat) : res (list nat) :=
  if negb (Bool.eqb (Nat.eqb (length x) 0) (Nat.eqb (length y) 0)) then Err else batchedInfer ta tb x y.
(** elemBinOp.InferShape (op_math.go:137-189) where one operand is a scalar, the only case
    [Mul] redirects to HadamardProd (operations.go:53-55). *)
Definition hadamardScalarShape (x y : list nat) : list nat := match x with [] => y | _ => x end.
(** The shape of the node [Mul] returns. (operations.go:52-110.) *)
Definition mulShape (x y : list nat) : res (list nat) :=
  andThen (mulChoice (length x) (length y)) (fun k =>
  match k with
  | Elementwise => Ok (hadamardScalarShape x y)
  | Dot => Ok []
  | MatVec ta swapped => if swapped then matVecShape ta y x else matVecShape ta x y
  | MatMat => matMulShape false false x y
  end).
(** OuterProd (operations.go:104-112). *)
Definition outerShape (x y : list nat) : res (list nat) :=
  match x, y with [m], [n] => Ok [m; n] | _, _ => Err end.
(** Div (operations.go:115-122): [equal] is tensor.Shape.Eq of the shapes; everything but
    the first case is [panic("Unhandled")]. *)
Definition divChoice (x y : list nat) (equal : bool) : res mulKind :=
  if Nat.eqb (length x) 0 || Nat.eqb (length y) 0 || equal then Ok Elementwise else Panic.

Section Values.
Context {A : Type} {CR : CRing A}.
Local Open Scope cr_scope.
(** A value with at most two axes. (values.go, the Value interface.) *)
Inductive lval := LSc (c : A) | LVec (v : vec A) | LMat (m : mat A).
(** Value.Shape (values.go). *)
Definition lshape (v : lval) : list nat :=
  match v with LSc _ => [] | LVec v => [len v] | LMat m => [rows m; cols m] end.
(** Passing on an error of the library (op_math.go:745-795). *)
Definition lift {B C} (f : B -> C) (o : option B) : option C := match o with Some b => Some (f b) | None => None end.
(** Running the operator [Mul] chose (op_math.go:745-795; the elementwise product with a
    scalar op_math.go:219-243). [None]: an error of the library. *)
Definition mulDo (a b : lval) : option lval :=
  match mulChoice (length (lshape a)) (length (lshape b)), a, b with
  | Ok Elementwise, LSc c, LSc d => Some (LSc (c * d))
  | Ok Elementwise, LSc c, LVec v => Some (LVec {| len := len v; vel := fun i => c * vel v i |})
  | Ok Elementwise, LVec v, LSc c => Some (LVec (scaleVec v c))
  | Ok Elementwise, LSc c, LMat m => Some (LMat {| rows := rows m; cols := cols m; el := fun i j => c * el m i j |})
  | Ok Elementwise, LMat m, LSc c => Some (LMat {| rows := rows m; cols := cols m; el := fun i j => el m i j * c |})
  | Ok Dot, LVec u, LVec v => lift LSc (vecDotKernel u v)
  | Ok (MatVec ta true), LVec v, LMat m => lift LVec (matVecMul ta m v)
  | Ok (MatVec ta false), LMat m, LVec v => lift LVec (matVecMul ta m v)
  | Ok MatMat, LMat x, LMat y => lift LMat (matMul false false x y)
  | _, _, _ => None
  end.
(** linAlgBinOp.do (op_math.go:745-795) for matMulOperator when both operands are one
    tensor: [a.T()] and [b.T()] act on the same tensor, in place, before the product. *)
Definition matMulSame (ta tb : bool) (x : mat A) : option (mat A) :=
  let x1 := trIf ta x in let x2 := trIf tb x1 in matMulKernel x2 x2.

(** ** Automatic gradients *)
(** [der] holds the derivative of each node, [val] its value; x and y may be the same
    node. tensor.WithIncr (library): the result is added to the tensor given, whose size
    must be that of the result. *)
Definition upd {B} (f : nat -> B) (n : nat) (b : B) : nat -> B := fun k => if Nat.eqb k n then b else f k.
(** linAlgBinOp.IncrDo (op_math.go:702-727) for a tensor. *)
Definition incrM (acc : mat A) (p : option (mat A)) : option (mat A) :=
  match p with
  | Some m => if Nat.eqb (rows acc) (rows m) && Nat.eqb (cols acc) (cols m) then Some (addMat acc m) else None
  | None => None
  end.
(** linAlgBinOp.IncrDo (op_math.go:702-727) for a vector. *)
Definition incrV (acc : vec A) (p : option (vec A)) : option (vec A) :=
  match p with
  | Some v => if Nat.eqb (len acc) (len v) then Some {| len := len acc; vel := fun i => vel acc i + vel v i |} else None
  | None => None
  end.
(** Two increments, to the derivative of x and then to that of y. (operatorLinAlg.go:104-301.) *)
Definition twice {B} (der : nat -> B) (x y : nat) (fx fy : B -> option B) : option (nat -> B) :=
  match fx (der x) with
  | None => None
  | Some dx => let der1 := upd der x dx in
               match fy (der1 y) with None => None | Some dy => Some (upd der1 y dy) end
  end.
(** matMulDiff (operatorLinAlg.go:104-178). *)
Definition matMulDiffN (ta tb : bool) (val der : nat -> mat A) (x y : nat) (zd : mat A) : option (nat -> mat A) :=
  match ta, tb with
  | true, true => twice der x y (fun d => incrM d (matMul true true (val y) zd)) (fun d => incrM d (matMul true true zd (val x)))
  | false, true => twice der x y (fun d => incrM d (matMul false false zd (val y))) (fun d => incrM d (matMul true false zd (val x)))
  | true, false => twice der x y (fun d => incrM d (matMul false true (val y) zd)) (fun d => incrM d (matMul false false (val x) zd))
  | false, false => twice der x y (fun d => incrM d (matMul false true zd (val y))) (fun d => incrM d (matMul true false (val x) zd))
  end.
(** vecDotDiff (operatorLinAlg.go:246-260): elementwise product of a vector and the
    scalar derivative of the output. *)
Definition vecDotDiffN (val der : nat -> vec A) (x y : nat) (zd : A) : option (nat -> vec A) :=
  twice der x y (fun d => incrV d (Some (scaleVec (val y) zd))) (fun d => incrV d (Some (scaleVec (val x) zd))).
(** matVecMulDiff (operatorLinAlg.go:204-230): derivatives of the matrix and the vector. *)
Definition matVecMulDiff (ta : bool) (x xd : mat A) (y yd zd : vec A) : option (mat A * vec A) :=
  match incrM xd (Some (if ta then outerKernel y zd else outerKernel zd y)) with
  | None => None
  | Some xd' => match incrV yd (matVecMul (negb ta) x zd) with None => None | Some yd' => Some (xd', yd') end
  end.
(** elemBinOp.IncrDo (op_math.go:323-348) with mulOpType for a vector, the vector [a] and
    the matrix [zd]: the shapes of the operands must be equal for the library, and the
    tensor added to must have as many entries. *)
Definition mulIncr (d a : vec A) (zd : mat A) : option (vec A) :=
  if vecEqMat (len a) (rows zd) (cols zd) && Nat.eqb (len d) (rows zd * cols zd)
  then Some {| len := len d; vel := fun i => vel d i + vel a i * (if Nat.eqb (cols zd) 1 then el zd i 0 else el zd 0 i) |} else None.
(** outerProdDiff (operatorLinAlg.go:276-291): the first error is overwritten (line
    281). [None]: an error is returned. *)
Definition outerProdDiff (val der : nat -> vec A) (x y : nat) (zd : mat A) : option (nat -> vec A) :=
  let der0 := match mulIncr (der x) (val x) zd with Some d => upd der x d | None => der end in
  twice der0 x y (fun d => mulIncr d (val y) zd) (fun d => mulIncr d (val y) zd).

(** ** Batched *)
(** operatorLinAlg.go:435-501 [batchedMatMul] with incr (called through IncrDo,
    op_math.go:704-706): the product of the slices is added to the slice of [c]. *)
Definition batchedIncr (fuel : nat) (ta tb : bool) (c a b : bmat A) : option (bmat A) :=
  match batchVisit fuel (outer a) with
  | None => None
  | Some ixs =>
      match fold_left (fun acc ix => match acc with
                                     | None => None
                                     | Some e => match incrM {| rows := brows c; cols := bcols c; el := e ix |} (matMul ta tb (slice a ix) (slice b ix)) with
                                                 | None => None
                                                 | Some m => Some (setSlice e ix m)
                                                 end
                                     end) ixs (Some (bel c)) with
      | None => None
      | Some e => Some {| outer := outer c; brows := brows c; bcols := bcols c; bel := e |}
      end
  end.
(** batchedMatMulDiff (operatorLinAlg.go:345-421). *)
Definition batchedMatMulDiff (fuel : nat) (ta tb : bool) (val der : nat -> bmat A) (x y : nat) (zd : bmat A) : option (nat -> bmat A) :=
  match ta, tb with
  | true, true => twice der x y (fun d => batchedIncr fuel true true d (val y) zd) (fun d => batchedIncr fuel true true d zd (val x))
  | false, true => twice der x y (fun d => batchedIncr fuel false false d zd (val y)) (fun d => batchedIncr fuel true false d zd (val x))
  | true, false => twice der x y (fun d => batchedIncr fuel false true d (val y) zd) (fun d => batchedIncr fuel false false d (val x) zd)
  | false, false => twice der x y (fun d => batchedIncr fuel false true d zd (val y)) (fun d => batchedIncr fuel true false d (val x) zd)
  end.
End Values.
Arguments lval : clear implicits.
