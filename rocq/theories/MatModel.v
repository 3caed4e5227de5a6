(** Model of the linear algebra operators and their gradient rules
    (operatorLinAlg.go, op_math.go, operations.go).  No proofs in this file.

    The numerical kernels (tensor.MatMul, MatVecMul, Inner, Outer) belong to the
    external tensor library; they are taken as the mathematical operations over
    an arbitrary commutative ring, failing when the inner sizes do not match. *)
From Coq Require Import Arith List Bool.
From Verif Require Import Sums.
Import ListNotations.

Section Mat.
Context {A : Type} {CR : CRing A}.
Local Open Scope cr_scope.

(** A matrix value: sizes and elements; only elements within the sizes matter.
    (tensor.Dense of the library with two axes, op_math.go:745-795.) *)
Record mat := { rows : nat; cols : nat; el : nat -> nat -> A }.
(** tensor.Dense of the library with one axis (op_math.go:745-795). *)
Record vec := { len : nat; vel : nat -> A }.

(** a.T() (op_math.go:752-768: operands are transposed in place before the call
    and transposed back after it). *)
Definition tr (m : mat) : mat :=
  {| rows := cols m; cols := rows m; el := fun i j => el m j i |}.
(** Transposing if the flag is set (op_math.go:752-768). *)
Definition trIf (b : bool) (m : mat) : mat := if b then tr m else m.

(** tensor.MatMul (external): [None] when the inner sizes differ, the condition
    op_math.go:569-571 checks when the node is made. *)
Definition matMulKernel (a b : mat) : option mat :=
  if Nat.eqb (cols a) (rows b) then
    Some {| rows := rows a; cols := cols b;
            el := fun i j => sum (cols a) (fun k => el a i k * el b k j) |}
  else None.

(** tensor.MatVecMul (external).  op_math.go:574-591 (InferShape) also lets
    through sizes that match the other axis; the kernel then fails. *)
Definition matVecMulKernel (a : mat) (v : vec) : option vec :=
  if Nat.eqb (cols a) (len v) then
    Some {| len := rows a; vel := fun i => sum (cols a) (fun k => el a i k * vel v k) |}
  else None.

(** tensor.Inner (external). (Called at op_math.go:745-795.) *)
Definition vecDotKernel (a b : vec) : option A :=
  if Nat.eqb (len a) (len b) then Some (sum (len a) (fun k => vel a k * vel b k)) else None.

(** tensor.Outer (external). (Called at op_math.go:745-795.) *)
Definition outerKernel (a b : vec) : mat :=
  {| rows := len a; cols := len b; el := fun i j => vel a i * vel b j |}.

(** op_math.go:745-795 [linAlgBinOp.do] for matMulOperator. *)
Definition matMul (transA transB : bool) (a b : mat) : option mat :=
  matMulKernel (trIf transA a) (trIf transB b).

(** op_math.go:745-795 for matVecMulOperator (transB is never set for it). *)
Definition matVecMul (transA : bool) (a : mat) (v : vec) : option vec :=
  matVecMulKernel (trIf transA a) v.

(** HadamardProd of a vector and a scalar. (As operatorLinAlg.go:216-246 uses it.) *)
Definition scaleVec (v : vec) (c : A) : vec := {| len := len v; vel := fun i => vel v i * c |}.

(** operatorLinAlg.go:51-101 [matMulDiffExpr]: the values of the two gradient
    nodes (dzdx, dzdy). *)
Definition matMulDiffExpr (transA transB : bool) (x y gradZ : mat)
  : option mat * option mat :=
  match transA, transB with
  | true, true => (matMul true true y gradZ, matMul true true gradZ x)
  | false, true => (matMul false false gradZ y, matMul true false gradZ x)
  | true, false => (matMul false true y gradZ, matMul false false x gradZ)
  | false, false => (matMul false true gradZ y, matMul true false x gradZ)
  end.

(** operatorLinAlg.go:181-202 [matVecMulDiffExpr]. *)
Definition matVecMulDiffExpr (transA : bool) (x : mat) (y gradZ : vec)
  : mat * option vec :=
  (if transA then outerKernel y gradZ else outerKernel gradZ y,
   matVecMul (negb transA) x gradZ).

(** operatorLinAlg.go:232-244 [vecDotDiffExpr]. *)
Definition vecDotDiffExpr (x y : vec) (gradZ : A) : vec * vec :=
  (scaleVec y gradZ, scaleVec x gradZ).

(** operatorLinAlg.go:262-274 [outerProdDiffExpr]: Mul(x, gradZ), Mul(y, gradZ);
    Mul of a vector and a matrix is matVecMul with transA on swapped operands
    (operations.go:62-64). *)
Definition mulVecMat (v : vec) (m : mat) : option vec := matVecMul true m v.
(** operatorLinAlg.go:262-274. *)
Definition outerProdDiffExpr (x y : vec) (gradZ : mat) : option vec * option vec :=
  (mulVecMat x gradZ, mulVecMat y gradZ).

(** operatorLinAlg.go:104-178 [matMulDiff], the automatic rule: IncrDo adds the
    product to the stored gradient. *)
Definition addMat (a b : mat) : mat :=
  {| rows := rows a; cols := cols a; el := fun i j => el a i j + el b i j |}.
(** linAlgBinOp.IncrDo (op_math.go:702-727) for a matrix. *)
Definition incrMat (acc : mat) (p : option mat) : option mat :=
  match p with Some m => Some (addMat acc m) | None => None end.
(** operatorLinAlg.go:104-178 [matMulDiff]. *)
Definition matMulDiff (transA transB : bool) (x y xd yd zd : mat)
  : option mat * option mat :=
  match transA, transB with
  | true, true => (incrMat xd (matMul true true y zd), incrMat yd (matMul true true zd x))
  | false, true => (incrMat xd (matMul false false zd y), incrMat yd (matMul true false zd x))
  | true, false => (incrMat xd (matMul false true y zd), incrMat yd (matMul false false x zd))
  | false, false => (incrMat xd (matMul false true zd y), incrMat yd (matMul true false x zd))
  end.

End Mat.
Arguments mat : clear implicits.
Arguments vec : clear implicits.

(* ------------------------------------------------------------------ *)
(** * Batched multiplication *)

(** operatorLinAlg.go:504-521 [incrSlices], on the start indices (the end is
    always start+1).  The loop runs from the last axis down; here the lists are
    reversed, last axis first, and [None] is the result halt = true. *)
Fixpoint incrRev (a shp : list nat) : option (list nat) :=
  match a, shp with
  | s :: a', d :: shp' =>
      if Nat.eqb (d - s) 1 then
        match a' with
        | [] => None                              (* i == 0: halt *)
        | _ => match incrRev a' shp' with
               | Some r => Some (0 :: r)
               | None => None
               end
        end
      else Some (S s :: a')
  | _, _ => None                                  (* no axis left: halt *)
  end.

(** operatorLinAlg.go:505-521 [incrSlices], on the starts of the slices, last axis fastest. *)
Definition incrSlices (a shp : list nat) : option (list nat) :=
  match incrRev (rev a) (rev shp) with
  | Some r => Some (rev r)
  | None => None
  end.

(** The loop of operatorLinAlg.go:463: the index tuples visited, in order, from
    [start]; [fuel] bounds the number of iterations (None: not finished). *)
Fixpoint visit (fuel : nat) (start shp : list nat) : option (list (list nat)) :=
  match fuel with
  | O => None
  | S k =>
      match incrSlices start shp with
      | None => Some [start]
      | Some next => match visit k next shp with
                     | Some r => Some (start :: r)
                     | None => None
                     end
      end
  end.

(** operatorLinAlg.go:455-459: all start indices are zero initially. *)
Definition batchVisit (fuel : nat) (outer : list nat) : option (list (list nat)) :=
  visit fuel (map (fun _ => 0) outer) outer.

Section Batched.
Context {A : Type} {CR : CRing A}.

(** A batched matrix: outer shape and one matrix (all of one size) per outer
    index tuple. (The operands of operatorLinAlg.go:435-501.) *)
Record bmat := { outer : list nat; brows : nat; bcols : nat;
                 bel : list nat -> nat -> nat -> A }.
(** One matrix of the batch, the view sliced at operatorLinAlg.go:435-501. *)
Definition slice (m : bmat) (ix : list nat) : mat A :=
  {| rows := brows m; cols := bcols m; el := bel m ix |}.

(** Equality of int slices, to tell one index tuple from another (operatorLinAlg.go:435-501). *)
Definition listEq (a b : list nat) : bool :=
  if list_eq_dec Nat.eq_dec a b then true else false.

(** Storing into the slice of c at one index tuple (tensor.WithReuse(cs)).
    (operatorLinAlg.go:435-501.) *)
Definition setSlice (c : list nat -> nat -> nat -> A) (ix : list nat) (m : mat A) :=
  fun ix' => if listEq ix' ix then el m else c ix'.

(** operatorLinAlg.go:435-501 [batchedMatMul] with c == nil and incr == false.
    Simplified: slicing is a view; the new tensor c starts with arbitrary
    content [c0]; the loop is given enough fuel by the caller. *)
Definition batchedMatMul (fuel : nat) (transA transB : bool) (c0 : list nat -> nat -> nat -> A)
  (a b : bmat) : option bmat :=
  match batchVisit fuel (outer a) with
  | None => None
  | Some ixs =>
      let step acc ix :=
        match acc with
        | None => None
        | Some c => match matMul transA transB (slice a ix) (slice b ix) with
                    | None => None
                    | Some m => Some (setSlice c ix m)
                    end
        end in
      match fold_left step ixs (Some c0) with
      | None => None
      | Some c => Some {| outer := outer a;
                          brows := if transA then bcols a else brows a;
                          bcols := if transB then brows b else bcols b;
                          bel := c |}
      end
  end.

(** operatorLinAlg.go:293-343 [batchedMatMulDiffExpr]. *)
Definition batchedMatMulDiffExpr (fuel : nat) (transA transB : bool)
  (c0 : list nat -> nat -> nat -> A) (x y gradZ : bmat) : option bmat * option bmat :=
  let bmm ta tb := batchedMatMul fuel ta tb c0 in
  match transA, transB with
  | true, true => (bmm true true y gradZ, bmm true true gradZ x)
  | false, true => (bmm false false gradZ y, bmm true false gradZ x)
  | true, false => (bmm false true y gradZ, bmm false false x gradZ)
  | false, false => (bmm false true gradZ y, bmm true false x gradZ)
  end.
End Batched.
Arguments bmat : clear implicits.
