(** Linear algebra on a CUDA device (cuda/linalg.go, op_math_cuda.go). Proof-free.
    Exact numbers from any commutative ring; tensors do not share memory. *)
From Coq Require Import List Arith Bool.
From Verif Require Import Sums BroadcastModel ShapeGradModel.
Import ListNotations.
Local Open Scope cr_scope.
Local Open Scope nat_scope.

Section CudaLin.
Context {A : Type} {CR : CRing A}.

(** Element types (cuda/linalg.go:86-105, 191-210, 269-283). *)
Inductive celt := C64 | C32 | COther.
(** A *tensor.Dense (library) as far as the engine looks at it: shape, data order flags
    (IsColMajor, IsTransposed), IsManuallyManaged, element type, memory; and its strides,
    by which its entries are read. (cuda/linalg.go:17-44.) *)
Record dten := DT { dshape : list nat; colMajor : bool; transposed : bool; managed : bool; elt : celt; strides : list nat; mem : nat -> A }.

(** Positions in memory (library): coordinates times strides. *)
Fixpoint offset (idx st : list nat) : nat := match idx, st with i :: idx', s :: st' => i * s + offset idx' st' | _, _ => 0 end.
(** The entry at a coordinate (tensor.Dense.At, library). *)
Definition entryD (t : dten) (idx : list nat) : A := mem t (offset idx (strides t)).

(** Equality of element types (cuda/linalg.go:30-32). *)
Definition eltEq (x y : celt) : bool := match x, y with C64, C64 | C32, C32 | COther, COther => true | _, _ => false end.
(** checkThreeFloat (cuda/linalg.go:17-44). All tensors are dense; two element types other
    than Float64 and Float32 are taken to be equal. *)
Definition checkThree (a b c : dten) : bool :=
  managed a && managed b && managed c && eltEq (elt a) (elt b) && eltEq (elt b) (elt c).
(** The memory of a tensor replaced. (cuda/linalg.go: the engine only writes memory.) *)
Definition withMem (t : dten) (f : nat -> A) : dten := DT (dshape t) (colMajor t) (transposed t) (managed t) (elt t) (strides t) f.
(** [Shape()[i]], which panics beyond the last axis (cuda/linalg.go:58-59, 129-131). *)
Definition axis (t : dten) (i : nat) : res nat := match nth_error (dshape t) i with Some d => Ok d | None => Panic end.

(** ** cuBLAS (library): matrices stored by columns, [ld] apart *)
(** op(A) at (i, l). (Called at cuda/linalg.go:98, 105, 197, 204.) *)
Definition opAt (t : bool) (x : nat -> A) (ld i l : nat) : A := if t then x (i * ld + l) else x (l * ld + i).
(** gemm with alpha = 1, beta = 0 (called at cuda/linalg.go:197, 204); an error for illegal
    leading dimensions. *)
Definition gemm (tA tB : bool) (m n k : nat) (a : nat -> A) (lda : nat) (b : nat -> A) (ldb : nat) (c : nat -> A) (ldc : nat) : res (nat -> A) :=
  let rowsA := if tA then k else m in
  let rowsB := if tB then n else k in
  if (lda <? Nat.max 1 rowsA) || (ldb <? Nat.max 1 rowsB) || (ldc <? Nat.max 1 m) then Err
  else Ok (fun p =>
    let i := p mod ldc in let j := p / ldc in
    if (i <? m) && (j <? n) then sum k (fun l => rmul (opAt tA a lda i l) (opAt tB b ldb l j)) else c p).
(** gemv with alpha = 1, beta = 0, steps of 1 (called at cuda/linalg.go:98, 105). *)
Definition gemv (tA : bool) (m n : nat) (a : nat -> A) (lda : nat) (x y : nat -> A) : res (nat -> A) :=
  if lda <? Nat.max 1 m then Err
  else Ok (fun p =>
    if tA then if p <? n then sum m (fun i => rmul (a (p * lda + i)) (x i)) else y p
    else if p <? m then sum n (fun j => rmul (a (j * lda + p)) (x j)) else y p).
(** ger with alpha = 1, steps of 1: adds the outer product (called at cuda/linalg.go:275, 281). *)
Definition ger (m n : nat) (x y a : nat -> A) (lda : nat) : res (nat -> A) :=
  if lda <? Nat.max 1 m then Err
  else Ok (fun p =>
    let i := p mod lda in let j := p / lda in
    if (i <? m) && (j <? n) then radd (a p) (rmul (x i) (y j)) else a p).

(** Engine.MatVecMul (cuda/linalg.go:47-107). *)
Definition matVecEngine (a b c : dten) : res dten :=
  if negb (checkThree a b c) then Err else
  bind (axis a 0) (fun m => bind (axis a 1) (fun n =>
  let '(tA, lda, m', n') :=
    match colMajor a, transposed a with
    | false, true => (false, m, m, n)
    | false, false => (true, n, n, m)
    | true, true => (true, n, n, m)
    | true, false => (false, m, m, n)
    end in
  match elt a with
  | COther => Err
  | _ => bind (gemv tA m' n' (mem a) lda (mem b) (mem c)) (fun f => Ok (withMem c f))
  end)).

(** Engine.MatMul (cuda/linalg.go:110-211). *)
Definition matMulEngine (a b c : dten) : res dten :=
  if negb (checkThree a b c) then Err else
  if negb (Bool.eqb (colMajor a) (colMajor b)) then Err else
  bind (axis a 0) (fun m => bind (axis a 1) (fun k => bind (axis b 1) (fun n =>
  bind (axis c (if colMajor a then 0 else 1)) (fun ldc =>
  let '(lda, ldb, tA, tB) :=
    match colMajor a, transposed a, transposed b with
    | true, false, false => (m, k, false, false)
    | true, true, false => (k, k, true, false)
    | true, true, true => (k, n, true, true)
    | true, false, true => (m, n, false, true)
    | false, false, false => (k, n, false, false)
    | false, true, false => (m, n, true, false)
    | false, true, true => (m, k, true, true)
    | false, false, true => (k, k, false, true)
    end in
  match elt a with
  | COther => Err
  | _ =>
      if colMajor a then bind (gemm tA tB m n k (mem a) lda (mem b) ldb (mem c) ldc) (fun f => Ok (withMem c f))
      else bind (gemm tB tA n m k (mem b) ldb (mem a) lda (mem c) ldc) (fun f => Ok (withMem c f))
  end)))).

(** The number of entries (tensor.Shape.TotalSize, library). *)
Definition sizeD (t : dten) : nat := fold_right Nat.mul 1 (dshape t).
(** tensor.Dense.Reshape (library) of a tensor that is not transposed, to a matrix: the
    sizes must agree; the strides are those of the data order. (Called at
    cuda/linalg.go:248-251, 258-262.) *)
Definition reshapeD (t : dten) (s : list nat) : res dten :=
  if negb (fold_right Nat.mul 1 s =? sizeD t) then Err
  else Ok (DT s (colMajor t) (transposed t) (managed t) (elt t)
             (match s with
              | [x; y] => if colMajor t then [1; x] else [y; 1]
              | [x] => [1]
              | _ => strides t
              end) (mem t)).
(** Engine.Outer (cuda/linalg.go:232-285) for vectors or anything else; beside the result
    the operands as they are left behind. *)
Definition outerEngine (a b c : dten) : res dten * dten * dten :=
  if negb (checkThree a b c) then (Err, a, b) else
  if colMajor c then
    (match elt a with
     | COther => Ok c
     | _ => bind (axis c 0) (fun lda => bind (ger (sizeD a) (sizeD b) (mem a) (mem b) (mem c) lda) (fun f => Ok (withMem c f)))
     end, a, b)
  else
    match axis a 0, axis b 0 with
    | Ok a0, Ok b0 =>
        match reshapeD a [a0; 1] with
        | Ok a1 =>
            match reshapeD b [1; b0] with
            | Ok b1 =>
                match matMulEngine a1 b1 c with
                | Ok c' =>
                    match reshapeD b1 (dshape b) with
                    | Ok b2 => match reshapeD a1 (dshape a) with Ok a2 => (Ok c', a2, b2) | Err => (Err, a1, b2) | Panic => (Panic, a1, b2) end
                    | Err => (Err, a1, b1)
                    | Panic => (Panic, a1, b1)
                    end
                | Err => (Err, a1, b1)
                | Panic => (Panic, a1, b1)
                end
            | Err => (Err, a1, b)
            | Panic => (Panic, a1, b)
            end
        | Err => (Err, a, b)
        | Panic => (Panic, a, b)
        end
    | _, _ => (Panic, a, b)
    end.

(** tensor.T on a matrix (library): shape and strides reversed, the flag toggled; a second
    call undoes the first. (op_math_cuda.go:211-223.) *)
Definition flipT (t : dten) : dten := DT (rev (dshape t)) (colMajor t) (negb (transposed t)) (managed t) (elt t) (rev (strides t)) (mem t).
(** Transposed if the flag is set (op_math_cuda.go:210-224). *)
Definition flipIf (f : bool) (t : dten) : dten := if f then flipT t else t.
(** linAlgBinOp.CUDADo (op_math_cuda.go:182-240) for matMulOperator: transposed as asked,
    multiplied by the engine (tensor.MatMul, library, only checks the shapes), transposed
    back; beside the result the operands left behind. Different tensors. *)
Definition cudaMatMul (ta tb : bool) (a b c : dten) : res dten * dten * dten :=
  let a1 := flipIf ta a in
  let b1 := flipIf tb b in
  (match dshape a1, dshape b1 with
   | [_; k], [k'; _] => if k =? k' then matMulEngine a1 b1 c else Err
   | _, _ => Err
   end, flipIf ta a1, flipIf tb b1).
(** The same when both operands are one tensor: each transposition acts on both
    (op_math_cuda.go:210-224). *)
Definition cudaMatMulSame (ta tb : bool) (x c : dten) : res dten * dten :=
  let x1 := flipIf tb (flipIf ta x) in
  (match dshape x1 with
   | [r; k] => if k =? r then matMulEngine x1 x1 c else Err
   | _ => Err
   end, flipIf ta (flipIf tb x1)).
End CudaLin.
Arguments dten : clear implicits.
