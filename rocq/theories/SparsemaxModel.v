(** Model of Sparsemax and of its gradient operator (op_sparsemax.go) over exact
    reals.  No proofs in this file. *)
From Coq Require Import Arith Reals List Bool.
From Verif Require Import LoopModel.
Import ListNotations.
Local Open Scope R_scope.

(** Go's x > y on the values. (op_sparsemax.go:232-289.) *)
Definition gtR (x y : R) : bool := if Rlt_dec y x then true else false.

(** op_sparsemax.go:232-244: the maximum of a row, starting from [low]
    (-math.MaxFloat64). *)
Definition rowMax (low : R) (row : list R) : R :=
  fold_left (fun m x => if gtR x m then x else m) row low.

(** op_sparsemax.go:263-266: sort.Slice with >.  Any sorting gives this list: the
    decreasing arrangement of real numbers is unique. *)
Fixpoint insertDesc (x : R) (l : list R) : list R :=
  match l with
  | [] => [x]
  | y :: r => if gtR y x then y :: insertDesc x r else x :: l
  end.
(** op_sparsemax.go:263-266. *)
Fixpoint sortDesc (l : list R) : list R :=
  match l with
  | [] => []
  | x :: r => insertDesc x (sortDesc r)
  end.

(** op_sparsemax.go:273-289: state (j, cumSum, prevCum, maxIndex). *)
Record scan := { sj : nat; cumSum : R; prevCum : R; maxIndex : nat }.
(** op_sparsemax.go:273-289, one round. *)
Definition scanStep (st : scan) (x : R) : scan :=
  let k := 1 + INR (sj st + 1) * x in
  let prev := prevCum st + x in
  if gtR k prev
  then {| sj := S (sj st); cumSum := cumSum st + x; prevCum := prev; maxIndex := sj st + 1 |}
  else {| sj := S (sj st); cumSum := cumSum st; prevCum := prev; maxIndex := maxIndex st |}.
(** op_sparsemax.go:291. *)
Definition threshold (sorted : list R) : R :=
  let st := fold_left scanStep sorted {| sj := 0; cumSum := 0; prevCum := 0; maxIndex := 0 |} in
  (cumSum st - 1) / INR (maxIndex st).

(** op_sparsemax.go:219-310 [float64sparseMax] on one row.  (The code makes each
    pass over all rows before the next pass; no row looks at another one.) *)
Definition sparsemaxRow (low : R) (row : list R) : list R :=
  let stable := map (fun x => x - rowMax low row) row in
  let tau := threshold (sortDesc stable) in
  map (fun v => if gtR (v - tau) 0 then v - tau else 0) stable.

(** The whole tensor: [from] rows of [to] values (225-229). (op_sparsemax.go.) *)
Definition sparsemaxData (low : R) (from to : nat) (data : list R) : option (list R) :=
  loop from (fun i acc =>
    match aslice data (i * to) ((i + 1) * to) with
    | Some row => Some (acc ++ sparsemaxRow low row)
    | None => None
    end) [].

(** op_sparsemax.go:82-117 [Do] with axis 0 on an m x n matrix: axes is [1, 0]
    (91-92), the kernel sees the transposed data and the result gets the shape of
    the input (116).  Assumed of the tensor library: Transpose moves the data, and
    Data() of its result is the transposed matrix in row-major order. *)
Definition transposeData (m n : nat) (data : list R) : list R :=
  flat_map (fun j => map (fun i => nth (i * n + j) data 0) (seq 0 m)) (seq 0 n).
(** op_sparsemax.go:82-117. *)
Definition sparsemaxAxis0 (low : R) (m n : nat) (data : list R) : option (list R) :=
  sparsemaxData low n m (transposeData m n data).

(** op_sparsemax.go:448-512 [sparsemaxDiffOp.Do] on a matrix, one row: [y] is the
    output of the operator, [g] the gradient. *)
Definition nonZero (v : R) : R := if Req_EM_T v 0 then 0 else 1.
(** tensor.Sum along an axis (library, called at op_sparsemax.go:470-495). *)
Definition sumR (l : list R) : R := fold_left Rplus l 0.
(** op_sparsemax.go:448-512. *)
Definition sparsemaxDiffRow (y g : list R) : list R :=
  let nz := map nonZero y in
  let a := sumR (map (fun p => fst p * snd p) (combine nz g)) in
  let b := sumR nz in
  map (fun p => fst p * (snd p - a / b)) (combine nz g).
