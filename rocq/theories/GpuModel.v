(** Elementwise arithmetic on the GPU: grid sizes (cuda/external.go), kernels
    (cuda modules/src) and the methods of the tensor engine that launch them
    (cuda/arith.go, cuda/cmp.go, op_math_cuda.go). Device memory is modelled as buffers of
    elements; a launch runs the threads of its grid one after the other in an order the
    caller cannot choose. Proof-free. *)
From Coq Require Import List ZArith Bool Arith.
From Verif Require Import BroadcastModel ShapeGradModel.
Import ListNotations.

(** ** Grid sizes *)
(** The limits of a device (cuda/engine.go:51-54, set in cuda/external.go:140-143). *)
Record device := { mtpb : nat; mgdx : nat; mgdy : nat; mgdz : nat }.
(** calcBlocks (cuda/external.go:303). The divisor is a limit of the device. *)
Definition calcBlocks (n maxThreads : nat) : nat := (n + maxThreads - 1) / maxThreads.
(** The six sizes of a launch (cuda/external.go:52). *)
Record grid := { gridX : nat; gridY : nat; gridZ : nat; blockX : nat; blockY : nat; blockZ : nat }.
(** Engine.ElemGridSize (cuda/external.go:52-85). *)
Definition elemGridSize (e : device) (n : nat) : grid :=
  let blocks := calcBlocks n (mtpb e) in
  if blocks =? 1 then Build_grid 1 1 1 n 1 1
  else if mgdx e * mgdy e * mgdz e <=? blocks then Build_grid 1 1 1 1 1 1
  else if mgdx e * mgdy e <=? blocks then
    Build_grid (mgdx e) (mgdy e) (calcBlocks (blocks mod (mgdx e * mgdy e)) (mgdz e)) (mtpb e) 1 1
  else if mgdx e <=? blocks then
    Build_grid (mgdx e) (calcBlocks (blocks mod mgdx e) (mgdy e)) 1 (mtpb e) 1 1
  else Build_grid blocks 1 1 (mtpb e) 1 1.
(** ** Threads and kernels *)
(** blockIdx and threadIdx of a thread (CUDA). *)
Record thread := { bIdx : nat * nat * nat; tIdx : nat * nat * nat }.
(** All coordinates below the given sizes. (CUDA; see [threads].) *)
Definition coords (x y z : nat) : list (nat * nat * nat) :=
  flat_map (fun k => flat_map (fun j => map (fun i => (i, j, k)) (seq 0 x)) (seq 0 y)) (seq 0 z).
(** The threads of a launch (CUDA: one for each coordinate of the grid and of the block; a
    launch with a size of zero fails and runs no thread). *)
Definition threads (g : grid) : list thread :=
  flat_map (fun b => map (fun t => Build_thread b t) (coords (blockX g) (blockY g) (blockZ g)))
    (coords (gridX g) (gridY g) (gridZ g)).
(** THREADID (cuda modules/src/elembinop.cu:4-6). Arithmetic in C int: sizes whose index
    exceeds 2^31 - 1 are not modelled. *)
Definition threadId (g : grid) (t : thread) : nat :=
  let '(bx, by_, bz) := bIdx t in
  let '(tx, ty, tz) := tIdx t in
  let blockId := bx + by_ * gridX g + gridX g * gridY g * bz in
  blockId * (blockX g * blockY g * blockZ g) + (tz * (blockX g * blockY g) + (ty * blockX g + tx)).

Section Gpu.
Context {V : Type}.
(** Device memory: the elements of each buffer. A buffer stands for one allocation;
    different buffers do not overlap (what the allocator provides is the subject of C30).
    (cuda/arith.go:20-60 passes pointers to such buffers.) *)
Definition memory := nat -> nat -> V.
(** Storing one element. (An assignment in elembinop.cu or elemunaryop.cu.) *)
Definition store (m : memory) (b i : nat) (v : V) : memory :=
  fun b' i' => if (b' =? b) && (i' =? i) then v else m b' i'.
(** Copying [n] elements between buffers (Engine.memcpy, cuda/engine.go:126-128). *)
Definition memcpy (m : memory) (dst src n : nat) : memory :=
  fun b i => if (b =? dst) && (i <? n) then m src i else m b i.

(** The four shapes of a binary kernel (cuda modules/src/elembinop.cu:13-35, 158-180) and
    the unary kernel (cuda modules/src/elemunaryop.cu:13-18). *)
Inductive kind := VV | VS | SV | SS.
(** The body of a binary kernel, run by one thread: [A] and [B] are the two pointers.
    (cuda modules/src/elembinop.cu:39-195.) *)
Definition kernel2 (k : kind) (op : V -> V -> V) (g : grid) (A B size : nat) (m : memory) (t : thread) : memory :=
  let idx := threadId g t in
  if size <=? idx then m
  else match k with
       | VV => store m A idx (op (m A idx) (m B idx))
       | VS => store m A idx (op (m A idx) (m B 0))
       | SV => store m B idx (op (m A 0) (m B idx))
       | SS => store m A 0 (op (m A 0) (m B 0))
       end.
(** The body of a unary kernel. (cuda modules/src/elemunaryop.cu.) *)
Definition kernel1 (f : V -> V) (g : grid) (A size : nat) (m : memory) (t : thread) : memory :=
  let idx := threadId g t in if size <=? idx then m else store m A idx (f (m A idx)).
(** A launch whose threads run in the order [ts] (LaunchAndSync, called at
    cuda/arith.go:62). *)
Definition launch (body : memory -> thread -> memory) (ts : list thread) (m : memory) : memory :=
  fold_left body ts m.

(** ** The engine *)
(** Element types (cuda/utils.go:62-72 accepts two of them; the others stand for the rest,
    by size in bits, which is what the names of kernels contain). *)
Inductive edt := F32 | F64 | OtherDt (bits : nat).
(** dt.Size()*8 (cuda/utils.go:120). *)
Definition bitsOf (d : edt) : nat := match d with F32 => 32 | F64 => 64 | OtherDt n => n end.
(** Whether binaryCheck accepts the type (cuda/utils.go:62-72). *)
Definition floatDt (d : edt) : bool := match d with OtherDt _ => false | _ => true end.
(** Equality of Dtypes (cuda/utils.go:62-72). *)
Definition edtEq (a b : edt) : bool :=
  match a, b with F32, F32 => true | F64, F64 => true | OtherDt m, OtherDt n => m =? n | _, _ => false end.
(** A tensor on the device: its buffer, shape, type, and whether it needs an iterator
    (is a view). (tensor.Tensor of the library, as cuda/utils.go:47-112 reads it.) *)
Record dten := { dbuf : nat; dshape : list Z; ddt : edt; dview : bool }.
(** logicalSize (cuda/utils.go:107-112); the empty shape has the product 1. *)
Definition logicalSize (s : list Z) : nat := Z.to_nat (totalSize s).
(** tensor.Shape.IsScalar (library, used at cuda/utils.go:107-112). *)
Definition isScalarShape (s : list Z) : bool := match s with [] => true | _ => false end.
(** The names of operations (cmd/gencudaengine/main.go:53-70). *)
Inductive opname := Add | Sub | Mul | Div | Pow | Mod | Lt | Lte | Gt | Gte | ElEq | Ne.
(** HasFunc: the kernels compiled from elembinop.cu:39-195. [Mod] is commented out there. *)
Definition hasFunc (o : opname) (bits : nat) : bool :=
  match o with Mod => false | _ => (bits =? 32) || (bits =? 64) end.
(** constructName2 (cuda/utils.go:114-129): which kernel. *)
Definition constructName2 (a b : dten) : kind :=
  match isScalarShape (dshape a), isScalarShape (dshape b) with
  | true, true => SS | true, false => SV | false, true => VS | false, false => VV
  end.
(** constructName1 (cuda/utils.go:131-139). *)
Definition constructName1 (leftTensor : bool) : kind := if leftTensor then VS else SV.
(** The options of a call (tensor.FuncOpt, library): none, UseUnsafe, WithReuse, WithIncr. *)
Inductive fopt := Safe | Unsafe | Reuse (r : dten) | Incr (r : dten).
(** handleFuncOpts (cuda/utils.go:22-56): IncrReuse of the library returns the tensor of
    either WithIncr or WithReuse; the flag saying which is dropped by the callers
    (cuda/arith.go:26). [Ok None] is an unsafe call. *)
Definition handleFuncOpts (expShape : list Z) (expType : edt) (o : fopt) : res (option dten) :=
  match o with
  | Safe => Err
  | Unsafe => Ok None
  | Reuse r | Incr r =>
      if negb (edtEq (ddt r) expType) then Err
      else if negb (logicalSize (dshape r) =? logicalSize expShape) && negb (isScalarShape expShape) then Err
      else Ok (Some r)
  end.
(** binaryCheck (cuda/utils.go:58-91). *)
Definition binaryCheck (a b : dten) : bool :=
  floatDt (ddt a) && floatDt (ddt b) && edtEq (ddt a) (ddt b) && shapeEq (dshape a) (dshape b)
  && negb (dview a) && negb (dview b).
(** unaryCheck (cuda/utils.go:93-105). *)
Definition unaryCheck (a : dten) : bool := floatDt (ddt a) && negb (dview a).

(** [opSem] is what the operator in the kernel computes; [order] is the order in which the
    device runs the threads of a grid. *)
Variable opSem : opname -> V -> V -> V.
Variable e : device.
Variable order : grid -> list thread.

(** Where the result goes and the memory after copying the first operand there
    (cuda/arith.go:33-49). *)
Definition target (a : dten) (o : option dten) (m : memory) : dten * memory :=
  match o with
  | Some r => (r, memcpy m (dbuf r) (dbuf a) (logicalSize (dshape a)))
  | None => (a, m)
  end.
(** Engine.Add and the other eleven generated from the same template (cuda/arith.go:14-64,
    129-179, 244-294, 359-409, 474-524, 589-639, cuda/cmp.go:14-64, 129-179, 244-294,
    359-409, 474-524, 589-639). A failed launch is not reported. *)
Definition engineOp (o : opname) (a b : dten) (opt : fopt) (m : memory) : res (dten * memory) :=
  if negb (hasFunc o (bitsOf (ddt a))) then Err
  else if negb (binaryCheck a b) then Err
  else bind (handleFuncOpts (dshape a) (ddt a) opt) (fun r =>
    let (out, m1) := target a r m in
    let size := logicalSize (dshape out) in
    let g := elemGridSize e size in
    Ok (out, launch (kernel2 (constructName2 a b) (opSem o) g (dbuf out) (dbuf b) size) (order g) m1)).
(** Engine.AddScalar and the other eleven (cuda/arith.go:67-126, 182-241, 297-356, 412-471,
    527-586, 642-701, cuda/cmp.go:67-126, 182-241, 297-356, 412-471, 527-586, 642-701);
    [b] is the buffer of the scalar. *)
Definition engineScalar (o : opname) (a : dten) (b : nat) (leftTensor : bool) (opt : fopt) (m : memory) : res (dten * memory) :=
  if negb (hasFunc o (bitsOf (ddt a))) then Err
  else if negb (unaryCheck a) then Err
  else bind (handleFuncOpts (dshape a) (ddt a) opt) (fun r =>
    let (out, m1) := target a r m in
    let size := logicalSize (dshape out) in
    let g := elemGridSize e size in
    let '(memA, memB) := if leftTensor then (dbuf out, b) else (b, dbuf out) in
    Ok (out, launch (kernel2 (constructName1 leftTensor) (opSem o) g memA memB size) (order g) m1)).
(** elemUnaryOp.CUDADo (op_math_cuda.go:23-85) when the device has the kernel, with the
    preallocated value [out]. *)
Definition unaryCUDADo (f : V -> V) (a out : dten) (m : memory) : memory :=
  let same := (dbuf out =? dbuf a) && shapeEq (dshape a) (dshape out) in
  let m1 := if same then m else memcpy m (dbuf out) (dbuf a) (logicalSize (dshape a)) in
  let size := logicalSize (dshape a) in
  let g := elemGridSize e size in
  launch (kernel1 f g (dbuf out) size) (order g) m1.
End Gpu.
