(** Broadcast patterns, [Reshape], [Repeat] and [Broadcast] (broadcast.go, shape.go,
    operations.go, op_tensor.go). Shapes and coordinates are lists of [Z] (Go: int).
    A node is modelled by its shape and its value. Proof-free. *)
From Coq Require Import List ZArith Bool.
Import ListNotations.
Local Open Scope Z_scope.

(** Outcome of a call: a value, an error value, or a panic.
    (Go's return of an error value, and panic; no code of its own.)
    (As e.g. broadcast.go:66-129 returns.) *)
Inductive res (A : Type) : Type := Ok (a : A) | Err | Panic.
Arguments Ok {A} a. Arguments Err {A}. Arguments Panic {A}.

(** ** Patterns *)
(** bcAllowableAxes (broadcast.go:10-12). *)
Definition bcAllowableAxes : Z := 4.
(** Conversion to and arithmetic in byte (broadcast.go:27): modulo 256. *)
Definition byte (x : Z) : Z := x mod 256.
(** [byte(1) << a] (broadcast.go:34,37). *)
Definition shl1 (a : Z) : Z := byte (Z.shiftl 1 a).
(** NewBroadcastPattern (broadcast.go:30-40). *)
Definition newBroadcastPattern (leftAxes rightAxes : list Z) : Z :=
  fold_left (fun start a => Z.lor start (shl1 a)) rightAxes
    (fold_left (fun start a => Z.lor start (shl1 (byte (a + bcAllowableAxes)))) leftAxes 0).
(** BroadcastPattern.bc (broadcast.go:42-48). *)
Definition bc (pat : Z) (left : bool) (axis : Z) : bool :=
  let operand := if left then byte (axis + bcAllowableAxes) else axis in
  Z.land (Z.shiftr pat operand) 1 =? 1.
(** BroadcastPattern.on (broadcast.go:50-64): both loops run over 0..3. *)
Definition on (pat : Z) : list Z * list Z :=
  (filter (fun i => bc pat true (byte i)) [0; 1; 2; 3], filter (fun i => bc pat false (byte i)) [0; 1; 2; 3]).

(** autoBroadcastPattern (broadcast.go:131-143): the loop from axis [i]; shapes of
    different length are refused. *)
Fixpoint autoLoop (i : Z) (aShape bShape : list Z) : list Z * list Z :=
  match aShape, bShape with
  | x :: aShape', y :: bShape' =>
      let (l, r) := autoLoop (i + 1) aShape' bShape' in
      if y <? x then (byte i :: l, r) else if x <? y then (l, byte i :: r) else (l, r)
  | _, _ => ([], [])
  end.
(** broadcast.go:131-143. *)
Definition autoBroadcastPattern (aShape bShape : list Z) : res (list Z * list Z) :=
  if Nat.eqb (length aShape) (length bShape) then Ok (autoLoop 0 aShape bShape) else Err.

(** ** Shapes *)
(** tensor.Shape.TotalSize (used at operations.go:562,570): the product, 1 for a scalar.
    Part of the tensor library: assumed. *)
Definition totalSize (s : list Z) : Z := fold_right Z.mul 1 s.
(** [s[i] = v] for an index in range (Go panics otherwise; all uses are checked). *)
Fixpoint setZ (l : list Z) (i : nat) (v : Z) : list Z :=
  match l, i with [], _ => [] | _ :: l', O => v :: l' | x :: l', S i' => x :: setZ l' i' v end.
(** "search for first non 0" (shape.go:57-63): puts [s] in the first zero. *)
Fixpoint fillFirst (newShape : list Z) (s : Z) : list Z :=
  match newShape with [] => [] | x :: l => if x =? 0 then s :: l else x :: fillFirst l s end.
(** calcBroadcastShape (shape.go:38-68). *)
Definition calcBroadcastShape (shp : list Z) (expectedDims : nat) (along : list Z) : list Z :=
  let newShape := if Nat.eqb (length shp) expectedDims then shp
                  else fold_left (fun ns i => setZ ns (Z.to_nat i) 1) along (repeat 0 expectedDims) in
  match shp with
  | [] => map (fun _ => 1) newShape
  | _ => if Nat.eqb (length shp) expectedDims then newShape else fold_left fillFirst shp newShape
  end.

(** The checks of Reshape (operations.go:540-572). [negs] and [infer] as in the code. *)
Definition negs (to : list Z) : nat := length (filter (fun s => s <? 0) to).
(** The last negative position (operations.go:544-549). *)
Fixpoint inferAt (to : list Z) (i : nat) (acc : nat) : nat :=
  match to with [] => acc | s :: to' => inferAt to' (S i) (if s <? 0 then i else acc) end.
(** The product of the other dimensions (operations.go:555-561). *)
Fixpoint prodExcept (to : list Z) (i infer : nat) : Z :=
  match to with [] => 1 | s :: to' => (if Nat.eqb i infer then 1 else s) * prodExcept to' (S i) infer end.
(** operations.go:540-579: the shape of the new node, and what the caller's slice [to]
    holds afterwards (line 566 writes into it). divmod is Go's truncated division
    (mathutils.go:5-9, mathutils_amd64.s), which panics for a divisor of zero. *)
Definition reshapeCall (from to : list Z) : res (list Z) * list Z :=
  if Nat.ltb 1 (negs to) then (Err, to)
  else
    let check to' := (if Nat.ltb 0 (length from) && negb (totalSize from =? totalSize to') then Err else Ok to', to') in
    if Nat.eqb (negs to) 1 then
      let infer := inferAt to 0 0 in
      let prod := prodExcept to 0 infer in
      if prod =? 0 then (Panic, to)
      else if negb (Z.rem (totalSize from) prod =? 0) then (Err, to)
      else check (setZ to infer (Z.quot (totalSize from) prod))
    else check to.

(** ** Values *)
Section Values.
Context {V : Type}.
(** A node: the shape inferred for it and the value it evaluates to, read by coordinates.
    (node.go:22-60, fields shape and boundTo.) *)
Record tens : Type := Tn { shp : list Z; at_ : list Z -> V }.

(** Row-major position of a coordinate and its inverse: the layout of the tensor library,
    assumed for its Reshape (called at op_tensor.go:1153-1189). *)
Fixpoint ravel (s idx : list Z) : Z :=
  match s, idx with d :: s', i :: idx' => i * totalSize s' + ravel s' idx' | _, _ => 0 end.
(** The inverse of [ravel]: the layout of the tensor library. *)
Fixpoint unravel (s : list Z) (k : Z) : list Z :=
  match s with [] => [] | d :: s' => k / totalSize s' :: unravel s' (k mod totalSize s') end.
(** Reshape (operations.go:540-579) with reshapeOp.Do (op_tensor.go:1153-1189): same
    data, new shape. A scalar asked to become larger is accepted here and fails when run
    (op_tensor.go:1176-1184); the model keeps its value everywhere. *)
Definition reshape (t : tens) (to : list Z) : res tens :=
  match fst (reshapeCall (shp t) to) with
  | Ok to' => Ok (Tn to' (fun idx => at_ t (unravel (shp t) (ravel to' idx))))
  | Err => Err
  | Panic => Panic
  end.

(** SizeOf (operations.go:400-412) with the shape known: the size of the axis. *)
Definition sizeOf (axis : Z) (x : tens) : res Z :=
  match nth_error (shp x) (Z.to_nat axis) with Some d => Ok d | None => Panic end.

(** Change one coordinate. (Part of tensor.Repeat, library, called at op_tensor.go:387.) *)
Fixpoint divAt (idx : list Z) (k : nat) (rep : Z) : list Z :=
  match idx, k with [], _ => [] | i :: l, O => i / rep :: l | i :: l, S k' => i :: divAt l k' rep end.
(** tensor.Shape.IsVector (library, assumed), used at op_tensor.go:228: one axis, or two
    of which exactly one is not of size one. *)
Definition isVector (s : list Z) : bool :=
  match s with [_] => true | [x; y] => ((y =? 1) && (1 <? x)) || ((x =? 1) && (1 <? y)) | _ => false end.
(** repeatOp.InferShape (op_tensor.go:220-243): the axis times the number of repetitions.
    A vector is extended by unit axes; a scalar counts as a vector of length one; any
    other axis out of range panics. The type of the node (op_tensor.go:196-214) has as many
    axes as the input, or one for a scalar; WithShape (node.go:210-230) panics if the shape
    has another number, unless it is a column or row given to a vector. *)
Definition repeatShape (s : list Z) (along : nat) (rep : Z) : res (list Z) :=
  let s1 := if isVector s && Nat.leb (length s) along
            then map (fun x => if x =? 0 then 1 else x) (s ++ repeat 0 (along - length s + 1)%nat) else s in
  let s2 := match s1 with [] => [1] | _ => s1 end in
  match nth_error s2 along with
  | Some d =>
      let s' := setZ s2 along (d * rep) in
      if Nat.eqb (length s') (Nat.max 1 (length s)) || (Nat.eqb (length s) 1 && isVector s') then Ok s' else Panic
  | None => Panic
  end.
(** repeatOp applied (op_tensor.go:354-393): tensor.Repeat repeats every entry [rep]
    times in place along the axis (library, assumed); [rep] = 1 leaves the value. *)
Definition repeatNode (t : tens) (along : Z) (rep : Z) : res tens :=
  match repeatShape (shp t) (Z.to_nat along) rep with
  | Ok s => Ok (Tn s (fun idx => at_ t (divAt idx (Z.to_nat along) rep)))
  | Err => Err
  | Panic => Panic
  end.
(** repeatedApply (op_tensor.go:175-188) with the children of Broadcast: one repetition
    count per axis. *)
Fixpoint repeatedApply (t : tens) (along : list Z) (reps : list Z) : res tens :=
  match along, reps with
  | [], [] => Ok t
  | a :: along', r :: reps' => match repeatNode t a r with Ok t' => repeatedApply t' along' reps' | Err => Err | Panic => Panic end
  | _, _ => Err
  end.
(** The sizes collected by Broadcast (broadcast.go:90-97,115-122). *)
Fixpoint sizesOf (axes : list Z) (x : tens) : res (list Z) :=
  match axes with
  | [] => Ok []
  | a :: axes' =>
      match sizeOf a x with
      | Ok d => match sizesOf axes' x with Ok l => Ok (d :: l) | Err => Err | Panic => Panic end
      | Err => Err
      | Panic => Panic
      end
  end.
(** One side of Broadcast (broadcast.go:79-101 and 103-127): the axes are checked against
    [dims], [t] is reshaped to that many axes and repeated to the sizes of [other]. *)
Definition broadcastSide (t : tens) (dims : nat) (other : tens) (axes : list Z) : res tens :=
  match axes with
  | [] => Ok t
  | _ =>
      if existsb (fun a => Z.of_nat dims <=? a) axes then Err
      else match reshape t (calcBroadcastShape (shp t) dims axes) with
           | Ok t1 => match sizesOf axes other with Ok reps => repeatedApply t1 axes reps | Err => Err | Panic => Panic end
           | Err => Err
           | Panic => Panic
           end
  end.
(** Broadcast (broadcast.go:69-129): the left side first; the right side is expanded to
    the number of axes [a] had at the start (line 76), with the sizes of the new [x]. *)
Definition broadcast (a b : tens) (pattern : Z) : res (tens * tens) :=
  let (l, r) := on pattern in
  match broadcastSide a (length (shp b)) b l with
  | Ok x => match broadcastSide b (length (shp a)) x r with Ok y => Ok (x, y) | Err => Err | Panic => Panic end
  | Err => Err
  | Panic => Panic
  end.
(** The first half of [Auto op a b] with [op] one of BroadcastAdd, BroadcastSub and so on
    (operations.go:121-131, api_gen.go:129-135): note the swapped patterns. The operator
    is then applied to the two results. *)
Definition auto (a b : tens) : res (tens * tens) :=
  match autoBroadcastPattern (shp a) (shp b) with
  | Ok (leftPattern, rightPattern) => broadcast a b (newBroadcastPattern rightPattern leftPattern)
  | Err => Err
  | Panic => Panic
  end.
End Values.
