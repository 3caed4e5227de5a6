(** [Transpose], [Concat], [Slice], [Unconcat], [Sum] and [Repeat] with their gradients
    (operations.go, op_tensor.go, op_reduction.go). Nodes are modelled as in
    BroadcastModel.v by their shape and their value; entries come from a commutative ring,
    so every statement holds for real arithmetic. What is said of the tensor library is
    assumed. Proof-free. *)
From Coq Require Import List ZArith Bool.
From Verif Require Import Sums BroadcastModel NodeShapeModel.
Import ListNotations.
Local Open Scope Z_scope.

Section Model.
Context {A : Type} {CR : CRing A}.
Notation tens := (@tens A).

(** Sequencing of calls that may return an error or panic (the [if err != nil] of the
    cited functions). (E.g. operations.go:415-443.) *)
Definition bind {B C} (r : res B) (f : B -> res C) : res C :=
  match r with Ok b => f b | Err => Err | Panic => Panic end.
(** Equality of int slices (tensor.Shape.Eq apart from its exception for vectors).
    (library; used e.g. at op_tensor.go:1136-1189.) *)
Definition eqShape (s t : list Z) : bool := if list_eq_dec Z.eq_dec s t then true else false.
(** [0, 1, ..., n-1]. (Axes counted as in op_reduction.go:46-68.) *)
Definition iota (n : nat) : list Z := map Z.of_nat (seq 0 n).

(** ** Transpose *)
(** [for i, p := range pattern { acc[p] = vals[i] }] (op_tensor.go:899-901,913-915). *)
Fixpoint scatter (pattern vals acc : list Z) : list Z :=
  match pattern, vals with
  | p :: pattern', v :: vals' => scatter pattern' vals' (setZ acc (Z.to_nat p) v)
  | _, _ => acc
  end.
(** The pattern of the gradient (op_tensor.go:898-901, 912-915). *)
Definition newPattern (pattern : list Z) : list Z :=
  scatter pattern (iota (length pattern)) (repeat 0 (length pattern)).
(** The checks of tensor.UnsafePermute and tensor.Transpose (library, called at
    op_tensor.go:885,951): as many axes as the shape has, all in range, none repeated. *)
Fixpoint distinct (l : list Z) : bool :=
  match l with [] => true | x :: l' => negb (existsb (Z.eqb x) l') && distinct l' end.
(** The checks of the library on a permutation (called at op_tensor.go:885, 951). *)
Definition permOk (pattern : list Z) (n : nat) : bool :=
  Nat.eqb (length pattern) n && forallb (fun p => (0 <=? p) && (p <? Z.of_nat n)) pattern && distinct pattern.
(** tensor.UnsafePermute (library): axis [k] of the result is axis [pattern[k]] of the
    input. *)
Definition permuteShape (pattern s : list Z) : list Z := map (fun p => nth (Z.to_nat p) s 0) pattern.
(** transposeOp applied (op_tensor.go:877-887 for the shape, 937-952 for the value): a
    scalar is refused, so is the identity (UnsafePermute reports a no-op as an error).
    tensor.Transpose (library): coordinate [k] of the result is coordinate [pattern[k]] of
    the input. *)
Definition transposeNode (t : tens) (pattern : list Z) : res tens :=
  match shp t with
  | [] => Err
  | _ => if negb (permOk pattern (length (shp t))) || eqShape pattern (iota (length pattern)) then Err
         else Ok (Tn (permuteShape pattern (shp t)) (fun idx => at_ t (scatter pattern idx (repeat 0 (length pattern)))))
  end.
(** Transpose (operations.go:446-470): the axes default to the reversed order; the
    identity returns the node itself. For a scalar [axes[0]] (line 460) panics, as
    tensor.IsMonotonicInts (library) accepts the empty slice. *)
Definition transposeApi (t : tens) (axes : list Z) : res tens :=
  let n := length (shp t) in
  if negb (Nat.eqb (length axes) 0) && negb (Nat.eqb (length axes) n) then Err
  else let axes' := if Nat.eqb (length axes) 0 then rev (iota n) else axes in
       match axes' with
       | [] => Panic
       | _ => if eqShape axes' (iota (length axes')) then Ok t else transposeNode t axes'
       end.
(** transposeOp.SymDiff (op_tensor.go:897-907). *)
Definition transposeSymDiff (pattern : list Z) (grad : tens) : res tens := transposeNode grad (newPattern pattern).
(** Elementwise sum of two values of the same shape.
    (tensor.Add, library, as called at op_tensor.go:925-935.) *)
Definition addSame (d t : tens) : tens := Tn (shp d) (fun idx => radd (at_ d idx) (at_ t idx)).
(** transposeOp.DoDiff (op_tensor.go:909-935): the gradient of the output transposed with
    the new pattern and materialised, added to the derivative of the input. [T] of the
    tensor library checks its axes like Transpose. *)
Definition transposeDoDiff (pattern : list Z) (xd zd : tens) : res tens :=
  bind (transposeNode zd (newPattern pattern)) (fun d => Ok (addSame xd d)).

(** ** Slice *)
(** Without the element at a position.
    (tensor.Shape.S, library, called at op_tensor.go:526-535.) *)
Fixpoint removeAt (l : list Z) (k : nat) : list Z :=
  match l, k with [], _ => [] | _ :: l', O => l' | x :: l', S k' => x :: removeAt l' k' end.
(** With an element put in at a position.
    (The inverse of [removeAt], for reading through a slice, op_tensor.go:574-604.) *)
Fixpoint insertAt (l : list Z) (k : nat) (v : Z) : list Z :=
  match k, l with O, _ => v :: l | S k', x :: l' => x :: insertAt l' k' v | S _, [] => [v] end.
(** One sliceOp applied (op_tensor.go:526-535 for the shape, 574-604 for the value) with a
    slice [start:end) of step one; [None] is the nil slice. tensor.Shape.S and
    tensor.Dense.Slice (library): a slice out of range is an error, an axis cut down to
    one entry is dropped. Steps other than one are not modelled. An axis out of range
    (never passed by the callers modelled here) is an error. *)
Definition sliceNode (t : tens) (along : Z) (sl : option (Z * Z)) : res tens :=
  let k := Z.to_nat along in
  match sl with
  | None => Ok t
  | Some (st, en) =>
      match nth_error (shp t) k with
      | None => Err
      | Some d =>
          if (st <? 0) || (en <=? st) || (d <? en) then Err
          else if en - st =? 1 then Ok (Tn (removeAt (shp t) k) (fun idx => at_ t (insertAt idx k st)))
          else Ok (Tn (setZ (shp t) k (en - st)) (fun idx => at_ t (setZ idx k (nth k idx 0 + st))))
      end
  end.
(** Slice (operations.go:415-443): one operator per slice, the axis moved down by the
    number of earlier slices of width one. *)
Fixpoint sliceLoop (t : tens) (i dimsChanged : Z) (prev : option (Z * Z)) (slices : list (option (Z * Z))) : res tens :=
  match slices with
  | [] => Ok t
  | s :: slices' =>
      let dimsChanged' := match prev with Some (st, en) => if en - st =? 1 then dimsChanged + 1 else dimsChanged | None => dimsChanged end in
      bind (sliceNode t (i - dimsChanged') s) (fun t' => sliceLoop t' (i + 1) dimsChanged' s slices')
  end.
(** operations.go:415-443. *)
Definition sliceApi (t : tens) (slices : list (option (Z * Z))) : res tens :=
  match shp t with
  | [] => Err
  | _ => if Nat.ltb (length (shp t)) (length slices) then Err else sliceLoop t 0 0 None slices
  end.
(** sliceIncrOp.Do (op_tensor.go:708-749), the gradient of sliceOp (op_tensor.go:547-557):
    zeros of the shape of the input, with [incr] added in the slice. The entries outside
    the slice stay zero. A scalar [incr] is added everywhere in the slice, which has one
    entry then. *)
Definition sliceIncr (t : tens) (along : Z) (sl : option (Z * Z)) (incr : tens) : res tens :=
  let k := Z.to_nat along in
  match sl with
  | None => Ok (Tn (shp t) (fun idx => radd r0 (at_ incr idx)))
  | Some (st, en) =>
      match nth_error (shp t) k with
      | None => Err
      | Some d =>
          if (st <? 0) || (en <=? st) || (d <? en) then Err
          else Ok (Tn (shp t) (fun idx =>
            let j := nth k idx 0 in
            if (st <=? j) && (j <? en)
            then radd r0 (at_ incr (if en - st =? 1 then removeAt idx k else setZ idx k (j - st)))
            else r0))
      end
  end.
(** sliceOp.DoDiff (op_tensor.go:559-572) through sliceIncrOp.UsePreallocDo
    (op_tensor.go:751-789): [incr] added in the slice of the derivative in place. *)
Definition sliceDoDiff (xd : tens) (along : Z) (sl : option (Z * Z)) (yd : tens) : res tens :=
  bind (sliceIncr xd along sl yd) (fun z => Ok (addSame xd z)).
(** Unconcat (operations.go:504-535): [n] slices along one axis, all of every other axis.
    [aShape[along]] panics if [along] is the number of axes (line 506 lets it pass) and a
    division by zero panics. *)
Fixpoint unconcatLoop (a : tens) (along : nat) (w start : Z) (batches : nat) : res (list tens) :=
  match batches with
  | O => Ok []
  | S b =>
      let ss := map (fun p => Some (if Nat.eqb (fst p) along then (start, start + w) else (0, snd p)))
                    (combine (seq 0 (length (shp a))) (shp a)) in
      bind (sliceApi a ss) (fun a2 => bind (unconcatLoop a along w (start + w) b) (fun l => Ok (a2 :: l)))
  end.
(** operations.go:504-535. *)
Definition unconcat (a : tens) (along n : Z) : res (list tens) :=
  if (along <? 0) || (Z.of_nat (length (shp a)) <? along) then Err
  else match nth_error (shp a) (Z.to_nat along) with
       | None => Panic
       | Some d =>
           if n =? 0 then Panic
           else if negb (Z.rem d n =? 0) then Err
           else let w := Z.quot d n in
                if w =? 0 then Panic
                else unconcatLoop a (Z.to_nat along) w 0 (Z.to_nat (Z.quot d w))
       end.

(** ** Concat *)
(** tensor.Shape.Concat (library, called at op_tensor.go:1023): as many axes each, equal
    apart from [axis], whose sizes are added. *)
Fixpoint concatShape (axis : nat) (s : list Z) (shapes : list (list Z)) : res (list Z) :=
  match shapes with
  | [] => Ok s
  | s' :: shapes' =>
      if eqShape (removeAt s axis) (removeAt s' axis) && Nat.eqb (length s) (length s')
      then concatShape axis (setZ s axis (nth axis s 0 + nth axis s' 0)) shapes' else Err
  end.
(** tensor.Concat (library, called at op_tensor.go:1036): the entries of the first value,
    then those of the second, and so on along [axis]. *)
Fixpoint concatAt (axis : nat) (ts : list tens) (idx : list Z) : A :=
  match ts with
  | [] => r0
  | t :: ts' =>
      if nth axis idx 0 <? nth axis (shp t) 0 then at_ t idx
      else concatAt axis ts' (setZ idx axis (nth axis idx 0 - nth axis (shp t) 0))
  end.
(** Concat (operations.go:473-500) and concatOp (op_tensor.go:1014-1037). A negative axis
    panics when the shape is indexed. *)
Definition concatApi (axis : Z) (ts : list tens) : res tens :=
  match ts with
  | [] => Err
  | t :: ts' =>
      if negb (forallb (fun u => Nat.eqb (length (shp u)) (length (shp t))) ts') then Err
      else if Nat.eqb (length (shp t)) 0 then Err
      else if Z.of_nat (length (shp t)) <=? axis then Err
      else if axis <? 0 then Panic
      else bind (concatShape (Z.to_nat axis) (shp t) (map (@shp A) ts'))
             (fun s => Ok (Tn s (concatAt (Z.to_nat axis) ts)))
  end.
(** "keep dims" (op_tensor.go:1079-1082): append -1, shift the tail by one, put 1. *)
Definition keepDims (s : list Z) (axis : nat) : list Z :=
  let s1 := s ++ [-1] in
  setZ (firstn (axis + 1) s1 ++ firstn (length s1 - (axis + 1)) (skipn axis s1)) axis 1.
(** concatOp.SymDiff (op_tensor.go:1062-1091), from the [start]-th entry. *)
Fixpoint concatSymDiff (axis : nat) (start : Z) (shapes : list (list Z)) (grad : tens) : res (list tens) :=
  match shapes with
  | [] => Ok []
  | s :: shapes' =>
      match nth_error s axis with
      | None => Err
      | Some d =>
          let en := d + start in
          bind (sliceNode grad (Z.of_nat axis) (Some (start, en))) (fun g =>
          bind (if en - start =? 1 then reshape g (keepDims (shp g) axis) else Ok g) (fun g' =>
          bind (concatSymDiff axis en shapes' grad) (fun l => Ok (g' :: l))))
      end
  end.
(** tensor.Shape.Eq (library): a vector equals the column and the row vector of its
    length. *)
Definition shapeEq (s t : list Z) : bool :=
  match s, t with
  | [x; y], [z] => ((y =? 1) && (1 <? x) && (x =? z)) || ((x =? 1) && (1 <? y) && (y =? z))
  | [z], [x; y] => ((y =? 1) && (1 <? x) && (x =? z)) || ((x =? 1) && (1 <? y) && (y =? z))
  | _, _ => eqShape s t
  end.
(** tensor.Dense.Add in place (library): the shapes must agree in the sense of Shape.Eq,
    the entries are then paired in row-major order. *)
Definition addInto (d st : tens) : res tens :=
  if shapeEq (shp d) (shp st)
  then Ok (Tn (shp d) (fun idx => radd (at_ d idx) (at_ st (unravel (shp st) (ravel (shp d) idx))))) else Err.
(** concatOp.DoDiff (op_tensor.go:1093-1125): [ds] are the derivatives of the inputs, which
    have the shapes of the inputs. The gradient is sliced along its first axis whatever
    [axis] is (line 1109), and the error of Add is dropped (line 1120). The result is the
    list of derivatives afterwards and whether the call succeeded. *)
Fixpoint concatDoDiff (axis : nat) (start : Z) (ds : list tens) (od : tens) : list tens * bool :=
  match ds with
  | [] => ([], true)
  | d :: ds' =>
      match nth_error (shp d) axis with
      | None => (d :: ds', false)
      | Some n =>
          match sliceNode od 0 (Some (start, n + start)) with
          | Ok st =>
              let d' := match addInto d st with Ok d' => d' | _ => d end in
              let (l, ok) := concatDoDiff axis (n + start) ds' od in (d' :: l, ok)
          | _ => (d :: ds', false)
          end
      end
  end.

(** ** Sum and Repeat *)
(** Sum of a function over all coordinates of a shape.
    (tensor.Sum, library, as called at op_reduction.go:200-330.) *)
Fixpoint over (s : list Z) (F : list Z -> A) : A :=
  match s with
  | [] => F []
  | d :: s' => sum (Z.to_nat d) (fun i => over s' (fun idx => F (Z.of_nat i :: idx)))
  end.
(** The entries at the positions, counted from [i], that are not in [along].
    (op_reduction.go:46-68.) *)
Definition dropAxes (along : list Z) (l : list Z) : list Z :=
  map snd (filter (fun p => negb (existsb (Z.eqb (fst p)) along)) (combine (iota (length l)) l)).
(** reductionInferShape (op_reduction.go:46-68): the axes are set to 0, then all zeros
    removed. *)
Definition reductionInferShape (along s : list Z) : res (list Z) :=
  match along with
  | [] => Ok []
  | _ =>
      if existsb (fun d => Z.of_nat (length s) <=? d) along then Err
      else if existsb (fun d => d <? 0) along then Panic
      else Ok (filter (fun d => negb (d =? 0)) (fold_left (fun s' d => setZ s' (Z.to_nat d) 0) along s))
  end.
(** The shape of the node of a reduction along the axes (ApplyOp, op.go:168-214): the
    inferred one, unless the type of the node has another number of axes. *)
Definition reductionShape (along s : list Z) : res (list Z) :=
  bind (reductionInferShape along s) (fun s' => nodeShape (fst (reductionRet (length s) along)) (snd (reductionRet (length s) along)) s').
(** sumOp applied (op_reduction.go:220-222, 342-344 with reductionDo 70-98): the sum along
    the axes (library), with the shape just inferred. *)
Definition sumNode (t : tens) (along : list Z) : res tens :=
  bind (reductionShape along (shp t)) (fun s =>
  Ok (Tn s (fun idx => over (shp t) (fun full => if eqShape (dropAxes along full) idx then at_ t full else r0)))).
(** Sum (operations.go:260-273). *)
Definition sumApi (t : tens) (along : list Z) : res tens :=
  match shp t with
  | [] => Ok t
  | _ => sumNode t (match along with [] => iota (length (shp t)) | _ => along end)
  end.
(** sumOp.SymDiff (op_reduction.go:226-255). *)
Definition sumSymDiff (along : list Z) (x grad : tens) : res tens :=
  bind (reshape grad (calcBroadcastShape (shp grad) (length (shp x)) along)) (fun g =>
  bind (sizesOf along x) (fun reps => repeatedApply g along reps)).
(** repeatOp.SymDiff (op_tensor.go:252-260): whatever the size of the repeated axis was. *)
Definition repeatSymDiff (along : Z) (grad : tens) : res tens := sumApi grad [along].
(** The gradient through the operators made by one side of Broadcast (broadcast.go:79-101
    or 103-127): the repetitions backwards, last axis first (op_tensor.go:252-260), then
    the reshape (op_tensor.go:1251-1258). Composed by Backprop (differentiation.go:140-293)
    as each of these nodes is used once. *)
Fixpoint repeatsGrad (axesRev : list Z) (grad : tens) : res tens :=
  match axesRev with
  | [] => Ok grad
  | a :: axesRev' => bind (repeatSymDiff a grad) (fun g => repeatsGrad axesRev' g)
  end.
(** broadcast.go:79-127. *)
Definition broadcastGrad (t : tens) (axes : list Z) (grad : tens) : res tens :=
  match axes with
  | [] => Ok grad
  | _ => bind (repeatsGrad (rev axes) grad) (fun g => reshape g (shp t))
  end.
(** The addition at the end of repeatOp.DoDiff (op_tensor.go:335-343): a scalar is added
    everywhere. *)
Definition addDeriv (xd d : tens) : res tens :=
  match shp d with [] => Ok (Tn (shp xd) (fun idx => radd (at_ xd idx) (at_ d []))) | _ => addInto xd d end.
(** repeatOp.DoDiff (op_tensor.go:262-348) for an input that is not a scalar; [yd] is the
    gradient of the output, [rep] the number of repetitions. A vector counts as a column
    vector (lines 283-285). *)
Definition repeatDoDiff (along rep : Z) (xd yd : tens) : res tens :=
  let xshape := match shp xd with [n] => [n; 1] | s => s end in
  let axis := Z.to_nat along in
  match nth_error xshape axis with
  | None => Panic
  | Some n =>
      if n =? 1 then bind (sumNode yd [along]) (fun d => addDeriv xd d)
      else let newShape := firstn (axis + 1) xshape ++ rep :: skipn (axis + 1) xshape in
           bind (reshape yd newShape) (fun t =>
           bind (sumNode t [along + 1]) (fun d =>
           bind (reshape d (firstn (axis + 1) newShape ++ skipn (axis + 2) newShape)) (fun d' => addDeriv xd d')))
  end.
End Model.
