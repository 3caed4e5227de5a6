(** [Max], [Mean] and [Norm] with the symbolic gradient of [Max] (operations.go,
    op_reduction.go). Nodes are modelled as in BroadcastModel.v by their shape and their
    value; entries are real numbers. What is said of the tensor library is assumed.
    Proof-free. *)
From Coq Require Import List ZArith Reals Bool.
From Verif Require Import Sums BroadcastModel ShapeGradModel.
Import ListNotations.
Local Open Scope Z_scope.

Notation tensR := (@tens R).

(** ** Max *)
(** The larger of two optional numbers; [None] stands for no entry seen yet.
    (Part of tensor.Dense.Max, library.) *)
Definition omax (a b : option R) : option R :=
  match a, b with Some x, Some y => Some (Rmax x y) | Some x, None => Some x | None, _ => b end.
(** The largest value of a partial function on the coordinates of a shape, visited in
    row-major order (tensor.Dense.Max, library, called at op_reduction.go:165). *)
Fixpoint overMax (s : list Z) (F : list Z -> option R) : option R :=
  match s with
  | [] => F []
  | d :: s' => fold_left (fun acc i => omax acc (overMax s' (fun idx => F (Z.of_nat i :: idx)))) (seq 0 (Z.to_nat d)) None
  end.
(** maxOp applied (op_reduction.go:117-123 for the shape, 164-166 with reductionDo 70-98
    for the value): the largest entry along the axes. With an empty axis there is none;
    the model then says 0. *)
Definition maxNode (t : tensR) (along : list Z) : res tensR :=
  bind (reductionShape along (shp t)) (fun s =>
  Ok (Tn s (fun idx =>
    match overMax (shp t) (fun full => if eqShape (dropAxes along full) idx then Some (at_ t full) else None) with
    | Some v => v | None => 0%R end))).
(** Max (operations.go:211-225): a scalar is returned as it is; without axes, all of
    them. *)
Definition maxApi (t : tensR) (along : list Z) : res tensR :=
  match shp t with
  | [] => Ok t
  | _ => maxNode t (match along with [] => iota (length (shp t)) | _ => along end)
  end.

(** tensor.Shape.IsScalarEquiv (library, used at op_math.go:148): every size is one. *)
Definition scalarEquiv (s : list Z) : bool := forallb (fun d => d =? 1) s.
(** The shape of an elementwise operation (op_math.go:135-183). The type of the node has as
    many axes as the operand with more of them (op_math.go:93-120), so WithShape
    (node.go:210-230) panics for two operands of single entries of which the first has less
    axes, but at least one. *)
Definition ewiseShape (x y : list Z) : res (list Z) :=
  if scalarEquiv x && scalarEquiv y then
    match x, y with
    | _ :: _, _ => if Nat.ltb (length x) (length y) then Panic else Ok x
    | [], _ :: _ => Ok y
    | [], [] => Ok []
    end
  else match x, y with
  | [], _ => Ok y
  | _, [] => Ok x
  | _, _ => if shapeEq x y then Ok (if Nat.ltb (length y) (length x) then x else y) else Err
  end.
(** An elementwise operation applied (op_math.go:245-247): entries are paired in row-major
    order, a scalar with every entry. *)
Definition ewise (f : R -> R -> R) (a b : tensR) : res tensR :=
  bind (ewiseShape (shp a) (shp b)) (fun s =>
  Ok (Tn s (fun idx => f (at_ a (unravel (shp a) (ravel s idx))) (at_ b (unravel (shp b) (ravel s idx)))))).
(** Eq with [retSame] (operator: 1 where the entries are equal, otherwise 0).
    (op_reduction.go:124-162 uses it.) *)
Definition eqR (x y : R) : R := if Req_EM_T x y then 1%R else 0%R.
(** The axes collected by maxOp.SymDiff (op_reduction.go:131-139). *)
Definition leftAxes (along : list Z) (opDim : nat) : list Z :=
  map byte (filter (fun i => existsb (Z.eqb i) along) (iota opDim)).
(** maxOp.SymDiff (op_reduction.go:124-162): the gradient times the indicator of
    [output = input], both stretched along the axes. *)
Definition maxSymDiff (along : list Z) (t output gradNode : tensR) : res tensR :=
  let bcpat := newBroadcastPattern (leftAxes along (length (shp t))) [] in
  bind (broadcast output t bcpat) (fun ab =>
  bind (ewise eqR (fst ab) (snd ab)) (fun eq =>
  bind (broadcast gradNode eq bcpat) (fun ab2 =>
  ewise Rmult (fst ab2) (snd ab2)))).

(** ** Mean *)
(** ReduceMul of the sizes (operations.go:245-253). *)
Definition counts (sizes : list Z) : Z := fold_left Z.mul sizes 1.
(** Mean (operations.go:228-257): the sum divided by the product of the sizes of the given
    axes, multiplied up over the list as it was given. *)
Definition meanApi (t : tensR) (along : list Z) : res tensR :=
  match shp t with
  | [] => Ok t
  | _ =>
      let along' := match along with [] => iota (length (shp t)) | _ => along end in
      bind (sumApi t along') (fun s =>
      bind (sizesOf along' t) (fun sizes =>
      Ok (Tn (shp s) (fun idx => (at_ s idx / IZR (counts sizes))%R))))
  end.

(** The symbolic gradient of Mean: through the division (operatorPointwise_binary.go:
    809-811, the quotient of the gradient and the counts; sizeOp passes none on), then
    sumOp.SymDiff. *)
Definition meanSymDiff (along : list Z) (x grad : tensR) : res tensR :=
  bind (sizesOf along x) (fun sizes =>
  sumSymDiff along x (Tn (shp grad) (fun idx => (at_ grad idx / IZR (counts sizes))%R))).

(** ** Norm *)
(** A float result that may be NaN. (operations.go:270-326 returns such values.) *)
Inductive num : Type := Num (x : R) | NaN.
(** math.Pow(y, 1/p) for an integer [p] >= 1 (Go's Pow, called through operations.go:314):
    [p] = 1 leaves [y]; a negative [y] with a broken exponent is NaN; Pow(0, 1/p) is 0. *)
Definition powInv (y : R) (p : nat) : num :=
  if Nat.eqb p 1 then Num y
  else if Rlt_dec y 0 then NaN
  else if Req_EM_T y 0 then Num 0 else Num (Rpower y (/ INR p)).
(** Norm (operations.go:279-322) for [p] >= 1: with [p] = 2 the square root of the sum of
    the squares (lines 280-293), otherwise Pow(Sum(Pow(a, p)), 1/p) (lines 312-314). Pow
    with an integer exponent is the power. For [p] <= 0 see DESIGN.md (not modelled). *)
Definition normApi (t : tensR) (axis : Z) (p : nat) : res (list Z * (list Z -> num)) :=
  bind (sumApi (Tn (shp t) (fun idx => pow (at_ t idx) p)) [axis]) (fun s =>
  Ok (shp s, fun idx => if Nat.eqb p 2 then Num (sqrt (at_ s idx)) else powInv (at_ s idx) p)).
