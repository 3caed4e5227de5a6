(** Elementwise binary arithmetic ([Add], [Sub], [HadamardProd], [HadamardDiv], [Pow]) with
    tensors and scalars mixed, with the symbolic gradient (elemBinOp.SymDiff) and the
    automatic one (elemBinOp.DoDiff) (op_math.go, operatorPointwise_binary.go,
    execution.go). Exact real arithmetic; CPU only. What is said of the tensor library is
    assumed. Proof-free. *)
From Coq Require Import List ZArith Reals Bool.
From Verif Require Import Sums BroadcastModel ShapeGradModel ReduceModel.
Import ListNotations.
Local Open Scope Z_scope.

(** addOpType, subOpType, mulOpType, divOpType, powOpType
    (operatorPointwise_binary_const.go:29-36): the operators with isArith. *)
Inductive arith := OAdd | OSub | OMul | ODiv | OPow.
(** The operation on numbers (operatorPointwise_binary.go:55-75). math.Pow is modelled
    for positive bases only, where it is [Rpower]. *)
Definition opR (o : arith) : R -> R -> R :=
  match o with OAdd => Rplus | OSub => Rminus | OMul => Rmult | ODiv => Rdiv | OPow => Rpower end.

(** ** Symbolic *)
(** A unary operator applied to every entry (elemUnaryOp.do, op_math.go:511-534). *)
Definition mapT (f : R -> R) (t : tensR) : tensR := Tn (shp t) (fun idx => f (at_ t idx)).
(** onef64 (const.go:88, used at operatorPointwise_binary.go:890): a scalar. *)
Definition oneT : tensR := Tn [] (fun _ => 1%R).
(** ʘBinOpDiffExprs: addDiffExpr, subDiffExpr, hadamardProdDiffExpr, hadamardDivDiffExpr,
    hadamardPowDiffExpr (operatorPointwise_binary.go:430-432, 532-542, 647-660, 809-829,
    878-929). The rewriting of new nodes by the stabilisation functions (operations.go:16-41)
    is left out; it is the subject of C19 and C20. *)
Definition diffExprs (o : arith) (x y z g : tensR) : res (tensR * tensR) :=
  match o with
  | OAdd => Ok (g, g)
  | OSub => Ok (g, mapT Ropp g)
  | OMul =>
      bind (ewise Rmult y g) (fun dzdx =>
      bind (ewise Rmult x g) (fun dzdy => Ok (dzdx, dzdy)))
  | ODiv =>
      bind (ewise Rdiv g y) (fun dzdx =>
      bind (ewise Rdiv z y) (fun q =>
      bind (ewise Rmult (mapT Ropp q) g) (fun dzdy => Ok (dzdx, dzdy))))
  | OPow =>
      bind (ewise Rminus y oneT) (fun ym1 =>
      bind (ewise Rpower x ym1) (fun pow =>
      bind (ewise Rmult g y) (fun gy =>
      bind (ewise Rmult gy pow) (fun dzdx =>
      bind (ewise Rmult g z) (fun gz =>
      bind (ewise Rmult gz (mapT ln x)) (fun dzdy => Ok (dzdx, dzdy)))))))
  end.
(** "needed to handle scalar gradients" (op_math.go:232-240). A node is a scalar if its
    shape is empty. *)
Definition sumScalar (input grad : tensR) : res tensR :=
  match shp input, shp grad with [], _ :: _ => sumApi grad [] | _, _ => Ok grad end.
(** elemBinOp.SymDiff (op_math.go:219-243). *)
Definition ewiseSymDiff (o : arith) (x y z g : tensR) : res (tensR * tensR) :=
  bind (diffExprs o x y z g) (fun p =>
  bind (sumScalar x (fst p)) (fun gx =>
  bind (sumScalar y (snd p)) (fun gy => Ok (gx, gy)))).

(** ** Automatic *)
(** A value: a scalar (F64) or the data of a dense tensor. All tensors in one call have
    the same shape. (values.go; dual.go:11-14.) *)
Inductive dval := Sc (v : R) | Te (l : list R).
(** Entries combined, a scalar with each of them (tensor.Add etc., library, called at
    operatorPointwise_binary.go:415, 421). *)
Definition zipOp (f : R -> R -> R) (a b : dval) : dval :=
  match a, b with
  | Sc v, Sc w => Sc (f v w)
  | Sc v, Te l => Te (map (f v) l)
  | Te l, Sc w => Te (map (fun v => f v w) l)
  | Te l, Te m => Te (map (fun p => f (fst p) (snd p)) (combine l m))
  end.
(** The operators made by newEBOByType (op_math.go:36-68): scalarBinOp, or tBinOp with
    tensorLeft. *)
Inductive ebo := ScalarOp | TensorOp (tensorLeft : bool).
(** op_math.go:36-68. *)
Definition newEBOByType (a b : dval) : ebo :=
  match a, b with Sc _, Sc _ => ScalarOp | Sc _, Te _ => TensorOp false | Te _, _ => TensorOp true end.
(** elemBinOp.Do: scalarBinOp.Do (operatorPointwise_binary.go:40-293; an error
    unless both are scalars) and tBinOp.do (359-426; an error if the operand that must be a
    tensor is none). *)
Definition ewDo (e : ebo) (f : R -> R -> R) (a b : dval) : res dval :=
  match e, a, b with
  | ScalarOp, Sc _, Sc _ => Ok (zipOp f a b)
  | ScalarOp, _, _ => Err
  | TensorOp true, Te _, _ => Ok (zipOp f a b)
  | TensorOp true, _, _ => Err
  | TensorOp false, _, Te _ => Ok (zipOp f a b)
  | TensorOp false, _, _ => Err
  end.
(** elemBinOp.UnsafeDo (op_math.go:323-351): the result, and the operands as they are left.
    tensor.UseUnsafe (library): the result is stored in the first operand if it is a
    tensor, otherwise in the second. The temporary reshape for operands of equal size
    (lines 333-345) is left out: tensors with a single entry are not covered. *)
Definition ewUnsafeDo (e : ebo) (f : R -> R -> R) (a b : dval) : res (dval * dval * dval) :=
  bind (ewDo e f a b) (fun r =>
  Ok (match a, b with Te _, _ => (r, r, b) | Sc _, Te _ => (r, a, r) | Sc _, Sc _ => (r, a, b) end)).
(** elemBinOp.IncrDo (op_math.go:354-372) with tBinOp.IncrDo
    (operatorPointwise_binary.go:331-357): a tensor is incremented in place; otherwise the
    sum comes back inside noIncrErr, a new value. Either way this is what the caller stores
    as the derivative. *)
Definition ewIncrDo (e : ebo) (f : R -> R -> R) (incr a b : dval) : res dval :=
  match e, incr with
  | TensorOp _, Te _ => bind (ewDo e f a b) (fun r => Ok (zipOp Rplus incr r))
  | _, _ => bind (ewDo e f a b) (fun r =>
            bind (ewUnsafeDo (newEBOByType incr r) Rplus incr r) (fun t => Ok (fst (fst t))))
  end.
(** dualValue.d of the two inputs and of the output. (dual.go:11-14.) *)
Record derivs := Dv { xd : dval; yd : dval; zd : dval }.
(** addDiff (operatorPointwise_binary.go:434-530) on the CPU: [xd + zd] and then [yd + zd],
    both with UseUnsafe (ExternalOp.Do, execution.go:103-106). *)
Definition addDiff (d : derivs) : res derivs :=
  bind (ewUnsafeDo (newEBOByType (xd d) (zd d)) Rplus (xd d) (zd d)) (fun t =>
  let '(r, _, zd1) := t in
  bind (ewUnsafeDo (newEBOByType (yd d) zd1) Rplus (yd d) zd1) (fun t' =>
  let '(r', _, zd2) := t' in Ok (Dv r r' zd2))).
(** subDiff (operatorPointwise_binary.go:544-645) on the CPU: first [yd - zd], for a scalar
    into a new value (lines 589-592 with execution.go:94-102); then [xd + zd] unsafely, as
    line 633 sets the preallocated value of the wrong operator. *)
Definition subDiff (d : derivs) : res derivs :=
  bind (match yd d with
        | Sc _ => bind (ewDo (newEBOByType (yd d) (zd d)) Rminus (yd d) (zd d)) (fun r => Ok (r, zd d))
        | Te _ => bind (ewUnsafeDo (newEBOByType (yd d) (zd d)) Rminus (yd d) (zd d)) (fun t => Ok (fst (fst t), snd t))
        end) (fun p =>
  bind (ewUnsafeDo (newEBOByType (xd d) (snd p)) Rplus (xd d) (snd p)) (fun t =>
  let '(r, _, zd2) := t in Ok (Dv r (fst p) zd2))).
(** hadamardProdDiff (operatorPointwise_binary.go:662-807) on the CPU for inputs that are
    not constants: IncrDo of [y * zd] into [xd], then of [x * zd] into [yd]. *)
Definition mulDiff (x y : dval) (d : derivs) : res derivs :=
  bind (ewIncrDo (newEBOByType y (zd d)) Rmult (xd d) y (zd d)) (fun r =>
  bind (ewIncrDo (newEBOByType x (zd d)) Rmult (yd d) x (zd d)) (fun r' =>
  Ok (Dv r r' (zd d)))).
(** Neg of a value (elemUnaryOp.do, op_math.go:511-534), and [y - 1]
    (operatorPointwise_binary.go:934-955). *)
Definition mapV (f : R -> R) (a : dval) : dval := match a with Sc v => Sc (f v) | Te l => Te (map f l) end.
(** hadamardDivDiff (operatorPointwise_binary.go:831-875). *)
Definition divDiff (y z : dval) (d : derivs) : res derivs :=
  let div := newEBOByType (zd d) y in
  bind (ewIncrDo div Rdiv (xd d) (zd d) y) (fun r =>
  bind (ewDo div Rdiv z y) (fun q =>
  bind (ewIncrDo (newEBOByType z y) Rmult (yd d) (zd d) (mapV Ropp q)) (fun r' =>
  Ok (Dv r r' (zd d))))).
(** hadamardPowDiff (operatorPointwise_binary.go:931-997). *)
Definition powDiff (x y z : dval) (d : derivs) : res derivs :=
  let ym1 := mapV (fun v => Rminus v 1) y in
  bind (ewDo (newEBOByType x ym1) Rpower x ym1) (fun pow =>
  let mul := newEBOByType y x in
  bind (ewUnsafeDo mul Rmult pow y) (fun t =>
  let pow' := fst (fst t) in
  bind (ewIncrDo mul Rmult (xd d) pow' (zd d)) (fun r =>
  bind (ewDo mul Rmult z (mapV ln x)) (fun logx =>
  bind (ewIncrDo mul Rmult (yd d) logx (zd d)) (fun r' =>
  Ok (Dv r r' (zd d))))))).
(** "handle scalar gradients" (op_math.go:262-279): the sum of a tensor that became the
    derivative of a scalar node. *)
Definition sumDeriv (input dv : dval) : dval :=
  match input, dv with Sc _, Te l => Sc (lsum l) | _, _ => dv end.
(** elemBinOp.DoDiff (op_math.go:249-281) with ʘBinOpDiffFns; [x], [y], [z] are the values.
    The two inputs are different nodes, neither a constant. *)
Definition ewiseDoDiff (o : arith) (x y z : dval) (d : derivs) : res derivs :=
  bind (match o with
        | OAdd => addDiff d
        | OSub => subDiff d
        | OMul => mulDiff x y d
        | ODiv => divDiff y z d
        | OPow => powDiff x y z d
        end) (fun d' =>
  Ok (Dv (sumDeriv x (xd d')) (sumDeriv y (yd d')) (zd d'))).
