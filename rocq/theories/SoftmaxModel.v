(** [SoftMax] and [LogSoftMax] with their gradient operator (op_softmax.go), over exact
    reals. Nodes are modelled as in BroadcastModel.v by their shape and their value.
    What is said of the tensor library is assumed. Proof-free. *)
From Coq Require Import List ZArith Reals Bool.
From Verif Require Import Sums BroadcastModel ShapeGradModel.
Import ListNotations.
Local Open Scope Z_scope.

Notation tensR := (@tens R).

(** tensor.Shape: IsColVec, IsRowVec and IsVector (library, used at op_softmax.go:109). *)
Definition isColVec (s : list Z) : bool := match s with [r; c] => (c =? 1) && (1 <? r) | _ => false end.
(** tensor.Shape.IsRowVec (library). *)
Definition isRowVec (s : list Z) : bool := match s with [r; c] => (r =? 1) && (1 <? c) | _ => false end.
(** tensor.Shape.IsVector (library, used at op_softmax.go:109). *)
Definition isVector (s : list Z) : bool := isColVec s || isRowVec s || Nat.eqb (length s) 1.

(** The library's reading of an axis: modulo the number of axes, so that -1 is the last
    one. *)
Definition resolveAxis (axis : Z) (s : list Z) : Z := axis mod Z.of_nat (length s).
(** Sum over the entries with the coordinates of [idx] on all axes but [a].
    (Part of tensor.SoftMax, library.) *)
Definition lineSum (s : list Z) (a : Z) (idx : list Z) (F : list Z -> R) : R :=
  @over R CRing_R s (fun full => if eqShape (dropAxes [a] full) (dropAxes [a] idx) then F full else 0%R).

(** tensor.SoftMax and tensor.LogSoftMax (library, called at op_softmax.go:116-125). They
    subtract the largest entry first, which changes nothing over exact reals. *)
Definition libSoftMax (isLog : bool) (x : tensR) (axis : Z) : tensR :=
  let a := resolveAxis axis (shp x) in
  Tn (shp x) (fun idx =>
    let s := lineSum (shp x) a idx (fun full => exp (at_ x full)) in
    if isLog then (at_ x idx - ln s)%R else (exp (at_ x idx) / s)%R).
(** tensor.SoftMaxB and tensor.LogSoftMaxB (library, called at op_softmax.go:280-284). *)
Definition libSoftMaxB (isLog : bool) (y grad : tensR) (axis : Z) : tensR :=
  let a := resolveAxis axis (shp y) in
  Tn (shp y) (fun idx =>
    if isLog then (at_ grad idx - exp (at_ y idx) * lineSum (shp y) a idx (at_ grad))%R
    else (at_ y idx * (at_ grad idx - lineSum (shp y) a idx (fun full => at_ y full * at_ grad full)))%R).

(** op_softmax.go:29-33. *)
Record softmaxOp := SO { oaxis : Z; oLog : bool }.
(** op_softmax.go:13-26, 35-46: the axis is the first one given, otherwise -1. *)
Definition newSoftmaxOp (isLog : bool) (axes : list Z) : softmaxOp :=
  SO (match axes with a :: _ => a | [] => -1 end) isLog.
(** op_softmax.go:106-114: the axis of the forward computation. *)
Definition forwardAxis (op : softmaxOp) (s : list Z) : Z :=
  let axis := Z.of_nat (length s) - 1 in
  let axis := if isColVec s || (isVector s && negb (isRowVec s)) then 0 else axis in
  if negb (oaxis op =? -1) then oaxis op else axis.
(** op_softmax.go:86-129 [Do] and [UsePreallocDo]; scalars are not tensors (75-77). *)
Definition softmaxDo (op : softmaxOp) (x : tensR) : res tensR :=
  match shp x with [] => Err | _ => Ok (libSoftMax (oLog op) x (forwardAxis op (shp x))) end.
(** op_softmax.go:262-285 [softmaxDiffOp.Do] and [UsePreallocDo]: the axis is passed on as
    it stands in the operator. *)
Definition softmaxDiff (op : softmaxOp) (x y grad : tensR) : res tensR :=
  match shp y with [] => Err | _ => Ok (libSoftMaxB (oLog op) y grad (oaxis op)) end.
(** op_softmax.go:13-26 [SoftMax], [LogSoftMax]. *)
Definition softmaxApi (isLog : bool) (axes : list Z) (x : tensR) : res tensR := softmaxDo (newSoftmaxOp isLog axes) x.
(** op_softmax.go:157-169 [SymDiff]. *)
Definition softmaxSymDiff (isLog : bool) (axes : list Z) (x output grad : tensR) : res tensR :=
  softmaxDiff (newSoftmaxOp isLog axes) x output grad.
