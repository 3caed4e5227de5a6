(** Model of dropout (op_dropout.go) and of MinBetween/MaxBetween
    (op_minmaxBetween.go) over exact reals.  No proofs in this file. *)
From Coq Require Import Arith Reals List Bool.
From Verif Require Import LoopModel.
Import ListNotations.
Local Open Scope R_scope.

(** op_dropout.go:14-20 [dropoutOp]: the k-th call of rndGen returns [rnd k]. *)
Record dropout := { probability : R; isTraining : bool }.

(** Go's x < y, x == 0 on the values. (op_dropout.go:104-129.) *)
Definition ltR (x y : R) : bool := if Rlt_dec x y then true else false.
(** Go's x == 0 on the values (op_dropout.go:104-129). *)
Definition isZero (x : R) : bool := if Req_EM_T x 0 then true else false.

(** op_dropout.go:104-129 [do], float64 case: writes into [output] only the kept
    entries.  [k] counts the calls of the generator. *)
Definition dropoutLoop (p : R) (rnd : nat -> R) (input output : list R) : option (list R) :=
  let keepProb := 1 - p in
  loop (length input) (fun i out =>
    match aget input i with
    | None => None
    | Some d =>
        let r := rnd i in
        if ltR r keepProb then aset out i (d / keepProb) else Some out
    end) output.

(** op_dropout.go:74-89 [Do]: a fresh tensor of zeros receives the result. *)
Definition dropoutDo (op : dropout) (rnd : nat -> R) (input : list R) : option (list R) :=
  if isZero (probability op) || negb (isTraining op) then Some input
  else dropoutLoop (probability op) rnd input (repeat 0 (length input)).

(** op_dropout.go:91-104 [UsePreallocDo]: line 101 passes the method value
    inputTensor.Data instead of calling it, so [do] falls in its default case and
    panics ([None]). *)
Definition dropoutPrealloc (op : dropout) (rnd : nat -> R) (prealloc input : list R) : option (list R) :=
  if isZero (probability op) || negb (isTraining op) then Some input
  else None.

(** op_dropout.go:213-252 [dropoutDiffOp.UsePreallocDo], float64 case: output of the
    operator, gradient of the output, prealloc. *)
Definition dropoutDiff (op : dropout) (prealloc output dy : list R) : option (list R) :=
  loop (length dy) (fun i dx =>
    if negb (isZero (probability op)) then
      match aget output i, aget dy i with
      | Some o, Some g => aset dx i (if negb (isZero o) then g / probability op else 0)
      | _, _ => None
      end
    else aset dx i 0) prealloc.

(** op_minmaxBetween.go:36-44, 106-114: tensor.MinBetween and tensor.MaxBetween,
    assumed to be the entrywise minimum and maximum; one entry. *)
Inductive between := MinB | MaxB.
(** op_minmaxBetween.go:36-44, 106-114. *)
Definition betweenDo (k : between) (a b : R) : R :=
  match k with
  | MinB => if ltR b a then b else a
  | MaxB => if ltR a b then b else a
  end.

(** op_minmaxBetween.go:150-168 [minmaxSymDiff], one entry: Eq with retSame is 1 or 0. *)
Definition minmaxSymDiff (a b out grad : R) : R * R :=
  let mask := if Req_EM_T a out then 1 else 0 in
  let gradA := grad * mask in
  let gradB := grad - gradA in
  (gradA, gradB).

(** op_minmaxBetween.go:170-222 [minmaxAutoDiff], one entry; [da] and [db] are the
    gradients held by the operands before the call: the mask is a < out (175, 182),
    the product is added to a's gradient (204-210), the difference gradOut - adv.d
    replaces b's (213-218; gradB is nil, so sub.Incr adds nothing). *)
Definition minmaxAutoDiff (a b out grad da db : R) : R * R :=
  let mask := if ltR a out then 1 else 0 in
  let da' := da + grad * mask in
  let db' := grad - da' in
  (da', db').
