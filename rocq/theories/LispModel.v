(** Model of the lisp machine (vm_genera.go, CPU build): the graph is executed
    node by node and the gradients are accumulated by going back over the queue
    of executed operators.  No proofs in this file.

    The first part is the control flow, for any meaning of executing and
    differentiating a node; the second part is the meaning for graphs of scalar
    operators over exact reals (GradModel's nodes). *)
From Coq Require Import Arith ZArith Reals List Bool.
From Verif Require Import CalcModel BackpropModel GradModel.
Import ListNotations.
Local Open Scope nat_scope.

Section Control.
(** What is bound to the nodes. *)
Variable S : Type.
(** m.sorted: operands before their users (vm_genera.go:249-258). *)
Variable sorted : list nat.
(** forward() on a node without the queueing and the NaN check: new state and
    whether it worked (vm_genera.go:296-487). *)
Variable exec : nat -> S -> S * bool.
(** The operator of a node implements ADOp (vm_genera.go:491; inputs and random
    nodes return before that, lines 310-328). *)
Variable isAD : nat -> bool.
(** NaN watching is on and finds one (vm_genera.go:503-507). *)
Variable bad : nat -> S -> bool.
(** adInstr.do on the node (vm_genera.go:512-563, 666-683). *)
Variable diff : nat -> S -> S * bool.
(** runFlags: run forward, run backward (vm_genera.go:46, 79-88). *)
Variable runFwd runBwd : bool.

(** vm_genera.go:15-41: the fields fwd, bwd and q (the nodes of the instructions)
    and the state of the graph. *)
Record lm := LM { lfwd : Z; lbwd : Z; lq : list nat; lst : S }.

(** vm_genera.go:45-72 with 249-258: fwd is 0, bwd is -1, the queue empty. *)
Definition newMachine (s : S) : lm := LM 0 (-1) [] s.

(** vm_genera.go:110-113. *)
Definition reset (m : lm) : lm :=
  LM (Z.of_nat (length sorted) - 1) (Z.of_nat (length (lq m)) - 1) (lq m) (lst m).

(** One round of the loop at vm_genera.go:266-268: forward(), then fwd++ whether
    or not it failed. *)
Definition fwdRound (m : lm) : lm * bool :=
  if (lfwd m <? 0)%Z then (LM (lfwd m + 1) (lbwd m) (lq m) (lst m), true)     (* 297-299 *)
  else match nth_error sorted (Z.to_nat (lfwd m)) with
       | None => (m, false)                                  (* not reached: fwd < len *)
       | Some n =>
           let (s, ok) := exec n (lst m) in
           if ok then
             (LM (lfwd m + 1) (lbwd m) (if isAD n && runBwd then lq m ++ [n] else lq m) s,
              negb (bad n s))
           else (LM (lfwd m + 1) (lbwd m) (lq m) s, false)
       end.

(** The loop; [fuel] at least the number of rounds. (vm_genera.go:260-294.) *)
Fixpoint fwdLoop (fuel : nat) (m : lm) : lm * bool :=
  if (lfwd m <? Z.of_nat (length sorted))%Z then
    match fuel with
    | O => (m, true)
    | Datatypes.S f => let (m', ok) := fwdRound m in
                       if ok then fwdLoop f m' else (m', false)
    end
  else (m, true).

(** One round of vm_genera.go:287-289: backward(), then bwd--. *)
Definition bwdRound (m : lm) : lm * bool :=
  match nth_error (lq m) (Z.to_nat (lbwd m)) with
  | None => (LM (lfwd m) (lbwd m - 1) (lq m) (lst m), false)       (* 516-518 *)
  | Some n => let (s, ok) := diff n (lst m) in
              (LM (lfwd m) (lbwd m - 1) (lq m) s, ok)
  end.

(** The loop of the backward half (vm_genera.go:260-294); [fuel] at least the number of rounds.
    *)
Fixpoint bwdLoop (fuel : nat) (m : lm) : lm * bool :=
  if (0 <=? lbwd m)%Z then
    match fuel with
    | O => (m, true)
    | Datatypes.S f => let (m', ok) := bwdRound m in
                       if ok then bwdLoop f m' else (m', false)
    end
  else (m, true).

(** vm_genera.go:283-289: the backward half of runall. *)
Definition backwardHalf (m : lm) : lm * bool :=
  let b := if (lbwd m <? 0)%Z then (Z.of_nat (length (lq m)) - 1)%Z else lbwd m in
  bwdLoop (Datatypes.S (Z.to_nat b)) (LM (lfwd m) b (lq m) (lst m)).

(** What RunAll returns: nil, or an error with the node named in it, if any
    (vm_genera.go:169-178). *)
Inductive outcome := Done | Failed (named : option nat).

(** vm_genera.go:169-178. *)
Definition nameOf (m : lm) : option nat :=
  if (lfwd m <? Z.of_nat (length sorted))%Z then nth_error sorted (Z.to_nat (lfwd m)) else None.

(** The deferred m.q = nil (vm_genera.go:129-133). *)
Definition dropQ (m : lm) : lm := LM (lfwd m) (lbwd m) (if runBwd then [] else lq m) (lst m).

(** vm_genera.go:121-188 [RunAll] with 260-294 [runall] (checkRoots left out).
    When the forward half fails RunAll returns at once; see [background]. *)
Definition forwardHalf (m : lm) : lm * bool :=
  if runFwd then fwdLoop (Datatypes.S (length sorted)) m else (m, true).
(** vm_genera.go:121-188. *)
Definition runAll (m : lm) : lm * outcome :=
  let (m1, ok) := forwardHalf m in
  if negb ok then (dropQ m1, Failed (nameOf m1))
  else if negb runBwd then (m1, Done)
  else let (m2, ok2) := backwardHalf m1 in
       (dropQ m2, if ok2 then Done else Failed (nameOf m2)).

(** After handing over the error of the forward half the goroutine does not
    return (vm_genera.go:270-278): it goes on with the backward half while the
    caller of RunAll is running already.  Every state it can leave behind: any
    number of rounds of the backward loop. *)
Inductive background : lm -> lm -> Prop :=
| bg_stop m : background m m
| bg_round m m' m'' : (0 <= lbwd m)%Z -> bwdRound m = (m', true) ->
                      background m' m'' -> background m m''.

End Control.
Arguments LM {S}. Arguments lfwd {S}. Arguments lbwd {S}. Arguments lq {S}. Arguments lst {S}.

(** * Scalar graphs *)

(** What is bound to a node: a value or a dualValue (dual.go:11-14). *)
Inductive binding := BVal (v : R) | BDual (v d : R).
(** (node.go:22-60, boundTo.) *)
Definition bindings := nat -> option binding.

Section Scalar.
Variable prog : nat -> gnode.
(** m.g.roots.Contains(n) || n.isRoot() (vm_genera.go:390). *)
Variable isRoot : nat -> bool.

(** child.boundTo.( *dualValue).Value (vm_genera.go:350); [None]: the assertion
    panics. *)
Definition dualOf (s : bindings) (n : nat) : option (R * R) :=
  match s n with Some (BDual v d) => Some (v, d) | _ => None end.

(** op.Do on the children's values: op.go:248, op_math.go:245, 468. *)
Definition compute (s : bindings) (n : nat) : option R :=
  match prog n with
  | GIn => None
  | GConst r => Some r
  | GU o c => match dualOf s c with Some (x, _) => Some (usem o x) | None => None end
  | GB o a b => match dualOf s a, dualOf s b with
                | Some (x, _), Some (y, _) => Some (bsem o x y)
                | _, _ => None
                end
  end.

(** vm_genera.go:296-487 on a scalar node that is no statement.  An input gets a
    derivative of zero unless it has one already (310-315, dual.go:153-161); a
    root's derivative is set to one (390-414, dual.go:213-250, 323-360), that of
    any other node to zero (439-487, dual.go:262-321).  An input without a value
    panics, here a failure. *)
Definition execScalar (n : nat) (s : bindings) : bindings * bool :=
  match prog n with
  | GIn => match s n with
           | None => (s, false)
           | Some (BVal v) => (upd s n (Some (BDual v 0%R)), true)
           | Some (BDual _ _) => (s, true)
           end
  | _ => match compute s n with
         | None => (s, false)
         | Some v => (upd s n (Some (BDual v (if isRoot n then 1%R else 0%R))), true)
         end
  end.

(** elemUnaryOp and elemBinOp implement ADOp, constants do not (op_math.go:249,
    458; op.go:234-291). *)
Definition isADScalar (n : nat) : bool :=
  match prog n with GU _ _ | GB _ _ _ => true | _ => false end.

(** node.go:325 [isConstant]. *)
Definition isConstG (n : nat) : bool := match prog n with GConst _ => true | _ => false end.

(** DoDiff of scalar operators: op_math.go:249-283, 458-466.  The two operands
    are updated one after the other (they may be the same node); the product's
    rule leaves out constants (operatorPointwise_binary.go:670-672, 739-741).
    (Subtraction does its second operand first; addition makes no difference of
    it.) *)
Definition diffScalar (n : nat) (s : bindings) : bindings * bool :=
  match prog n with
  | GU o c =>
      match dualOf s c, dualOf s n with
      | Some (x, xd), Some (y, yd) =>
          match unaryDiff o x y xd yd with
          | Some d => (upd s c (Some (BDual x d)), true)
          | None => (s, false)
          end
      | _, _ => (s, false)
      end
  | GB o a b =>
      match dualOf s a, dualOf s b, dualOf s n with
      | Some (x, xd), Some (y, _), Some (z, zd) =>
          let skip c := match o with OMul => isConstG c | _ => false end in
          let s1 := if skip a then s
                    else upd s a (Some (BDual x (fst (binDiff o x y z xd 0%R zd)))) in
          match dualOf s1 b with
          | Some (_, yd) =>
              (if skip b then s1
               else upd s1 b (Some (BDual y (snd (binDiff o x y z 0%R yd zd)))), true)
          | None => (s, false)
          end
      | _, _, _ => (s, false)
      end
  | _ => (s, false)
  end.

(** gorgonia.go:248-297 [Let] and node.go:651-678 [bind] of a plain value: inside
    a dual value only the value is replaced. *)
Definition letValue (s : bindings) (w : nat) (v : R) : bindings :=
  upd s w (Some (match s w with Some (BDual _ d) => BDual v d | _ => BVal v end)).

(** node.go [Value] and [Grad]. *)
Definition valueOf (s : bindings) (n : nat) : option R :=
  match s n with Some (BVal v) => Some v | Some (BDual v _) => Some v | None => None end.
(** node.go:446-455 [Grad]. *)
Definition gradAt (s : bindings) (n : nat) : option R :=
  match s n with Some (BDual _ d) => Some d | _ => None end.

(** A machine with the default flags (forward and backward, vm_genera.go:46),
    without NaN watching, over a list of sorted nodes: RunAll. *)
Definition runScalar (sorted : list nat) (m : lm bindings) : lm bindings * outcome :=
  runAll bindings sorted execScalar isADScalar (fun _ _ => false) diffScalar true true m.

(** The usual training loop makes a new machine for every run: NewLispMachine(g)
    and RunAll on what the previous ones left bound to the nodes.
    (vm_genera.go:46-75, 121-188.) *)
Definition freshRun (sorted : list nat) (s : bindings) : bindings * outcome :=
  let (m, o) := runScalar sorted (newMachine bindings s) in (lst m, o).
(** Several such runs (vm_genera.go:121-188), up to the first failure. *)
Fixpoint freshRuns (k : nat) (sorted : list nat) (s : bindings) : bindings * outcome :=
  match k with
  | O => (s, Done)
  | Datatypes.S k' => let (s', o) := freshRun sorted s in
                      match o with
                      | Done => freshRuns k' sorted s'
                      | Failed w => (s', Failed w)
                      end
  end.
End Scalar.
