(** Model of the options of the machines and what they switch (vm.go:28-330; vm_tape.go:15-118;
    vm_genera.go:15-108), of the decision what is logged (vm_tape.go:369-425;
    vm_genera.go:565-599), and of LastRun and checkRoots (vm_genera.go:205-247).  The runs are
    those of [LispModel].  No proofs in this file. *)
From Coq Require Import Arith NArith ZArith List Bool.
From Verif Require Import BroadcastModel LispModel.
Import ListNotations.

(** A set of flags is a uint16 (vm_tape.go:35-38; vm_genera.go:36-38): uint16(1) << i. *)
Definition shl1 (i : N) : N := (N.shiftl 1 i mod 65536)%N.
(** f |= uint16(1) << i (vm_genera.go:78). *)
Definition setFlag (f i : N) : N := N.lor f (shl1 i).
(** f &= ^(uint16(1) << i) (vm_genera.go:79). *)
Definition clearFlag (f i : N) : N := N.land f (65535 - shl1 i).
(** (f >> i) & 1 == 1 (vm_genera.go:77). *)
Definition hasFlag (f i : N) : bool := (N.land (N.shiftr f i) 1 =? 1)%N.
(** The constants (vm.go:29-39). *)
Definition fwdOnly : N := 0.
(** vm.go:31. *)
Definition bwdOnly : N := 1.
(** vm.go:32. *)
Definition fWatchNaN : N := 2.
(** vm.go:33. *)
Definition fWatchInf : N := 3.
(** vm.go:34. *)
Definition fWatchPointer : N := 4.
(** vm.go:35. *)
Definition fAllocVals : N := 5.
(** vm.go:36. *)
Definition fSpare2 : N := 6.
(** vm.go:37. *)
Definition fSpare3 : N := 7.
(** vm.go:38. *)
Definition fWatchAll : N := 8.

(** What can be in a watch list (vm.go:109-127): an int, a NodeID, a *Node, or something
    else. *)
Inductive item := IReg (i : nat) | IId (i : nat) | INode (n : nat) | IOther.
(** The options (vm.go:45-329).  Nodes, formats, programs and engines are numbers; a logger
    is given or nil; WithPrecompiled is given a program and maybe a map. *)
Inductive vmopt :=
| EvalMode | WithLogger (given : bool) | WithValueFmt (f : nat) | WithWatchlist (l : list item)
| WithNaNWatch | WithInfWatch | WithPointerWatch | ExecuteFwdOnly | ExecuteBwdOnly
| LogFwd | LogBwd | LogBothDir | TraceExec | BindDualValues (ns : list nat)
| WithPrecompiled (prog : nat) (locMap : bool) | WithManualGradient | WithEngine (e : nat).

(** The fields of a lispMachine the options change (vm_genera.go:29-40). *)
Record lisp := Lisp { lRun : N; lLog : N; lWatch : list nat; lLogger : bool; lFmt : nat; lEng : nat; lEval : bool }.
(** vm_genera.go:77-79, 84-86. *)
Definition runF (m : lisp) (f : N -> N) : lisp := Lisp (f (lRun m)) (lLog m) (lWatch m) (lLogger m) (lFmt m) (lEng m) (lEval m).
(** vm_genera.go:74-76. *)
Definition logF (m : lisp) (f : N -> N) : lisp := Lisp (lRun m) (f (lLog m)) (lWatch m) (lLogger m) (lFmt m) (lEng m) (lEval m).

(** The type assertion of vm.go:110 for each item; [None] panics. *)
Fixpoint allNodes (l : list item) : option (list nat) :=
  match l with
  | [] => Some []
  | INode n :: r => match allNodes r with Some ns => Some (n :: ns) | None => None end
  | _ => None
  end.
(** An option on a lispMachine (vm.go:45-329); [None] panics. *)
Definition optLisp (m : lisp) (o : vmopt) : option lisp :=
  match o with
  | EvalMode => Some (Lisp (lRun m) (lLog m) (lWatch m) (lLogger m) (lFmt m) (lEng m) true)
  | WithLogger g => Some (if g then Lisp (lRun m) (lLog m) (lWatch m) true (lFmt m) (lEng m) (lEval m) else m)
  | WithValueFmt f => Some (Lisp (lRun m) (lLog m) (lWatch m) (lLogger m) f (lEng m) (lEval m))
  | WithWatchlist [] => Some (logF m (fun f => setFlag f fWatchAll))
  | WithWatchlist l =>
      match allNodes l with
      | Some ns => Some (Lisp (lRun m) (lLog m) (lWatch m ++ ns) (lLogger m) (lFmt m) (lEng m) (lEval m))
      | None => None
      end
  | WithNaNWatch => Some (runF m (fun f => setFlag f fWatchNaN))
  | WithInfWatch => Some (runF m (fun f => setFlag f fWatchInf))
  | WithPointerWatch => None
  | ExecuteFwdOnly => Some (runF m (fun f => clearFlag (setFlag f fwdOnly) bwdOnly))
  | ExecuteBwdOnly => Some (runF m (fun f => clearFlag (setFlag f bwdOnly) fwdOnly))
  | LogFwd => Some (logF m (fun f => setFlag f fwdOnly))
  | LogBwd => Some (logF m (fun f => setFlag f bwdOnly))
  | LogBothDir => Some (logF m (fun f => setFlag (setFlag f fwdOnly) bwdOnly))
  | TraceExec => None
  | BindDualValues _ => Some m
  | WithPrecompiled _ _ => Some m
  | WithManualGradient => Some (runF m (fun f => setFlag f fSpare3))
  | WithEngine e => Some (Lisp (lRun m) (lLog m) (lWatch m) (lLogger m) (lFmt m) e (lEval m))
  end.
(** The loop over the options (vm_genera.go:56-58). *)
Fixpoint optsLisp (m : lisp) (os : list vmopt) : option lisp :=
  match os with [] => Some m | o :: r => match optLisp m o with Some m' => optsLisp m' r | None => None end end.
(** NewLispMachine up to init (vm_genera.go:45-58): runs forwards and backwards, logs
    nothing; format and engine 0 are the defaults. *)
Definition newLisp (os : list vmopt) : option lisp :=
  optsLisp (Lisp (N.lor (N.lor 0 (shl1 fwdOnly)) (shl1 bwdOnly)) 0 [] false 0 0 false) os.
(** vm_genera.go:77, 84, 88, 92, 74, 81, 96, 104, 100. *)
Definition runBwd (m : lisp) : bool := hasFlag (lRun m) bwdOnly.
(** vm_genera.go:84. *)
Definition runFwd (m : lisp) : bool := hasFlag (lRun m) fwdOnly.
(** vm_genera.go:88. *)
Definition watchNaN (m : lisp) : bool := hasFlag (lRun m) fWatchNaN.
(** vm_genera.go:92. *)
Definition watchInf (m : lisp) : bool := hasFlag (lRun m) fWatchInf.
(** vm_genera.go:96. *)
Definition watchAll (m : lisp) : bool := hasFlag (lLog m) fWatchAll.
(** vm_genera.go:100. *)
Definition dealloc (m : lisp) : bool := hasFlag (lRun m) fAllocVals.
(** vm_genera.go:104. *)
Definition setRootGrad (m : lisp) : bool := hasFlag (lRun m) fSpare3.
(** vm_genera.go:81. *)
Definition logFwd (m : lisp) : bool := hasFlag (lLog m) fwdOnly.
(** vm_genera.go:74. *)
Definition logBwd (m : lisp) : bool := hasFlag (lLog m) bwdOnly.

(** The fields of a tapeMachine the options change (vm_tape.go:18-38).  The nodes of
    BindDualValues are a set (collections.go:35-40). *)
Record tape := Tape { tRun : N; tLog : N; tRegs : list nat; tIds : list nat; tNodes : list nat; tBind : list nat;
                      tLogger : bool; tFmt : nat; tEng : nat; tProg : option (nat * bool); tEval : bool }.
(** vm_tape.go:93-95. *)
Definition runT (m : tape) (f : N -> N) : tape :=
  Tape (f (tRun m)) (tLog m) (tRegs m) (tIds m) (tNodes m) (tBind m) (tLogger m) (tFmt m) (tEng m) (tProg m) (tEval m).
(** vm_tape.go:101-103. *)
Definition logT (m : tape) (f : N -> N) : tape :=
  Tape (tRun m) (f (tLog m)) (tRegs m) (tIds m) (tNodes m) (tBind m) (tLogger m) (tFmt m) (tEng m) (tProg m) (tEval m).
(** The loop over the items (vm.go:119-130); [None] panics. *)
Fixpoint watchItems (m : tape) (l : list item) : option tape :=
  match l with
  | [] => Some m
  | IReg i :: r => watchItems (Tape (tRun m) (tLog m) (tRegs m ++ [i]) (tIds m) (tNodes m) (tBind m) (tLogger m) (tFmt m) (tEng m) (tProg m) (tEval m)) r
  | IId i :: r => watchItems (Tape (tRun m) (tLog m) (tRegs m) (tIds m ++ [i]) (tNodes m) (tBind m) (tLogger m) (tFmt m) (tEng m) (tProg m) (tEval m)) r
  | INode n :: r => watchItems (Tape (tRun m) (tLog m) (tRegs m) (tIds m) (tNodes m ++ [n]) (tBind m) (tLogger m) (tFmt m) (tEng m) (tProg m) (tEval m)) r
  | IOther :: _ => None
  end.
(** An option on a tapeMachine (vm.go:45-329); [None] panics. *)
Definition optTape (m : tape) (o : vmopt) : option tape :=
  match o with
  | EvalMode => Some (Tape (tRun m) (tLog m) (tRegs m) (tIds m) (tNodes m) (tBind m) (tLogger m) (tFmt m) (tEng m) (tProg m) true)
  | WithLogger g => Some (if g then Tape (tRun m) (tLog m) (tRegs m) (tIds m) (tNodes m) (tBind m) true (tFmt m) (tEng m) (tProg m) (tEval m) else m)
  | WithValueFmt f => Some (Tape (tRun m) (tLog m) (tRegs m) (tIds m) (tNodes m) (tBind m) (tLogger m) f (tEng m) (tProg m) (tEval m))
  | WithWatchlist [] => Some (logT m (fun f => setFlag f fWatchAll))
  | WithWatchlist l => watchItems m l
  | WithNaNWatch => Some (runT m (fun f => setFlag f fWatchNaN))
  | WithInfWatch => Some (runT m (fun f => setFlag f fWatchInf))
  | WithPointerWatch => Some (logT m (fun f => setFlag f fWatchPointer))
  | ExecuteFwdOnly | ExecuteBwdOnly | LogFwd | LogBwd | LogBothDir => None
  | TraceExec => Some (runT m (fun f => setFlag f fSpare2))
  | BindDualValues ns =>
      let m' := runT m (fun f => setFlag f fSpare3) in
      Some (Tape (tRun m') (tLog m') (tRegs m') (tIds m') (tNodes m') (tBind m' ++ ns) (tLogger m') (tFmt m') (tEng m') (tProg m') (tEval m'))
  | WithPrecompiled p l => Some (Tape (tRun m) (tLog m) (tRegs m) (tIds m) (tNodes m) (tBind m) (tLogger m) (tFmt m) (tEng m) (Some (p, l)) (tEval m))
  | WithManualGradient => Some m
  | WithEngine e => Some (Tape (tRun m) (tLog m) (tRegs m) (tIds m) (tNodes m) (tBind m) (tLogger m) (tFmt m) e (tProg m) (tEval m))
  end.
(** The loop over the options (vm_tape.go:53-55). *)
Fixpoint optsTape (m : tape) (os : list vmopt) : option tape :=
  match os with [] => Some m | o :: r => match optTape m o with Some m' => optsTape m' r | None => None end end.
(** NewTapeMachine up to 67 (vm_tape.go:43-67): [compiled] is the program Compile makes. *)
Definition newTape (compiled : nat) (os : list vmopt) : option tape :=
  match optsTape (Tape 0 0 [] [] [] [] false 0 0 None false) os with
  | None => None
  | Some m =>
      let m := runT m (fun f => setFlag f fAllocVals) in
      Some (match tProg m with
            | Some (_, true) => m
            | _ => Tape (tRun m) (tLog m) (tRegs m) (tIds m) (tNodes m) (tBind m) (tLogger m) (tFmt m) (tEng m) (Some (compiled, true)) (tEval m)
            end)
  end.
(** vm_tape.go:93. *)
Definition tWatchNaN (m : tape) : bool := hasFlag (tRun m) fWatchNaN.
(** vm_tape.go:97. *)
Definition tWatchInf (m : tape) : bool := hasFlag (tRun m) fWatchInf.
(** vm_tape.go:101. *)
Definition tWatchPointer (m : tape) : bool := hasFlag (tLog m) fWatchPointer.
(** vm_tape.go:105. *)
Definition tWatchAll (m : tape) : bool := hasFlag (tLog m) fWatchAll.
(** vm_tape.go:109. *)
Definition tAlloc (m : tape) : bool := hasFlag (tRun m) fAllocVals.
(** vm_tape.go:113. *)
Definition tTrace (m : tape) : bool := hasFlag (tRun m) fSpare2.
(** vm_tape.go:117. *)
Definition tBindDV (m : tape) : bool := hasFlag (tRun m) fSpare3.

(** Whether tapeMachine.watchedLogf writes a line (vm_tape.go:369-425) for an instruction
    that reads and writes registers (their ids; the device is not looked at) and has a node
    (node and node id), without the debug build (427-444). *)
Definition tapeLogs (m : tape) (reads : list nat) (write node id : nat) : bool :=
  tLogger m &&
  (tWatchAll m || existsb (fun r => existsb (Nat.eqb r) (tRegs m)) reads || existsb (Nat.eqb write) (tRegs m)
   || existsb (Nat.eqb node) (tNodes m) || existsb (Nat.eqb id) (tIds m)).

(** Whether lispMachine.watchedLogf writes a line (vm_genera.go:565-599, 601-624), without
    the debug build.  The queue holds the output of each instruction and its inputs; an index
    beyond it panics. *)
Definition lispLogs (m : lisp) (sorted : list nat) (q : list (nat * list nat)) (fwd bwd : Z) : res bool :=
  let backwards :=
    if negb (logBwd m) then Ok false
    else if (0 <=? bwd)%Z then
      match nth_error q (Z.to_nat bwd) with
      | None => Panic
      | Some (out, ins) =>
          let write := existsb (Nat.eqb out) (lWatch m) || existsb (fun i => existsb (Nat.eqb i) (lWatch m)) ins in
          Ok (lLogger m && (write || watchAll m))
      end
    else Ok false in
  if negb (logFwd m) then backwards
  else if ((0 <=? fwd) && (fwd <? Z.of_nat (length sorted)))%Z then
    match nth_error sorted (Z.to_nat fwd) with
    | Some n => Ok (lLogger m && (existsb (Nat.eqb n) (lWatch m) || watchAll m))
    | None => Panic                                              (* not reached *)
    end
  else backwards.

(** LastRun (vm_genera.go:205-224): the node and whether backpropagation was done. *)
Definition lastRun {S} (bwd : bool) (sorted : list nat) (m : lm S) : res (nat * bool) :=
  let at_ (l : list nat) (i : Z) (b : bool) :=
    if (i <? 0)%Z then Panic else match nth_error l (Z.to_nat i) with Some n => Ok (n, b) | None => Panic end in
  if (lfwd m <? 0)%Z && bwd then
    (if (lbwd m <? 0)%Z then at_ (lq m) 0%Z true else at_ (lq m) (lbwd m) true)
  else if negb bwd then at_ sorted 0%Z false
  else at_ sorted (lfwd m) false.

(** A root: is it a statement, is it a scalar (vm_genera.go:232-243). *)
Record root := Root { rStmt : bool; rScalar : bool }.
(** checkRoots (vm_genera.go:227-247): true if there is no error.  checkedRoots is never
    set. *)
Definition checkRoots (m : lisp) (roots : list root) : bool :=
  if runBwd m then
    forallb (fun r => if setRootGrad m && negb (rStmt r) then true
                      else negb (negb (setRootGrad m) && negb (rScalar r) && negb (rStmt r))) roots
  else true.
(** How RunAll ends (vm_genera.go:116-188). *)
Inductive ending := BadRoots | Ran (o : outcome).
(** RunAll with the check of the roots (vm_genera.go:116-188), the rest in [LispModel]. *)
Definition runAllL {S} (m : lisp) (roots : list root) (sorted : list nat) (exec : nat -> S -> S * bool) (isAD : nat -> bool)
  (bad : nat -> S -> bool) (diff : nat -> S -> S * bool) (st : lm S) : lm S * ending :=
  if checkRoots m roots then
    let (st', o) := runAll S sorted exec isAD bad diff (runFwd m) (runBwd m) st in (st', Ran o)
  else (st, BadRoots).
