(** Training with the tape machine: RunAll with BindDualValues, Node.Grad and a solver's
    Step, with values by reference. Scalar float64 nodes over exact reals; which register a
    node uses is left out (C09, C50), every operator writes a new value. Proof-free. *)
From Coq Require Import Arith List Reals Bool.
From Verif Require Import BroadcastModel.
Import ListNotations.
Local Open Scope R_scope.

(** A node without operator; a constant, whose operator holds a pointer to its value
    (op.go:235-262) that all copies of the node share (graph.go:177-181, node.go:831-854),
    among them the package's onef64 (const.go:86-98); any other operator. *)
Inductive kind := KIn | KConst (a : nat) | KOp (f : list R -> R) (cs : list nat).
(** [derivOf], [deriv]: the fields of the nodes as Backpropagate leaves them
    (node.go:47-49, differentiation.go:256-263); [order]: the execOp instructions of the
    program in order (constants are executed too, compile.go). *)
Record graph := G { kindOf : nat -> kind; derivOf : nat -> list nat; deriv : nat -> option nat; order : list nat }.
(** What is bound to a node: a value, or a dual value with a derivative (dual.go:11-14);
    both by address. *)
Inductive bnd := BV (x : nat) | BD (x d : nat).
(** The memory of scalars and what is bound to the nodes (node.go:22-60, boundTo). *)
Record st := St { mem : nat -> R; nxt : nat; bound : nat -> option bnd }.

(** A new scalar. (values_utils.go:92-116.) *)
Definition new (v : R) (s : st) : st * nat :=
  (St (fun a => if Nat.eqb a (nxt s) then v else mem s a) (S (nxt s)) (bound s), nxt s).
(** Write through a pointer. (values_primitives.go; e.g. solvers.go:890-893.) *)
Definition write (a : nat) (v : R) (s : st) : st := St (fun b => if Nat.eqb b a then v else mem s b) (nxt s) (bound s).
(** n.boundTo = b. (node.go:651-679.) *)
Definition rebind (n : nat) (b : bnd) (s : st) : st := St (mem s) (nxt s) (fun m => if Nat.eqb m n then Some b else bound s m).
(** The value inside what is bound (node.go:435-443 for nodes that are no constants;
    vm_tape.go:677-683). *)
Definition valueAt (s : st) (n : nat) : option nat :=
  match bound s n with None => None | Some (BV x) => Some x | Some (BD x _) => Some x end.
(** The values of the operands (vm_tape.go:351-358). *)
Fixpoint valuesAt (s : st) (cs : list nat) : option (list R) :=
  match cs with
  | [] => Some []
  | c :: cs' => match valueAt s c, valuesAt s cs' with Some a, Some vs => Some (mem s a :: vs) | _, _ => None end
  end.
(** op.Do (vm_tape_nocuda.go:44-84, op.go:248); an unbound input is an error
    (vm_tape.go:670-672). *)
Definition doOp (g : graph) (n : nat) (s : st) : res (st * nat) :=
  match kindOf g n with
  | KIn => Err
  | KConst a => Ok (s, a)
  | KOp f cs => match valuesAt s cs with None => Err | Some vs => Ok (new (f vs) s) end
  end.
(** node.go:651-679 [bind] of a value that is not a dual value. *)
Definition bindValue (n a : nat) (s : st) : st :=
  rebind n (match bound s n with Some (BD _ d) => BD a d | _ => BV a end) s.
(** vm_tape_nocuda.go:132-150: dvUnit (a new zero derivative; dual.go:112-128, 153-161,
    which panics if nothing is bound), add (for scalars UnsafeDo makes a new one,
    op_math.go:345-349, operatorPointwise_binary.go:40-58), SetDeriv, bind. *)
Definition bindGrad (v src : nat) (s : st) : res st :=
  match bound s src with
  | None => Panic
  | Some (BV x) => let (s1, d) := new 0 s in let (s2, d') := new (mem s1 d + mem s1 v) s1 in Ok (rebind src (BD x d') s2)
  | Some (BD x d) => let (s1, d') := new (mem s d + mem s v) s in Ok (rebind src (BD x d') s1)
  end.
(** vm_tape_nocuda.go:113-151; [listed]: bindNodesDV. *)
Fixpoint bindGrads (listed : list nat) (v : nat) (srcs : list nat) (s : st) : res st :=
  match srcs with
  | [] => Ok s
  | src :: srcs' =>
      if negb (Nat.eqb (length listed) 0) && negb (existsb (Nat.eqb src) listed) then bindGrads listed v srcs' s
      else match bindGrad v src s with Ok s' => bindGrads listed v srcs' s' | Err => Err | Panic => Panic end
  end.
(** vm_tape_nocuda.go:19-158 [execOp.exec]; [dv]: the machine was made with
    BindDualValues (vm.go:272-287) and with which nodes. *)
Definition exec (g : graph) (dv : option (list nat)) (n : nat) (s : st) : res st :=
  match doOp g n s with
  | Ok (s1, v) => let s2 := bindValue n v s1 in
                  match dv with None => Ok s2 | Some listed => bindGrads listed v (derivOf g n) s2 end
  | Err => Err
  | Panic => Panic
  end.
(** vm_tape.go:244-260: all instructions, from a machine that is new or Reset. *)
Fixpoint execAll (g : graph) (dv : option (list nat)) (ns : list nat) (s : st) : res st :=
  match ns with [] => Ok s | n :: ns' => match exec g dv n s with Ok s' => execAll g dv ns' s' | Err => Err | Panic => Panic end end.
(** vm_tape.go:244-260. *)
Definition runAll (g : graph) (dv : option (list nat)) (s : st) : res st := execAll g dv (order g) s.
(** node.go:434-443 [Value] with constants. *)
Definition nodeValue (g : graph) (s : st) (n : nat) : option nat :=
  match kindOf g n with KConst a => Some a | _ => valueAt s n end.
(** node.go:445-455 [Grad]: the derivative of the dual value, otherwise the value of the
    gradient node; [Err]: there is none; [Ok None]: a nil Value. *)
Definition nodeGrad (g : graph) (s : st) (n : nat) : res (option nat) :=
  match bound s n with
  | Some (BD _ d) => Ok (Some d)
  | _ => match deriv g n with Some m => Ok (nodeValue g s m) | None => Err end
  end.
(** solvers.go:780-786, 899-940: VanillaSolver.Step on one scalar weight without options. *)
Definition stepOne (g : graph) (eta : R) (w : nat) (s : st) : res st :=
  match nodeGrad g s w with
  | Ok (Some d) => match nodeValue g s w with
                   | Some x => let s1 := write x (mem s x + - eta * mem s d) s in Ok (write d 0 s1)
                   | None => Err
                   end
  | Ok None => Panic
  | Err => Err
  | Panic => Panic
  end.
(** solvers.go:780-943 [VanillaSolver.Step] over the weights. *)
Fixpoint step (g : graph) (eta : R) (ws : list nat) (s : st) : res st :=
  match ws with [] => Ok s | w :: ws' => match stepOne g eta w s with Ok s' => step g eta ws' s' | Err => Err | Panic => Panic end end.
(** The loop of the examples (examples/linear_regression): RunAll, Step, Reset.
    (vm_tape.go:244-260; solvers.go:780-943.) *)
Fixpoint train (g : graph) (dv : option (list nat)) (eta : R) (ws : list nat) (k : nat) (s : st) : res st :=
  match k with
  | O => Ok s
  | S k' => match runAll g dv s with
            | Ok s1 => match step g eta ws s1 with Ok s2 => train g dv eta ws k' s2 | Err => Err | Panic => Panic end
            | Err => Err
            | Panic => Panic
            end
  end.
(** RunAll and Reset k times without a solver. (vm_tape.go:244-260.) *)
Fixpoint runMany (g : graph) (dv : option (list nat)) (k : nat) (s : st) : res st :=
  match k with O => Ok s | S k' => match runAll g dv s with Ok s1 => runMany g dv k' s1 | Err => Err | Panic => Panic end end.
