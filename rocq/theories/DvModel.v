(** How the tape machine of CUDA builds adds gradients to the nodes they belong to
    (vm_tape_cuda.go).  The goroutine that executes the program (vm_tape.go:213-347) and, for
    each card, the one that does its queued work (Run, cuda/external.go:229-277) take turns in
    any way.

    Simplified: a gradient is a single element of an unknown type with an unknown addition; the
    values of the nodes are left out, only whether a node has one is kept.  Library contract:
    MemcpyHtoD, MemcpyDtoH and LaunchAndSync of a batched context put a call into the context's
    queue, and the calls of a queue are done in order.  The allocator never hands out memory
    that is in use (C30), so registers and temporary memory are different. *)
From Coq Require Import List Arith Bool.
Import ListNotations.

Section Model.
Variable V : Type.
Variable zero : V.
Variable add : V -> V -> V.
(** m.bindNodesDV (vm_tape.go:29). *)
Variable listed : list nat.
(** The answer to each call of m.Get (cuda.go:119-125): an address or an error. *)
Variable getMem : nat -> option nat.

(** instr.writeTo.device (vm_tape_cuda.go:163): the host or a card. *)
Inductive place := Host | Card (c : nat).

(** An execOp (vm_tape.go:695-707): the node, where the register is and its number, the result,
    and node.derivOf (node.go:48). *)
Record ginstr := GI { gnode : nat; gdev : place; greg : nat; gval : V; gof : list nat }.

(** node.boundTo (node.go:44): nil, a plain value, or a dual value with this derivative. *)
Inductive bound := Unbound | Plain | Dual (d : V).

(** The calls put into a queue (vm_tape_cuda.go:89, 193, 196, 200): the kernel that computes an
    instruction's result into its register, the copy of a derivative to temporary memory, the
    addition of a register to that, and the copy back. *)
Inductive call := KRun (r : nat) (v : V) | HtoD (s a : nat) | KAdd (a r : nat) | DtoH (s a : nat).

(** The memory of a card: registers (vm_tape.go:23, gpumem) and temporary memory. *)
Inductive cell := Reg (r : nat) | Tmp (a : nat).
(** Equality of such addresses (vm_tape_cuda.go:183-190). *)
Definition cellEq (x y : cell) : bool :=
  match x, y with Reg a, Reg b | Tmp a, Tmp b => Nat.eqb a b | _, _ => false end.

(** The state: the instructions left, the instruction being executed with the sources left in
    the loop over derivOf (vm_tape_cuda.go:154), the nodes, the cards' memory and queues, how
    many times Get was called, and whether exec returned an error. *)
Record st := St { prog : list ginstr; cur : option ginstr; todo : list nat; host : nat -> bound;
                  dev : nat -> cell -> V; que : nat -> list call; gets : nat; failed : bool }.

(** Assignment to one place of a map (vm_tape_cuda.go:149, 170, 203). *)
Definition upd {A} (f : nat -> A) (i : nat) (x : A) : nat -> A := fun j => if Nat.eqb j i then x else f j.
(** A write to a card's memory by a call (vm_tape_cuda.go:89, 193, 196). *)
Definition store (m : nat -> cell -> V) (c : nat) (x : cell) (v : V) : nat -> cell -> V :=
  fun c' y => if Nat.eqb c' c && cellEq y x then v else m c' y.

(** The derivative held after dvUnit (dual.go:153-162): a new zero for a plain value. *)
Definition unit (b : bound) : V := match b with Dual d => d | _ => zero end.

(** The beginning of exec (vm_tape_cuda.go:66-150): the result is computed, on a card by a
    queued call, and bound to the node; a dual value keeps its derivative (node.go:651-678). *)
Definition begin (s : st) : option st :=
  match prog s with
  | [] => None
  | i :: p => Some (St p (Some i) (gof i)
      (upd (host s) (gnode i) (match host s (gnode i) with Unbound => Plain | b => b end))
      (dev s)
      (match gdev i with Host => que s | Card c => upd (que s) c (que s c ++ [KRun (greg i) (gval i)]) end)
      (gets s) false)
  end.

(** One round of the loop over derivOf (vm_tape_cuda.go:154-208). *)
Definition source (s : st) (i : ginstr) (n : nat) (t : list nat) : st :=
  let skip := St (prog s) (cur s) t (host s) (dev s) (que s) (gets s) false in
  if negb (Nat.eqb (length listed) 0) && negb (existsb (Nat.eqb n) listed) then skip else
  match host s n with
  | Unbound => skip
  | b =>
    match gdev i with
    | Host => St (prog s) (cur s) t (upd (host s) n (Dual (add (unit b) (gval i)))) (dev s) (que s) (gets s) false
    | Card c =>
      match getMem (gets s) with
      | None => St (prog s) (cur s) t (host s) (dev s) (que s) (S (gets s)) true
      | Some a => St (prog s) (cur s) t (upd (host s) n (Dual (unit b))) (dev s)
                     (upd (que s) c (que s c ++ [HtoD n a; KAdd a (greg i); DtoH n a])) (S (gets s)) false
      end
    end
  end.

(** A step of the goroutine that executes the program (vm_tape.go:251-347, runall); after an
    error it ends. *)
Definition mainStep (s : st) : option st :=
  if failed s then None else
  match cur s, todo s with
  | Some i, n :: t => Some (source s i n t)
  | _, _ => begin s
  end.

(** A call of a card's queue is done (Run and DoWork: cuda/external.go:223-277; the copies and kernels of
    vm_tape_cuda.go:89, 193, 196, 200). *)
Definition workStep (s : st) (c : nat) : option st :=
  match que s c with
  | [] => None
  | k :: q =>
    let st' h m := Some (St (prog s) (cur s) (todo s) h m (upd (que s) c q) (gets s) (failed s)) in
    match k with
    | KRun r v => st' (host s) (store (dev s) c (Reg r) v)
    | HtoD n a => st' (host s) (store (dev s) c (Tmp a) (unit (host s n)))
    | KAdd a r => st' (host s) (store (dev s) c (Tmp a) (add (dev s c (Tmp a)) (dev s c (Reg r))))
    | DtoH n a => st' (upd (host s) n (Dual (dev s c (Tmp a)))) (dev s)
    end
  end.

(** Who takes the next step (vm_tape.go:251, cuda/external.go:229). *)
Inductive label := Main | Work (c : nat).
(** Any way of taking turns (vm_tape.go:251-347, cuda/external.go:229-277). *)
Fixpoint run (ls : list label) (s : st) : option st :=
  match ls with
  | [] => Some s
  | l :: ls' =>
    match (match l with Main => mainStep s | Work c => workStep s c end) with
    | Some s' => run ls' s'
    | None => None
    end
  end.

(** The machine before the program, with nothing queued (vm_tape.go:213-223). *)
Definition start (p : list ginstr) (h : nat -> bound) (m : nat -> cell -> V) : st :=
  St p None [] h m (fun _ => []) 0 false.
End Model.
Arguments Card c : assert.
Arguments GI {V}. Arguments gnode {V}. Arguments gdev {V}. Arguments greg {V}. Arguments gval {V}. Arguments gof {V}.
Arguments Unbound {V}. Arguments Plain {V}. Arguments Dual {V}. Arguments unit {V}.
Arguments KRun {V}. Arguments HtoD {V}. Arguments KAdd {V}. Arguments DtoH {V}.
Arguments St {V}. Arguments prog {V}. Arguments cur {V}. Arguments todo {V}. Arguments host {V}. Arguments dev {V}.
Arguments que {V}. Arguments gets {V}. Arguments failed {V}. Arguments store {V}.
Arguments run {V}. Arguments start {V}. Arguments mainStep {V}. Arguments workStep {V}. Arguments source {V}. Arguments begin {V}.
