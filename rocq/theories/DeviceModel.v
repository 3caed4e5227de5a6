(** Devices of nodes and the transports between them (analysis.go, execution.go).
    Proof-free. *)
From Coq Require Import List Arith Bool.
From Verif Require Import BroadcastModel.
Import ListNotations.

(** Device (device_cuda.go:11-14): the CPU or a card. *)
Inductive device := Cpu | Card (k : nat).
(** Equality of devices (analysis.go:156). *)
Definition devEq (d e : device) : bool := match d, e with Cpu, Cpu => true | Card i, Card j => Nat.eqb i j | _, _ => false end.
(** What is looked at of a node: whether its op is a CUDADoer, dataOn and children
    (node.go:22-60). No op is a CLDoer (op.go:157). *)
Record dnode := DN { cudaOp : bool; dataOn : device; kids : list nat }.
(** dataflow.analyzeDevice (analysis.go:52-65). *)
Definition analyzeDevice (n : dnode) : device :=
  if cudaOp n then match dataOn n with Cpu => Card 0 | d => d end else Cpu.

(** A node of the sorted list: one of the graph, or a transport made by newDevTransNode
    (analysis.go:124-134) that reads [src] and brings it to a device. *)
Inductive item := Orig (n : nat) | Trans (src : nat) (to : device).
(** Map update. (df.devTransRepl, df.devTransChildren, analysis.go:16-18.) *)
Definition put {X} (f : nat -> option X) (k : nat) (x : X) : nat -> option X := fun j => if Nat.eqb j k then Some x else f j.

Section Insert.
(** The nodes, and df.replacements, which also holds every node of the list
    (analysis.go:104-110). *)
Variable g : nat -> dnode.
Variable repl : nat -> nat.
(** The device of a node after the analysis (analysis.go:104-108). *)
Definition devOf (n : nat) : device := analyzeDevice (g n).
(** [append], [copy], [sorted[i] = transport] (analysis.go:163-165). *)
Definition insertAt (i : nat) (x : item) (l : list item) : list item := firstn i l ++ x :: skipn i l.
(** The loop over the children (analysis.go:151-176): children to use, useReplacement,
    incr, the list and devTransRepl. *)
Fixpoint kidsLoop (dev : device) (i : nat) (ks : list nat) (sorted : list item) (trepl : nat -> option item)
  : list item * bool * nat * list item * (nat -> option item) :=
  match ks with
  | [] => ([], false, 0, sorted, trepl)
  | child :: ks' =>
      let c := repl child in
      if negb (devEq (devOf c) dev) then
        match trepl c with
        | Some t =>
            let '(rc, _, incr, sorted', trepl') := kidsLoop dev i ks' sorted trepl in
            (t :: rc, true, incr, sorted', trepl')
        | None =>
            let t := Trans c dev in
            let '(rc, _, incr, sorted', trepl') := kidsLoop dev i ks' (insertAt i t sorted) (put trepl c t) in
            (t :: rc, true, S incr, sorted', trepl')
        end
      else
        let '(rc, use, incr, sorted', trepl') := kidsLoop dev i ks' sorted trepl in
        (Orig child :: rc, use, incr, sorted', trepl')
  end.
(** insertDeviceInstr (analysis.go:136-186): list, devTransRepl and devTransChildren.
    [None]: out of fuel, or the loop meets one of its own transports (shown never to
    happen). *)
Fixpoint insertLoop (fuel i : nat) (sorted : list item) (trepl : nat -> option item) (tkids : nat -> option (list item))
  : option (list item * (nat -> option item) * (nat -> option (list item))) :=
  match fuel with
  | O => None
  | S fuel' =>
      match nth_error sorted i with
      | None => Some (sorted, trepl, tkids)
      | Some (Trans _ _) => None
      | Some (Orig node) =>
          let n := repl node in
          let '(rc, use, incr, sorted', trepl') := kidsLoop (devOf n) i (kids (g n)) sorted trepl in
          insertLoop fuel' (i + incr + 1) sorted' trepl' (if use then put tkids n rc else tkids)
      end
  end.
(** The call in Compile (compile.go:38) with a new dataflow (analysis.go:21-27). *)
Definition insertDeviceInstr (sorted : list nat) : option (list item * (nat -> option item) * (nat -> option (list item))) :=
  insertLoop (S (length sorted)) 0 (map Orig sorted) (fun _ => None) (fun _ => None).
(** The children the later stages use (analysis.go:263-266, compile.go:258-261,
    regalloc.go:174-177). *)
Definition usedKids (tkids : nat -> option (list item)) (n : nat) : list item :=
  match tkids n with Some l => l | None => map Orig (kids (g n)) end.
End Insert.

(** ExternalOp.DetermineDevice (execution.go:55-78): the loop over the inputs; [allSame]
    is never set. The device found is the result. *)
Fixpoint determineLoop (dev : device) (inDev : option device) (allSame : bool) (inputs : list device) : res bool :=
  match inputs with
  | [] => Ok allSame
  | d :: rest =>
      let allSame := if negb (devEq d dev) then false else allSame in
      match inDev with
      | None => determineLoop dev (Some d) allSame rest
      | Some d0 => if negb (devEq d d0) && negb (devEq d dev) then Err else determineLoop dev inDev allSame rest
      end
  end.
(** DetermineDevice (execution.go:55-78). *)
Definition determineDevice (inputs : list device) (output : device) : res device :=
  match determineLoop output None false inputs with
  | Ok true => Ok output
  | Ok false => Err
  | Err => Err
  | Panic => Panic
  end.
