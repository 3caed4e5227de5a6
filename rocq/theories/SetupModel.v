(** Set-up of the machines in CUDA builds (vm_genera_cuda.go, vm_tape_cuda.go, cuda.go,
    cuda/external.go). Proof-free. *)
From Coq Require Import List Arith ZArith Bool.
From Verif Require Import BroadcastModel ShapeGradModel DeviceModel.
Import ListNotations.
Local Open Scope Z_scope.

(** What is looked at of a node (node.go:22-60): op == nil, isStmt, the size of the
    dtype of its type if dtypeOf finds one, shape, whether the op is a CUDADoer, whether
    it is a devTrans, and dataOn. *)
Record snode := SN { sarg : bool; sstmt : bool; sdt : option Z; sshape : list Z;
                     scuda : bool; strans : bool; son : device }.
(** Assignment to dataOn (analysis.go:52-65, vm_genera_cuda.go:184). *)
Definition setOn (d : device) (n : snode) : snode :=
  SN (sarg n) (sstmt n) (sdt n) (sshape n) (scuda n) (strans n) d.
(** calcMemSize (values.go:179-188). int64 is taken as unbounded. *)
Definition memSize (dt : Z) (s : list Z) : Z :=
  (match s with [] => 1 | _ => fold_right Z.mul 1 s end) * dt.

(** [gpumem = append(gpumem, make([]int64, diff)...)] (vm_genera_cuda.go:87-90). *)
Definition growTo (k : nat) (g : list Z) : list Z :=
  if (length g <? k + 1)%nat then g ++ repeat 0 (k + 1 - length g) else g.
(** [gpumem[int(dev)] += x] (vm_genera_cuda.go:98). Go's panic for an index out of range
    is the result [None]. *)
Fixpoint addAt (k : nat) (x : Z) (g : list Z) : option (list Z) :=
  match g, k with
  | [], _ => None
  | y :: r, O => Some (y + x :: r)
  | y :: r, S k' => match addAt k' x r with Some r' => Some (y :: r') | None => None end
  end.
(** The loop of lispMachine.calcMemSize (vm_genera_cuda.go:66-101). The device of the
    interval is dataOn, set by fixIntervalDevices (analysis.go:77-81). *)
Fixpoint calcLoop (ns : list snode) (cpumem : Z) (gpumem : list Z) : res (Z * list Z) :=
  match ns with
  | [] => Ok (cpumem, gpumem)
  | n :: r =>
      match sdt n with
      | None => if sstmt n then calcLoop r cpumem gpumem else Err
      | Some dt =>
          let m := memSize dt (sshape n) in
          if sarg n then calcLoop r (cpumem + m) gpumem
          else if sstmt n then calcLoop r cpumem gpumem
          else match son n with
               | Cpu => calcLoop r (cpumem + m) gpumem
               | Card k => match addAt k (4 * m) (growTo k gpumem) with
                           | Some g => calcLoop r cpumem g
                           | None => Panic
                           end
               end
      end
  end.
(** lispMachine.calcMemSize (vm_genera_cuda.go:60-106). *)
Definition calcMem (ns : list snode) : res (Z * list Z) := calcLoop ns 0 [].

(** [copy(m.sorted[i:], m.sorted[i+1:]); m.sorted = m.sorted[:len(m.sorted)-1]]
    (vm_genera_cuda.go:191-192). *)
Definition removeAt {X} (i : nat) (l : list X) : list X := firstn i l ++ skipn (S i) l.
(** The loop of ForceCPU that removes the transports (vm_genera_cuda.go:188-195). One unit
    of fuel for each turn. *)
Fixpoint dropTrans (fuel i : nat) (l : list snode) : list snode :=
  match fuel with
  | O => l
  | S f => match nth_error l i with
           | None => l
           | Some n => if strans n then dropTrans f i (removeAt i l) else dropTrans f (S i) l
           end
  end.

(** The state of ExternMetadata (cuda.go:61-78) and the memory of the cards: for each
    engine the bytes its allocator has, [None] for an engine not initialised; initialized;
    and the blocks obtained by MemAllocManaged and not yet freed, each with its card. *)
Record ext := Ext { engines : list (option Z); initialized : bool; held : list (nat * Z) }.
(** A new machine's ExternMetadata (vm_genera.go:47-54), the cards holding [h]. *)
Definition newExt (h : list (nat * Z)) : ext := Ext [] false h.

(** Removing the first block equal to [b]: cu.MemFree (cuda/external.go:189-191). *)
Fixpoint freeBlock (b : nat * Z) (h : list (nat * Z)) : list (nat * Z) :=
  match h with
  | [] => []
  | c :: r => if Nat.eqb (fst b) (fst c) && Z.eqb (snd b) (snd c) then r else c :: freeBlock b r
  end.
(** cleanup (cuda.go:274-278): each engine is closed, which frees its block
    (cuda/external.go:172-213); an engine without a context is left alone (176-178). *)
Fixpoint closeAll (i : nat) (es : list (option Z)) (h : list (nat * Z)) : list (nat * Z) :=
  match es with
  | [] => h
  | Some z :: r => closeAll (S i) r (freeBlock (i, z) h)
  | None :: r => closeAll (S i) r h
  end.
(** cleanup (cuda.go:274-278). *)
Definition cleanup (e : ext) : ext := Ext (engines e) (initialized e) (closeAll 0 (engines e) (held e)).
(** initFail (cuda.go:263-271); the channel is never made, see XferModel. *)
Definition initFail (e : ext) : ext := Ext [] (initialized e) (held e).

Section Cards.
(** The CUDA driver: cu.NumDevices ([None]: an error), whether cu.GetDevice gives the
    device, whether all the calls of doInit other than the comparison of the sizes succeed
    (context, attributes, MemInfo, MemAllocManaged), and the free memory of a card given
    what is held. *)
Variable numDevices : option nat.
Variable getDevice : nat -> bool.
Variable callsOk : nat -> bool.
Variable freeMem : nat -> list (nat * Z) -> Z.

(** The size reserved, allocsize (cuda/external.go:157-158; minAllocSize is 256,
    cuda/bfc.go:11-12). *)
Definition allocSize (size : Z) : Z := 2 * size + Z.quot size 2 + 256.
(** Engine.Init and doInit (cuda/external.go:88-169): the bytes reserved, or an error. *)
Definition engineInit (i : nat) (size : Z) (h : list (nat * Z)) : option Z :=
  if freeMem i h <=? allocSize size then None
  else if callsOk i then Some (allocSize size) else None.
(** The loop of ExternMetadata.init (cuda.go:245-258), from engine [i] on: the engines,
    what is held, and whether all went well. *)
Fixpoint initLoop (i : nat) (sizes : list Z) (h : list (nat * Z)) : list (option Z) * list (nat * Z) * bool :=
  match sizes with
  | [] => ([], h, true)
  | z :: r =>
      if getDevice i then
        match engineInit i z h with
        | Some b => let '(es, h', ok) := initLoop (S i) r (h ++ [(i, b)]) in (Some b :: es, h', ok)
        | None => (None :: map (fun _ => None) r, h, false)
        end
      else (None :: map (fun _ => None) r, h, false)
  end.
(** ExternMetadata.init (cuda.go:224-261): the new state and whether it is without error. *)
Definition extInit (sizes : list Z) (e : ext) : ext * bool :=
  if initialized e then (e, true)
  else match numDevices with
       | None => (e, false)
       | Some O => (e, false)
       | Some (S _) =>
           let '(es, h, ok) := initLoop 0 sizes (held e) in (Ext es ok h, ok)
       end.

(** What is left of a Lisp machine: sorted and its ExternMetadata (vm_genera.go:17-43). *)
Record lisp := Lisp { lsorted : list snode; lext : ext }.
(** ForceCPU (vm_genera_cuda.go:178-196). *)
Definition forceCPU (m : lisp) : lisp :=
  let s := map (setOn Cpu) (lsorted m) in
  Lisp (dropTrans (length s) 0 s) (initFail (cleanup (lext m))).
(** lispMachine.init after prepGraph (vm_genera_cuda.go:12-46): [inl] the machine, [inr]
    the machine left when there is an error. The loading of the standard library is left
    out. *)
Definition lispInit (m : lisp) : lisp + lisp :=
  match calcMem (lsorted m) with
  | Ok (_, gpumem) =>
      if (length gpumem =? 0)%nat then inl (forceCPU m)
      else
        let '(e, ok) := extInit gpumem (lext m) in
        if ok then
          let m' := Lisp (lsorted m) e in
          inl (if (length (engines e) =? 0)%nat then forceCPU m' else m')
        else inr (Lisp (lsorted m) (initFail e))
  | _ => inr m
  end.
(** NewLispMachine (vm_genera.go:45-74) on a graph whose sorted nodes are [ns], the cards
    holding [h]: the machine, or its panic, with what is held afterwards. *)
Definition newLisp (ns : list snode) (h : list (nat * Z)) : res lisp * list (nat * Z) :=
  match lispInit (Lisp ns (newExt h)) with
  | inl m => (Ok m, held (lext m))
  | inr m => (Panic, held (lext m))
  end.
(** tapeMachine.init (vm_tape_cuda.go:17-41), for each instruction whether it executes a
    CUDADoer; gpumem is that of the program. Called by NewTapeMachine. *)
Definition newTape (instrs : list bool) (gpumem : list Z) (h : list (nat * Z)) : res ext * list (nat * Z) :=
  if existsb (fun b => b) instrs then
    let '(e, ok) := extInit gpumem (newExt h) in
    if ok then (Ok e, held e) else (Panic, held (initFail e))
  else (Ok (newExt h), h).

(** What is done with a graph: a node made by newNode, which puts it on the CPU whatever
    the caller wants (node.go:271-285); a node cloned (node.go:423); a compilation, which
    analyses the devices of the nodes [sel] picks (analysis.go:97-101, 52-65; compile.go:28-38
    and 78-89); a Lisp machine made. *)
Inductive gstep := GNew (n : snode) | GClone (i : nat) | GCompile (sel : nat -> bool) | GLisp.
(** analyzeDevice (analysis.go:52-65) on a node. *)
Definition analyzeOn (n : snode) : snode :=
  setOn (if scuda n then match son n with Cpu => Card 0 | d => d end else Cpu) n.
(** analyze (analysis.go:97-101) on the nodes picked. *)
Fixpoint analyzeSel (i : nat) (sel : nat -> bool) (ns : list snode) : list snode :=
  match ns with [] => [] | n :: r => (if sel i then analyzeOn n else n) :: analyzeSel (S i) sel r end.
(** The nodes of the graph after a step, and what is held. ForceCPU changes the nodes of
    the graph: sorted holds pointers to them; it is taken when the machine has no engine
    (vm_genera_cuda.go:31-34). *)
Definition gdo (s : list snode * list (nat * Z)) (x : gstep) : list snode * list (nat * Z) :=
  let '(ns, h) := s in
  match x with
  | GNew n => (ns ++ [setOn Cpu n], h)
  | GClone i => match nth_error ns i with Some n => (ns ++ [n], h) | None => (ns, h) end
  | GCompile sel => (analyzeSel 0 sel ns, h)
  | GLisp => match newLisp ns h with
             | (Ok m, h') => (if (length (engines (lext m)) =? 0)%nat then map (setOn Cpu) ns else ns, h')
             | (_, h') => (ns, h')
             end
  end.
(** Several steps, from an empty graph (node.go:271-285, vm_genera.go:45-74). *)
Definition grun (xs : list gstep) (h : list (nat * Z)) : list snode * list (nat * Z) := fold_left gdo xs ([], h).
End Cards.
