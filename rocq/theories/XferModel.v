(** Values on CUDA devices: ExternMetadata.Get/GetFromValue/Put/Transfer (cuda.go:117-207),
    Node.ValueOnDevice and GradOnDevice (cuda.go:308-359), makeValueFromMem (values.go:129-188).
    Proof-free. Copies are queued by the contexts (cu.BatchedContext, library) and carried out
    in order; a [Signal] that reaches the machine carries out all of them. The context may also
    do so on its own, which is a [flush] at any other time. *)
From Coq Require Import List Arith Bool ZArith.
From Verif Require Import BroadcastModel.
Import ListNotations.
Local Open Scope nat_scope.

Section Xfer.
Context {B : Type}.

(** cu.CPU (device_cuda.go:14, library). *)
Definition CPUdev : Z := (-1)%Z.
(** Where the memory of a value is: on the host, or a block of a device (cuda.go:173-197). *)
Inductive ptrAt := OnHost (h : nat) | OnDev (d : Z) (a : nat).
(** A value: scalar or tensor type, size of an entry, shape, memory; [scalarable] says whether
    its dtype is one of those in makeScalarFromMem (values.go:150-170). *)
Record xval := XV { isTensorTy : bool; entrySize : nat; scalarable : bool; xshape : list nat; xat : ptrAt }.
(** A queued copy (cuda.go:140, 186, 198). *)
Inductive copy := HtoD (d : Z) (a : nat) (h : nat) (n : nat) | DtoH (h : nat) (d : Z) (a : nat) (n : nat).
(** The machine: memory of the host and of the devices, blocks in use, queue, number of
    engines (cuda.go:59-70). *)
Record xst := XS { hostM : nat -> list B; hostN : nat; devM : Z -> nat -> list B; usedM : Z -> list nat; pend : list copy; engines : nat }.

(** A field replaced at one place (Go assignment; cuda.go:140, 198). *)
Definition setH (m : nat -> list B) (h : nat) (l : list B) : nat -> list B := fun k => if k =? h then l else m k.
(** The same for a block of a device (cuda.go:140). *)
Definition setD (m : Z -> nat -> list B) (d : Z) (a : nat) (l : list B) : Z -> nat -> list B :=
  fun e k => if (e =? d)%Z && (k =? a) then l else m e k.
(** The first bytes overwritten (cuMemcpy, library; cuda.go:140, 186, 198). *)
Definition overlay (src dst : list B) (n : nat) : list B := firstn n src ++ skipn n dst.
(** One copy carried out (library; cuda.go:186, 198). *)
Definition perform (s : xst) (c : copy) : xst :=
  match c with
  | HtoD d a h n => XS (hostM s) (hostN s) (setD (devM s) d a (overlay (hostM s h) (devM s d a) n)) (usedM s) (pend s) (engines s)
  | DtoH h d a n => XS (setH (hostM s) h (overlay (devM s d a) (hostM s h) n)) (hostN s) (devM s) (usedM s) (pend s) (engines s)
  end.
(** The queue emptied (DoWork, cuda.go:87-94, called by RunAll, vm_tape.go:226-234; library). *)
Definition flush (s : xst) : xst :=
  let s' := fold_left perform (pend s) s in XS (hostM s') (hostN s') (devM s') (usedM s') [] (engines s').
(** A copy queued (library; cuda.go:186, 198). *)
Definition enqueue (s : xst) (c : copy) : xst := XS (hostM s) (hostN s) (devM s) (usedM s) (pend s ++ [c]) (engines s).

(** calcMemSize (values.go:179-188). *)
Definition calcMemSize (v : xval) : nat := fold_right Nat.mul 1 (xshape v) * entrySize v.

(** The allocator of a device (modelled in BfcModel): the block for a size, given those in use. *)
Variable getBlock : Z -> list nat -> nat -> option nat.
(** The bytes found in a block handed out and in fresh memory of the host. *)
Variable zeroB : B.

(** [m.engines[d]]: an index in range (cuda.go:124, 179, 193). *)
Definition engineAt (s : xst) (d : Z) : bool := (0 <=? d)%Z && (d <? Z.of_nat (engines s))%Z.
(** ExternMetadata.Get (cuda.go:119-125): an error beyond the engines. *)
Definition extGet (s : xst) (d : Z) (n : nat) : res (xst * nat) :=
  if (Z.of_nat (engines s) <=? d)%Z then Err
  else if negb (engineAt s d) then Panic
  else match getBlock d (usedM s d) n with
       | None => Err
       | Some a => Ok (XS (hostM s) (hostN s) (devM s) (fun e => if (e =? d)%Z then a :: usedM s d else usedM s e) (pend s) (engines s), a)
       end.
(** ExternMetadata.Put (cuda.go:146-153). *)
Definition extPut (s : xst) (d : Z) (a : nat) : res xst :=
  if (Z.of_nat (engines s) <=? d)%Z then Ok s
  else if negb (engineAt s d) then Panic
  else Ok (XS (hostM s) (hostN s) (devM s) (fun e => if (e =? d)%Z then filter (fun x => negb (x =? a)) (usedM s d) else usedM s e) (pend s) (engines s)).
(** makeValueFromMem (values.go:129-148) with makeScalarFromMem (values.go:150-170): a scalar
    if the shape is one or the type is no tensor type. *)
Definition makeValueFromMem (tensorTy : bool) (v : xval) (p : ptrAt) : res xval :=
  match xshape v, tensorTy with
  | _ :: _, true => Ok (XV true (entrySize v) (scalarable v) (xshape v) p)
  | _, _ => if scalarable v then Ok (XV false (entrySize v) true [] p) else Err
  end.
(** makeValue (values.go:97-127), as far as it matters here: fresh memory of the host. *)
Definition makeValue (s : xst) (v : xval) : xst * xval :=
  (XS (setH (hostM s) (hostN s) (repeat zeroB (calcMemSize v))) (S (hostN s)) (devM s) (usedM s) (pend s) (engines s),
   XV (isTensorTy v) (entrySize v) (scalarable v) (xshape v) (OnHost (hostN s))).
(** ExternMetadata.Transfer (cuda.go:166-207), before the deferred Signal. A value that is not
    where it is said to be is outside the model (Panic stands for what would happen). *)
Definition transferBody (s : xst) (toDev fromDev : Z) (v : xval) : xst * res xval :=
  let memsize := calcMemSize v in
  if (fromDev =? CPUdev)%Z && negb (toDev =? CPUdev)%Z then
    if (Z.of_nat (engines s) <? toDev)%Z then (s, Err)
    else if negb (engineAt s toDev) then (s, Panic)
    else match extGet s toDev memsize with
         | Ok (s1, a) =>
             match xat v with
             | OnHost h => (enqueue s1 (HtoD toDev a h memsize), makeValueFromMem (isTensorTy v) v (OnDev toDev a))
             | OnDev _ _ => (s, Panic)
             end
         | Err => (s, Err)
         | Panic => (s, Panic)
         end
  else if negb (fromDev =? CPUdev)%Z && (toDev =? CPUdev)%Z then
    if (Z.of_nat (engines s) <? fromDev)%Z then (s, Err)
    else if negb (engineAt s fromDev) then (s, Panic)
    else let (s1, r) := makeValue s v in
         match xat v, xat r with
         | OnDev _ a, OnHost h => (enqueue s1 (DtoH h fromDev a memsize), Ok r)
         | _, _ => (s, Panic)
         end
  else if (fromDev =? toDev)%Z then (s, Ok v)
  else (s, Panic).
(** Signal (cuda.go:210-215): nothing without the channel workAvailable; with it, the machine
    receiving from it calls DoWork and answers (vm_tape.go:226-234, vm_genera.go:143-171). *)
Definition signal (workAvailable : bool) (s : xst) : xst := if workAvailable then flush s else s.
(** Whether there is a channel workAvailable (cuda.go:67). *)
Variable workAvailable : bool.
(** The deferred Signal (cuda.go:167-171); it runs after an error or a panic, too. *)
Definition transfer (s : xst) (toDev fromDev : Z) (v : xval) (synchronous : bool) : xst * res xval :=
  let (s', r) := transferBody s toDev fromDev v in (if synchronous then signal workAvailable s' else s', r).

(** A node: where its data are, the value and derivative bound to it (a dual value or a plain
    one), the node of its gradient (node.go:28-60, 446-455). *)
Inductive xnode := XN (dataOn : Z) (val : option xval) (isDual : bool) (der : option xval) (grad : option xnode).
(** Node.Device (node.go:503). *)
Definition dataOf (n : xnode) : Z := match n with XN d _ _ _ _ => d end.
(** Node.Value (node.go:434-442). *)
Definition valueOf (n : xnode) : option xval := match n with XN _ v _ _ _ => v end.
(** ValueOnDevice (cuda.go:310-326): value, whether memory was allocated on the device. A nil
    value panics in Transfer. *)
Definition valueOnDevice (s : xst) (n : xnode) (toDev : Z) : xst * res (option xval * bool) :=
  if (dataOf n =? toDev)%Z then (s, Ok (valueOf n, false))
  else match valueOf n with
       | None => (s, Panic)
       | Some v =>
           let (s', r) := transfer s toDev (dataOf n) v (toDev =? CPUdev)%Z in
           (s', match r with Ok w => Ok (Some w, negb (toDev =? CPUdev)%Z) | Err => Err | Panic => Panic end)
       end.
(** Node.Grad (node.go:446-455). *)
Definition gradOf (n : xnode) : res (option xval) :=
  match n with
  | XN _ _ true d _ => Ok d
  | XN _ _ false _ (Some g) => Ok (valueOf g)
  | XN _ _ false _ None => Err
  end.
(** GradOnDevice (cuda.go:330-359). *)
Definition gradOnDevice (s : xst) (n : xnode) (toDev : Z) : xst * res (option xval * bool) :=
  if (dataOf n =? toDev)%Z then (s, match gradOf n with Ok d => Ok (d, false) | Err => Err | Panic => Panic end)
  else match n with
       | XN _ _ true None _ => (s, Err)
       | XN _ _ true (Some d) _ =>
           let (s', r) := transfer s toDev (dataOf n) d (toDev =? CPUdev)%Z in
           (s', match r with Ok w => Ok (Some w, negb (toDev =? CPUdev)%Z) | Err => Err | Panic => Panic end)
       | XN _ _ false _ (Some g) => valueOnDevice s g toDev
       | XN _ _ false _ None => (s, Err)
       end.
End Xfer.
Arguments xst : clear implicits.

(** What happens to the ExternMetadata of a machine in a CUDA build (cuda.go:57-69): is the
    channel workAvailable there, was it initialised, how many engines. *)
Record extern := Ext { chanMade : bool; initDone : bool; nEngines : nat }.
(** The struct as NewTapeMachine and NewLispMachine make it (vm_tape.go:52-60,
    vm_genera.go:46-54): no field is set but Engine. *)
Definition newExtern : extern := Ext false false 0.
(** Its methods that touch these fields: init with [k] sizes, which may fail at the count of
    the devices or at an engine, or succeed; initFail; the other methods (DoWork, Signal,
    Transfer, Get, Put, Reset, cleanup, collectWork). (cuda.go:116-292.) *)
Inductive extStep := EInitNoDevice | EInitEngine (k : nat) | EInitOk (k : nat) | EInitFail | EOther.
(** init (cuda.go:224-261), which does not make the channel; initFail (cuda.go:263-271). *)
Definition stepExt (e : extern) (o : extStep) : extern :=
  match o with
  | EInitNoDevice => e
  | EInitEngine k => if initDone e then e else Ext (chanMade e) false k
  | EInitOk k => if initDone e then e else Ext (chanMade e) true k
  | EInitFail => Ext false (initDone e) 0
  | EOther => e
  end.
(** A history of such calls (vm_tape_cuda.go:17-41, vm_genera_cuda.go:12-46). *)
Definition runExt (l : list extStep) : extern := fold_left stepExt l newExtern.
