(** The handshake of RunAll in the CPU build: the goroutine that called RunAll (the main
    one), the goroutine runall, and the goroutine collectBLASWork, with the channels of the
    machine and of the batched BLAS (vm_tape.go:213-347, noextern.go:13-108,
    blase/work.go:98-126). A label says which goroutine moves next, or which two meet at an
    unbuffered channel. What an instruction computes is left out: an instruction is the
    list of what it does to the BLAS and to the channels, and its error. Proof-free. *)
From Coq Require Import List Arith Bool.
Import ListNotations.

Section Model.
(** BLAS calls and errors. (blase/work.go:57-86; vm_tape.go:262-268.) *)
Context {J E : Type}.
(** What an instruction does that others notice: nothing; it enqueues a BLAS call that
    returns nothing (blase/work.go:112-116; those with [blocking] are left out); it flushes
    (vm_tape.go:737-740, in the goroutine of runall); it calls Signal
    (noextern.go:86-92). *)
Inductive act := Local | Enq (j : J) | Flush | Sig.
(** One instruction as it turns out: what it does, and the error of exec or of the watching
    code after it (vm_tape.go:256-344). *)
Definition instr : Type := (list act * option E)%type.
(** What the goroutine runall does: the acts of its instructions, and at the end a send on
    errChan or doneChan (vm_tape.go:268, 346). *)
Inductive step := SAct (a : act) | SErr (e : E) | SDone.
(** vm_tape.go:249-347 [runall]. *)
Fixpoint runall (is : list instr) : list step :=
  match is with
  | [] => [SDone]
  | (xs, None) :: is' => map SAct xs ++ runall is'
  | (xs, Some e) :: _ => map SAct xs ++ [SErr e]
  end.
(** vm_genera.go:260-294 [runall] of the lisp machine when nothing fails: the forward half
    and a Signal, then the backward half (for failures see LispModel). *)
Definition lispRunall (runFwd runBwd : bool) (fwd bwd : list (list act)) : list step :=
  map SAct ((if runFwd then concat fwd ++ [Sig] else []) ++ (if runBwd then concat bwd else [])) ++ [SDone].

(** Where runall is: before its next step; in enqueue between the send on [work] and the
    one on [workAvailable] (blase/work.go:113-117); in DoWork called by a flush, with the
    calls it has taken; in Signal after the send, waiting for [syncChan] (noextern.go:89). *)
Inductive rpc := RNext | RTok | RFlush (hand : list J) | RWait.
(** Where the main goroutine is (vm_tape.go:224-247): at the select; in DoWork of the first
    case, with the calls it has taken; sending on syncChan; in DoWork of the third case; at
    the closures that are left (given by their errors); in the deferred DoWork (216); it
    has returned. *)
Inductive mpc := MSel | MWork (sync : bool) (hand : list J) | MSync | MLast (hand : list J)
  | MClos (cs : list (option E)) | MDefer (r : option E) (hand : list J) | MRet (r : option E).
(** The state. [col]: the machine's collector has taken a signal of the BLAS and sends
    false (noextern.go:97-98). [tok]: the signal in the channel of capacity one
    (blase/work.go:100, 115). [idle]: the number of collectors of other machines that wait
    for a signal of the same BLAS; their machines are not running. [work]: the calls in the
    channel. [ran]: the calls handed to C, in order. [did]: the acts runall is done with
    (only a record). *)
Record st := St { mn : mpc; rn : rpc; todo : list step; col : bool; tok : bool; idle : nat;
                  work : list J; ran : list J; did : list act }.

(** Whether the machine knows of the batched BLAS ([m.b], set by NewTapeMachine only,
    vm_tape.go:51-53; the lisp machine does not start a collector either,
    vm_genera_nocuda.go:5-10); the capacity of the channel [work] (blase/work.go:48, 101);
    the errors of the closures (vm_tape.go:241-245). *)
Variable attached : bool.
Variable cap : nat.
Variable closures : list (option E).

(** What DoWork has taken and not run, if the main goroutine is in it (vm_tape.go:224-247). *)
Definition mhand (m : mpc) : option (list J) :=
  match m with MWork _ h | MLast h | MDefer _ h => Some h | _ => None end.
(** The same with other calls in hand (vm_tape.go:224-247). *)
Definition withHand (m : mpc) (h : list J) : mpc :=
  match m with MWork b _ => MWork b h | MLast _ => MLast h | MDefer r _ => MDefer r h | _ => m end.
(** Where the main goroutine goes when DoWork returns (vm_tape.go:227-247). DoWork returns
    nil in this build (noextern.go:49-54). *)
Definition afterWork (m : mpc) : mpc :=
  match m with
  | MWork true _ => MSync | MWork false _ => MSel
  | MLast _ => MClos closures | MDefer r _ => MRet r | _ => m
  end.

(** Who moves: runall alone; runall in DoWork takes a call, runs what it has, returns; the
    collector takes a signal; a collector of another machine takes it; the collector, or
    runall in Signal, meets the select; the main goroutine answers Signal; runall meets the
    select with an error, or at its end; the main goroutine in DoWork takes a call, runs
    what it has, returns; it goes on with the closures. (vm_tape.go:213-347,
    noextern.go:86-108, blase/work.go:112-157.) *)
Inductive label := Run | RTake | RProc | REnd | Col | Steal | GiveF | GiveT | Ack | SendErr | SendDone
  | MTake | MProc | MEnd | Clos.

(** One move; [None]: not possible now (a goroutine that waits). DoWork takes calls from the
    channel and runs what it has taken, in any batches, until the channel is empty; that
    the one of blase may leave a call behind is in BlaseModel. The lisp machine has no
    deferred DoWork, but for it DoWork does nothing. (vm_tape.go:213-347, noextern.go:20-108,
    blase/work.go:112-157.) *)
Definition fire (l : label) (s : st) : option st :=
  let '(St m r t c k i w x d) := s in
  match l with
  | Run =>
      match r, t with
      | RNext, SAct Local :: t' => Some (St m RNext t' c k i w x (d ++ [Local]))
      | RNext, SAct (Enq j) :: t' =>
          if length w <? cap then Some (St m RTok t' c k i (w ++ [j]) x (d ++ [Enq j])) else None
      | RNext, SAct Flush :: t' => Some (St m (RFlush []) t' c k i w x d)
      | RNext, SAct Sig :: t' => if attached then None else Some (St m RNext t' c k i w x (d ++ [Sig]))
      | RTok, _ => Some (St m RNext t c true i w x d)
      | _, _ => None
      end
  | RTake => match r, w, attached with RFlush h, j :: w', true => Some (St m (RFlush (h ++ [j])) t c k i w' x d) | _, _, _ => None end
  | RProc => match r with RFlush (j :: h) => Some (St m (RFlush []) t c k i w (x ++ j :: h) d) | _ => None end
  | REnd =>
      match r with
      | RFlush [] => match w, attached with [], _ | _, false => Some (St m RNext t c k i w x (d ++ [Flush])) | _, _ => None end
      | _ => None
      end
  | Col => match k, c, attached with true, false, true => Some (St m r t true false i w x d) | _, _, _ => None end
  | Steal => match k, i with true, S i' => Some (St m r t c false i' w x d) | _, _ => None end
  | GiveF => match m, c, attached with MSel, true, true => Some (St (MWork false []) r t false k i w x d) | _, _, _ => None end
  | GiveT =>
      match m, r, t, attached with
      | MSel, RNext, SAct Sig :: t', true => Some (St (MWork true []) RWait t' c k i w x d)
      | _, _, _, _ => None
      end
  | Ack => match m, r with MSync, RWait => Some (St MSel RNext t c k i w x (d ++ [Sig])) | _, _ => None end
  | SendErr => match m, r, t with MSel, RNext, SErr e :: t' => Some (St (MDefer (Some e) []) RNext t' c k i w x d) | _, _, _ => None end
  | SendDone => match m, r, t with MSel, RNext, SDone :: t' => Some (St (MLast []) RNext t' c k i w x d) | _, _, _ => None end
  | MTake => match mhand m, w, attached with Some h, j :: w', true => Some (St (withHand m (h ++ [j])) r t c k i w' x d) | _, _, _ => None end
  | MProc => match mhand m with Some (j :: h) => Some (St (withHand m []) r t c k i w (x ++ j :: h) d) | _ => None end
  | MEnd =>
      match mhand m with
      | Some [] => match w, attached with [], _ | _, false => Some (St (afterWork m) r t c k i w x d) | _, _ => None end
      | _ => None
      end
  | Clos =>
      match m with
      | MClos [] => Some (St (MDefer None []) r t c k i w x d)
      | MClos (None :: cs) => Some (St (MClos cs) r t c k i w x d)
      | MClos (Some e :: _) => Some (St (MDefer (Some e) []) r t c k i w x d)
      | _ => None
      end
  end.
(** A sequence of moves. (vm_tape.go:213-347.) *)
Fixpoint go (ls : list label) (s : st) : option st :=
  match ls with [] => Some s | l :: ls' => match fire l s with Some s' => go ls' s' | None => None end end.

(** RunAll is called (vm_tape.go:213-223): the channels errChan and doneChan are new;
    earlier runs may have left a signal and a collector that holds one. *)
Definition start (p : list step) (c k : bool) (i : nat) : st := St MSel RNext p c k i [] [] [].
End Model.
Arguments act : clear implicits.
Arguments step : clear implicits.
Arguments st : clear implicits.
Arguments mpc : clear implicits.
Arguments rpc : clear implicits.
Arguments instr : clear implicits.
