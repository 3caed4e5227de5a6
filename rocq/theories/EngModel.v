(** The CUDA engine's life: Init, Run, Close, Memcpy (cuda/external.go, cuda/engine.go).
    One goroutine calls the engine's methods one after the other; Run is the goroutine
    that Init starts. What the driver, cuBLAS and cuDNN answer is chosen by the calls
    below. Proof-free. *)
From Coq Require Import List Bool Arith.
Import ListNotations.

(** Where doInit fails (cuda/external.go:112-170): making the context (122-131), or
    later, at the attributes, the memory information, the size or the allocation (135-137,
    153-155, 159-161, 162-165); then [unload] says whether Close fails to unload a module. *)
Inductive stage := FCtx | FLater (unload : bool).
(** The calls. CInit: external.go:88-110. CClose: external.go:173-220, with the answers
    true for a failure of Unload (183-187), of cuBLAS' and cuDNN's Close (195-205) and of
    the context's Close (211-213). CMemcpy: engine.go:105-124. CBatch: a kernel launch or
    copy queued in the batched context, which announces it on WorkAvailable and leaves the
    error, if it fails, to Run's DoWork (external.go:249-257; library). *)
Inductive call :=
| CInit (f : option stage)
| CClose (unload closeB closeN closeC : bool)
| CMemcpy
| CBatch (fails : bool).

(** Where Run is (external.go:229-276): not started; before Lock (230); before
    [finishChan2 <-] (244); in the select (248); running [w()] (260); before
    [ErrChan() <- err] (261); before the Lock of an error (252, 264); before
    [<-finishChan2] (275); ended. *)
Inductive rpc := RNone | RStart | RPut | RLoop | RWork (fails : bool) | RAns (fails : bool) | RFail | RFin | REnd.
(** Where the caller is: between calls; in Init before the first and the second Lock
    (89, 97); in Close before Lock (174), [init] if Init called it (101); before sending
    and awaiting the closing of cuBLAS (197) and of cuDNN (203) (Do of the context, library:
    send on Work, then receive from ErrChan, both unbuffered); before
    [close(e.workAvailable)] (208); before [finishChan <-] (216) and [finishChan2 <-]
    (217); in Signal (32-34); dead by a panic. *)
Inductive cpc :=
| PIdle
| PInit1 (f : option stage)
| PInit2 (f : option stage)
| PClose (init : bool) (unload b n c : bool)
| PSendB (init b n c : bool)
| PWaitB (init n c : bool)
| PSendN (init n c : bool)
| PWaitN (init c : bool)
| PShut (init c : bool)
| PFin (init : bool)
| PFin2 (init : bool)
| PSig
| PPanic.

(** The engine (engine.go:38-69). [locked]: the caller holds the Mutex (Run holds it only
    within a step). [ctx]: e.c.Context is not nil. [wa]: e.workAvailable: nil, open (true)
    or closed. [f2]: how many tokens finishChan2 (of capacity 1) holds. [eerr]: e.err is
    not nil. [pend]: what has been announced on WorkAvailable, true for a failure.
    [twice]: Run was started while one was not over. [outs]: what the calls have returned,
    true for an error. *)
Record st := St {
  locked : bool; inited : bool; ctx : bool; wa : option bool; f2 : nat; eerr : bool;
  pend : list bool; run : rpc; twice : bool; cl : cpc; todo : list call; outs : list bool }.

(** A new engine (the zero Engine, engine.go:38-69) whose methods are about to be called. *)
Definition start (p : list call) : st := St false false false None 0 false [] RNone false PIdle p [].

(** The caller goes on (external.go). *)
Definition at_ (s : st) (c : cpc) : st :=
  St (locked s) (inited s) (ctx s) (wa s) (f2 s) (eerr s) (pend s) (run s) (twice s) c (todo s) (outs s).
(** Run goes on (external.go). *)
Definition runAt (s : st) (r : rpc) : st :=
  St (locked s) (inited s) (ctx s) (wa s) (f2 s) (eerr s) (pend s) r (twice s) (cl s) (todo s) (outs s).
(** The caller takes the Mutex and goes on (external.go:174). *)
Definition lockAt (s : st) (c : cpc) : st :=
  St true (inited s) (ctx s) (wa s) (f2 s) (eerr s) (pend s) (run s) (twice s) c (todo s) (outs s).
(** The call returns (an error if [e]); the Mutex is free again (external.go:92, 108, 175). *)
Definition ret (s : st) (e : bool) : st :=
  St false (inited s) (ctx s) (wa s) (f2 s) (eerr s) (pend s) (run s) (twice s) PIdle (todo s) (outs s ++ [e]).
(** Close returns: Init that called it returns its own error (external.go:102-105). *)
Definition retClose (s : st) (init e : bool) : st := ret s (init || e).

(** A Run that was started and is not over (external.go:229-276). *)
Definition alive (r : rpc) : bool := match r with RNone | REnd => false | _ => true end.

(** doInit up to making the context (external.go:113-117), between Lock and Unlock. *)
Definition fresh (s : st) : st :=
  St (locked s) (inited s) (ctx s) (Some true) 0 (eerr s) (pend s) (run s) (twice s) (cl s) (todo s) (outs s).
(** The context is new, with nothing announced (external.go:132). *)
Definition newCtx (s : st) : st :=
  St (locked s) (inited s) true (wa s) (f2 s) (eerr s) [] (run s) (twice s) (cl s) (todo s) (outs s).
(** [go e.Run()] and [e.initialized = true] (external.go:107, 168). *)
Definition goRun (s : st) : st :=
  St (locked s) true (ctx s) (wa s) (f2 s) (eerr s) (pend s) RStart (twice s || alive (run s)) (cl s) (todo s) (outs s).

(** The next step of the caller. [None]: it waits. *)
(* cuda/external.go:32-34, 88-110, 112-170, 173-220; cuda/engine.go:105-124 *)
Definition caller (s : st) : option st :=
  match cl s with
  | PIdle =>
      match todo s with
      | [] => None
      | c :: p =>
          let s' := St (locked s) (inited s) (ctx s) (wa s) (f2 s) (eerr s) (pend s) (run s) (twice s) PIdle p (outs s) in
          Some (match c with
                | CInit f => at_ s' (PInit1 f)
                | CClose u b n e => at_ s' (PClose false u b n e)
                | CMemcpy => at_ s' PSig
                | CBatch f =>
                    St (locked s) (inited s) (ctx s) (wa s) (f2 s) (eerr s) (pend s ++ [f]) (run s) (twice s) PIdle p (outs s ++ [false])
                end)
      end
  | PInit1 f =>
      if locked s then None else Some (if inited s then ret s false else at_ s (PInit2 f))
  | PInit2 f =>
      if locked s then None else
      Some (match f with
            | None => ret (goRun (newCtx (fresh s))) false
            | Some FCtx => at_ (fresh s) (PClose true false false false false)
            | Some (FLater u) => at_ (newCtx (fresh s)) (PClose true u false false false)
            end)
  | PClose i u b n c =>
      if locked s then None else
      Some (if negb (ctx s) then retClose s i false
            else if u then retClose s i true
            else lockAt s (PSendB i b n c))
  | PShut i c =>
      match wa s with
      | Some false => Some (at_ s PPanic)
      | w =>
          let s' := St (locked s) (inited s) (ctx s) (match w with None => None | Some _ => Some false end)
                       (f2 s) (eerr s) (pend s) (run s) (twice s) (cl s) (todo s) (outs s) in
          Some (if c then retClose s' i true else at_ s' (PFin i))
      end
  | PFin2 i =>
      if f2 s <? 1 then
        Some (retClose (St (locked s) false (ctx s) (wa s) (S (f2 s)) (eerr s) (pend s) (run s) (twice s) (cl s) (todo s) (outs s)) i false)
      else None
  | PSig => match wa s with Some false => Some (at_ s PPanic) | _ => None end
  | _ => None
  end.

(** The next step of Run by itself (external.go:229-276). [e.running] is never set, so the
    check in line 231 does not stop it; initialising cuBLAS (241) is left out. *)
Definition runner (s : st) : option st :=
  match run s with
  | RStart => if locked s then None else Some (runAt s RPut)
  | RPut =>
      if f2 s <? 1 then
        Some (St (locked s) (inited s) (ctx s) (wa s) (S (f2 s)) (eerr s) (pend s) RLoop (twice s) (cl s) (todo s) (outs s))
      else None
  | RWork f => Some (runAt s (RAns f))
  | RFail =>
      if locked s then None
      else Some (St (locked s) (inited s) (ctx s) (wa s) (f2 s) true (pend s) RFin (twice s) (cl s) (todo s) (outs s))
  | RFin =>
      match f2 s with
      | 0 => None
      | S k => Some (St (locked s) (inited s) (ctx s) (wa s) k (eerr s) (pend s) REnd (twice s) (cl s) (todo s) (outs s))
      end
  | _ => None
  end.

(** Who goes on: the caller, Run, Run with an announced batch (external.go:249-257), both
    with a function to run (197, 203, 258), its error (261) or the end (216, 271). *)
Inductive label := LCall | LRun | LBatch | LWork | LAns | LFin.
(** One step (external.go); [None] if it is not possible. *)
Definition fire (l : label) (s : st) : option st :=
  match l with
  | LCall => caller s
  | LRun => runner s
  | LBatch =>
      match run s, pend s with
      | RLoop, f :: r =>
          Some (St (locked s) (inited s) (ctx s) (wa s) (f2 s) (eerr s) r (if f then RFail else RLoop) (twice s) (cl s) (todo s) (outs s))
      | _, _ => None
      end
  | LWork =>
      match run s, cl s with
      | RLoop, PSendB i b n c => Some (at_ (runAt s (RWork b)) (PWaitB i n c))
      | RLoop, PSendN i n c => Some (at_ (runAt s (RWork n)) (PWaitN i c))
      | _, _ => None
      end
  | LAns =>
      match run s, cl s with
      | RAns f, PWaitB i n c =>
          let s' := runAt s (if f then RFail else RLoop) in
          Some (if f then retClose s' i (eerr s) else at_ s' (PSendN i n c))
      | RAns f, PWaitN i c =>
          let s' := runAt s (if f then RFail else RLoop) in
          Some (if f then retClose s' i (eerr s) else at_ s' (PShut i c))
      | _, _ => None
      end
  | LFin =>
      match run s, cl s with
      | RLoop, PFin i => Some (at_ (runAt s RFin) (PFin2 i))
      | _, _ => None
      end
  end.
(** A schedule (external.go). *)
Fixpoint go (ls : list label) (s : st) : option st :=
  match ls with
  | [] => Some s
  | l :: r => match fire l s with Some s' => go r s' | None => None end
  end.
