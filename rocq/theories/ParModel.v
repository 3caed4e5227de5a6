(** Model of runInParallel (utils.go:315-328) and of the loops of batch and group
    normalisation that go through it (op_nn.go, op_group_norm.go).

    A goroutine is a tree of single accesses to shared memory, so between any two
    accesses the others may run.  The float32 loops are textual copies of
    the float64 ones.  The loops of the CTC loss are in CtcParModel.v. *)
From Coq Require Import List Arith Bool.
Import ListNotations.
Local Open Scope nat_scope.

Section Par.
Variable V : Type.

(** A cell of memory: a slice (by the memory it lies in) and an index (the indexed
    accesses, e.g. op_nn.go:1366). *)
Definition loc := (nat * nat)%type.
(** What the cells hold (op_nn.go:1345-1359, the slices of the tensors). *)
Definition mem := loc -> V.

(** What a callback still has to do: nothing, load a cell, or store to a cell
    (utils.go:321-324, [cb(i)]). *)
Inductive prog := Done | Rd (l : loc) (k : V -> prog) | Wr (l : loc) (v : V) (p : prog).

(** A store, as in op_nn.go:1366. *)
Definition upd (m : mem) (l : loc) (v : V) : mem :=
  fun x => if (fst x =? fst l) && (snd x =? snd l) then v else m x.

(** runInParallel: the next index to start, the callbacks that run (with their indexes),
    the counter of the wait group, the memory (utils.go:315-328). *)
Record state := St { next : nat; running : list (nat * prog); counter : nat; memory : mem }.

(** One step of the loop (utils.go:319-320: wg.Add(1) and go) or of one of the goroutines
    (321-324: an access of the callback, or wg.Done() after it). *)
Inductive step (to : nat) (cb : nat -> prog) : state -> state -> Prop :=
| SSpawn : forall i ps n m, i < to -> step to cb (St i ps n m) (St (S i) (ps ++ [(i, cb i)]) (S n) m)
| SLoad : forall i a j l k b n m,
    step to cb (St i (a ++ (j, Rd l k) :: b) n m) (St i (a ++ (j, k (m l)) :: b) n m)
| SStore : forall i a j l v p b n m,
    step to cb (St i (a ++ (j, Wr l v p) :: b) n m) (St i (a ++ (j, p) :: b) n (upd m l v))
| SDone : forall i a j b n m,
    step to cb (St i (a ++ (j, Done) :: b) n m) (St i (a ++ b) (n - 1) m).

(** Any number of steps (utils.go:315-328). *)
Inductive steps (to : nat) (cb : nat -> prog) : state -> state -> Prop :=
| steps_refl : forall s, steps to cb s s
| steps_step : forall s t u, steps to cb s t -> step to cb t u -> steps to cb s u.

(** The call, utils.go:316-318. *)
Definition start (from : nat) (m : mem) : state := St from [] 0 m.
(** wg.Wait() returns (utils.go:327) once the loop is over and the counter is 0. *)
Definition returned (to : nat) (s : state) : Prop := to <= next s /\ counter s = 0.

(** The counting loops of the callbacks, with local variables [a] (e.g. op_nn.go:1363). *)
Fixpoint loopP {A} (n i : nat) (body : nat -> A -> (A -> prog) -> prog) (a : A) (k : A -> prog) : prog :=
  match n with
  | 0 => k a
  | S n' => body i a (fun a' => loopP n' (S i) body a' k)
  end.

(** Loading a section of a slice (op_group_norm.go:138, 608-609). *)
Definition loadSection (s base n : nat) (k : list V -> prog) : prog :=
  loopP n 0 (fun j acc k' => Rd (s, base + j) (fun x => k' (acc ++ [x]))) [] k.

Section Loops.
Variables B C D : nat.                          (* batchSize, channels, spatialDim / imageSize *)
(** The arithmetic of the loops is left open. *)
Variables add mul sub : V -> V -> V.
Variables zero : V.

(** updateStatsF64, the callback (op_nn.go:1362-1379 for spatialDim = 1, where the index
    s*channels + c is the one below, and 1383-1407 otherwise).  [divN] is the division by
    n, [mix] the running average, [mixVar] the one of the unbiased variance. *)
Definition bnStats (input saveMean saveVar runMean runVar : nat)
           (divN : V -> V) (mix mixVar : V -> V -> V) (c : nat) : prog :=
  loopP B 0 (fun s _ k => loopP D 0 (fun d _ k =>
    Rd (saveMean, c) (fun a => Rd (input, s * C * D + c * D + d) (fun x => Wr (saveMean, c) (add a x) (k tt)))) tt k) tt
  (fun _ => Rd (saveMean, c) (fun a => Wr (saveMean, c) (divN a)
  (loopP B 0 (fun s _ k => loopP D 0 (fun d _ k =>
    Rd (input, s * C * D + c * D + d) (fun x => Rd (saveVar, c) (fun v => Rd (saveMean, c) (fun m1 => Rd (saveMean, c) (fun m2 =>
    Wr (saveVar, c) (add v (mul (sub x m1) (sub x m2))) (k tt)))))) tt k) tt
  (fun _ => Rd (saveMean, c) (fun a => Rd (runMean, c) (fun r => Wr (runMean, c) (mix a r)
   (Rd (saveVar, c) (fun v => Rd (runVar, c) (fun r' => Wr (runVar, c) (mixVar v r') Done))))))))).

(** calculateAlphaAndBetaF64, the callback (op_nn.go:1424-1437). *)
Definition bnAlphaBeta (mean var alpha beta : nat) (invStd negMul : V -> V) (c : nat) : prog :=
  Rd (mean, c) (fun m => Rd (var, c) (fun v => Wr (alpha, c) (invStd v)
    (Rd (alpha, c) (fun a => Wr (beta, c) (negMul (mul m a)) Done)))).

(** f64s, the callback for each sample when spatialDim = 1 (op_nn.go:1467-1473). *)
Definition bnOutSample (out alpha beta : nat) (s : nat) : prog :=
  loopP C 0 (fun c _ k =>
    Rd (out, s * C + c) (fun o => Rd (alpha, c) (fun a => Rd (beta, c) (fun b =>
    Wr (out, s * C + c) (add (mul o a) b) (k tt))))) tt (fun _ => Done).

(** f64s, the callback for each channel (op_nn.go:1475-1483). *)
Definition bnOutChannel (out alpha beta : nat) (c : nat) : prog :=
  loopP B 0 (fun s _ k => loopP D 0 (fun d _ k =>
    Rd (out, s * C * D + c * D + d) (fun o => Rd (alpha, c) (fun a => Rd (beta, c) (fun b =>
    Wr (out, s * C * D + c * D + d) (add (mul o a) b) (k tt))))) tt k) tt (fun _ => Done).

(** batchnormDiffOp.f64s, the callback in training (op_nn.go:1741-1777 and 1786-1824): the
    sums, then the two stores to each cell.  [coef] computes mean, invstd, k and
    gradMean from the statistics and the sums; [first] and [second] are the
    right-hand sides of the stores. *)
Definition bnDiff (inp dy ig mean var : nat) (coef : V -> V -> V -> V -> list V)
           (first : list V -> V -> V) (second : list V -> V -> V -> V) (c : nat) : prog :=
  Rd (mean, c) (fun mu => Rd (var, c) (fun v =>
  loopP B 0 (fun s acc k => loopP D 0 (fun d acc k =>
    Rd (dy, s * C * D + c * D + d) (fun g => Rd (inp, s * C * D + c * D + d) (fun x =>
    k (add (fst acc) g, add (snd acc) (mul (sub x mu) g))))) acc k) (zero, zero)
  (fun acc => let q := coef mu v (fst acc) (snd acc) in
   loopP B 0 (fun s _ k => loopP D 0 (fun d _ k =>
    Rd (inp, s * C * D + c * D + d) (fun x => Wr (ig, s * C * D + c * D + d) (first q x)
    (Rd (dy, s * C * D + c * D + d) (fun g => Rd (ig, s * C * D + c * D + d) (fun o =>
     Wr (ig, s * C * D + c * D + d) (second q g o) (k tt)))))) tt k) tt (fun _ => Done)))).

(** GroupNormOp.f64s, the callback (op_group_norm.go:136-158), [d] channels per group; the
    moments are a function of the section (rowwiseMomentsF64, 163-235). *)
Definition gnForward (d x y meanA rstdA : nat) (moments : list V -> V * V) (scaleAdd : V * V -> V -> V) (i : nat) : prog :=
  loadSection x (i * (d * D)) (d * D) (fun sec => let mr := moments sec in
  loopP d 0 (fun j _ k => loopP D 0 (fun e _ k =>
    Rd (x, (i * d + j) * D + e) (fun v => Wr (y, (i * d + j) * D + e) (scaleAdd mr v) (k tt))) tt k) tt
  (fun _ => Wr (meanA, i) (fst mr) (Wr (rstdA, i) (snd mr) Done))).

(** computeInternalGradientsF64, the callback (op_group_norm.go:645-655). *)
Definition gnInternal (inp dy dsA dbA : nat) (i : nat) : prog :=
  loopP D 0 (fun j _ k =>
    Rd (dsA, i) (fun a => Rd (dy, i * D + j) (fun g => Rd (inp, i * D + j) (fun x => Wr (dsA, i) (add a (mul g x))
    (Rd (dbA, i) (fun b => Rd (dy, i * D + j) (fun g' => Wr (dbA, i) (add b g') (k tt)))))))) tt (fun _ => Done).

(** groupNormDiffOp.f64s, the callback (op_group_norm.go:605-633); [coef] computes c1, c2
    and c3. *)
Definition gnGrad (d inp dy dx ds db mean rstd : nat) (coef : list V -> list V -> V -> V -> list V)
           (value : list V -> V -> V -> V) (i : nat) : prog :=
  loadSection ds (i * d) d (fun dss => loadSection db (i * d) d (fun dbs =>
  Rd (rstd, i) (fun r => Rd (mean, i) (fun mu => let q := coef dss dbs r mu in
  loopP d 0 (fun j _ k => loopP D 0 (fun e _ k =>
    Rd (dy, (i * d + j) * D + e) (fun g => Rd (inp, (i * d + j) * D + e) (fun x =>
    Wr (dx, (i * d + j) * D + e) (value q g x) (k tt)))) tt k) tt (fun _ => Done))))).
End Loops.
End Par.
Arguments Done {V}. Arguments Rd {V}. Arguments Wr {V}. Arguments upd {V}. Arguments St {V}.
Arguments next {V}. Arguments running {V}. Arguments counter {V}. Arguments memory {V}.
Arguments step {V}. Arguments steps {V}. Arguments start {V}. Arguments returned {V}.
Arguments loopP {V A}. Arguments loadSection {V}. Arguments bnStats {V}. Arguments bnAlphaBeta {V}.
Arguments bnOutSample {V}. Arguments bnOutChannel {V}. Arguments bnDiff {V}. Arguments gnForward {V}.
Arguments gnInternal {V}. Arguments gnGrad {V}.
