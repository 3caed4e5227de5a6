(** Model of the two loops of the CTC loss that go through runInParallel
    (op_ctc_loss.go:205-278 and 645-741), on the machine of ParModel.v.  The arithmetic on
    the loaded values is left open.  The float32 loops (381, 814) are textual copies. *)
From Coq Require Import List Arith Bool.
From Verif Require Import ParModel.
Import ListNotations.
Local Open Scope nat_scope.

Section Ctc.
Variable V : Type.
(** T = inputSize, B = batchSize, N = numLabels, W = logAlphaWidth (op_ctc_loss.go:134-137, 174). *)
Variables T B N W : nat.
(** inputLengths, targetLengths, and getPrimeTarget at the offset of sample b
    (op_ctc_loss.go:206-209 and 85-92). *)
Variables inputLen targetLen : nat -> nat.
Variable prime : nat -> nat -> nat.
(** math.Inf(-1) (op_ctc_loss.go:172). *)
Variable negInf : V.

(** A variable that is loaded if a condition holds and is -Inf otherwise
    (op_ctc_loss.go:235-251, 689-705). *)
Definition rdIf (c : bool) (l : loc) (k : V -> prog V) : prog V := if c then Rd l k else k negInf.

(** Index x of lppSection of sample b (op_ctc_loss.go:211-213, 651-653). *)
Definition lppAt (lpp b x : nat) : loc := (lpp, b * (T * N) + x).
(** Index x of logAlphaSection or logBetaSection of sample b (op_ctc_loss.go:215-217, 661-664);
    logAlphaSpatialDim is T * W. *)
Definition secAt (a b x : nat) : loc := (a, b * (T * W) + x).
(** Row t, column c of gradSlice of sample b (op_ctc_loss.go:654, SetAt): gradT has shape
    (T, B, N) and is only seen with its first two axes swapped (line 634). *)
Definition gradAt (grad b t c : nat) : loc := (grad, t * B * N + b * N + c).

(** ctcLossOp.f64s, the callback (op_ctc_loss.go:205-278).  [comb] is lines 253-257, [final]
    266-276. *)
Definition ctcForward (lpp alpha nll : nat) (comb : V -> V -> V -> V -> V) (final : V -> V -> V) (b : nat) : prog V :=
  let il := inputLen b in let tl := targetLen b in let tw := 2 * tl + 1 in
  let rest :=
    loopP (il - 1) 1 (fun t _ k => loopP tw 0 (fun s _ k =>
      Rd (secAt alpha b ((t - 1) * tw + s)) (fun la1 =>
      rdIf (0 <? s) (secAt alpha b ((t - 1) * tw + s - 1)) (fun la2 =>
      rdIf ((1 <? s) && negb (prime b (s - 2) =? prime b s)) (secAt alpha b ((t - 1) * tw + s - 2)) (fun la3 =>
      Rd (lppAt lpp b (t * N + prime b s)) (fun lp =>
      Wr (secAt alpha b (t * tw + s)) (comb la1 la2 la3 lp) (k tt)))))) tt k) tt
    (fun _ => if tl =? 0 then Rd (secAt alpha b ((il - 1) * tw)) (fun x => Wr (nll, b) x Done)
              else Rd (secAt alpha b ((il - 1) * tw + tl * 2)) (fun l1 =>
                   Rd (secAt alpha b ((il - 1) * tw + tl * 2 - 1)) (fun l2 => Wr (nll, b) (final l1 l2) Done))) in
  Rd (lppAt lpp b 0) (fun x => Wr (secAt alpha b 0) x
    (if 0 <? tl then Rd (lppAt lpp b (prime b 1)) (fun y => Wr (secAt alpha b 1) y rest) else rest)).

(** ctcLossDiffOp.f64s, the callback (op_ctc_loss.go:645-741).  The loops that count down
    are counted up here, with t = inputLength-2-i and s = 2*targetLength-j.  [comb] is lines
    707-712, [add] 714, [join] 717-726, [value] 735. *)
Definition ctcBackward (lpp alpha nll beta grad : nat) (comb : V -> V -> V -> V -> V) (add join : V -> V -> V)
           (value : V -> V -> V -> V) (b : nat) : prog V :=
  let il := inputLen b in let tl := targetLen b in let tw := 2 * tl + 1 in
  Rd (nll, b) (fun n =>
  if il =? 0 then Done else
  let last := (il - 1) * tw in
  let out :=
    loopP il 0 (fun t _ k => loopP N 0 (fun c _ k =>
      Rd (gradAt grad b t c) (fun res => Rd (lppAt lpp b (t * N + c)) (fun lp =>
      Wr (gradAt grad b t c) (value lp res n) (k tt)))) tt k) tt (fun _ => Done) in
  let rows :=
    loopP (il - 1) 0 (fun i _ k => let t := il - 2 - i in loopP tw 0 (fun j _ k => let s := 2 * tl - j in
      Rd (secAt beta b ((t + 1) * tw + s)) (fun lb1 =>
      rdIf (s <? 2 * tl) (secAt beta b ((t + 1) * tw + s + 1)) (fun lb2 =>
      rdIf ((s <? 2 * tl - 1) && negb (prime b (s + 2) =? prime b s)) (secAt beta b ((t + 1) * tw + s + 2)) (fun lb3 =>
      Rd (lppAt lpp b (t * N + prime b s)) (fun lp =>
      Wr (secAt beta b (t * tw + s)) (comb lb1 lb2 lb3 lp)
      (Rd (secAt alpha b (t * tw + s)) (fun x => Rd (secAt beta b (t * tw + s)) (fun y =>
      Rd (gradAt grad b t (prime b s)) (fun g =>
      Wr (gradAt grad b t (prime b s)) (join g (add x y)) (k tt)))))))))) tt k) tt (fun _ => out) in
  Rd (lppAt lpp b ((il - 1) * N)) (fun l0 => Wr (secAt beta b (last + 2 * tl)) l0
  (Rd (secAt alpha b (last + 2 * tl)) (fun x => Rd (secAt beta b (last + 2 * tl)) (fun y =>
   Wr (gradAt grad b (il - 1) 0) (add x y)
   (if 0 <? tl then
      let p := prime b (2 * tl - 1) in
      Rd (lppAt lpp b ((il - 1) * N + p)) (fun l1 => Wr (secAt beta b (last + (2 * tl - 1))) l1
      (Rd (secAt alpha b (last + (2 * tl - 1))) (fun x' => Rd (secAt beta b (last + (2 * tl - 1))) (fun y' =>
       Wr (gradAt grad b (il - 1) p) (add x' y') rows))))
    else rows)))))).
End Ctc.
Arguments rdIf {V}. Arguments ctcForward {V}. Arguments ctcBackward {V}.
