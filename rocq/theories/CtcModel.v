(** Model of the CTC loss and of its gradient operator (op_ctc_loss.go), float64
    case.  Numbers are exact reals together with the infinities and NaN of IEEE
    arithmetic.  No proofs in this file.

    Simplified: labels and lengths (Go ints) are natural numbers; runInParallel
    starts one goroutine per batch entry, each of which writes only its own
    section, so they are run one after the other. *)
From Coq Require Import Arith Reals List Bool.
From Verif Require Import LoopModel.
Import ListNotations.
Local Open Scope nat_scope.

(** The float64 values of the code (op_ctc_loss.go:172 and the uses of math.Exp,
    math.Log, math.Max). *)
Inductive ext := MInf | Fin (r : R) | PInf | NaN.

(** x + y (op_ctc_loss.go:257). *)
Definition xadd (x y : ext) : ext :=
  match x, y with
  | NaN, _ | _, NaN => NaN
  | MInf, PInf | PInf, MInf => NaN
  | MInf, _ | _, MInf => MInf
  | PInf, _ | _, PInf => PInf
  | Fin a, Fin b => Fin (a + b)
  end.
(** -x (op_ctc_loss.go:276). *)
Definition xneg (x : ext) : ext :=
  match x with MInf => PInf | PInf => MInf | NaN => NaN | Fin a => Fin (- a) end.
(** x - y (op_ctc_loss.go:257). *)
Definition xsub (x y : ext) : ext := xadd x (xneg y).
(** x * y (op_ctc_loss.go:735). *)
Definition xmul (x y : ext) : ext :=
  let inf a (pos : bool) := if Req_EM_T a 0 then NaN
    else if Rlt_dec 0 a then (if pos then PInf else MInf) else (if pos then MInf else PInf) in
  match x, y with
  | NaN, _ | _, NaN => NaN
  | Fin a, Fin b => Fin (a * b)
  | Fin a, PInf | PInf, Fin a => inf a true
  | Fin a, MInf | MInf, Fin a => inf a false
  | PInf, PInf | MInf, MInf => PInf
  | PInf, MInf | MInf, PInf => MInf
  end.
(** x / n for an int n > 0 (op_ctc_loss.go:290, 295). *)
Definition xdivn (x : ext) (n : nat) : ext :=
  match x with Fin a => Fin (a / INR n) | _ => x end.
(** math.Exp, math.Log (op_ctc_loss.go:257). *)
Definition xexp (x : ext) : ext :=
  match x with MInf => Fin 0 | Fin a => Fin (exp a) | PInf => PInf | NaN => NaN end.
(** math.Log (Go library, used at op_ctc_loss.go:257): -Inf at 0, NaN below. *)
Definition xlog (x : ext) : ext :=
  match x with
  | Fin a => if Rlt_dec 0 a then Fin (ln a) else if Req_EM_T a 0 then MInf else NaN
  | PInf => PInf
  | MInf | NaN => NaN
  end.
(** x > y (op_ctc_loss.go:237). *)
Definition xgt (x y : ext) : bool :=
  match x, y with
  | NaN, _ | _, NaN => false
  | MInf, _ => false
  | _, MInf => true
  | _, PInf => false
  | PInf, _ => true
  | Fin a, Fin b => if Rlt_dec b a then true else false
  end.
(** x == negInf (op_ctc_loss.go:253). *)
Definition isMInf (x : ext) : bool := match x with MInf => true | _ => false end.
(** math.Max (op_ctc_loss.go:720), on values that are not NaN. *)
Definition xmax (x y : ext) : ext := if xgt y x then y else x.

(** op_ctc_loss.go:85-92 [getPrimeTarget]. *)
Definition getPrimeTarget (targets : list nat) (offset stride idx : nat) : option nat :=
  if idx mod 2 =? 0 then Some 0 else aget targets (offset + stride * (idx / 2)).

(** op_ctc_loss.go:230-257 and 682-712: log(exp(a-m) + exp(b-m) + exp(c-m)) + m, m the maximum or
    0 when it is -Inf. *)
Definition logSum3 (a b c : ext) : ext :=
  let m := a in
  let m := if xgt b m then b else m in
  let m := if xgt c m then c else m in
  let m := if isMInf m then Fin 0 else m in
  xadd (xlog (xadd (xadd (xexp (xsub a m)) (xexp (xsub b m))) (xexp (xsub c m)))) m.
(** op_ctc_loss.go:264-275. *)
Definition logSum2 (a b : ext) : ext :=
  let m := a in
  let m := if xgt b m then b else m in
  let m := if isMInf m then Fin 0 else m in
  xadd (xlog (xadd (xexp (xsub a m)) (xexp (xsub b m)))) m.

Section One.
(** One batch entry: its log probabilities (time by label), its target and sizes. *)
Variables (lpp : list ext) (targets : list nat) (offset stride : nat).
Variables (inputLength targetLength numLabels : nat).
Let targetWidth := 2 * targetLength + 1.
Let prime := getPrimeTarget targets offset stride.

(** op_ctc_loss.go:226-258, one cell of the table. *)
Definition alphaCell (t s : nat) (sec : list ext) : option (list ext) :=
  match prime s with
  | None => None
  | Some cur =>
      let i := (t - 1) * targetWidth + s in
      match aget sec i,
            (if 0 <? s then aget sec (i - 1) else Some MInf),
            (if 1 <? s then
               match prime (s - 2) with
               | None => None
               | Some p2 => if p2 =? cur then Some MInf else aget sec (i - 2)
               end
             else Some MInf),
            aget lpp (t * numLabels + cur) with
      | Some la1, Some la2, Some la3, Some lp =>
          aset sec (t * targetWidth + s) (xadd (logSum3 la1 la2 la3) lp)
      | _, _, _, _ => None
      end
  end.

(** op_ctc_loss.go:219-259: the table of log alphas. *)
Definition alphaTable (sec : list ext) : option (list ext) :=
  match aget lpp 0 with
  | None => None
  | Some l0 =>
      match aset sec 0 l0 with
      | None => None
      | Some sec =>
          match (if 0 <? targetLength then
                   match prime 1 with
                   | None => None
                   | Some y => match aget lpp y with Some l1 => aset sec 1 l1 | None => None end
                   end
                 else Some sec) with
          | None => None
          | Some sec =>
              loop (inputLength - 1) (fun k => loop targetWidth (fun s => alphaCell (k + 1) s)) sec
          end
      end
  end.

(** op_ctc_loss.go:261-277: the negated log likelihood; line 262 does not negate. *)
Definition readLikelihood (sec : list ext) : option ext :=
  if inputLength =? 0 then None    (* negative index *)
  else if targetLength =? 0 then aget sec ((inputLength - 1) * targetWidth)
  else match aget sec ((inputLength - 1) * targetWidth + targetLength * 2),
             aget sec ((inputLength - 1) * targetWidth + targetLength * 2 - 1) with
       | Some l1, Some l2 => Some (xneg (logSum2 l1 l2))
       | _, _ => None
       end.

(** op_ctc_loss.go:680-727, one cell of the backward pass.  SetAt and At on the
    (time by label) slice are accesses to one list here. *)
Definition betaCell (alpha : list ext) (t s : nat) (st : list ext * list ext) : option (list ext * list ext) :=
  let '(beta, grad) := st in
  let baseIndex := (t + 1) * targetWidth + s in
  match prime s with
  | None => None
  | Some cur =>
      match aget beta baseIndex,
            (if s <? 2 * targetLength then aget beta (baseIndex + 1) else Some MInf),
            (if s + 1 <? 2 * targetLength then
               match prime (s + 2) with
               | None => None
               | Some p2 => if p2 =? cur then Some MInf else aget beta (baseIndex + 2)
               end
             else Some MInf),
            aget lpp (t * numLabels + cur) with
      | Some lb1, Some lb2, Some lb3, Some lp =>
          let b := xadd (logSum3 lb1 lb2 lb3) lp in
          match aset beta (t * targetWidth + s) b, aget alpha (t * targetWidth + s), aget grad (t * numLabels + cur) with
          | Some beta', Some a, Some lcab =>
              let logAlphaBeta := xadd a b in
              let v := if isMInf lcab then logAlphaBeta
                       else let m := xmax lcab logAlphaBeta in
                            xadd (xlog (xadd (xexp (xsub lcab m)) (xexp (xsub logAlphaBeta m)))) m in
              match aset grad (t * numLabels + cur) v with
              | Some grad' => Some (beta', grad')
              | None => None
              end
          | _, _, _ => None
          end
      | _, _, _, _ => None
      end
  end.

(** op_ctc_loss.go:667-677: the last time step. *)
Definition betaLast (alpha : list ext) (st : list ext * list ext) (s : nat) : option (list ext * list ext) :=
  let '(beta, grad) := st in
  let i := (inputLength - 1) * targetWidth + s in
  match prime s with
  | None => None
  | Some cur =>
      match aget lpp ((inputLength - 1) * numLabels + cur), aget alpha i with
      | Some lp, Some a =>
          match aset beta i lp, aset grad ((inputLength - 1) * numLabels + cur) (xadd a lp) with
          | Some beta', Some grad' => Some (beta', grad')
          | _, _ => None
          end
      | _, _ => None
      end
  end.

(** op_ctc_loss.go:645-740 for one batch entry; [grad] is its (time by label) slice
    of the result, filled with -Inf before, like [beta] (620-627). *)
Definition diffOne (alpha : list ext) (nll : ext) (gradOut : ext) (beta grad : list ext) : option (list ext) :=
  if inputLength =? 0 then Some grad
  else
    match betaLast alpha (beta, grad) (2 * targetLength) with
    | None => None
    | Some st =>
        match (if 0 <? targetLength then betaLast alpha st (2 * targetLength - 1) else Some st) with
        | None => None
        | Some st =>
            match loop (inputLength - 1) (fun k => loop targetWidth (fun j =>
                    betaCell alpha (inputLength - 2 - k) (2 * targetLength - j))) st with
            | None => None
            | Some (_, grad) =>
                loop inputLength (fun t => loop numLabels (fun c grad =>
                  match aget grad (t * numLabels + c), aget lpp (t * numLabels + c) with
                  | Some res, Some lp =>
                      aset grad (t * numLabels + c)
                        (xmul (xsub (xexp lp) (xexp (xsub (xadd res nll) lp))) gradOut)
                  | _, _ => None
                  end)) grad
            end
        end
    end.
End One.

(** op_ctc_loss.go:196: Transpose(1,0,2) of (time, batch, label) to (batch, time,
    label), in row-major order. *)
Definition transposeTB (T B L : nat) (data : list ext) : list ext :=
  flat_map (fun b => flat_map (fun t => map (fun c => nth ((t * B + b) * L + c) data NaN) (seq 0 L)) (seq 0 T)) (seq 0 B).

(** op_ctc_loss.go:142-164: where the target of each batch entry starts: one after the
    other for a 1-dimensional tensor, rows of width [w] for a matrix. *)
Inductive targetShape := Vec | Mat (w : nat).
(** op_ctc_loss.go:142-164. *)
Definition targetOffset (sh : targetShape) (lens : list nat) (b : nat) : nat :=
  match sh with
  | Vec => fold_left Nat.add (firstn b lens) 0
  | Mat w => b * w
  end.

(** op_ctc_loss.go:14-18. *)
Inductive reduction := ReductionMean | ReductionSum.

(** op_ctc_loss.go:129-303 [f64s] on a (T, B, L) tensor; the result is the loss, the
    saved log alphas of each batch entry and the saved likelihoods.  An input length
    above T is an error (166-171), shown as [None] like a panic. *)
Definition ctcForward (red : reduction) (T B L : nat) (data : list ext) (sh : targetShape) (targets ilens tlens : list nat)
  : option (ext * list (list ext) * list ext) :=
  let maxT := fold_left Nat.max (firstn B tlens) 0 in
  let width := 2 * maxT + 1 in
  let lpp := transposeTB T B L data in
  if existsb (fun n => T <? n) (firstn B ilens) then None else
  match loop B (fun b st =>
          let '(alphas, nlls) := st in
          match aget ilens b, aget tlens b, aslice lpp (b * (T * L)) ((b + 1) * (T * L)) with
          | Some il, Some tl, Some section =>
              let sec0 := repeat MInf width ++ repeat (Fin 0) ((T - 1) * width) in
              match alphaTable section targets (targetOffset sh tlens b) 1 il tl L sec0 with
              | None => None
              | Some sec =>
                  match readLikelihood il tl sec with
                  | None => None
                  | Some nll => Some (alphas ++ [sec], nlls ++ [nll])
                  end
              end
          | _, _, _ => None
          end) ([], []) with
  | None => None
  | Some (alphas, nlls) =>
      match loop (length tlens) (fun i loss =>
              match aget nlls i, aget tlens i with
              | Some x, Some v =>
                  Some (xadd loss (match red with
                                   | ReductionSum => x
                                   | ReductionMean => xdivn x (if v <? 1 then 1 else v)
                                   end))
              | _, _ => None
              end) (Fin 0) with
      | None => None
      | Some loss =>
          let loss := match red with ReductionMean => xdivn loss (length tlens) | ReductionSum => loss end in
          Some (loss, alphas, nlls)
      end
  end.

(** op_ctc_loss.go:579-746 [ctcLossDiffOp.f64s] with the tables saved by the last
    forward pass: the result is the (time by label) slice of each batch entry. *)
Definition ctcBackward (T B L : nat) (data : list ext) (sh : targetShape) (targets ilens tlens : list nat)
  (alphas : list (list ext)) (nlls : list ext) (gradOut : ext) : option (list (list ext)) :=
  let lpp := transposeTB T B L data in
  loop B (fun b acc =>
    match aget ilens b, aget tlens b, aslice lpp (b * (T * L)) ((b + 1) * (T * L)), aget alphas b, aget nlls b with
    | Some il, Some tl, Some section, Some alpha, Some nll =>
        match diffOne section targets (targetOffset sh tlens b) 1 il tl L alpha nll gradOut
                (repeat MInf (length alpha)) (repeat MInf (T * L)) with
        | Some g => Some (acc ++ [g])
        | None => None
        end
    | _, _, _, _, _ => None
    end) [].
