(** Model of batch normalisation and of its gradient operator (op_nn.go:1158-1832),
    float64 case, over exact reals.  No proofs in this file.

    The arrays saveMean, saveVariance, runningMean, runningVariance, alpha and beta
    have one cell per channel; they are kept here as one list with a record per
    channel.  runInParallel starts one goroutine per channel; each of them writes
    only the cells of its channel, so they are run one after the other. *)
From Coq Require Import Arith Reals List Bool.
From Verif Require Import LoopModel.
Import ListNotations.
Local Open Scope R_scope.

(** op_nn.go:1158-1174 [BatchNormOp]. *)
Record chan := { saveMean : R; saveVar : R; runMean : R; runVar : R }.
(** op_nn.go:1158-1174 [BatchNormOp]. *)
Record bnOp := { momentum : R; epsilon : R; training : bool; chans : list chan }.

(** op_nn.go:1362-1380, 1384-1405, 1754-1785, 1789-1828: the entries of channel [c],
    visited in order.  With spatialDim = 1 the code has its own loops and index. *)
Definition overChannel {S : Type} (batch channels spatial c : nat) (body : nat -> S -> option S) : S -> option S :=
  if (spatial =? 1)%nat
  then loop batch (fun s => body (s * channels + c)%nat)
  else loop batch (fun s => loop spatial (fun d => body (s * channels * spatial + c * spatial + d)%nat)).

(** A running total over the entries of a channel. (op_nn.go:1362-1380, 1754-1785.) *)
Definition chanTotal (batch channels spatial c : nat) (f : nat -> option R) : option R :=
  overChannel batch channels spatial c
    (fun i acc => match f i with Some x => Some (acc + x) | None => None end) 0.

(** op_nn.go:1346-1412 [updateStatsF64], the body of channel [c]. *)
Definition updateChan (op : bnOp) (batch channels spatial : nat) (data : list R) (c : nat) (ch : chan) : option chan :=
  let n := (spatial * batch)%nat in
  match chanTotal batch channels spatial c (fun i => aget data i) with
  | None => None
  | Some total =>
      let mean := total / INR n in
      match chanTotal batch channels spatial c (fun i =>
              match aget data i with Some x => Some ((x - mean) * (x - mean)) | None => None end) with
      | None => None
      | Some var =>
          let unbiasedVar := var / INR (n - 1) in
          Some {| saveMean := mean; saveVar := var;
                  runMean := momentum op * mean + (1 - momentum op) * runMean ch;
                  runVar := momentum op * unbiasedVar + (1 - momentum op) * runVar ch |}
      end
  end.

(** op_nn.go:1455-1456: out of training the saved statistics are zeroed. *)
Definition zeroSaved (ch : chan) : chan :=
  {| saveMean := 0; saveVar := 0; runMean := runMean ch; runVar := runVar ch |}.

(** op_nn.go:1450-1461: the statistics of all channels. *)
Definition newChans (op : bnOp) (batch channels spatial : nat) (data : list R) : option (list chan) :=
  if training op
  then loop channels (fun c acc =>
         match aget (chans op) c with
         | None => None
         | Some ch => match updateChan op batch channels spatial data c ch with
                      | Some ch' => Some (acc ++ [ch'])
                      | None => None
                      end
         end) []
  else Some (map zeroSaved (chans op)).

(** op_nn.go:1416-1440 [calculateAlphaAndBetaF64]. *)
Definition alphaOf (op : bnOp) (n : nat) (ch : chan) : R :=
  if training op then 1 / sqrt (saveVar ch / INR n + epsilon op) else 1 / sqrt (runVar ch + epsilon op).
(** op_nn.go:1416-1440 [calculateAlphaAndBetaF64], beta. *)
Definition betaOf (op : bnOp) (n : nat) (ch : chan) : R :=
  let mean := if training op then saveMean ch else runMean ch in
  - (mean * alphaOf op n ch).

(** op_nn.go:1463-1485: output[i] = output[i]*alpha[c] + beta[c]; note that the code
    reads the buffer it writes, not the input. *)
Definition scaleCell (op : bnOp) (n : nat) (chs : list chan) (c i : nat) (out : list R) : option (list R) :=
  match aget chs c, aget out i with
  | Some ch, Some o => aset out i (o * alphaOf op n ch + betaOf op n ch)
  | _, _ => None
  end.
(** op_nn.go:1463-1485, the loops over the entries. *)
Definition scaleAll (op : bnOp) (batch channels spatial : nat) (chs : list chan) (out : list R) : option (list R) :=
  let n := (spatial * batch)%nat in
  if (spatial =? 1)%nat
  then loop batch (fun s => loop channels (fun c => scaleCell op n chs c (s * channels + c)%nat)) out
  else loop channels (fun c => loop batch (fun s => loop spatial (fun d =>
         scaleCell op n chs c (s * channels * spatial + c * spatial + d)%nat))) out.

(** op_nn.go:1264-1278, 1442-1488 [UsePreallocDo] and [f64s]. *)
Definition bnPrealloc (op : bnOp) (batch channels spatial : nat) (prealloc input : list R) : option (bnOp * list R) :=
  match newChans op batch channels spatial input with
  | None => None
  | Some chs =>
      match scaleAll op batch channels spatial chs prealloc with
      | Some out => Some ({| momentum := momentum op; epsilon := epsilon op; training := training op; chans := chs |}, out)
      | None => None
      end
  end.

(** op_nn.go:1198-1211 [Do]: the buffer is a clone of the input. *)
Definition bnDo (op : bnOp) (batch channels spatial : nat) (input : list R) : option (bnOp * list R) :=
  bnPrealloc op batch channels spatial input input.

(** op_nn.go:1723-1832 [batchnormDiffOp.f64s], the body of channel [c]; [data] the
    input, [dy] the gradient of the output, [ig] the result.  1732: runningMean is
    read from runningVariance. *)
Definition diffChan1 (op : bnOp) (batch channels : nat) (data dy : list R) (c : nat) (ch : chan) (ig : list R) : option (list R) :=
  let n := (batch * 1)%nat in
  let mean := if training op then saveMean ch else runVar ch in
  let invstd := if training op then 1 / sqrt (saveVar ch / INR n + epsilon op) else 1 / sqrt (runVar ch + epsilon op) in
  match chanTotal n channels 1 c (fun i => aget dy i),
        chanTotal n channels 1 c (fun i =>
          match aget data i, aget dy i with Some x, Some g => Some ((x - mean) * g) | _, _ => None end) with
  | Some sum, Some dotp =>
      let gradMean := sum / INR n in
      if training op then
        let k := dotp * invstd * invstd / INR n in
        overChannel n channels 1 c (fun i ig =>
          match aget data i, aget dy i with
          | Some x, Some g => aset ig i ((g - (x - mean) * k - gradMean) * invstd)
          | _, _ => None
          end) ig
      else
        overChannel n channels 1 c (fun i ig =>
          match aget dy i with Some g => aset ig i (g * invstd) | None => None end) ig
  | _, _ => None
  end.
(** op_nn.go:1723-1832, with spatialDim other than 1. *)
Definition diffChanN (op : bnOp) (batch channels spatial : nat) (data dy : list R) (c : nat) (ch : chan) (ig : list R) : option (list R) :=
  let n := (batch * spatial)%nat in
  match chanTotal batch channels spatial c (fun i => aget dy i),
        chanTotal batch channels spatial c (fun i =>
          match aget data i, aget dy i with Some x, Some g => Some (x * g - saveMean ch * g) | _, _ => None end) with
  | Some sum, Some dotp =>
      let invstd := 1 / sqrt (saveVar ch / INR n + epsilon op) in
      let k := dotp * invstd * invstd / INR n in
      let gradMean := sum / INR n in
      if training op then
        overChannel batch channels spatial c (fun i ig =>
          match aget data i, aget dy i with
          | Some x, Some g => aset ig i ((g - gradMean - (x - saveMean ch) * k) * invstd)
          | _, _ => None
          end) ig
      else
        overChannel batch channels spatial c (fun i ig =>
          match aget dy i with Some g => aset ig i (g * invstd) | None => None end) ig
  | _, _ => None
  end.
(** op_nn.go:1723-1832 [batchnormDiffOp.f64s], the loop over the channels. *)
Definition bnDiff (op : bnOp) (batch channels spatial : nat) (data dy ig : list R) : option (list R) :=
  loop channels (fun c ig =>
    match aget (chans op) c with
    | None => None
    | Some ch => if (spatial =? 1)%nat then diffChan1 op batch channels data dy c ch ig
                 else diffChanN op batch channels spatial data dy c ch ig
    end) ig.

(** op_nn.go:1328-1344 [Reset] and 1317-1325 [SetTraining]. *)
Definition bnReset (op : bnOp) : bnOp :=
  {| momentum := momentum op; epsilon := epsilon op; training := training op;
     chans := map (fun ch => {| saveMean := saveMean ch; saveVar := saveVar ch; runMean := 0; runVar := 1 |}) (chans op) |}.
(** op_nn.go:1317-1325 [SetTraining]. *)
Definition bnSetTraining (op : bnOp) (b : bool) : bnOp :=
  let op := if b then bnReset op else op in
  {| momentum := momentum op; epsilon := epsilon op; training := b; chans := chans op |}.
