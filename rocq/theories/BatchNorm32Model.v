(** Model of the float32 kernels of batch normalisation (op_nn.go:1489-1632, 1834-1943),
    over exact reals.  No proofs in this file.

    updateStatsF32 (1489-1555) and calculateAlphaAndBetaF32 (1559-1584) are, up to the
    type of the numbers, the text of their float64 twins, and so is
    batchnormDiffOp.f32s (1834-1943): [updateChan], [scaleAll] and [bnDiff] of
    BatchNormModel stand for them.  f32s itself differs out of training. *)
From Coq Require Import Reals List Bool.
From Verif Require Import LoopModel BatchNormModel.

(** op_nn.go:1594-1610: in training as in float64; out of training the lines that zero
    the saved statistics are commented out, so they keep what they held. *)
Definition newChans32 (op : bnOp) (batch channels spatial : nat) (data : list R) : option (list chan) :=
  if training op then newChans op batch channels spatial data else Some (chans op).

(** op_nn.go:1264-1278, 1586-1632 [UsePreallocDo] and [f32s]. *)
Definition bnPrealloc32 (op : bnOp) (batch channels spatial : nat) (prealloc input : list R) : option (bnOp * list R) :=
  match newChans32 op batch channels spatial input with
  | None => None
  | Some chs =>
      match scaleAll op batch channels spatial chs prealloc with
      | Some out => Some ({| momentum := momentum op; epsilon := epsilon op; training := training op; chans := chs |}, out)
      | None => None
      end
  end.

(** op_nn.go:1198-1211 [Do]: the buffer is a clone of the input. *)
Definition bnDo32 (op : bnOp) (batch channels spatial : nat) (input : list R) : option (bnOp * list R) :=
  bnPrealloc32 op batch channels spatial input input.
