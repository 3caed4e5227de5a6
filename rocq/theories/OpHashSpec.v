(** Specification for C02: the parameters of an operator that its hash should be
    expected to see, and those it does see. *)
From Coq Require Import Arith ZArith List Bool.
From Verif Require Import ConvModel PoolModel DropoutModel CtcModel OpHashModel.

(** What remains of an operator in the bytes it writes. *)
Inductive seen :=
| SSoftmax (axis : Z)
| SSoftmaxDiff (axis : Z) (isLog : bool)
| SSparsemax
| SDropout (training : bool)
| SCol (toCol : bool) (kh kw padH padW strideH strideW : nat)
| SPool (max : bool) (b c h w kh kw padNorth padWest strideH strideW : nat)
| SCTCLoss
| SSlice (d along start stop step : nat)      (* all but [along] modulo 256 *)
| SUpsample (stride : nat)
| SConcat (axis d : nat).

Definition seenOf (o : op) : seen :=
  match o with
  | Softmax axis _ => SSoftmax axis
  | SoftmaxDiff axis l => SSoftmaxDiff axis l
  | Sparsemax _ => SSparsemax
  | Dropout d => SDropout (isTraining d)
  | Im2Col i => SCol true (kh i) (kw i) (ConvModel.padH i) (ConvModel.padW i) (strideH i) (strideW i)
  | Col2Im i => SCol false (kh i) (kw i) (ConvModel.padH i) (ConvModel.padW i) (strideH i) (strideW i)
  | MaxPool b c h w p => SPool true b c h w (ph_ p) (pw_ p) (padNorth p) (padWest p) (pstrideH p) (pstrideW p)
  | AvgPool b c h w p => SPool false b c h w (ph_ p) (pw_ p) (padNorth p) (padWest p) (pstrideH p) (pstrideW p)
  | CTCLoss _ => SCTCLoss
  | Slice d along s => SSlice (d mod 256) along (sStart s mod 256) (sEnd s mod 256) (sStep s mod 256)
  | Upsample s => SUpsample s
  | UpsampleDiff s => SUpsample s
  | Concat a d => SConcat a d
  end.
