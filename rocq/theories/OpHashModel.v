(** Model of the WriteHash methods of operators with parameters: the bytes by which
    the graph recognises an operator (GraphModel, field [nop]).  No proofs in this
    file. *)
From Coq Require Import Arith ZArith NArith Reals List Bool String Ascii.
From Verif Require Import ConvModel PoolModel DropoutModel CtcModel.
Import ListNotations.
Open Scope string_scope.

(** fmt's %d (and %v) of an int: decimal digits, a minus sign in front.
    (Go library; used by the WriteHash methods of [op] below.) *)
Definition digit (n : nat) : ascii := ascii_of_nat (48 + n).
(** The digits, highest first (Go library, fmt); [fuel]: more than their number. *)
Fixpoint digitsF (fuel n : nat) : string :=
  match fuel with
  | O => EmptyString
  | S f => if Nat.ltb n 10 then String (digit n) EmptyString
           else digitsF f (Nat.div n 10) ++ String (digit (Nat.modulo n 10)) EmptyString
  end.
(** The decimal digits of a number that is not negative (Go library, fmt). *)
Definition dec (n : nat) : string := digitsF (S n) n.
(** fmt's %d of an int (Go library). *)
Definition decZ (z : Z) : string :=
  if (z <? 0)%Z then String "-" (dec (Z.to_nat (- z))) else dec (Z.to_nat z).
(** fmt's %v of a bool. (Go library.) *)
Definition fmtBool (b : bool) : string := if b then "true" else "false".
(** binary.Write of byte(n): the low byte.
    (Go library; used at node.go:549 and by WriteHash methods.) *)
Definition lowByte (n : nat) : string := String (ascii_of_nat n) EmptyString.

(** tensor.Slice: start, end, step. (library.) *)
Record slice := { sStart : nat; sEnd : nat; sStep : nat }.

(** Operators with the parameters their methods read.  [Softmax]: op_softmax.go:29-33;
    [SoftmaxDiff]: 178-180; [Sparsemax]: op_sparsemax.go:13-15; [Dropout]:
    op_dropout.go:16-20; [Im2Col]: op_nn.go:160-165; [MaxPool], [AvgPool]:
    op_nn.go:645-661, op_avg_pool.go:76-92, the four sizes are the input shape;
    [CTCLoss]: op_ctc_loss.go:29-41; [Slice]: op_tensor.go:474-481 (a nil Slice is
    not modelled); [Upsample]: op_upsample.go:15-17; [UpsampleDiff]: embeds Upsample;
    [Concat]: op_tensor.go:994-999. *)
Inductive op :=
| Softmax (axis : Z) (isLog : bool)
| SoftmaxDiff (axis : Z) (isLog : bool)
| Sparsemax (axis : Z)
| Dropout (d : dropout)
| Im2Col (i : im2colOp)
| Col2Im (i : im2colOp)
| MaxPool (b c h w : nat) (p : poolOp)
| AvgPool (b c h w : nat) (p : poolOp)
| CTCLoss (red : reduction)
| Slice (d along : nat) (s : slice)
| Upsample (stride : nat)
| UpsampleDiff (stride : nat)
| Concat (axis d : nat).

(** op_nn.go:228, 488. *)
Definition colBytes (i : im2colOp) : string :=
  dec (kh i) ++ "-" ++ dec (kw i) ++ "-" ++ dec (ConvModel.padH i) ++ "-" ++ dec (ConvModel.padW i)
  ++ "-" ++ dec (strideH i) ++ "-" ++ dec (strideW i).
(** op_nn.go:729-731, op_avg_pool.go:162-164. *)
Definition poolBytes (b c h w : nat) (p : poolOp) : string :=
  dec b ++ ", " ++ dec c ++ ", " ++ dec h ++ ", " ++ dec w ++ "}(kernel: (" ++ dec (ph_ p) ++ ", " ++ dec (pw_ p)
  ++ "), pad: (" ++ dec (padNorth p) ++ ", " ++ dec (padWest p) ++ "), stride: (" ++ dec (pstrideH p) ++ ", "
  ++ dec (pstrideW p) ++ "))".

(** op_softmax.go:52, 190-192; op_sparsemax.go:46-48; op_dropout.go:40-44 (through
    Fprintf, there is no verb in the text); op_nn.go:227-229, 487-489, 728-732;
    op_avg_pool.go:161-165; op_ctc_loss.go:59-61; op_tensor.go:614-635;
    op_upsample.go:53-55; op_tensor.go:1043-1046. *)
Definition writeHash (o : op) : string :=
  match o with
  | Softmax axis _ => "Softmax{" ++ decZ axis ++ "}()"
  | SoftmaxDiff axis isLog => "SoftmaxDiff{" ++ decZ axis ++ ", " ++ fmtBool isLog ++ "}()"
  | Sparsemax _ => "Sparsemax{}()"
  | Dropout d => "Dropout{training=" ++ fmtBool (isTraining d) ++ "}()"
  | Im2Col i => "im2col:" ++ colBytes i
  | Col2Im i => "col2im:" ++ colBytes i
  | MaxPool b c h w p => "MaxPool{" ++ poolBytes b c h w p
  | AvgPool b c h w p => "AvgPool{" ++ poolBytes b c h w p
  | CTCLoss _ => "CTCLoss{}()"
  | Slice d along s => "slice" ++ lowByte d ++ dec along ++ lowByte (sStart s) ++ lowByte (sEnd s) ++ lowByte (sStep s)
  | Upsample stride => "Upsample{}(stride: (" ++ dec stride ++ "))"
  | UpsampleDiff stride => "Upsample{}(stride: (" ++ dec stride ++ "))"
  | Concat axis d => "concatOp" ++ "axis: " ++ dec axis ++ ", dims: " ++ dec d
  end.

(** The length of the sliced axis after InferShape (op_tensor.go:523-530 calls
    Shape.S of the tensor library): ceil of (end - start) / step; step 0 and 1 mean
    every element. *)
Definition slicedLen (s : slice) : nat :=
  if Nat.leb (sStep s) 1 then sEnd s - sStart s else (sEnd s - sStart s + sStep s - 1) / sStep s.
(** What slicing a vector selects (T.Slice of the tensor library, op_tensor.go:588). *)
Definition sliceVec {X} (s : slice) (v : list X) (default : X) : list X :=
  map (fun i => nth (sStart s + i * (if Nat.leb (sStep s) 1 then 1 else sStep s)) v default) (seq 0 (slicedLen s)).

(** op_softmax.go:98-128 on a vector: tensor.SoftMax or tensor.LogSoftMax along its
    only axis. *)
Definition softmaxVec (isLog : bool) (n : nat) (a : nat -> R) (i : nat) : R :=
  let s := (exp (a i) / fold_right Rplus 0 (map (fun j => exp (a j)) (seq 0 n)))%R in
  if isLog then ln s else s.
