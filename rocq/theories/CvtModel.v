(** Conversion of dtypes: ConvType and dtConvOp (op_types.go). Proof-free.
    Floats are exact rationals; what the processor does for conversions that are out of
    range or inexact is left open (section variables). *)
From Coq Require Import List Arith Bool ZArith QArith.
From Verif Require Import BroadcastModel.
Import ListNotations.
Local Open Scope nat_scope.

(** The dtypes the operator distinguishes (op_types.go:97-158); [CvOther] is any other one. *)
Inductive cvt := CvF64 | CvF32 | CvInt | CvOther (n : nat).
(** Equality of dtypes, Go's == on tensor.Dtype (op_types.go:98, 113, 128, 143). *)
Definition cvtEq (a b : cvt) : bool :=
  match a, b with
  | CvF64, CvF64 | CvF32, CvF32 | CvInt, CvInt => true
  | CvOther n, CvOther m => n =? m
  | _, _ => false
  end.
(** What Data() gives for a value: a slice, or a single entry if the value is a scalar or a
    tensor without axes (library). (op_types.go:99, 114, 129, 144.) *)
Inductive cvData :=
| DF64s (l : list Q) | DF64 (x : Q)
| DF32s (l : list Q) | DF32 (x : Q)
| DInts (l : list Z) | DInt (x : Z)
| DElse (n : nat).
(** A value: its shape and its data (values.go:15-20). *)
Record cvVal := CV { cvShape : list nat; cvOf : cvData }.
(** dtConvOp (op_types.go:23-26). *)
Record cvOp := COp { inshape : list nat; cvFrom : cvt; cvTo : cvt }.
(** A node reduced to its shape and dtype (node.go:18-60). *)
Record cvNode := CN { nShape : list nat; nDt : cvt }.

(** ConvType (op_types.go:13-21): the operator takes its shape from the node; ApplyOp refuses
    it unless the node's dtype is [from] (op_types.go:34-41; op.go, typeSystem.go). *)
Definition convType (x : cvNode) (from to : cvt) : res (cvOp * cvNode) :=
  if cvtEq (nDt x) from then Ok (COp (nShape x) from to, CN (nShape x) to) else Err.

Section Cvt.
(** Go's conversions int(x), float64(z) and float32(z) (op_types.go:103, 118, 133, 148). *)
Variable toInt : Q -> Z.
Variable toF64 toF32 : Z -> Q.

(** [for i := range aData { retData[i] = f(aData[i]) }]: nil is the panic of an index out of
    range; entries beyond stay (op_types.go:102-104). *)
Fixpoint cvLoop {X Y} (f : X -> Y) (a : list X) (r : list Y) : option (list Y) :=
  match a, r with
  | [], r => Some r
  | x :: a', _ :: r' => match cvLoop f a' r' with Some l => Some (f x :: l) | None => None end
  | _ :: _, [] => None
  end.
(** The value with new data, or a panic (op_types.go:101-104). *)
Definition cvPut (pre : cvVal) (o : option cvData) : res cvVal :=
  match o with Some d => Ok (CV (cvShape pre) d) | None => Panic end.
(** Wrapped slices (op_types.go:102-104, 132-134). *)
Definition omap {X Y} (f : X -> Y) (o : option X) : option Y := match o with Some x => Some (f x) | None => None end.
(** dtConvOp.UsePreallocDo (op_types.go:94-160). The type assertion on the preallocated data
    panics if the type is another one; data of an unexpected type leave the preallocated
    value as it is. *)
Definition cvPrealloc (op : cvOp) (pre a : cvVal) : res cvVal :=
  match cvFrom op, cvTo op with
  | CvF64, CvInt =>
      match cvOf a with
      | DF64s l => match cvOf pre with DInts r => cvPut pre (omap DInts (cvLoop toInt l r)) | _ => Panic end
      | DF64 x => Ok (CV [1] (DInts [toInt x]))
      | _ => Ok pre
      end
  | CvF32, CvInt =>
      match cvOf a with
      | DF32s l => match cvOf pre with DInts r => cvPut pre (omap DInts (cvLoop toInt l r)) | _ => Panic end
      | DF32 x => Ok (CV [1] (DInts [toInt x]))
      | _ => Ok pre
      end
  | CvInt, CvF64 =>
      match cvOf a with
      | DInts l => match cvOf pre with DF64s r => cvPut pre (omap DF64s (cvLoop toF64 l r)) | _ => Panic end
      | DInt x => Ok (CV [1] (DF64s [toF64 x]))
      | _ => Ok pre
      end
  | CvInt, CvF32 =>
      match cvOf a with
      | DInts l => match cvOf pre with DF32s r => cvPut pre (omap DF32s (cvLoop toF32 l r)) | _ => Panic end
      | DInt x => Ok (CV [1] (DF32s [toF32 x]))
      | _ => Ok pre
      end
  | _, _ => Err
  end.
(** tensor.New(Of(to), WithShape(s...)) (library; op_types.go:50): zeroes. *)
Definition cvNew (t : cvt) (s : list nat) : cvVal :=
  let n := fold_right Nat.mul 1 s in
  CV s match t, s with
       | CvF64, [] => DF64 0 | CvF64, _ => DF64s (repeat 0%Q n)
       | CvF32, [] => DF32 0 | CvF32, _ => DF32s (repeat 0%Q n)
       | CvInt, [] => DInt 0 | CvInt, _ => DInts (repeat 0%Z n)
       | CvOther k, _ => DElse k
       end.
(** dtConvOp.Do (op_types.go:49-52). *)
Definition cvDo (op : cvOp) (a : cvVal) : res cvVal := cvPrealloc op (cvNew (cvTo op) (inshape op)) a.
(** dtConvOp.SymDiff (op_types.go:82-91): the opposite conversion of the gradient. *)
Definition cvDiffOp (op : cvOp) (gradShape : list nat) : cvOp := COp gradShape (cvTo op) (cvFrom op).
End Cvt.
