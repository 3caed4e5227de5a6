(** StandardEngine.Transpose (engine.go:13-59): moving the entries of a transposed tensor.
    Proof-free. *)
From Coq Require Import List Arith Bool.
From Verif Require Import BroadcastModel.
Import ListNotations.

Section Trn.
Context {A : Type}.
Variable zero : A.

(** Strides of a dense tensor by rows (tensor.Shape.CalcStrides, library). *)
Fixpoint calcStrides (s : list nat) : list nat :=
  match s with [] => [] | _ :: s' => fold_right Nat.mul 1 s' :: calcStrides s' end.
(** The offsets the iterator of a tensor runs through (tensor.FlatIterator, library; used at
    engine.go:20, 29, 51): all coordinates, the last axis first, times the strides. *)
Fixpoint iterator (s st : list nat) : list nat :=
  match s, st with
  | d :: s', k :: st' => flat_map (fun i => map (fun o => i * k + o) (iterator s' st')) (seq 0 d)
  | _, _ => [0]
  end.
(** The loops [tmp[i] = data[next]] (engine.go:41-44, 51-54): [None] is an index out of range. *)
Fixpoint gather (data : list A) (nexts : list nat) : option (list A) :=
  match nexts with
  | [] => Some []
  | n :: ns =>
      match nth_error data n, gather data ns with
      | Some x, Some l => Some (x :: l)
      | _, _ => None
      end
  end.
(** The case Float64 (engine.go:23-46). [data] is the whole memory of the tensor, DataSize
    long; slicing beyond it panics. *)
Definition transpose64 (nexts : list nat) (data : list A) : res (list A) :=
  match nexts with
  | [] => Panic
  | _ =>
      let maxNexts := S (last nexts 0) in
      if length data <? maxNexts then Panic else
      match gather (firstn maxNexts data) nexts with
      | None => Panic
      | Some l =>
          if maxNexts <? length l then Panic
          else Ok (l ++ repeat zero (maxNexts - length l) ++ skipn maxNexts data)
      end
  end.
(** The case Float32 (engine.go:47-55). *)
Definition transpose32 (nexts : list nat) (data : list A) : res (list A) :=
  match gather data nexts with
  | None => Panic
  | Some l => if length data <? length l then Panic else Ok (l ++ repeat zero (length data - length l))
  end.
(** StandardEngine.Transpose (engine.go:14-59) of a float tensor with axes, given by shape,
    strides and memory. [native] is IsNativelyAccessible. Other dtypes are left to the
    library. *)
Definition engineTranspose (native is64 : bool) (s st : list nat) (data : list A) : res (list A) :=
  if negb native then Err
  else if is64 then transpose64 (iterator s st) data else transpose32 (iterator s st) data.
End Trn.
