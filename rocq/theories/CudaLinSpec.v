(** What the products on a CUDA device should give; written without the model's helpers
    apart from its tensors. *)
From Coq Require Import List Arith.
From Verif Require Import Sums CudaLinModel.
Import ListNotations.

Section Spec.
Context {A : Type} {CR : CRing A}.
(** The entry (i, j) of a matrix, and the entry i of a vector, read by the strides. *)
Definition at2 (t : dten A) (i j : nat) : A := mem t (i * nth 0 (strides t) 0 + j * nth 1 (strides t) 0).
Definition at1 (t : dten A) (i : nat) : A := mem t (i * nth 0 (strides t) 0).
(** A matrix of that many rows and columns stored without gaps: by rows or by columns, and
    the other way round if it is transposed. *)
Definition stored (t : dten A) (r c : nat) : Prop :=
  dshape t = [r; c] /\
  strides t = match colMajor t, transposed t with
              | false, false => [c; 1]
              | false, true => [1; r]
              | true, false => [1; r]
              | true, true => [c; 1]
              end.
(** A vector without gaps. *)
Definition storedVec (t : dten A) (n : nat) : Prop := dshape t = [n] /\ strides t = [1] /\ transposed t = false.
(** Memory of the device, of one floating point type. *)
Definition onDevice (a b c : dten A) : Prop :=
  managed a = true /\ managed b = true /\ managed c = true /\ elt a = elt b /\ elt b = elt c /\ elt a <> COther.
(** [c'] is [c] with other memory. *)
Definition sameTensor (c c' : dten A) : Prop :=
  dshape c' = dshape c /\ strides c' = strides c /\ colMajor c' = colMajor c /\ transposed c' = transposed c.
End Spec.
