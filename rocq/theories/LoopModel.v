(** Counting loops over bounds-checked slices, as the numeric kernels of the
    project use them.  No proofs in this file. *)
From Coq Require Import Arith List Bool.
Import ListNotations.
Local Open Scope nat_scope.

(** [for _, p := range l] with a body that may panic ([None]): the idiom of the
    loops at op_nn.go:387-410, 580-600, 926-955 and op_avg_pool.go:351-381. *)
Fixpoint foldM {B S : Type} (f : B -> S -> option S) (l : list B) (s : S) : option S :=
  match l with
  | [] => Some s
  | p :: r => match f p s with Some s' => foldM f r s' | None => None end
  end.

(** [for i := 0; i < n; i++] (op_nn.go:387). *)
Definition loop {S : Type} (n : nat) (body : nat -> S -> option S) (s : S) : option S :=
  foldM body (seq 0 n) s.

(** Reading a slice; out of range panics (op_nn.go:403). *)
Definition aget {A : Type} (l : list A) (i : nat) : option A := nth_error l i.

(** Writing a slice; out of range panics (op_nn.go:403). *)
Fixpoint aset {A : Type} (l : list A) (i : nat) (v : A) : option (list A) :=
  match l, i with
  | [], _ => None
  | _ :: r, O => Some (v :: r)
  | x :: r, S j => match aset r j v with Some r' => Some (x :: r') | None => None end
  end.

(** l[a:b] of a slice (op_nn.go:356); a bound beyond the end panics. *)
Definition aslice {A : Type} (l : list A) (a b : nat) : option (list A) :=
  if (a <=? b) && (b <=? length l) then Some (firstn (b - a) (skipn a l)) else None.
