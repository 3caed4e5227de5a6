(** What a value holds, and where. *)
From Coq Require Import List Arith ZArith.
From Verif Require Import XferModel.
Import ListNotations.

Section Spec.
Context {B : Type}.
(** The memory a value points to. *)
Definition memoryOf (s : xst B) (p : ptrAt) : list B := match p with OnHost h => hostM s h | OnDev d a => devM s d a end.
(** The bytes of a value. *)
Definition bytes (s : xst B) (v : xval) : list B := firstn (fold_right Nat.mul 1%nat (xshape v) * entrySize v) (memoryOf s (xat v)).
(** Its memory is long enough. *)
Definition backed (s : xst B) (v : xval) : Prop := fold_right Nat.mul 1%nat (xshape v) * entrySize v <= length (memoryOf s (xat v)).
(** The device a value lies on. *)
Definition liesOn (v : xval) (d : Z) : Prop := match xat v with OnHost _ => d = CPUdev | OnDev e _ => e = d end.
(** The program writes into memory of the host. *)
Definition hostWrite (s : xst B) (h : nat) (l : list B) : xst B :=
  XS (fun k => if Nat.eqb k h then l else hostM s k) (hostN s) (devM s) (usedM s) (pend s) (engines s).
End Spec.
