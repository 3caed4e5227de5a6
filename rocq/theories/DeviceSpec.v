(** What the transports between devices should achieve; written without the model's helpers
    apart from its types. *)
From Coq Require Import List.
From Verif Require Import DeviceModel.
Import ListNotations.

(** Where a node is executed when there is one card: on the card if it can be, otherwise on
    the CPU. *)
Definition home (n : dnode) : device := if cudaOp n then Card 0 else Cpu.
(** The nodes of the graph in a list with transports. *)
Fixpoint originals (l : list item) : list nat :=
  match l with [] => [] | Orig n :: l' => n :: originals l' | Trans _ _ :: l' => originals l' end.
(** The sources of the transports. *)
Fixpoint sources (l : list item) : list nat :=
  match l with [] => [] | Orig _ :: l' => sources l' | Trans s _ :: l' => s :: sources l' end.
(** [x] comes before [y] wherever [y] is. *)
Definition before (x y : item) (l : list item) : Prop := forall pre post, l = pre ++ y :: post -> In x pre.
(** What a node at [dev] should read for a child replaced by [c], at [dc]: the child if it
    is on the same device, otherwise a transport of [c] to that device. *)
Definition reads (dev dc : device) (child c : nat) (x : item) : Prop :=
  (dc = dev /\ x = Orig child) \/ (dc <> dev /\ x = Trans c dev).
