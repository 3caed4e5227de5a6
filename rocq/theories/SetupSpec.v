(** What a node needs and where it runs, in terms of the graph only. *)
From Coq Require Import List Arith ZArith Bool.
From Verif Require Import DeviceModel SetupModel.
Import ListNotations.
Local Open Scope Z_scope.

(** The bytes of a node's value; none if it has no dtype. *)
Definition bytes (n : snode) : Z :=
  match sdt n with Some t => t * fold_left Z.mul (sshape n) 1 | None => 0 end.
(** An operation, neither an input nor a statement, that runs on the CPU or on card [k]. *)
Definition operation (n : snode) : bool := negb (sarg n || sstmt n).
Definition onCPU (n : snode) : bool := operation n && match son n with Cpu => true | Card _ => false end.
Definition onCard (k : nat) (n : snode) : bool := operation n && match son n with Cpu => false | Card j => Nat.eqb j k end.
(** The bytes of the nodes picked. *)
Definition total (p : snode -> bool) (ns : list snode) : Z := fold_right Z.add 0 (map bytes (filter p ns)).
(** Every node but the statements has a dtype. *)
Definition typed (ns : list snode) : Prop := forall n, In n ns -> sdt n = None -> sstmt n = true.
(** A card is used. *)
Definition usesCard (ns : list snode) : Prop := exists n k, In n ns /\ onCard k n = true.
(** [c] cards are needed: one more than the largest number used. *)
Definition cardsNeeded (ns : list snode) (c : nat) : Prop :=
  forall k, (k < c)%nat <-> exists n j, In n ns /\ onCard j n = true /\ (k <= j)%nat.
(** What is reserved on card [k] for the nodes, and on the first [c] cards. *)
Definition wanted (ns : list snode) (k : nat) : Z := 10 * total (onCard k) ns + 256.
Definition blocks (ns : list snode) (c : nat) : list (nat * Z) := map (fun k => (k, wanted ns k)) (seq 0 c).
