(** Model of what BatchNorm and GroupNorm write for their hash, and of the operator
    objects BatchNorm hands to its caller. *)
From Coq Require Import ZArith Reals List Bool String.
From Flocq Require Import Core.Generic_fmt Core.Round_NE.
From Verif Require Import GraphModel BatchNormModel OpHashModel.
Import ListNotations.
Open Scope string_scope.

(** fmt's %1.1f of a number that is not negative: one decimal, to nearest, ties to
    even (the float64 argument is a real here). (Used by op_nn.go:1222-1224.) *)
Definition tenths (r : R) : Z := ZnearestE (10 * r).
(** The text of fmt's %1.1f (used by op_nn.go:1222-1224). *)
Definition fixed1 (r : R) : string :=
  dec (Z.to_nat (tenths r / 10)) ++ "." ++ dec (Z.to_nat (tenths r mod 10)).

(** op_nn.go:1222-1224 [WriteHash]. *)
Definition bnHash (op : bnOp) : string :=
  "batchnorm-" ++ fixed1 (momentum op) ++ "-" ++ fixed1 (epsilon op).

(** op_group_norm.go:70-78 [WriteHash] of a GroupNormOp (56-62): groups and channels
    are printed, epsilon is not. *)
Definition gnHash (groups channels : nat) (eps : R) : string :=
  "GroupNorm{" ++ dec groups ++ ", " ++ dec channels ++ "}()".

(** A graph and the operator objects: [opAt] is the operator field of a node
    (node.go:22-60), set when the node is made. *)
Record world := mkWorld { wgraph : graph; wops : list bnOp; opAt : ptr -> option nat }.

Section Hash.
Variable H : string -> word.
Variable fmtTS : ntype -> list nat -> string.

(** nn.go:386-441 [BatchNorm] up to the node of the normalisation itself (the scaling
    by γ and the addition of β are other nodes): a new operator object in training
    mode with cleared statistics, ApplyOp (op.go:206), and the object is returned.
    NewUniqueNode (node.go:288-301) gives back the new node or one already there,
    which keeps its own operator. *)
Definition batchNorm (w : world) (t : ntype) (s : list nat) (channels : nat) (x : ptr)
  (mom eps : R) : option (world * ptr * nat) :=
  let op := Build_bnOp mom eps true (repeat (Build_chan 0 0 0 0) channels) in
  let k := List.length (wops w) in
  match newUniqueNode H fmtTS (wgraph w) (mkLabel KOp EmptyString t s (bnHash op) false) [x] with
  | None => None
  | Some (g', m) =>
      let at' := if existsb (Nat.eqb m) (all (wgraph w)) then opAt w else updP (opAt w) m (Some k) in
      Some (mkWorld g' (wops w ++ [op]) at', m, k)
  end.
End Hash.

(** op_nn.go:1317-1325 [SetTraining] on the object a program holds. *)
Definition setMode (w : world) (k : nat) (b : bool) : world :=
  match nth_error (wops w) k with
  | None => w
  | Some op => mkWorld (wgraph w) (setNth (wops w) k (bnSetTraining op b)) (opAt w)
  end.

(** The operator a machine runs for a node (vm_tape.go, vm_genera.go: n.op). *)
Definition opOf (w : world) (p : ptr) : option bnOp :=
  match opAt w p with Some k => nth_error (wops w) k | None => None end.
