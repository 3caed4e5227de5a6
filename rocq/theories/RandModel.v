(** Model of the random input nodes and of the names inputs are told apart by. *)
From Coq Require Import Reals List String.
From Verif Require Import GraphModel.
Import ListNotations.
Open Scope list_scope.

(** op_nn.go:40-46 [randomness]. *)
Inductive randomness := Uniform | Gaussian | Binomial.

(** op_nn.go:48-54 [randomOp]; the dtype is a number as in GraphModel; a and b are
    real numbers instead of float64. *)
Record randomOp := mkRandomOp {
  which : randomness; rshape : list nat; rdt : nat; ra : R; rb : R }.

(** op_nn.go:70-76 [Type], and the same choice in gorgonia.go:131-145,149-163,
    170-183. *)
Definition randomType (dt : nat) (s : list nat) : ntype :=
  match s with
  | [] => TScalar dt
  | _ => TTensor (List.length s) dt
  end.

Section Printed.
(** What fmt writes for "%d%v%f%f" (op_nn.go:153-155 [WriteHash]). *)
Variable fmtRandom : randomOp -> string.

(** node.go:322-327 [isInput]: a node with a randomOp is an input as far as hashing
    and comparing go (KInput), although it has an operator. *)
Definition randomLabel (op : randomOp) : label :=
  mkLabel KInput EmptyString (randomType (rdt op) (rshape op)) (rshape op) (fmtRandom op) false.

(** gorgonia.go:131-145 [UniformRandomNode], 149-163 [GaussianRandomNode], 170-183
    [BinomialRandomNode]: NewUniqueNode with a type, an operator and a shape but no
    name. *)
Definition uniformRandomNode (H : string -> word) (fmtTS : ntype -> list nat -> string) (g : graph)
  (dt : nat) (low high : R) (s : list nat) :=
  newUniqueNode H fmtTS g (randomLabel (mkRandomOp Uniform s dt low high)) [].
(** gorgonia.go:149-163 [GaussianRandomNode]. *)
Definition gaussianRandomNode (H : string -> word) (fmtTS : ntype -> list nat -> string) (g : graph)
  (dt : nat) (mean stdev : R) (s : list nat) :=
  newUniqueNode H fmtTS g (randomLabel (mkRandomOp Gaussian s dt mean stdev)) [].
(** gorgonia.go:170-183 [BinomialRandomNode]. *)
Definition binomialRandomNode (H : string -> word) (fmtTS : ntype -> list nat -> string) (g : graph)
  (dt : nat) (trials prob : R) (s : list nat) :=
  newUniqueNode H fmtTS g (randomLabel (mkRandomOp Binomial s dt trials prob)) [].
End Printed.

(** gorgonia.go:47-84 [NewScalar], [NewVector], [NewMatrix], [NewTensor] with a shape
    (node.go:210-230 [WithShape]) and, if any, a name (node.go:125-130 [WithName]):
    an input without an operator. *)
Definition newInput (H : string -> word) (fmtTS : ntype -> list nat -> string) (g : graph)
  (dt : nat) (name : string) (s : list nat) :=
  newUniqueNode H fmtTS g (mkLabel KInput name (randomType dt s) s EmptyString false) [].

(** op_nn.go:80-149 [Do] for a uniform operator: the generator's draw in [0,1)
    scaled to low..high (go-rng Float64Range, weights.go:291-314 [Uniform64] and
    [Uniform32] use the same call). *)
Definition uniformDraw (op : randomOp) (u : R) : R := (ra op + u * (rb op - ra op))%R.
