(** What a convolutional layer of darknet computes, in terms of the numbers in the file. *)
From Coq Require Import List QArith Arith.
From Verif Require Import FoldModel.
Local Open Scope Q_scope.

(** A finite sum. *)
Fixpoint total (n : nat) (f : nat -> Q) : Q := match n with O => 0 | S n' => total n' f + f n' end.

(** [y] is the value of filter [f] on the inputs [x]. In the file, from [st] on: with batch
    normalization the [F] biases, scales, means and variances, then the kernels of [isz]
    weights each; without, the biases and the kernels. [sd]: the square root of variance plus
    epsilon, as a function of the variance. The value is the normalized sum, scaled, plus the
    bias. *)
Definition LayerValue (file : nat -> Q) (sd : Q -> Q) (st F isz : nat) (bn : bool) (f : nat) (x : nat -> Q) (y : Q) : Prop :=
  if bn then
    (y - file (st + f)%nat) * sd (file (st + 3 * F + f)%nat)
    == file (st + F + f)%nat * (total isz (fun j => file (st + 4 * F + f * isz + j)%nat * x j) - file (st + 2 * F + f)%nat)
  else y == file (st + f)%nat + total isz (fun j => file (st + F + f * isz + j)%nat * x j).

(** The activation. *)
Definition Leaky (coef y z : Q) : Prop := (0 <= y /\ z == y) \/ (y < 0 /\ z == y * coef).

(** How many numbers a layer takes. *)
Definition need (F isz : nat) (bn : bool) : nat := if bn then (4 * F + F * isz)%nat else (F + F * isz)%nat.

(** Whether a block asks for batch normalization. *)
Definition isbn (c : cfg) : bool := match bnorm c with None => false | Some _ => true end.
(** How many numbers some blocks take. *)
Definition needs (cs : list cfg) : nat := list_sum (map (fun c => need (filters c) (isize c) (isbn c)) cs).
