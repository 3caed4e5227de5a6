(** What the gradients of nodes should be (specification only, nothing here is modelled code). *)
From Coq Require Import List Arith.
From Verif Require Import DvModel.
Import ListNotations.

(** Specification: what a program adds to the derivative of [s], in program order. *)
Definition shares {V} (s : nat) (p : list (ginstr V)) : list V :=
  flat_map (fun i => repeat (gval i) (count_occ Nat.eq_dec (gof i) s)) p.

(** Specification: the derivative a node holds; none counts as zero. *)
Definition deriv {V} (zero : V) (b : bound V) : V := match b with Dual d => d | _ => zero end.

(** Specification: a call that touches the derivative of [s] on the host. *)
Definition touches {V} (s : nat) (k : call V) : Prop :=
  match k with HtoD n _ | DtoH n _ => n = s | _ => False end.
