(** Independent specification for C28. *)
From Coq Require Import Arith Reals List.
Import ListNotations.
Local Open Scope R_scope.

(** The values of channel [c] of a (batch, channels, spatial) tensor stored row by row. *)
Definition channel (batch channels spatial c : nat) (x : list R) : list R :=
  flat_map (fun s => map (fun d => nth ((s * channels + c) * spatial + d)%nat x 0) (seq 0 spatial)) (seq 0 batch).

Definition add_up (l : list R) : R := fold_right Rplus 0 l.
Definition mean (l : list R) : R := add_up l / INR (length l).
Definition variance (l : list R) : R := mean (map (fun v => (v - mean l) ^ 2) l).
(** with Bessel's correction *)
Definition sample_variance (l : list R) : R := add_up (map (fun v => (v - mean l) ^ 2) l) / (INR (length l) - 1).
