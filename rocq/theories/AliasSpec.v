(** What the two gradients should be. *)
From Coq Require Import List Reals.
From Verif Require Import AliasModel.
Import ListNotations.

(** A sum of contributions, starting from a given vector. *)
Definition sumFrom (v : vec) (gs : list vec) : vec := fold_left (fun acc g i => (acc i + g i)%R) gs v.
(** What is added to [x], to [s], or to either. *)
Definition forX (es : list event) : list vec := flat_map (fun e => match e with ToX g => [g] | ToS _ => [] end) es.
Definition forS (es : list event) : list vec := flat_map (fun e => match e with ToX _ => [] | ToS g => [g] end) es.
Definition forBoth (es : list event) : list vec := map (fun e => match e with ToX g => g | ToS g => g end) es.
(** The output's own gradient: 1 for a root plus what its users add. *)
Definition outGrad (root : bool) (r : round) : vec := sumFrom (fun _ => if root then 1%R else 0%R) (forS (rbefore r)).
(** What one round should contribute to the input: the users' parts and the operator's. *)
Definition share (root : bool) (r : round) : list vec := forX (rbefore r) ++ [rpull r (outGrad root r)] ++ rafter r.
Definition orZero (d : option vec) : vec := match d with None => fun _ => 0%R | Some v => v end.
