(** Independent specification for C27 and C43: gradients of a map given by the
    map itself. *)
From Coq Require Import Reals List.
Import ListNotations.
Local Open Scope R_scope.

(** [f] moves linearly near [x] along every direction, and pulling the gradient [g]
    back through that movement gives [d]: the meaning of "d is the gradient". *)
Fixpoint ip (p x : list R) : R :=
  match p, x with a :: p', b :: x' => a * b + ip p' x' | _, _ => 0 end.
Fixpoint shifted (x u : list R) (t : R) : list R :=
  match x, u with a :: x', b :: u' => (a + t * b) :: shifted x' u' t | _, _ => [] end.
Definition is_gradient (f : list R -> list R) (x g d : list R) : Prop :=
  length d = length x /\
  forall u, length u = length x ->
    derivable_pt_lim (fun t => ip (f (shifted x u t)) g) 0 (ip u d).
