(** Specification of the Barzilai-Borwein solver (C57): the recurrence on the vector of all
    weights of the model, and how a model of tensors reads as such a vector. *)
From Coq Require Import Reals List Bool Arith.
From Verif Require Import SolverModel SolverSpec.
Import ListNotations.
Open Scope R_scope.

(** ** Vectors *)
Fixpoint vsub (a b : list R) : list R := match a, b with x :: a', y :: b' => (x - y) :: vsub a' b' | _, _ => [] end.
Fixpoint dot (a b : list R) : R := match a, b with x :: a', y :: b' => x * y + dot a' b' | _, _ => 0 end.
Definition scale (k : R) (a : list R) : list R := map (Rmult k) a.

(** ** The recurrence *)
(** WithClip bounds the size of the learn rate (not of the gradient). *)
Definition limit (p : params) (e : R) : R := if useClip p then between (clip p) e else e.
(** The learn rate from the last two points and gradients; none if it divides by zero. *)
Definition rate (p : params) (dx dg : list R) : option R :=
  if Req_EM_T (dot dg dg) 0 then None else Some (limit p (dot dx dg / dot dg dg)).
(** Learn rate and weights after gradients [gs]; [prev]: the point and the gradient before. *)
Fixpoint bb (p : params) (e : R) (prev : option (list R * list R)) (x : list R) (gs : list (list R)) : option (R * list R) :=
  match gs with
  | [] => Some (e, x)
  | g :: gs' =>
      match (match prev with None => Some e | Some (x0, g0) => rate p (vsub x x0) (vsub g g0) end) with
      | None => None
      | Some e' => bb p e' (Some (x, g)) (vsub x (scale e' g)) gs'
      end
  end.

(** ** A model as a vector *)
Definition datum (c : cell) : list R := match c with Dn l => l | Sc _ => [] end.
Definition weightsIn (h : heap) (model : list node) : list R :=
  concat (map (fun n => match cells h (weights n) with Some c => datum c | None => [] end) model).
Definition gradsOf (model : list node) (r : nat -> cell) : list R := concat (map (fun i => datum (r i)) (seq 0 (length model))).
(** All weights are tensors. *)
Definition tensors (model : list node) (h : heap) : Prop := Forall (fun n => exists l, cells h (weights n) = Some (Dn l)) model.
