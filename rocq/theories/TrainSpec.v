(** What a graph computes and what gradient descent is, without memory. *)
From Coq Require Import Arith List Reals.
From Verif Require Import BroadcastModel TrainModel.
Import ListNotations.
Local Open Scope R_scope.

(** The values of all nodes from those of the inputs; [c]: the constants. *)
Definition calc (c : nat -> R) (kd : nat -> kind) (e : nat -> R) (n : nat) : R :=
  match kd n with KIn => e n | KConst a => c a | KOp f cs => f (map e cs) end.
Definition values (c : nat -> R) (kd : nat -> kind) (ns : list nat) (e : nat -> R) : nat -> R :=
  fold_left (fun e n m => if Nat.eq_dec m n then calc c kd e n else e m) ns e.
(** Operators come after what they use; the rest are inputs. *)
Fixpoint ordered (kd : nat -> kind) (inputs seen ns : list nat) : Prop :=
  match ns with
  | [] => True
  | n :: ns' => ~ In n seen /\ ~ In n inputs /\ kd n <> KIn /\
      (forall f cs, kd n = KOp f cs -> incl cs (inputs ++ seen)) /\ ordered kd inputs (n :: seen) ns'
  end.
(** [m] is the gradient node of the weight [w] and nothing else is. *)
Definition gradient_node (g : graph) (w m : nat) : Prop :=
  In m (order g) /\ deriv g w = Some m /\ count_occ Nat.eq_dec (derivOf g m) w = 1%nat /\
  forall m', In m' (order g) -> m' <> m -> ~ In w (derivOf g m').
(** One step of gradient descent on the inputs [e]; [grad w]: the gradient node. *)
Definition descend (g : graph) (c : nat -> R) (grad : nat -> nat) (eta : R) (ws : list nat) (e : nat -> R) : nat -> R :=
  fun n => if in_dec Nat.eq_dec n ws then e n - eta * values c (kindOf g) (order g) e (grad n) else e n.
Fixpoint times {A} (k : nat) (f : A -> A) (x : A) : A := match k with O => x | S k' => times k' f (f x) end.
(** The state before training: every input is bound to a value of its own, [e] of it, and
    the constants have their values. *)
Definition prepared (g : graph) (c : nat -> R) (inputs : list nat) (e : nat -> R) (s : st) : Prop :=
  (exists x : nat -> nat, (forall n, In n inputs -> kindOf g n = KIn /\ bound s n = Some (BV (x n)) /\ (x n < nxt s)%nat /\ mem s (x n) = e n /\
                             forall k a, kindOf g k = KConst a -> a <> x n) /\
                          (forall n m, In n inputs -> In m inputs -> x n = x m -> n = m)) /\
  (forall k a, kindOf g k = KConst a -> (a < nxt s)%nat /\ mem s a = c a).
(** Node.Value and Node.Grad give a value of [v]. *)
Definition value_is (g : graph) (s : st) (n : nat) (v : R) : Prop := exists a, nodeValue g s n = Some a /\ mem s a = v.
Definition grad_is (g : graph) (s : st) (n : nat) (v : R) : Prop := exists a, nodeGrad g s n = Ok (Some a) /\ mem s a = v.
