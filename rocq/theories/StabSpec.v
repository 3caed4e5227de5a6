(** Specification for the softmax half of C19. *)
From Coq Require Import Arith Reals List.
From Verif Require Import StabModel.
Import ListNotations.

Definition childrenOf (x : snode) : list nat :=
  match x with
  | SVar _ => []
  | SSoftmax c _ | SLn c => [c]
  | SMul a b | SAdd a b => [a; b]
  | SOther _ cs => cs
  end.
(** Children are older than their users. *)
Definition ordered (h : heap) : Prop :=
  forall p x, nth_error h p = Some x -> Forall (fun c => c < p) (childrenOf x).
(** [q] is [a] or computed from [a]. *)
Inductive uses (h : heap) (a : nat) : nat -> Prop :=
| uses_self : uses h a a
| uses_step : forall q x c, nth_error h q = Some x -> In c (childrenOf x) -> uses h a c -> uses h a q.

(** [a] is the product of the softmax nodes [ss] and of [rest], multiplied up one
    softmax at a time. *)
Definition softmaxAt (h : heap) (p : nat) : Prop := exists c l, nth_error h p = Some (SSoftmax c l).
Inductive chain (h : heap) : nat -> list nat -> option nat -> Prop :=
| chain_self : forall a, softmaxAt h a -> chain h a [a] None
| chain_rest : forall a, a < length h -> ~ softmaxAt h a ->
    (forall x y, nth_error h a = Some (SMul x y) -> ~ softmaxAt h x /\ ~ softmaxAt h y) -> chain h a [] (Some a)
| chain_left : forall a s x ss r, nth_error h a = Some (SMul s x) -> softmaxAt h s -> chain h x ss r -> chain h a (s :: ss) r
| chain_right : forall a s x ss r, nth_error h a = Some (SMul x s) -> softmaxAt h s -> ~ softmaxAt h x ->
    chain h x ss r -> chain h a (s :: ss) r.
