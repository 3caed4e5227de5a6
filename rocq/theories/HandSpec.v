(** What RunAll should do, without goroutines and channels. *)
From Coq Require Import List Permutation.
From Verif Require Import HandModel.
Import ListNotations.

Section Spec.
Context {J E : Type}.
(** The calls among the acts, in order. *)
Fixpoint jobs (l : list (act J)) : list J :=
  match l with [] => [] | Enq j :: l' => j :: jobs l' | _ :: l' => jobs l' end.
(** Running the instructions one after the other, stopping at the first error. *)
Inductive Outcome : list (instr J E) -> list (act J) -> option E -> Prop :=
| all_fine : forall is, Forall (fun p => snd p = None) is -> Outcome is (concat (map fst is)) None
| fails : forall a xs e b, Forall (fun p => snd p = None) a ->
    Outcome (a ++ (xs, Some e) :: b) (concat (map fst a) ++ xs) (Some e).
(** The first error of a list. *)
Inductive FirstError : list (option E) -> option E -> Prop :=
| no_error : forall l, Forall (fun x => x = None) l -> FirstError l None
| an_error : forall a e b, Forall (fun x => x = None) a -> FirstError (a ++ Some e :: b) (Some e).
End Spec.
