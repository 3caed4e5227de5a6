(** What batching should do: run the calls in order and lose none. *)
From Coq Require Import List Arith ZArith Bool.
From Verif Require Import BlaseModel.
Import ListNotations.
(** The calls put into the channel in a sequence of events. *)
Fixpoint puts {A} (ls : list (@label A)) : list (@call A) :=
  match ls with [] => [] | Put c :: ls' => c :: puts ls' | _ :: ls' => puts ls' end.
(** DoWork from beginning to end with no producer at work: the state in which it returns
    or panics. *)
Definition doesWork {A} grow (s s' : @st A) : Prop :=
  (at_ s' = Outside \/ at_ s' = Panicked) /\ exists n, run grow (Start :: repeat Tick n) s = Some s'.
(** Calls one at a time, DoWork running to its end after each. *)
Inductive rounds {A} grow : list (@call A) -> @st A -> @st A -> Prop :=
  | rn_nil s : rounds grow [] s s
  | rn_cons c cs s s1 s2 s3 : fire grow (Put c) s = Some s1 -> doesWork grow s1 s2 -> rounds grow cs s2 s3 -> rounds grow (c :: cs) s s3.
(** Row [i] of the product of the [m] by [n] matrix [a], rows [lda] apart, with [x]. *)
Definition mulVec (n lda : nat) (a x : nat -> Z) (i : nat) : Z := fold_right Z.add 0%Z (map (fun j => (a (i * lda + j)%nat * x j)%Z) (seq 0 n)).
