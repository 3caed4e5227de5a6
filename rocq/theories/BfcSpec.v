(** Specification for C30: the blocks a caller holds, from the calls and the answers. *)
From Coq Require Import ZArith List Bool.
From Verif Require Import BfcModel.
Import ListNotations.
Open Scope Z_scope.

(** Blocks (address, size) held after the calls, given those held before. *)
Fixpoint held (h : list (Z * Z)) (cs : list call) (ans : list answer) : list (Z * Z) :=
  match cs, ans with
  | Alloc z :: cs', Address a :: ans' => held ((a, z) :: h) cs' ans'
  | Free a :: cs', _ :: ans' => held (filter (fun e => negb (fst e =? a)) h) cs' ans'
  | _ :: cs', _ :: ans' => held h cs' ans'
  | _, _ => h
  end.

Definition disjoint (x y : Z * Z) : Prop := fst x + snd x <= fst y \/ fst y + snd y <= fst x.
Fixpoint pairwise (l : list (Z * Z)) : Prop :=
  match l with [] => True | x :: r => Forall (disjoint x) r /\ pairwise r end.
Definition sizes (l : list (Z * Z)) : Z := fold_right (fun x t => snd x + t) 0 l.

(** What the free list holds when read from the front. *)
Fixpoint freeFrom (fuel : nat) (s : bfc) (p : option nat) : list (Z * Z) :=
  match fuel, p with
  | S f, Some q => match mem s q with Some m => (address m, size m) :: freeFrom f s (next m) | None => [] end
  | _, _ => []
  end.
Definition freeBlocks (s : bfc) : list (Z * Z) := freeFrom (fresh s) s (first s).

(** Merging is harmless when a block that is merged with its neighbour is merged with
    everything behind it. *)
Definition contiguous (l : list (Z * Z)) : Prop := forall l1 x y l2, l = l1 ++ x :: y :: l2 -> fst x + snd x = fst y.
Definition calm (bs : Z) (l : list (Z * Z)) : Prop := forall l1 x y l2,
  l = l1 ++ x :: y :: l2 -> fst x mod bs = 0 -> fst x + snd x = fst y -> contiguous (y :: l2).
(** The free list is calm whenever the call merges: an allocation for which no block is
    large enough, a release after which three quarters of the allocations are released. *)
Definition calmStep (s : bfc) (c : call) : Prop :=
  match c with
  | Alloc z => 0 < z -> Forall (fun x => snd x < align s z) (freeBlocks s) -> calm (blockSize s) (freeBlocks s)
  | Free a => forall z s1, usedGet (used s) (a - start s) = Some z -> giveBack s (a - start s) z = Some s1 -> thresh s1 = true ->
      calm (blockSize s1) (freeBlocks s1)
  end.
Fixpoint calmRun (s : bfc) (cs : list call) : Prop :=
  match cs with
  | [] => True
  | c :: r => calmStep s c /\ forall s1 a, step s c = Some (s1, a) -> calmRun s1 r
  end.
