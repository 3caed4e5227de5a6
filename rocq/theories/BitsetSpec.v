(** What bitmaps and node sets should be. *)
From Coq Require Import List ZArith Bool.
From Verif Require Import BitsetModel.
Import ListNotations.

(** The last call that touched bit [i] decides; unset at the start. *)
Definition lastSet (ops : list bmOp) (i : Z) : bool :=
  fold_left (fun b o => match o with OpSet j => if Z.eqb i j then true else b | OpClear j => if Z.eqb i j then false else b end) ops false.
Definition target (o : bmOp) : Z := match o with OpSet i => i | OpClear i => i end.
(** A run of [len] zero bits in a word of 64. *)
Definition zeroRun (w len : Z) : Prop := exists p, (0 <= p)%Z /\ (p + len <= 64)%Z /\ forall j, (p <= j < p + len)%Z -> Z.testbit w j = false.

(** Sets as characteristic functions, one per variable. *)
Definition chars := list (nat -> bool).
Definition char (cs : chars) (k : nat) : nat -> bool := nth k cs (fun _ => false).
Fixpoint putChar (cs : chars) (k : nat) (f : nat -> bool) : chars := match cs, k with [], _ => [] | _ :: l, O => f :: l | c :: l, S k' => c :: putChar l k' f end.
Definition cstep (cs : chars) (o : sop) : chars :=
  match o with
  | SNew xs => cs ++ [fun x => existsb (Nat.eqb x) xs]
  | SAdd k x => putChar cs k (fun y => Nat.eqb y x || char cs k y)
  | SRemove k x => putChar cs k (fun y => negb (Nat.eqb y x) && char cs k y)
  | SUnion k j => cs ++ [fun x => char cs k x || char cs j x]
  | SIntersect k j => cs ++ [fun x => char cs k x && char cs j x]
  | SDifference k j => cs ++ [fun x => char cs k x && negb (char cs j x)]
  | SSymmetric k j => cs ++ [fun x => xorb (char cs k x) (char cs j x)]
  | SClone k => cs ++ [char cs k]
  | SClear k => putChar cs k (fun _ => false)
  end.
Definition crun (ops : list sop) : chars := fold_left cstep ops [].
(** The variables an operation mentions exist. *)
Definition usable (n : nat) (o : sop) : Prop :=
  match o with
  | SNew _ => True
  | SAdd k _ | SRemove k _ | SClone k | SClear k => k < n
  | SUnion k j | SIntersect k j | SDifference k j | SSymmetric k j => k < n /\ j < n
  end.
Fixpoint usableAll (n : nat) (ops : list sop) : Prop :=
  match ops with
  | [] => True
  | o :: ops' => usable n o /\ usableAll (match o with SAdd _ _ | SRemove _ _ | SClear _ => n | _ => S n end) ops'
  end.
