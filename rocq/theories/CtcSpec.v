(** Independent specification for C29 and C55: connectionist temporal
    classification by its definition, a sum over all label sequences. *)
From Coq Require Import Arith Reals List Bool.
From Verif Require Import CtcModel.
Import ListNotations.
Local Open Scope R_scope.

(** Merge adjacent equal labels, then drop the blank (label 0). *)
Fixpoint dedup (l : list nat) : list nat :=
  match l with
  | [] => []
  | x :: r => match r with
              | y :: _ => if (x =? y)%nat then dedup r else x :: dedup r
              | [] => [x]
              end
  end.
Definition collapse (l : list nat) : list nat := filter (fun x => negb (x =? 0)%nat) (dedup l).

(** All sequences of [T] labels out of [L]. *)
Fixpoint paths (L T : nat) : list (list nat) :=
  match T with
  | O => [[]]
  | S T' => flat_map (fun c => map (cons c) (paths L T')) (seq 0 L)
  end.

(** Probability of a sequence: the labels of different time steps are independent,
    [p t c] is the probability of label [c] at time [t]. *)
Fixpoint pathProb (p : nat -> nat -> R) (t : nat) (l : list nat) : R :=
  match l with [] => 1 | c :: r => p t c * pathProb p (S t) r end.

Definition total {X} (f : X -> R) (l : list X) : R := fold_right Rplus 0 (map f l).
Definition is_label_of (y l : list nat) : bool := if list_eq_dec Nat.eq_dec (collapse l) y then true else false.

(** The probability that the observed sequence collapses to [y]. *)
Definition likelihood (p : nat -> nat -> R) (L T : nat) (y : list nat) : R :=
  total (pathProb p 0) (filter (is_label_of y) (paths L T)).

(** The same, with label [c] at time [t]. *)
Definition likelihoodAt (p : nat -> nat -> R) (L T : nat) (y : list nat) (t c : nat) : R :=
  total (pathProb p 0) (filter (fun l => is_label_of y l && (nth t l L =? c)%nat) (paths L T)).

(** The logarithm of a probability as the code stores it. *)
Definition logOf (q : R) : ext := if Rlt_dec 0 q then Fin (ln q) else MInf.
(** ... and its negation. *)
Definition negLogOf (q : R) : ext := if Rlt_dec 0 q then Fin (- ln q) else PInf.

(** A proper target: no blank in it, every label below [L]. *)
Definition proper (L : nat) (y : list nat) : Prop := Forall (fun c => (0 < c < L)%nat) y.

(** The (time, batch, label) tensor of the logarithms of [p t b c]. *)
Definition logTensor (T B L : nat) (p : nat -> nat -> nat -> R) : list ext :=
  flat_map (fun t => flat_map (fun b => map (fun c => logOf (p t b c)) (seq 0 L)) (seq 0 B)) (seq 0 T).

(** The targets of a batch in one tensor: end to end, or one padded row each. *)
Definition layout (sh : targetShape) (ys : list (list nat)) (targets : list nat) : Prop :=
  match sh with
  | Vec => targets = concat ys
  | Mat w => exists rows, targets = concat rows /\
      Forall2 (fun row y => length row = w /\ firstn (length y) row = y) rows ys
  end.

(** The losses of the batch entries put together. *)
Definition reduced (red : reduction) (B : nat) (loss : nat -> R) (len : nat -> nat) : R :=
  match red with
  | ReductionSum => total loss (seq 0 B)
  | ReductionMean => total (fun b => loss b / INR (len b)) (seq 0 B) / INR B
  end.

(** Softmax of a row of [L] scores. *)
Definition softmaxAt (L : nat) (a : nat -> R) (c : nat) : R :=
  exp (a c) / total (fun j => exp (a j)) (seq 0 L).
