(** Model of logSoftmaxStabilization (stabilization.go:201-264) on a heap of nodes.
    No proofs in this file.

    Every node is a vector over exact reals.  Simplified: new nodes are appended
    (the graph would return an equal existing node, GraphModel); the two rewrites
    tried before this one (stabilization.go:10-11) need a sigmoid or the constant 1,
    which this language lacks (they are in CalcModel and GraphModel). *)
From Coq Require Import Arith Reals List Bool.
From Verif Require Import OpHashModel.
Import ListNotations.

(** The value of a node (op_softmax.go:109-125 on one axis). *)
Definition vec := nat -> R.
(** Operators: an input with its value, softmaxOp (op_softmax.go:29-33) with its
    isLog flag, elementwise multiplication, addition and logarithm (op_math.go), and
    any other operator. *)
Inductive snode :=
| SVar (v : vec)
| SSoftmax (c : nat) (isLog : bool)
| SMul (a b : nat)
| SAdd (a b : nat)
| SLn (c : nat)
| SOther (f : list vec -> vec) (cs : list nat).
(** The nodes (node.go:22-60), pointers are positions. *)
Definition heap := list snode.

Section Size.
Variable n : nat.   (* length of the vectors *)

(** What running the graph gives: the operators' Do, children first; [fuel] is the
    depth. (op_softmax.go:100-125, op_math.go.) *)
Fixpoint evalF (fuel : nat) (h : heap) (p : nat) : vec :=
  match fuel with
  | O => fun _ => 0%R
  | S f =>
      match nth_error h p with
      | None => fun _ => 0%R
      | Some (SVar v) => v
      | Some (SSoftmax c l) => softmaxVec l n (evalF f h c)
      | Some (SMul a b) => fun i => (evalF f h a i * evalF f h b i)%R
      | Some (SAdd a b) => fun i => (evalF f h a i + evalF f h b i)%R
      | Some (SLn c) => fun i => ln (evalF f h c i)
      | Some (SOther g cs) => g (map (evalF f h) cs)
      end
  end.
(** The same with enough depth: children come first (node.go:22-60). *)
Definition eval (h : heap) (p : nat) : vec := evalF (S p) h p.
End Size.

(** op.isLog = true through the pointer held by the node. (stabilization.go:201-264.) *)
Fixpoint setLog (h : heap) (p : nat) : heap :=
  match h, p with
  | [], _ => []
  | SSoftmax c _ :: r, O => SSoftmax c true :: r
  | x :: r, O => x :: r
  | x :: r, S p' => x :: setLog r p'
  end.
(** The type assertion to *softmaxOp (stabilization.go:201-264). *)
Definition isSoftmax (h : heap) (p : nat) : bool :=
  match nth_error h p with Some (SSoftmax _ _) => true | _ => false end.
(** ApplyOp: a new node. (op.go:169-214.) *)
Definition push (h : heap) (x : snode) : heap * nat := (h ++ [x], length h).

(** operations.go:135-163 [unaryOpNode] for Log with stabilization.go:204-264
    [logSoftmaxStabilization]; [fuel] bounds the recursion through Log (232, 238). *)
Fixpoint logF (fuel : nat) (h : heap) (a : nat) : heap * nat :=
  match fuel with
  | O => push h (SLn a)
  | S f =>
      match nth_error h a with
      | Some (SSoftmax _ _) => (setLog h a, a)
      | Some (SMul fst snd) =>
          match isSoftmax h fst, isSoftmax h snd with
          | true, false =>
              let (h2, newSnd) := logF f (setLog h fst) snd in push h2 (SAdd fst newSnd)
          | false, true =>
              let (h2, newFst) := logF f (setLog h snd) fst in push h2 (SAdd newFst snd)
          | true, true => push (setLog (setLog h fst) snd) (SAdd fst snd)
          | false, false => push h (SLn a)
          end
      | _ => push h (SLn a)
      end
  end.
(** operations.go:135-163 with enough depth. *)
Definition logNode (h : heap) (a : nat) : heap * nat := logF (S a) h a.
