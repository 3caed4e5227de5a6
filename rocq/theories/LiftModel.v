(** Lifting of the API's functions to Results (ermagerdmonards.go). Proof-free.
    A node is a number, [None] the nil node. *)
From Coq Require Import List Arith Bool.
From Verif Require Import BroadcastModel.
Import ListNotations.

(** Errors (github.com/pkg/errors, used in ermagerdmonards.go:39, 86, 147): a cause, WithStack
    and Wrapf put around it. *)
Inductive error := Cause (c : nat) | WithStack (e : error) | Wrapf (i : nat) (e : error) | NotANode (i : nat).

(** What an interface of type Input holds (ermagerdmonards.go:13-34): nothing, a node
    (node.go:307-313), Nodes (collections.go:16-22), a gErr (82-91), a resultM (94-96), or a
    type of the user's: what its Node method returns, what its Err method returns if it has
    one, and its Mk method if it has one, named by a number. *)
Inductive input :=
| INil
| INode (n : option nat)
| INodes (ns : list (option nat))
| IErr (e : option error)
| IResult (i : input)
| IOwn (n : option nat) (err : option (option error)) (mk : option nat).

(** The method Node (node.go:307; collections.go:16; ermagerdmonards.go:89); a resultM hands
    the call on (94), a nil interface panics. *)
Fixpoint nodeM (i : input) : res (option nat) :=
  match i with
  | INil => Panic
  | INode n => Ok n
  | INodes _ => Ok None
  | IErr _ => Ok None
  | IResult i => nodeM i
  | IOwn n _ _ => Ok n
  end.

(** CheckOne (ermagerdmonards.go:134-139): the error of an Errer. *)
Definition checkOne (i : input) : option error :=
  match i with
  | IErr e => e
  | IOwn _ (Some e) _ => e
  | _ => None
  end.

(** Err (ermagerdmonards.go:86); WithStack of nil is nil. *)
Definition Err_ (e : option error) : input := IErr (option_map WithStack e).

(** Whether the dynamic type is a Result (ermagerdmonards.go:14-17): it has an Err method. *)
Definition isResult (i : input) : bool :=
  match i with
  | INil => false
  | IOwn _ e _ => match e with Some _ => true | None => false end
  | _ => true
  end.
(** The end of LiftResult and TransformResult (ermagerdmonards.go:107-112, 125-130). *)
Definition asResult (i : input) : input := if isResult i then i else IResult i.

(** LiftResult (ermagerdmonards.go:103-113). *)
Definition LiftResult (a : input) (err : option error) : input :=
  match err with Some _ => Err_ err | None => asResult a end.

Section Lift.
(** The Mk methods of the user's types (ermagerdmonards.go:31-34). *)
Variable mkF : nat -> input -> input.
(** What the lifted functions work on, e.g. the graph. *)
Variable S : Type.

(** The loop of TransformResult (ermagerdmonards.go:121-125); only the user's types have Mk. *)
Fixpoint mkAll (ins : list input) (a : input) : input :=
  match ins with
  | [] => a
  | IOwn _ _ (Some m) :: ins' => mkAll ins' (mkF m a)
  | _ :: ins' => mkAll ins' a
  end.
(** TransformResult (ermagerdmonards.go:116-131). *)
Definition TransformResult (ins : list input) (a : input) (err : option error) : input :=
  match err with Some _ => Err_ err | None => asResult (mkAll ins a) end.

(** Lift1 (ermagerdmonards.go:37-44). Lift1Axial (47-54) is the same with the axes handed
    on. *)
Definition Lift1 (fn : S -> option nat -> S * (option nat * option error)) (s : S) (a : input) : S * res input :=
  match checkOne a with
  | Some e => (s, Ok (Err_ (Some (WithStack e))))
  | None =>
      match nodeM a with
      | Ok n => let (s', r) := fn s n in (s', Ok (TransformResult [a] (INode (fst r)) (snd r)))
      | Err => (s, Err)
      | Panic => (s, Panic)
      end
  end.
(** Lift2 (ermagerdmonards.go:57-67). Lift2Broadcast (70-80) is the same with the patterns
    handed on. *)
Definition Lift2 (fn : S -> option nat -> option nat -> S * (option nat * option error)) (s : S) (a b : input) : S * res input :=
  match checkOne a with
  | Some e => (s, Ok (Err_ (Some (WithStack e))))
  | None =>
      match checkOne b with
      | Some e => (s, Ok (Err_ (Some (WithStack e))))
      | None =>
          match nodeM a, nodeM b with
          | Ok n, Ok m => let (s', r) := fn s n m in (s', Ok (TransformResult [a; b] (INode (fst r)) (snd r)))
          | _, _ => (s, Panic)
          end
      end
  end.
End Lift.

(** The first loop of NodesFromInputs (ermagerdmonards.go:143-151). *)
Fixpoint checkAll (i : nat) (xs : list input) : res (option error) :=
  match xs with
  | [] => Ok None
  | x :: xs' =>
      match checkOne x with
      | Some e => Ok (Some (Wrapf i e))
      | None =>
          match nodeM x with
          | Ok None => Ok (Some (NotANode i))
          | Ok (Some _) => checkAll (i + 1) xs'
          | _ => Panic
          end
      end
  end.
(** The second loop (ermagerdmonards.go:153-157); its calls of Node have succeeded before. *)
Fixpoint nodesOf (xs : list input) : list (option nat) :=
  match xs with
  | [] => []
  | x :: xs' => (match nodeM x with Ok n => n | _ => None end) :: nodesOf xs'
  end.
(** NodesFromInputs (ermagerdmonards.go:142-158). *)
Definition NodesFromInputs (xs : list input) : res (list (option nat) * option error) :=
  match checkAll 0 xs with
  | Ok None => Ok (nodesOf xs, None)
  | Ok (Some e) => Ok ([], Some e)
  | _ => Panic
  end.
