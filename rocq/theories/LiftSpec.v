(** What programs written with lifted functions mean. *)
From Coq Require Import List Arith Bool.
From Verif Require Import BroadcastModel LiftModel.
Import ListNotations.

(** The cause of an error (errors.Cause). *)
Fixpoint causeOf (e : error) : error := match e with WithStack e | Wrapf _ e => causeOf e | _ => e end.

(** Programs: nodes and failed results, and calls of functions on the results of others. Go
    evaluates the arguments from left to right before the call. *)
Inductive prog (S : Type) :=
| PNode (n : option nat)
| PFail (e : error)
| P1 (f : S -> option nat -> S * (option nat * option error)) (p : prog S)
| P2 (f : S -> option nat -> option nat -> S * (option nat * option error)) (p q : prog S).
Arguments PNode {S}. Arguments PFail {S}. Arguments P1 {S}. Arguments P2 {S}.

(** The meaning: a node, or the cause of the first error; a function is called only if all of
    its arguments are nodes. *)
Definition answer : Type := (option nat + error)%type.
Definition outcome {S} (r : S * (option nat * option error)) : S * answer :=
  (fst r, match snd (snd r) with Some e => inr (causeOf e) | None => inl (fst (snd r)) end).
Fixpoint means {S} (p : prog S) (s : S) : S * answer :=
  match p with
  | PNode n => (s, inl n)
  | PFail e => (s, inr (causeOf e))
  | P1 f p =>
      match means p s with
      | (s1, inl n) => outcome (f s1 n)
      | (s1, inr e) => (s1, inr e)
      end
  | P2 f p q =>
      match means p s with
      | (s1, ra) =>
          match means q s1 with
          | (s2, rb) =>
              match ra, rb with
              | inl n, inl m => outcome (f s2 n m)
              | inr e, _ => (s2, inr e)
              | _, inr e => (s2, inr e)
              end
          end
      end
  end.

(** The same program with lifted functions; a panic ends it. *)
Fixpoint lifted {S} (mkF : nat -> input -> input) (p : prog S) (s : S) : S * res input :=
  match p with
  | PNode n => (s, Ok (INode n))
  | PFail e => (s, Ok (IErr (Some e)))
  | P1 f p => match lifted mkF p s with (s1, Ok a) => Lift1 mkF S f s1 a | r => r end
  | P2 f p q =>
      match lifted mkF p s with
      | (s1, Ok a) => match lifted mkF q s1 with (s2, Ok b) => Lift2 mkF S f s2 a b | r => r end
      | r => r
      end
  end.
(** What a caller gets out of a Result: the cause of its error or its node. *)
Inductive shows : input -> answer -> Prop :=
| sh_err e : shows (IErr (Some e)) (inr (causeOf e))
| sh_node n : shows (INode n) (inl n).

(** An input that can be used as a node. *)
Inductive usable : input -> nat -> Prop :=
| us_node n : usable (INode (Some n)) n
| us_wrapped i n : usable i n -> usable (IResult i) n
| us_own n e m : e = None \/ e = Some None -> usable (IOwn (Some n) e m) n.
(** An input that carries an error. *)
Inductive failed : input -> error -> Prop :=
| fl_err e : failed (IErr (Some e)) e
| fl_own n e m : failed (IOwn n (Some (Some e)) m) e.
(** An input without an error that is not a node either. *)
Inductive nodeless : input -> Prop :=
| nl_nil : nodeless (INode None)
| nl_nodes l : nodeless (INodes l)
| nl_noErr : nodeless (IErr None)
| nl_wrapped i : nodeless i -> nodeless (IResult i)
| nl_own e m : e = None \/ e = Some None -> nodeless (IOwn None e m).
(** Functions applied one after the other, lifted. *)
Fixpoint chain {S} (mkF : nat -> input -> input) (fs : list (S -> option nat -> S * (option nat * option error))) (s : S) (a : input) : S * res input :=
  match fs with
  | [] => (s, Ok a)
  | f :: fs' => match Lift1 mkF S f s a with (s1, Ok b) => chain mkF fs' s1 b | r => r end
  end.
(** The same without lifting, for functions that succeed. *)
Inductive composed {S} : list (S -> option nat -> S * (option nat * option error)) -> S -> nat -> S -> nat -> Prop :=
| co_nil s n : composed [] s n s n
| co_cons f fs s n s1 k s2 j : f s (Some n) = (s1, (Some k, None)) -> composed fs s1 k s2 j -> composed (f :: fs) s n s2 j.
