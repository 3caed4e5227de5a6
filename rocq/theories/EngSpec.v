(** What the calls of a CUDA engine may return, apart from the model's steps. *)
From Coq Require Import List Bool.
From Verif Require Import EngModel.
Import ListNotations.

(** What is known of the result ([true]: an error) of a call that has returned. *)
Definition Result (c : call) (err : bool) : Prop :=
  match c with
  | CInit None => err = false
  | CInit (Some FCtx) => True
  | CInit (Some (FLater unload)) => err = true -> unload = true
  | CClose unload _ _ closeC => err = true -> unload = true \/ closeC = true
  | CMemcpy => False
  | CBatch _ => err = false
  end.

(** A program as intended: lives of Init, some batches and Close, in which nothing fails;
    [on] says that the engine is initialised before it. *)
Fixpoint Orderly (on : bool) (p : list call) : Prop :=
  match p with
  | [] => True
  | c :: p' =>
      match c, on with
      | CInit None, false => Orderly true p'
      | CBatch false, true => Orderly true p'
      | CClose false false false false, true => Orderly false p'
      | _, _ => False
      end
  end.
