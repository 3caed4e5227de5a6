(** Derivative tensors in the lisp machine by reference: an operator node [s] with one
    input [x], run on one new machine after another over the same graph, for operators
    whose [DoDiff] makes the output's derivative the input's derivative tensor
    (op_softmax.go:130-154, op_group_norm.go:456-488) and for those that do not. The other
    nodes are seen only through what they add to the two derivatives. Proof-free. *)
From Coq Require Import Arith List Reals.
Import ListNotations.
Local Open Scope R_scope.

(** A derivative's entries; shapes are left out.
    (The derivative of a dual value, dual.go:11-14.) *)
Definition vec := nat -> R.
(** ZeroValue's result (dual.go:114-130). *)
Definition vzero : vec := fun _ => 0.
(** The derivative a root gets in the forward half (dual.go:132-151). *)
Definition vones : vec := fun _ => 1.
(** tensor.Add, library, as called with UseUnsafe (op_softmax.go:130-154). *)
Definition vadd (u v : vec) : vec := fun i => u i + v i.

(** [cells]: tensors by address, [None] for one given back to the library's pool
    (perf.go:60-84, tensor.ReturnTensor), [pool]: the addresses given back. [xd], [sd]: the
    tensor that is the derivative of the dual value bound to the node (dual.go:11-14), if
    the node is bound. Tensors are not taken out of the pool again in this model. *)
Record world := W { cells : nat -> option vec; next : nat; xd : option nat; sd : option nat; pool : list nat }.

(** A new tensor. (tensor.New, library; vm_genera.go:437-465.) *)
Definition alloc (v : vec) (w : world) : world * nat :=
  (W (fun a => if Nat.eqb a (next w) then Some v else cells w a) (S (next w)) (xd w) (sd w) (pool w), next w).
(** Overwrite a tensor in place. (E.g. UseUnsafe, op_softmax.go:130-154.) *)
Definition store (a : nat) (v : option vec) (w : world) : world :=
  W (fun b => if Nat.eqb b a then v else cells w b) (next w) (xd w) (sd w) (pool w).
(** Assign a dual value's field d (dual.go:11-14), or unbind ([None]). *)
Definition setX (p : option nat) (w : world) : world := W (cells w) (next w) p (sd w) (pool w).
(** The same for the output's dual value (dual.go:11-14). *)
Definition setS (p : option nat) (w : world) : world := W (cells w) (next w) (xd w) p (pool w).

(** forward() on the input. An argument keeps its dual value and otherwise gets a zero
    derivative (vm_genera.go:308-315, dual.go:112-128, 153-162); a computed node gets a new
    zero one (vm_genera.go:437-465) or has the old one zeroed in place
    (vm_genera.go:467-485, dual.go:297-325, values_utils.go:135-163). *)
Definition forwardX (leaf : bool) (w : world) : world :=
  match xd w with
  | None => let (w', a) := alloc vzero w in setX (Some a) w'
  | Some a => if leaf then w else store a (Some vzero) w
  end.
(** forward() on the operator node: as above, and a root gets ones
    (vm_genera.go:390-412, dual.go:283-293, 327-362). *)
Definition forwardS (root : bool) (w : world) : world :=
  let seed := if root then vones else vzero in
  match sd w with
  | None => let (w', a) := alloc seed w in setS (Some a) w'
  | Some a => store a (Some seed) w
  end.
(** Another node's DoDiff adds to the derivative of [x] or [s] in place (e.g.
    operatorPointwise_binary.go, op_math.go; the ways of adding are those of GradModel.v);
    [None]: the tensor is no longer there. *)
Inductive event := ToX (g : vec) | ToS (g : vec).
(** Adding in place (UseUnsafe), as op_softmax.go:130-154 does it. *)
Definition addTo (p : option nat) (g : vec) (w : world) : option world :=
  match p with
  | None => None
  | Some a => match cells w a with None => None | Some v => Some (store a (Some (vadd v g)) w) end
  end.
(** The DoDiff of one user of [x] or [s] (called by the machine, vm_genera.go). *)
Definition happen (e : event) (w : world) : option world :=
  match e with ToX g => addTo (xd w) g w | ToS g => addTo (sd w) g w end.
(** The DoDiff calls of several users, one after the other (vm_genera.go:260-294). *)
Fixpoint happenAll (es : list event) (w : world) : option world :=
  match es with [] => Some w | e :: es' => match happen e w with None => None | Some w' => happenAll es' w' end end.
(** The operator's DoDiff: [pull] is the gradient operator's result for an output
    derivative; it is added to the input's derivative in place, and if [adopts] the output's
    derivative becomes that same tensor (op_softmax.go:130-154: idvd.Add with UseUnsafe,
    odv.d = sum). *)
Definition doDiff (adopts : bool) (pull : vec -> vec) (w : world) : option world :=
  match sd w with
  | None => None
  | Some b => match cells w b with
              | None => None
              | Some v => match addTo (xd w) (pull v) w with
                          | None => None
                          | Some w' => Some (if adopts then setS (xd w') w' else w')
                          end
              end
  end.
(** One RunAll of a new machine (vm_genera.go:260-294): the forward half reaches [x] before
    [s]; then the users of both, the operator itself, and the remaining users of [x]. *)
Record round := Round { rpull : vec -> vec; rbefore : list event; rafter : list vec }.
(** vm_genera.go:260-294. *)
Definition run (leaf root adopts : bool) (r : round) (w : world) : option world :=
  match happenAll (rbefore r) (forwardS root (forwardX leaf w)) with
  | None => None
  | Some w1 => match doDiff adopts (rpull r) w1 with
               | None => None
               | Some w2 => happenAll (map ToX (rafter r)) w2
               end
  end.
(** RunAll of several machines, one after the other (vm_genera.go:260-294). *)
Fixpoint runs (leaf root adopts : bool) (rs : list round) (w : world) : option world :=
  match rs with [] => Some w | r :: rs' => match run leaf root adopts r w with None => None | Some w' => runs leaf root adopts rs' w' end end.
(** UnbindAll (vm_genera.go:190-202, node.go:721-734, perf.go:60-84): the dual values of all
    nodes but the inputs are given back with their derivatives, operands first. *)
Definition giveBack (p : option nat) (w : world) : world :=
  match p with
  | None => w
  | Some a => let w' := store a None w in W (cells w') (next w') (xd w') (sd w') (pool w' ++ [a])
  end.
(** vm_genera.go:190-202 [UnbindAll]. *)
Definition unbindAll (leaf : bool) (w : world) : world :=
  let w1 := if leaf then w else setX None (giveBack (xd w) w) in
  setS None (giveBack (sd w1) w1).
(** node.go:446-455 [Grad]. *)
Definition gradX (w : world) : option vec := match xd w with None => None | Some a => cells w a end.
(** node.go:446-455 [Grad] of the output. *)
Definition gradS (w : world) : option vec := match sd w with None => None | Some a => cells w a end.
(** Nothing bound to [s] yet; [x] bound or not.
    (dual.go:11-14: the state before the first RunAll.) *)
Definition start (d0 : option vec) : world :=
  W (fun a => if Nat.eqb a 0 then d0 else None) 1 (match d0 with None => None | Some _ => Some 0%nat end) None [].
(** op_tensor.go:1260-1272 [reshapeOp.DoDiff] (tensors with more than one entry): the
    output's derivative tensor itself, reshaped in place, becomes the input's derivative
    (dual.go:16-23). Reshaping does not change the entries. *)
Definition doDiffReshape (w : world) : option world := match sd w with None => None | Some b => Some (setX (Some b) w) end.
(** One RunAll of a new machine for a reshape node; later machines are not modelled (the
    output's derivative then has the input's shape).
    (vm_genera.go:260-294, op_tensor.go:1260-1272.) *)
Definition runReshape (leaf root : bool) (before : list event) (after : list vec) (w : world) : option world :=
  match happenAll before (forwardS root (forwardX leaf w)) with
  | None => None
  | Some w1 => match doDiffReshape w1 with None => None | Some w2 => happenAll (map ToX after) w2 end
  end.
