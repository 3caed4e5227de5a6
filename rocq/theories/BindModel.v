(** Binding values to nodes: Let, UnsafeLet, WithValue, WithGrad, bind, bindCopy, unbind,
    UnbindAll, UnbindAllNonInputs, Clone, and the library's pool of tensors. Values are
    objects with an identity (pointers); devices and engines are left out. *)
From Coq Require Import List ZArith Bool.
From Verif Require Import BroadcastModel ShapeGradModel TypeModel.
Import ListNotations.

Section Values.
Variable V : Type.

(** A Value (values.go:12-30): a Scalar (F64 and so on, empty shape) or a tensor with its
    shape, dtype and entries. *)
Record obj := mkObj { oscalar : bool; oshape : list Z; odt : dtype; odata : list V }.
(** What a pointer leads to: a value, or a tensor handed back to the pool, whose header was
    wiped (tensor.ReturnTensor, library). *)
Inductive cell := Live (o : obj) | Recycled.
(** dualValue (dual.go:11-14): two pointers, both nil after returnDV. *)
Record dual := mkDual { dval : option nat; dder : option nat }.
(** Node.boundTo (node.go:44): a value or a dual value, by pointer. *)
Inductive bound := BV (o : nat) | BD (d : nat).
(** What kind of op a node has (node.go:322-326): none, randomOp, a constant with its value,
    sliceOp or sliceIncrOp, or another. *)
Inductive nkind := KArg | KRandom | KConst (o : nat) | KSlice | KOther.
(** The fields of a Node that matter here (node.go:23-60). *)
Record bnode := mkBnode { bkind : nkind; bstmt : bool; bty : option ty; bshp : option (list Z); bto : option bound }.
(** All objects, the pool of recycled tensors (a queue; library), dual values and nodes of
    the graph in order. *)
Record world := mkWorld { objs : list cell; pool : list nat; duals : list dual; bnodes : list bnode }.

(** Replacing one element (an assignment through a pointer, as at node.go:653, 671, 676). *)
Fixpoint put {A} (l : list A) (i : nat) (x : A) : list A :=
  match l, i with [], _ => [] | _ :: r, O => x :: r | y :: r, S j => y :: put r j x end.

(** Following a pointer to a Value (node.go:435-443); a wiped tensor is no value. *)
Definition obAt (w : world) (o : nat) : option obj :=
  match nth_error (objs w) o with Some (Live x) => Some x | _ => None end.
(** Writing an object through its pointer (values_utils.go:177, 226; node.go:155). *)
Definition setObj (w : world) (o : nat) (c : cell) : world := mkWorld (put (objs w) o c) (pool w) (duals w) (bnodes w).
(** Assigning the fields of a dual value (node.go:671; perf.go:70-71). *)
Definition setDual (w : world) (d : nat) (x : dual) : world := mkWorld (objs w) (pool w) (put (duals w) d x) (bnodes w).
(** Assigning a node's fields (node.go:653, 676, 733). *)
Definition setNode (w : world) (n : nat) (x : bnode) : world := mkWorld (objs w) (pool w) (duals w) (put (bnodes w) n x).
(** A node with another boundTo (node.go:44). *)
Definition withBound (x : bnode) (b : option bound) : bnode := mkBnode (bkind x) (bstmt x) (bty x) (bshp x) b.

(** isInput, isConstant, isRandom (node.go:322-326). *)
Definition isRandom (x : bnode) : bool := match bkind x with KRandom => true | _ => false end.
(** node.go:322 [isArg]. *)
Definition isArg (x : bnode) : bool := match bkind x with KArg => true | _ => false end.
(** node.go:323 [isInput]. *)
Definition isInput (x : bnode) : bool := (isArg x || isRandom x) && negb (bstmt x).
(** node.go:325 [isConstant]. *)
Definition isConstant (x : bnode) : bool := match bkind x with KConst _ => true | _ => false end.

(** Node.Value (node.go:435-443). *)
Definition valueOf (w : world) (x : bnode) : option nat :=
  match bkind x with
  | KConst o => Some o
  | _ => match bto x with None => None | Some (BV o) => Some o | Some (BD d) => match nth_error (duals w) d with Some v => dval v | None => None end end
  end.
(** Node.Grad (node.go:446-455) for nodes without a derivative node. *)
Definition gradOf (w : world) (x : bnode) : res (option nat) :=
  match bto x with
  | Some (BD d) => match nth_error (duals w) d with Some v => Ok (dder v) | None => Err end
  | _ => Err
  end.

(** Node.bind (node.go:651-678). *)
Definition bindN (w : world) (n : nat) (v : bound) : res world :=
  match nth_error (bnodes w) n with
  | None => Err
  | Some x =>
      match bto x with
      | Some (BD d) =>
          match nth_error (duals w) d with
          | None => Err
          | Some dv =>
              match v with
              | BV o => Ok (setDual w d (mkDual (Some o) (dder dv)))
              | BD e => if Nat.eqb e d then Ok w
                        else if isRandom x then match nth_error (duals w) e with Some ev => Ok (setDual w d (mkDual (dval ev) (dder dv))) | None => Err end
                        else Panic
              end
          end
      | _ => Ok (setNode w n (withBound x (Some v)))
      end
  end.

(** What Let is given (gorgonia.go:258-299): a tensor.Slice, a Value, a node, or a Go number
    (anyToValue, values_primitives.go:318-352: a new Scalar of that dtype), or anything else. *)
Inductive any := ASlice | AValue (o : nat) | ANode (m : nat) | AGo (d : dtype) (v : V) | AOther.
(** dtypeOf of a node's type (typeSystem.go:96-110) for the types occurring here; Node.Dtype
    panics without one (node.go:476-482). *)
Fixpoint dtOf (t : ty) : option dtype := match t with Var _ => None | Dt d => Some d | Ten _ u => dtOf u end.
(** A new value (NewF64 and so on, values_primitives.go:42-60). *)
Definition newObj (w : world) (o : obj) : world * nat :=
  (mkWorld (objs w ++ [Live o]) (pool w) (duals w) (bnodes w), length (objs w)).
(** UnsafeLet (gorgonia.go:258-299). Replacing an operator's slice is left out: the node's
    binding does not change. A recycled tensor has the empty shape and no dtype; comparing
    it fails for every dtype. *)
Definition unsafeLet (w : world) (n : nat) (be : any) : res world :=
  match nth_error (bnodes w) n with
  | None => Err
  | Some x =>
      match be with
      | ASlice => match bkind x with KSlice => Ok w | _ => Err end
      | AValue o =>
          match obAt w o with
          | None => Err
          | Some v =>
              if negb (shapeEq (match bshp x with Some s => s | None => [] end) (oshape v)) then Err
              else match match bty x with Some t => dtOf t | None => None end with
                   | None => Panic
                   | Some d => if dtype_eq d (odt v) then bindN w n (BV o) else Err
                   end
          end
      | ANode _ => Ok w
      | AGo d v => let (w', o) := newObj w (mkObj true [] d [v]) in bindN w' n (BV o)
      | AOther => Err
      end
  end.
(** Let (gorgonia.go:247-253). *)
Definition letN (w : world) (n : nat) (be : any) : res world :=
  match nth_error (bnodes w) n with
  | None => Err
  | Some x => if isInput x then unsafeLet w n be else Err
  end.

(** TypeOf (values_utils.go:13-26). *)
Definition typeOfObj (o : obj) : ty := if oscalar o then Dt (odt o) else Ten (Z.of_nat (length (oshape o))) (Dt (odt o)).
(** tensor.Shape.IsScalarEquiv (library). *)
Definition scalarEquiv (s : list Z) : bool := forallb (Z.eqb 1) s.
(** WithValue applied to a node (node.go:135-164). The type [t] was taken when the option
    was made; here the option is made and applied at once. *)
Definition withValue (w : world) (n : nat) (o : nat) : res world :=
  match nth_error (bnodes w) n, obAt w o with
  | Some x, Some v =>
      let t := typeOfObj v in
      let go := fun w' t' s => match bindN (setNode w' n (mkBnode (bkind x) (bstmt x) (Some t') (bshp x) (bto x))) n (BV o) with
        | Ok w2 => match nth_error (bnodes w2) n with
                   | Some y => Ok (match bshp y with Some _ => w2 | None => setNode w2 n (mkBnode (bkind y) (bstmt y) (bty y) (Some s) (bto y)) end)
                   | None => Err end
        | e => e end in
      match bty x with
      | None => go w t (oshape v)
      | Some u =>
          if tyEq u t then go w u (oshape v)
          else match u with
               | Dt d => if negb (oscalar v) && scalarEquiv (oshape v) && dtype_eq (odt v) d
                         then go (setObj w o (Live (mkObj false [] (odt v) (odata v)))) u []
                         else Panic
               | _ => Panic
               end
      end
  | _, _ => Panic
  end.
(** WithGrad applied to a node (node.go:169-191). *)
Definition withGrad (w : world) (n : nat) (o : nat) : res world :=
  match nth_error (bnodes w) n, obAt w o with
  | Some x, Some g =>
      match bto x with
      | None => Panic
      | Some (BV v) =>
          match obAt w v with
          | None => Panic
          | Some vo => if tyEq (typeOfObj vo) (typeOfObj g)
                       then Ok (setNode (mkWorld (objs w) (pool w) (duals w ++ [mkDual (Some v) (Some o)]) (bnodes w)) n
                                        (withBound x (Some (BD (length (duals w))))))
                       else Panic
          end
      | Some (BD d) =>
          match nth_error (duals w) d with
          | Some (mkDual (Some v) _) =>
              match obAt w v with
              | None => Panic
              | Some vo => if tyEq (typeOfObj vo) (typeOfObj g) then Ok (setDual w d (mkDual (Some v) (Some o))) else Panic
              end
          | _ => Panic
          end
      end
  | _, _ => Panic
  end.

(** CloneValue (values_utils.go:92-132) of a scalar or tensor: a new object with the same
    contents (a cloned tensor has its own backing; library). *)
Definition cloneObj (w : world) (o : nat) : res (world * nat) :=
  match obAt w o with Some x => Ok (newObj w x) | None => Err end.
(** Copy (values_utils.go:169-240): between scalars of one dtype, or between tensors of one
    dtype and size (tensor.Copy, library); the shape of the destination stays. *)
Definition copyInto (w : world) (dst src : nat) : res world :=
  match obAt w dst, obAt w src with
  | Some d, Some s =>
      if Bool.eqb (oscalar d) (oscalar s) && dtype_eq (odt d) (odt s) && Nat.eqb (length (odata d)) (length (odata s))
      then Ok (setObj w dst (Live (mkObj (oscalar d) (oshape d) (odt d) (odata s)))) else Err
  | _, _ => Err
  end.
(** Node.bindCopy (node.go:681-718) of a plain value. *)
Definition bindCopy (w : world) (n : nat) (o : nat) : res world :=
  match nth_error (bnodes w) n with
  | None => Err
  | Some x =>
      match bto x with
      | None => match cloneObj w o with Ok (w', c) => Ok (setNode w' n (withBound x (Some (BV c)))) | Err => Err | Panic => Panic end
      | Some (BV v) => copyInto w v o
      | Some (BD d) => match nth_error (duals w) d with Some (mkDual (Some v) _) => copyInto w v o | _ => Err end
      end
  end.

(** tensor.ReturnTensor (library): the header is wiped and the tensor put at the end of the
    pool (which has 4096 places; simplification: there is room). Scalars are left alone
    (returnValue, perf.go:80-84). *)
Definition returnValue (w : world) (o : option nat) : world :=
  match o with
  | None => w
  | Some i => match nth_error (objs w) i with
              | Some (Live x) => if oscalar x then w else mkWorld (put (objs w) i Recycled) (pool w ++ [i]) (duals w) (bnodes w)
              | Some Recycled => mkWorld (objs w) (pool w ++ [i]) (duals w) (bnodes w)
              | None => w
              end
  end.
(** Node.unbind (node.go:721-734) with returnDV (perf.go:61-74). The dual value itself goes
    to a pool of its own, which is left out. *)
Definition unbindN (w : world) (n : nat) : world :=
  match nth_error (bnodes w) n with
  | None => w
  | Some x =>
      match bto x with
      | None => w
      | Some (BV o) => setNode (returnValue w (Some o)) n (withBound x None)
      | Some (BD d) =>
          match nth_error (duals w) d with
          | None => setNode w n (withBound x None)
          | Some dv => setNode (setDual (returnValue (returnValue w (dder dv)) (dval dv)) d (mkDual None None)) n (withBound x None)
          end
      end
  end.
(** ExprGraph.UnbindAll (graph.go:269-273). *)
Definition unbindAll (w : world) : world := fold_left unbindN (seq 0 (length (bnodes w))) w.
(** ExprGraph.UnbindAllNonInputs (graph.go:276-283); lispMachine.UnbindAll
    (vm_genera.go:188-197) skips inputs likewise. *)
Definition unbindNonInputs (w : world) : world :=
  fold_left (fun w' n => match nth_error (bnodes w') n with
                         | Some x => if isInput x || isConstant x then w' else unbindN w' n
                         | None => w' end) (seq 0 (length (bnodes w))) w.
(** A tensor allocated by the library (recycledDense and borrowDense, library): the first of
    the pool is reused. *)
Definition allocTensor (w : world) (x : obj) : world * nat :=
  match pool w with
  | [] => newObj w x
  | i :: p => (mkWorld (put (objs w) i (Live x)) p (duals w) (bnodes w), i)
  end.
(** Node.Clone (node.go:403-432) into the same world: the binding is copied. For a dual
    value both parts are (dual.go:30-47). A constant's operator is shared. *)
Definition cloneNode (w : world) (x : bnode) : res (world * bnode) :=
  match bto x with
  | None => Ok (w, x)
  | Some (BV o) => match cloneObj w o with Ok (w', c) => Ok (w', withBound x (Some (BV c))) | Err => Err | Panic => Panic end
  | Some (BD d) =>
      match nth_error (duals w) d with
      | Some (mkDual (Some v) g) =>
          match cloneObj w v with
          | Ok (w1, v') =>
              match g with
              | None => Ok (mkWorld (objs w1) (pool w1) (duals w1 ++ [mkDual (Some v') None]) (bnodes w1), withBound x (Some (BD (length (duals w1)))))
              | Some g => match cloneObj w1 g with
                          | Ok (w2, g') => Ok (mkWorld (objs w2) (pool w2) (duals w2 ++ [mkDual (Some v') (Some g')]) (bnodes w2), withBound x (Some (BD (length (duals w2)))))
                          | Err => Panic | Panic => Panic end
              end
          | Err => Panic | Panic => Panic
          end
      | _ => Panic
      end
  end.
End Values.
Arguments mkObj {V}. Arguments oscalar {V}. Arguments oshape {V}. Arguments odt {V}. Arguments odata {V}.
Arguments Live {V}. Arguments Recycled {V}. Arguments mkWorld {V}. Arguments objs {V}. Arguments pool {V}.
Arguments duals {V}. Arguments bnodes {V}. Arguments obAt {V}. Arguments setObj {V}. Arguments setDual {V}.
Arguments setNode {V}. Arguments valueOf {V}. Arguments gradOf {V}. Arguments bindN {V}. Arguments ASlice {V}.
Arguments AValue {V}. Arguments ANode {V}. Arguments AGo {V}. Arguments AOther {V}. Arguments newObj {V}.
Arguments unsafeLet {V}. Arguments letN {V}. Arguments typeOfObj {V}. Arguments withValue {V}. Arguments withGrad {V}.
Arguments cloneObj {V}. Arguments copyInto {V}. Arguments bindCopy {V}. Arguments returnValue {V}. Arguments unbindN {V}.
Arguments unbindAll {V}. Arguments unbindNonInputs {V}. Arguments allocTensor {V}. Arguments cloneNode {V}.
