(** Model of values, their comparison and copying, and of dual values: values_utils.go,
    equalities.go:8-127, dual.go, values.go:190-213, values_primitives.go:354-394,
    utils.go:148-236.

    Memory is a list of entries; a scalar is a pointer to one of them, a tensor a header that
    points to a run of them. Simplifications: tensors are dense and contiguous and live in
    main memory; entries are of an abstract type, so an integer that does not fit its kind is
    not seen. A dual value is written with the two values its fields hold at the time, beside
    the number that stands for its address; a dual value that contains itself is left out. *)
Require Import Coq.Lists.List Coq.Arith.Arith Coq.Bool.Bool Coq.ZArith.ZArith.
Require Import Verif.BroadcastModel Verif.ShapeGradModel.
Import ListNotations.

(** The pointer types that are scalars (values_primitives.go:12-45); a tensor's Dtype is
    written alike (types.go, Float64 … Bool). *)
Inductive kind := KF64 | KF32 | KI | KI64 | KI32 | KU8 | KB.
(** Comparison of the dynamic types of two scalars, or of two Dtypes (equalities.go:9-66,
    90). *)
Definition kindEq (a b : kind) : bool :=
  match a, b with
  | KF64, KF64 | KF32, KF32 | KI, KI | KI64, KI64 | KI32, KI32 | KU8, KU8 | KB, KB => true
  | _, _ => false
  end.
(** tensor.Float64 and tensor.Float32 (utils.go:168, equalities.go:95, 109). *)
Definition isFloat (k : kind) : bool := match k with KF64 | KF32 => true | _ => false end.

(** The Value interface (values.go:22-30): nil, a scalar at an address, a tensor with its
    Dtype, shape, first address and number of entries, or a *dualValue (dual.go:11-14). *)
Inductive value :=
| VNil
| VS (k : kind) (a : nat)
| VT (k : kind) (sh : list Z) (a n : nat)
| VD (id : nat) (v d : value).

(** Whether a value is the nil interface (values_utils.go:45; dual.go:36). *)
Definition isNil (v : value) : bool := match v with VNil => true | _ => false end.

Section Values.
Context {E : Type}.
(** Go's == on entries (equalities.go:15); not reflexive at NaN. *)
Variable feq : E -> E -> bool.
(** dawson.CloseF64 and CloseF32 (library; equalities.go:74, 79). *)
Variable close : E -> E -> bool.
(** The entries 0 or false, and 1 or true (values_primitives.go:354-394). *)
Variables zer one : E.
(** math.IsNaN and math.IsInf (utils.go:158, 199). *)
Variables isNaN isInf : E -> bool.

(** The memory, and the number of dual values handed out so far by borrowDV (perf.go:53-57);
    the pool of used ones is left out. *)
Record st := mkSt { cells : list E; duals : nat }.

(** Read n entries from an address (Data(), values.go:25). *)
Definition readAt (m : list E) (a n : nat) : list E := firstn n (skipn a m).
(** Overwrite the entries from an address on (values_utils.go:137-156, 177). *)
Definition writeAt (m : list E) (a : nat) (xs : list E) : list E :=
  firstn a m ++ xs ++ skipn (a + length xs) m.
(** Allocate entries (values_utils.go:95 [retVal := *vt], tensor.New). *)
Definition allocE (s : st) (xs : list E) : st * nat :=
  (mkSt (cells s ++ xs) (duals s), length (cells s)).
(** borrowDV (perf.go:53-57). *)
Definition borrowDV (s : st) (v d : value) : st * value :=
  (mkSt (cells s) (S (duals s)), VD (duals s) v d).

(** The entries of two equally long slices compared pairwise with a test
    (equalities.go:103-107; tensor.Dense.Eq, library). *)
Fixpoint pairwise (p : E -> E -> bool) (xs ys : list E) : bool :=
  match xs, ys with
  | [], [] => true
  | x :: xs', y :: ys' => p x y && pairwise p xs' ys'
  | _, _ => false
  end.

(** scalarEq (equalities.go:8-68). *)
Definition scalarEq (m : list E) (k : kind) (a : nat) (k' : kind) (b : nat) : bool :=
  kindEq k k' && (Nat.eqb a b || pairwise feq (readAt m a 1) (readAt m b 1)).
(** tensor.Dense.Eq (library): dtype, shape in the sense of Shape.Eq, and entries.
    Simplification: its shortcut for one and the same header is left out. *)
Definition denseEq (m : list E) (k : kind) (sh : list Z) (a n : nat) (k' : kind) (sh' : list Z) (b n' : nat) : bool :=
  kindEq k k' && shapeEq sh sh' && pairwise feq (readAt m a n) (readAt m b n').
(** The switch of ValueEq (values_utils.go:48-64) when the first value is no dual value. *)
Definition flatEq (m : list E) (x y : value) : res bool :=
  match x with
  | VNil => Panic
  | VS k a => match y with VS k' b => Ok (scalarEq m k a k' b) | _ => Ok false end
  | VT k sh a n => match y with VT k' sh' b n' => Ok (denseEq m k sh a n k' sh' b n') | _ => Ok false end
  | VD _ _ _ => Ok false
  end.
(** ValueEq (values_utils.go:44-65) with dualValue.ValueEq (dual.go:52-66), which compares
    the parts with the arguments exchanged: [veq false a b] is ValueEq(a, b) and
    [veq true a b] is ValueEq(b, a). *)
Fixpoint veq (m : list E) (flip : bool) (a b : value) {struct a} : res bool :=
  match a, b with
  | VNil, VNil => Ok true
  | VD i v d, VD j v' d' =>
      if Nat.eqb i j then Ok true else
      bind (veq m (negb flip) v v') (fun x => bind (veq m (negb flip) d d') (fun y => Ok (x && y)))
  | _, _ => if flip then flatEq m b a else flatEq m a b
  end.
(** ValueEq (values_utils.go:44-65). *)
Definition ValueEq (s : st) (a b : value) : res bool := veq (cells s) false a b.

(** scalarClose (equalities.go:70-85). *)
Definition scalarClose (m : list E) (k : kind) (a : nat) (k' : kind) (b : nat) : bool :=
  if isFloat k then kindEq k k' && pairwise close (readAt m a 1) (readAt m b 1)
  else scalarEq m k a k' b.
(** tensorClose (equalities.go:87-127): the shapes of float tensors are not looked at. *)
Definition tensorClose (m : list E) (k : kind) (sh : list Z) (a n : nat) (k' : kind) (sh' : list Z) (b n' : nat) : bool :=
  if kindEq k k'
  then if isFloat k then pairwise close (readAt m a n) (readAt m b n')
       else denseEq m k sh a n k' sh' b n'
  else false.
(** ValueClose (values_utils.go:68-89); a dual value is no ValueCloser. *)
Definition ValueClose (s : st) (x y : value) : res bool :=
  match x, y with
  | VNil, VNil => Ok true
  | VS k a, VS k' b => Ok (scalarClose (cells s) k a k' b)
  | VT k sh a n, VT k' sh' b n' => Ok (tensorClose (cells s) k sh a n k' sh' b n')
  | VS _ _, _ | VT _ _ _ _, _ => Ok false
  | _, _ => Panic
  end.

(** CloneValue (values_utils.go:92-132) with dualValue.Clone (dual.go:30-47). *)
Fixpoint CloneValue (s : st) (v : value) : res (st * value) :=
  match v with
  | VNil => Err
  | VS k a => let (s', b) := allocE s (readAt (cells s) a 1) in Ok (s', VS k b)
  | VT k sh a n => let (s', b) := allocE s (readAt (cells s) a n) in Ok (s', VT k sh b n)
  | VD _ x d =>
      bind (CloneValue s x) (fun p =>
      if isNil d then Ok (borrowDV (fst p) (snd p) VNil)
      else bind (CloneValue (fst p) d) (fun q => Ok (borrowDV (fst q) (snd p) (snd q))))
  end.

(** ZeroValue (values_utils.go:135-166): in place; the argument is returned. A dual value is
    no ZeroValuer. *)
Definition ZeroValue (s : st) (v : value) : res (st * value) :=
  match v with
  | VS k a => Ok (mkSt (writeAt (cells s) a [zer]) (duals s), v)
  | VT k sh a n => Ok (mkSt (writeAt (cells s) a (repeat zer n)) (duals s), v)
  | _ => Panic
  end.

(** Copy (values_utils.go:169-239). tensor.Copy (library) panics if the dtypes differ and
    copies as many entries as both have, reading all before it writes. *)
Definition Copy (s : st) (dest src : value) : res (st * value) :=
  match src, dest with
  | VS k a, VS k' b =>
      if kindEq k k' then Ok (mkSt (writeAt (cells s) b (readAt (cells s) a 1)) (duals s), dest) else Err
  | VT k _ a n, VT k' _ b n' =>
      if kindEq k k' then Ok (mkSt (writeAt (cells s) b (readAt (cells s) a (Nat.min n n'))) (duals s), dest) else Panic
  | _, _ => Err
  end.

(** dualValue.clone0 (dual.go:89-107). *)
Definition clone0 (s : st) (v d : value) : res (st * value) :=
  bind (CloneValue s v) (fun p =>
  bind (CloneValue (fst p) d) (fun q =>
  bind (ZeroValue (fst q) (snd p)) (fun p' =>
  bind (ZeroValue (fst p') (snd q)) (fun q' =>
  Ok (borrowDV (fst q') (snd p') (snd q')))))).
(** constantDV (dual.go:114-130): a failing clone panics. *)
Definition constantDV (s : st) (v : value) : res (st * value) :=
  match CloneValue s v with
  | Ok (s', d) => bind (ZeroValue s' d) (fun p => Ok (borrowDV (fst p) v (snd p)))
  | _ => Panic
  end.
(** variableDV (dual.go:133-151), [one] (values_primitives.go:354-373), tensor.Ones
    (library). *)
Definition variableDV (s : st) (v : value) : res (st * value) :=
  match v with
  | VS k _ => let (s', b) := allocE s [one] in Ok (borrowDV s' v (VS k b))
  | VT k sh _ n => let (s', b) := allocE s (repeat one n) in Ok (borrowDV s' v (VT k sh b n))
  | _ => Panic
  end.
(** dvUnit (dual.go:155-162), dvUnitVar (163-168) and dvUnit0 (171-180). *)
Definition dvUnit (s : st) (v : value) : res (st * value) :=
  match v with VD _ _ _ => Ok (s, v) | _ => constantDV s v end.
(** dvUnitVar (dual.go:163-168). *)
Definition dvUnitVar (s : st) (v : value) : res (st * value) :=
  match v with VD _ _ _ => Ok (s, v) | _ => variableDV s v end.
(** dvUnit0 (dual.go:171-180). *)
Definition dvUnit0 (s : st) (v : value) : res (st * value) :=
  match v with VD _ _ _ => Ok (s, v) | _ => Ok (borrowDV s v VNil) end.

(** dualValue.SetDeriv (dual.go:16-23): a tensor of scalar shape becomes a new scalar
    (anyToScalar, values_primitives.go:295-316). The result is the new derivative; sanity
    (dual.go:72-86) checks nothing. *)
Definition setDeriv (s : st) (d : value) : st * value :=
  match d with
  | VT k [] a n => let (s', b) := allocE s (readAt (cells s) a 1) in (s', VS k b)
  | _ => (s, d)
  end.

(** An operator (op.go:60-100): Do, and UsePreallocDo where it is a UsePreallocDoer. What it
    computes is not modelled: any change of the memory. *)
Record oper := mkOper { doF : st -> list value -> res (st * value);
                        preF : option (st -> value -> list value -> res (st * value)) }.

(** idValue (dual.go:253-259): the values of the inputs, which are dual values. *)
Definition idValue (ins : list value) : list value :=
  map (fun i => match i with VD _ v _ => v | _ => i end) ins.
(** dvBind (dual.go:262-277) with an operator that is no ExternalOp. *)
Definition dvBind (s : st) (o : oper) (ins : list value) : res (st * value) :=
  bind (doF o s (idValue ins)) (fun p => dvUnit (fst p) (snd p)).
(** dvBindVar (dual.go:281-292) with an operator that is no ExternalOp. *)
Definition dvBindVar (s : st) (o : oper) (ins : list value) : res (st * value) :=
  bind (doF o s (idValue ins)) (fun p => dvUnitVar (fst p) (snd p)).

(** dvBind0 (dual.go:297-325) on a dual value with fields [v] and [d]: the new fields. If
    UsePreallocDo fails, Do is tried (302-308); what the failed attempt has written stays
    written ([s'] of [Err] is not modelled: simplified to the state before). A failure of
    SetDeriv is impossible. *)
Definition dvBind0 (s : st) (o : oper) (v d : value) (ins : list value) : res (st * value * value) :=
  let r := match preF o with
           | Some pre => match pre s v (idValue ins) with
                         | Ok p => Ok p
                         | Err => doF o s (idValue ins)
                         | Panic => Panic
                         end
           | None => doF o s (idValue ins)
           end in
  bind r (fun p =>
  bind (ZeroValue (fst p) d) (fun q =>
  let (s2, d2) := setDeriv (fst q) (snd q) in Ok (s2, snd p, d2))).

(** dvBindVar0 (dual.go:327-362): no second attempt; tensors of other dtypes than the two
    float ones keep their derivative (351-356). *)
Definition dvBindVar0 (s : st) (o : oper) (v d : value) (ins : list value) : res (st * value * value) :=
  let r := match preF o with Some pre => pre s v (idValue ins) | None => doF o s (idValue ins) end in
  bind r (fun p =>
  match d with
  | VS k _ => let (s2, b) := allocE (fst p) [one] in Ok (s2, snd p, VS k b)
  | VT k sh a n =>
      if isFloat k then Ok (mkSt (writeAt (cells (fst p)) a (repeat one n)) (duals (fst p)), snd p, d)
      else Ok (fst p, snd p, d)
  | _ => Err
  end).

(** ScalarAsTensor (values.go:193-213): the tensor is a view of the scalar's memory. *)
Fixpoint ScalarAsTensor (s : st) (v : value) (dims : nat) : st * value :=
  match v with
  | VNil => (s, VNil)
  | VS k a => (s, VT k (repeat 1%Z dims) a 1)
  | VT _ _ _ _ => (s, v)
  | VD _ x d =>
      let (s1, x') := ScalarAsTensor s x dims in
      let (s2, d') := ScalarAsTensor s1 d dims in
      borrowDV s2 x' d'
  end.

(** hasNaN (utils.go:196-236) and hasInf (155-194), which differ in the test only, for an
    engine that is no NaNChecker or InfChecker (StandardEngine, engine.go:9-11). *)
Fixpoint hasBad (p : E -> bool) (s : st) (v : value) : res bool :=
  match v with
  | VNil => Panic
  | VS k a => if isFloat k then Ok (existsb p (readAt (cells s) a 1)) else Panic
  | VT k _ a n => if isFloat k then Ok (existsb p (readAt (cells s) a n)) else Ok false
  | VD _ x d => bind (hasBad p s x) (fun b => if b then Ok true else hasBad p s d)
  end.
(** hasNaN (utils.go:196-236). *)
Definition hasNaN := hasBad isNaN.
(** hasInf (utils.go:155-194). *)
Definition hasInf := hasBad isInf.
End Values.
Arguments mkSt {E} cells duals.
Arguments cells {E} s.
Arguments duals {E} s.
Arguments mkOper {E} doF preF.
Arguments doF {E} o.
Arguments preF {E} o.
Arguments st E : clear implicits.
Arguments oper E : clear implicits.
