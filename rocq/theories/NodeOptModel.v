(** The shape slices behind nodes: WithShape, WithValue, newNode, NewUniqueNode, returnNode
    and NewConstant, with the library's pool of int slices. Shapes are kept by pointer. *)
From Coq Require Import List ZArith Bool Arith String.
From Verif Require Import BroadcastModel.
Import ListNotations.

(** The node construction options that matter (node.go:125-232), applied in order. A shape
    option holds the slice made when WithShape was called; a value option the tensor. *)
Inductive opt := OName (s : string) | OShape (slice : nat) | OValue (tensor : nat).
(** An input node in the graph: its name, the number of axes of its type, its shape slice and
    the shape its hash was computed from (Hashcode is cached, node.go:557-566). One dtype. *)
Record onode := mkOnode { oname : string; odims : nat; oslice : option nat; okey : option (list Z) }.
(** Int slices, the pool of returned slices, for each tensor the slice that is its shape
    (Dense.Shape returns the slice itself; library), and the input nodes of the graph. *)
Record ost := mkOst { slices : list (list Z); ipool : list nat; tshape : list nat; onodes : list onode }.

(** Reading a slice through its pointer (node.go:214, 485). *)
Definition sliceAt (st : ost) (i : nat) : list Z := nth i (slices st) [].
(** Writing the entries of a slice (node.go:212). *)
Fixpoint upd (l : list (list Z)) (i : nat) (x : list Z) : list (list Z) :=
  match l, i with [], _ => [] | _ :: r, O => x :: r | y :: r, S j => y :: upd r j x end.
(** Taking one slice out of the pool (sync.Pool.Get; library, used at node.go:211). *)
Fixpoint dropOne (i : nat) (l : list nat) : list nat :=
  match l with [] => [] | j :: r => if Nat.eqb i j then r else j :: dropOne i r end.

Section Pool.
(** Which pooled slice of a size sync.Pool hands out, if any (not determined). *)
Variable pick : nat -> list nat -> option nat.

(** tensor.BorrowInts (library) followed by [copy(s, shp)] (node.go:211-212): slices of
    eight and more are not pooled. *)
Definition borrowInts (st : ost) (shp : list Z) : ost * nat :=
  let fresh := (mkOst (slices st ++ [shp]) (ipool st) (tshape st) (onodes st), List.length (slices st)) in
  if 8 <=? List.length shp then fresh
  else match pick (List.length shp) (filter (fun i => Nat.eqb (List.length (sliceAt st i)) (List.length shp)) (ipool st)) with
       | Some i => if existsb (Nat.eqb i) (filter (fun i => Nat.eqb (List.length (sliceAt st i)) (List.length shp)) (ipool st))
                   then (mkOst (upd (slices st) i shp) (dropOne i (ipool st)) (tshape st) (onodes st), i) else fresh
       | None => fresh
       end.
(** tensor.ReturnInts (library): zeroed and put in the pool. *)
Definition returnInts (st : ost) (s : option nat) : ost :=
  match s with
  | None => st
  | Some i => if 8 <=? List.length (sliceAt st i) then st
              else mkOst (upd (slices st) i (map (fun _ => 0%Z) (sliceAt st i))) (ipool st ++ [i]) (tshape st) (onodes st)
  end.
(** WithShape called (node.go:210-212): the slice is made once, whatever nodes the option is
    applied to later. *)
Definition withShapeOpt (st : ost) (shp : list Z) : ost * opt := let (st', i) := borrowInts st shp in (st', OShape i).

(** Shape.IsColVec, IsRowVec (library). *)
Definition isVec (s : list Z) : bool :=
  match s with [x; y] => ((y =? 1) && (1 <? x) || (x =? 1) && (1 <? y))%Z | _ => false end.
(** scalarEquiv (utils.go:303-313). *)
Definition prodOne (s : list Z) : bool := (fold_right Z.mul 1 s =? 1)%Z.
(** An option applied to a node of a given type (node.go:125-130, 143-162, 213-229). The
    value option compares types (number of axes; the dtype is one); a scalar node given a
    tensor is left out (BindModel.v). Binding the value is left out. *)
Definition applyOpt (st : ost) (n : onode) (o : opt) : res onode :=
  match o with
  | OName s => Ok (mkOnode s (odims n) (oslice n) (okey n))
  | OShape i =>
      let s := sliceAt st i in
      let nd := match oslice n with Some j => List.length (sliceAt st j) | None => odims n end in
      if (isVec s && Nat.eqb nd 1) || Nat.eqb nd (List.length s) || (Nat.eqb nd 0 && prodOne s)
      then Ok (mkOnode (oname n) (odims n) (Some i) (okey n)) else Panic
  | OValue t =>
      match nth_error (tshape st) t with
      | None => Panic
      | Some i => if Nat.eqb (odims n) (List.length (sliceAt st i))
                  then Ok (match oslice n with Some _ => n | None => mkOnode (oname n) (odims n) (Some i) (okey n) end)
                  else Panic
      end
  end.
(** The loop over the options (node.go:278-280). *)
Fixpoint applyOpts (st : ost) (n : onode) (os : list opt) : res onode :=
  match os with [] => Ok n | o :: os' => match applyOpt st n o with Ok n' => applyOpts st n' os' | e => e end end.

(** Shapes printed alike (node.go:534); no shape is printed like the empty one. *)
Definition sameKey (a b : option (list Z)) : bool :=
  match a, b with
  | None, None => true
  | Some s, Some t => if list_eq_dec Z.eq_dec s t then true else false
  | None, Some [] | Some [], None => true
  | _, _ => false
  end.
(** The input node found by AddNode (graph.go:136-181): the same type, printed shape and
    name. Hash collisions are left out (GraphModel.v). *)
Fixpoint findNode (l : list onode) (k : nat) (n : onode) : option nat :=
  match l with
  | [] => None
  | m :: r => if String.eqb (oname m) (oname n) && Nat.eqb (odims m) (odims n) && sameKey (okey m) (okey n) then Some k else findNode r (S k) n
  end.
(** newNode and NewUniqueNode (node.go:271-301) of NewTensor with [dims] axes
    (gorgonia.go:73-84), not scalar: an equal node is returned instead and the new one handed
    back with its shape slice (returnNode, perf.go:16-46; the duplicate has id -1, so nothing
    is removed from the graph). *)
Definition newTensor (st : ost) (dims : nat) (os : list opt) : res (ost * nat) :=
  match applyOpts st (mkOnode "" dims None None) os with
  | Ok n0 =>
      let n := mkOnode (oname n0) (odims n0) (oslice n0) (option_map (sliceAt st) (oslice n0)) in
      match findNode (onodes st) 0 n with
      | Some k => Ok (returnInts st (oslice n), k)
      | None => Ok (mkOst (slices st) (ipool st) (tshape st) (onodes st ++ [n]), List.length (onodes st))
      end
  | Err => Err
  | Panic => Panic
  end.
(** An option applied to the dummy node of NewConstant (gorgonia.go:110-114), of which only
    the shape slice matters; its type is nil at first (node.go:214-217). *)
Definition dummyOpt (st : ost) (cur : option nat) (o : opt) : res (option nat) :=
  match o with
  | OName _ => Ok cur
  | OShape i => match cur with
                | None => Ok (Some i)
                | Some j => if (isVec (sliceAt st i) && Nat.eqb (List.length (sliceAt st j)) 1) || Nat.eqb (List.length (sliceAt st j)) (List.length (sliceAt st i))
                               || (Nat.eqb (List.length (sliceAt st j)) 0 && prodOne (sliceAt st i))
                            then Ok (Some i) else Panic
                end
  | OValue t => match cur with Some _ => Ok cur | None => Ok (nth_error (tshape st) t) end
  end.
(** The loop over them (gorgonia.go:113-115). *)
Fixpoint dummyOpts (st : ost) (cur : option nat) (os : list opt) : res (option nat) :=
  match os with [] => Ok cur | o :: os' => match dummyOpt st cur o with Ok c => dummyOpts st c os' | e => e end end.
(** NewConstant (gorgonia.go:87-126) of a tensor with further options: they are applied to a
    dummy node first, which is handed back with its shape slice, and then to the constant.
    Returned is the constant's shape slice. *)
Definition newConstant (st : ost) (t : nat) (os : list opt) : res (ost * option nat) :=
  match nth_error (tshape st) t with
  | None => Panic
  | Some ts =>
      let (st1, own) := borrowInts st (sliceAt st ts) in
      match dummyOpts st1 None os with
      | Ok d =>
          let st2 := returnInts st1 d in
          match applyOpts st2 (mkOnode "" (List.length (sliceAt st ts)) None None) (OShape own :: OValue t :: os) with
          | Ok n => Ok (st2, oslice n)
          | Err => Err
          | Panic => Panic
          end
      | Err => Err
      | Panic => Panic
      end
  end.
(** Node.Shape of the k-th node (node.go:485). *)
Definition shapeOf (st : ost) (k : nat) : option (list Z) :=
  match nth_error (onodes st) k with Some n => Some (match oslice n with Some i => sliceAt st i | None => [] end) | None => None end.
(** Shape of a tensor (library). *)
Definition tensorShape (st : ost) (t : nat) : option (list Z) := option_map (sliceAt st) (nth_error (tshape st) t).
End Pool.
