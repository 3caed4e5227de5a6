(** The bitmap (bitmap.go) and NodeSet (node_set.go). Proof-free. *)
From Coq Require Import List ZArith Bool.
From Verif Require Import BroadcastModel.
Import ListNotations.
Local Open Scope Z_scope.

(** ** bitmap (bitmap.go:10-13) *)
(** [n] is []uint64, each word a number below 2^64. (bitmap.go:10-13.) *)
Record bitmap : Type := Bm { words : list Z; bmax : Z }.
(** bitmapBits (bitmap.go:5-7). *)
Definition bitmapBits : Z := 64.
(** uint64 arithmetic wraps (bitmap.go:36,54). *)
Definition u64 (x : Z) : Z := x mod 2 ^ 64.
(** newBitmap (bitmap.go:16-27); make panics for a negative length. *)
Definition newBitmap (size : Z) : res bitmap :=
  let q := Z.quot size bitmapBits in
  let q' := if 0 <? Z.rem size bitmapBits then q + 1 else q in
  if q' <? 0 then Panic else Ok (Bm (repeat 0 (Z.to_nat q')) size).
(** [bm.n[block] = f (bm.n[block])], with the bounds check of Go. (bitmap.go:30-56.) *)
Definition onWord (bm : bitmap) (i : Z) (f : Z -> Z -> Z) : res bitmap :=
  let block := Z.quot i bitmapBits in
  match nth_error (words bm) (Z.to_nat block) with
  | Some w => Ok (Bm (setZ (words bm) (Z.to_nat block) (f w (Z.rem i bitmapBits))) (bmax bm))
  | None => Panic
  end.
(** Set (bitmap.go:30-37). *)
Definition bmSet (bm : bitmap) (i : Z) : res bitmap :=
  if (bmax bm <=? i) || (i <? 0) then Panic
  else onWord bm i (fun w pos => Z.lor w (u64 (Z.shiftl 1 pos))).
(** IsSet (bitmap.go:40-47). *)
Definition bmIsSet (bm : bitmap) (i : Z) : res bool :=
  if (bmax bm <=? i) || (i <? 0) then Panic
  else match nth_error (words bm) (Z.to_nat (Z.quot i bitmapBits)) with
       | Some w => Ok (Z.land (Z.shiftr w (Z.rem i bitmapBits)) 1 =? 1)
       | None => Panic
       end.
(** Clear (bitmap.go:50-57); [^] on uint64 flips all 64 bits. *)
Definition bmClear (bm : bitmap) (i : Z) : res bitmap :=
  if (bmax bm <=? i) || (i <? 0) then Panic
  else onWord bm i (fun w pos => Z.land w (Z.lxor (u64 (Z.shiftl 1 pos)) (2 ^ 64 - 1))).
(** bits.OnesCount64 and bits.LeadingZeros64 (Go library, assumed), used at
    bitmap.go:63,65. *)
Definition bitsOf (w : Z) : list bool := map (fun j => Z.testbit w (Z.of_nat j)) (seq 0 64).
(** bits.OnesCount64 (Go library), used at bitmap.go:63. *)
Definition onesCount (w : Z) : Z := Z.of_nat (length (filter (fun b => b) (bitsOf w))).
(** The bits of a word from the highest, until one is set; part of [leadingZeros].
    (bitmap.go:65.) *)
Fixpoint leadingFalse (l : list bool) : Z := match l with false :: l' => 1 + leadingFalse l' | _ => 0 end.
(** bits.LeadingZeros64 (Go library), used at bitmap.go:65. *)
Definition leadingZeros (w : Z) : Z := leadingFalse (rev (bitsOf w)).
(** The loop over the bits of a word (bitmap.go:69-79). *)
Fixpoint runLoop (bs : list bool) (consecutive atleast : Z) : bool :=
  match bs with
  | [] => false
  | b :: bs' => let c := if b then 0 else consecutive + 1 in if atleast <? c then true else runLoop bs' c atleast
  end.
(** One word: does BlocksWithZero return here? (bitmap.go:63-80) *)
Definition wordFits (w atleast : Z) : bool :=
  if onesCount w =? bitmapBits then false
  else if atleast <? leadingZeros w then true else runLoop (bitsOf w) 0 atleast.
(** BlocksWithZero (bitmap.go:60-84). *)
Fixpoint blocksLoop (ws : list Z) (i atleast : Z) : Z :=
  match ws with [] => -1 | w :: ws' => if wordFits w atleast then i else blocksLoop ws' (i + 1) atleast end.
(** bitmap.go:60-84 [BlocksWithZero]. *)
Definition blocksWithZero (bm : bitmap) (atleast : Z) : Z := blocksLoop (words bm) 0 atleast.

(** A sequence of calls of Set and Clear. (bitmap.go:30-56.) *)
Inductive bmOp : Type := OpSet (i : Z) | OpClear (i : Z).
(** One call (bitmap.go:30-56). *)
Definition bmApply (bm : bitmap) (o : bmOp) : res bitmap := match o with OpSet i => bmSet bm i | OpClear i => bmClear bm i end.
(** Calls one after the other (bitmap.go:30-56). *)
Fixpoint bmRun (bm : bitmap) (ops : list bmOp) : res bitmap :=
  match ops with [] => Ok bm | o :: ops' => match bmApply bm o with Ok bm' => bmRun bm' ops' | Err => Err | Panic => Panic end end.

(** ** NodeSet (node_set.go:11-12) *)
(** Maps live in a heap, so that sharing can be seen; nodes are numbers (pointers). The
    keys of a map are kept in a list; a [range] loop visits them in the order given by
    [order], which may depend on the place in the program (first argument).
    (node_set.go:11-12.) *)
Record sheap : Type := SH { maps : nat -> list nat; snext : nat }.
(** Is there a key in the map (node_set.go:40-43)? *)
Definition memb (x : nat) (l : list nat) : bool := existsb (Nat.eqb x) l.
(** Change of the keys of one map (node_set.go:33-37). *)
Definition upd (h : sheap) (r : nat) (l : list nat) : sheap := SH (fun q => if Nat.eqb q r then l else maps h q) (snext h).
(** Add (node_set.go:33-37): returns whether the item is new. *)
Definition setAdd (r x : nat) (h : sheap) : bool * sheap :=
  let found := memb x (maps h r) in
  (negb found, if found then h else upd h r (x :: maps h r)).
(** make(NodeSet) (node_set.go:16,123): a fresh empty map. *)
Definition setMake (h : sheap) : nat * sheap := (snext h, SH (fun q => if Nat.eqb q (snext h) then [] else maps h q) (S (snext h))).
(** for _, i := range a { s.Add(i) } (node_set.go:17-19 and the loops below). *)
Fixpoint addAll (r : nat) (xs : list nat) (h : sheap) : sheap := match xs with [] => h | x :: xs' => addAll r xs' (snd (setAdd r x h)) end.
(** NewNodeSet (node_set.go:15-21). *)
Definition newNodeSet (xs : list nat) (h : sheap) : nat * sheap := let (r, h1) := setMake h in (r, addAll r xs h1).
(** Contains (node_set.go:40-43), ContainsAll (46-53), Cardinality (132-134). *)
Definition setContains (r x : nat) (h : sheap) : bool := memb x (maps h r).
(** ContainsAll (node_set.go:46-53). *)
Definition setContainsAll (r : nat) (xs : list nat) (h : sheap) : bool := forallb (fun x => setContains r x h) xs.
(** Cardinality (node_set.go:132-134). *)
Definition setCard (r : nat) (h : sheap) : nat := length (maps h r).
(** Remove (node_set.go:127-129). *)
Definition setRemove (r x : nat) (h : sheap) : sheap := upd h r (filter (fun y => negb (Nat.eqb y x)) (maps h r)).
(** Clear (node_set.go:122-124): the variable [set] is given a new map; the result is the
    new reference. *)
Definition setClear (h : sheap) : nat * sheap := setMake h.
Section Order.
Variable order : nat -> list nat -> list nat.
(** ToSlice (node_set.go:24-30). *)
Definition setToSlice (r : nat) (h : sheap) : list nat := order 1 (maps h r).
(** IsSubset (node_set.go:56-63), IsSuperset (66-68). *)
Definition setIsSubset (r other : nat) (h : sheap) : bool := forallb (fun x => setContains other x h) (order 2 (maps h r)).
(** IsSuperset (node_set.go:66-68). *)
Definition setIsSuperset (r other : nat) (h : sheap) : bool := setIsSubset other r h.
(** Union (node_set.go:71-81). *)
Definition setUnion (r other : nat) (h : sheap) : nat * sheap :=
  let (u, h1) := newNodeSet [] h in
  let h2 := addAll u (order 3 (maps h1 r)) h1 in
  (u, addAll u (order 4 (maps h2 other)) h2).
(** if other.Contains(elem) { intersection.Add(elem) } (node_set.go:88-92,95-98). *)
Fixpoint addIf (u other : nat) (want : bool) (xs : list nat) (h : sheap) : sheap :=
  match xs with [] => h | x :: xs' => addIf u other want xs' (if Bool.eqb (setContains other x h) want then snd (setAdd u x h) else h) end.
(** Intersect (node_set.go:84-101). *)
Definition setIntersect (r other : nat) (h : sheap) : nat * sheap :=
  let (u, h1) := newNodeSet [] h in
  if Nat.ltb (setCard r h1) (setCard other h1) then (u, addIf u other true (order 5 (maps h1 r)) h1)
  else (u, addIf u r true (order 6 (maps h1 other)) h1).
(** Difference (node_set.go:104-112). *)
Definition setDifference (r other : nat) (h : sheap) : nat * sheap :=
  let (u, h1) := newNodeSet [] h in (u, addIf u other false (order 7 (maps h1 r)) h1).
(** SymmetricDifference (node_set.go:115-119). *)
Definition setSymmetricDifference (r other : nat) (h : sheap) : nat * sheap :=
  let (a, h1) := setDifference r other h in
  let (b, h2) := setDifference other r h1 in
  setUnion a b h2.
(** Equal (node_set.go:152-162). *)
Definition setEqual (r other : nat) (h : sheap) : bool :=
  if Nat.eqb (setCard r h) (setCard other h) then forallb (fun x => setContains other x h) (order 8 (maps h r)) else false.
(** Clone (node_set.go:166-172). *)
Definition setClone (r : nat) (h : sheap) : nat * sheap :=
  let (u, h1) := newNodeSet [] h in (u, addAll u (order 9 (maps h1 r)) h1).

(** Programs over sets: variables hold references; every call that returns a set puts it
    in a new variable, Clear rebinds its variable. (The methods of node_set.go:15-180.) *)
Inductive sop : Type :=
| SNew (xs : list nat) | SAdd (k x : nat) | SRemove (k x : nat) | SUnion (k j : nat) | SIntersect (k j : nat)
| SDifference (k j : nat) | SSymmetric (k j : nat) | SClone (k : nat) | SClear (k : nat).
(** Rebinding a variable of the program (node_set.go:122-124 returns a new set). *)
Fixpoint setNat (l : list nat) (i v : nat) : list nat := match l, i with [], _ => [] | _ :: l', O => v :: l' | x :: l', S i' => x :: setNat l' i' v end.
(** The new variable for the set a call of node_set.go returns. *)
Definition bindVar (vs : list nat) (p : nat * sheap) : list nat * sheap := (vs ++ [fst p], snd p).
(** One call of a method of node_set.go. *)
Definition sstep (st : list nat * sheap) (o : sop) : list nat * sheap :=
  let (vs, h) := st in
  let v k := nth k vs 0%nat in
  match o with
  | SNew xs => bindVar vs (newNodeSet xs h)
  | SAdd k x => (vs, snd (setAdd (v k) x h))
  | SRemove k x => (vs, setRemove (v k) x h)
  | SUnion k j => bindVar vs (setUnion (v k) (v j) h)
  | SIntersect k j => bindVar vs (setIntersect (v k) (v j) h)
  | SDifference k j => bindVar vs (setDifference (v k) (v j) h)
  | SSymmetric k j => bindVar vs (setSymmetricDifference (v k) (v j) h)
  | SClone k => bindVar vs (setClone (v k) h)
  | SClear k => let (r, h') := setClear h in (setNat vs k r, h')
  end.
(** A program of such calls (node_set.go), from no sets. *)
Definition srun (ops : list sop) : list nat * sheap := fold_left sstep ops ([], SH (fun _ => []) 0).
End Order.
