(** Model of the GPU memory pool (cuda/bfc.go): memory blocks in a doubly linked free
    list, allocation, release and coalescing.  No proofs in this file.

    Simplified: int64 and uintptr are unbounded integers; log calls are left out.
    [None] stands for a panic (nil dereference or an explicit one) and, for the loops,
    for not ending: a loop gets as many turns as there are blocks and one more. *)
From Coq Require Import Arith ZArith List Bool.
Import ListNotations.
Open Scope Z_scope.

(** bfc.go:20-25 [memblock]; pointers to blocks are numbers. *)
Record memblock := MB { address : Z; size : Z; next : option nat; prev : option nat }.
(** bfc.go:34 [cap]. *)
Definition cap (b : memblock) : Z := address b + size b.
(** b.next = n (bfc.go:20-25). *)
Definition setNext (n : option nat) (b : memblock) := MB (address b) (size b) n (prev b).
(** b.prev = n (bfc.go:20-25). *)
Definition setPrev (n : option nat) (b : memblock) := MB (address b) (size b) (next b) n.
(** b.size = z (bfc.go:20-25). *)
Definition setSize (z : Z) (b : memblock) := MB (address b) z (next b) (prev b).
(** b.address = z (bfc.go:20-25). *)
Definition setAddr (z : Z) (b : memblock) := MB z (size b) (next b) (prev b).

(** bfc.go:37-59 [overlaps]; [same] is the pointer comparison. *)
Definition overlaps (same : bool) (a b : memblock) : bool :=
  if same then true else if address a =? address b then true
  else if address a <? address b then address b <? cap a
  else address a <? cap b.

(** bfc.go:95-98 [freelist] with the memory the pointers point into; bfc.go:298-311
    [bfc].  [used] is the map, at most one entry per key (see [usedSet]). *)
Record bfc := BFC {
  mem : nat -> option memblock; fresh : nat;
  first : option nat; last : option nat; len : Z;
  start : Z; total : Z; blockSize : Z; reserved : Z;
  used : list (Z * Z);
  allocated : Z; allocs : Z; frees : Z }.

(** Change of the memory the pointers of bfc.go:95-98 point into. *)
Definition withMem (s : bfc) m := BFC m (fresh s) (first s) (last s) (len s) (start s) (total s) (blockSize s) (reserved s) (used s) (allocated s) (allocs s) (frees s).
(** l.first = f (bfc.go:95-98). *)
Definition withFirst (s : bfc) f := BFC (mem s) (fresh s) f (last s) (len s) (start s) (total s) (blockSize s) (reserved s) (used s) (allocated s) (allocs s) (frees s).
(** l.last = l (bfc.go:95-98). *)
Definition withLast (s : bfc) l := BFC (mem s) (fresh s) (first s) l (len s) (start s) (total s) (blockSize s) (reserved s) (used s) (allocated s) (allocs s) (frees s).
(** l.l = n (bfc.go:95-98). *)
Definition withLen (s : bfc) n := BFC (mem s) (fresh s) (first s) (last s) n (start s) (total s) (blockSize s) (reserved s) (used s) (allocated s) (allocs s) (frees s).

(** Sequencing; [None] is a nil dereference in bfc.go, which panics. *)
Definition bind {A B} (x : option A) (f : A -> option B) : option B :=
  match x with Some a => f a | None => None end.
Notation "'do' x <- e ; k" := (bind e (fun x => k)) (at level 60, x name, right associativity).

(** Dereferencing; a nil or dangling pointer panics. (Throughout bfc.go, e.g. 166-222.) *)
Definition deref (s : bfc) (p : nat) : option memblock := mem s p.
(** Dereferencing a pointer that may be nil (bfc.go, e.g. 433-452). *)
Definition derefO (s : bfc) (p : option nat) : option memblock := do p' <- p; mem s p'.
(** Assignment through a pointer. (Throughout bfc.go, e.g. 166-222.) *)
Definition update (s : bfc) (p : nat) (f : memblock -> memblock) : option bfc :=
  do b <- mem s p; Some (withMem s (fun q => if Nat.eqb q p then Some (f b) else mem s q)).
(** Assignment through a pointer that may be nil (bfc.go, e.g. 166-222). *)
Definition updateO (s : bfc) (p : option nat) (f : memblock -> memblock) : option bfc :=
  do p' <- p; update s p' f.
(** bfc.go:27-32 [newMemblock]. *)
Definition newMemblock (s : bfc) (a z : Z) : bfc * nat :=
  (BFC (fun q => if Nat.eqb q (fresh s) then Some (MB a z None None) else mem s q) (S (fresh s))
     (first s) (last s) (len s) (start s) (total s) (blockSize s) (reserved s) (used s) (allocated s) (allocs s) (frees s), fresh s).

(** Comparison of a pointer with a block's address (bfc.go, e.g. 240-270). *)
Definition eqO (p : option nat) (q : nat) : bool := match p with Some p' => Nat.eqb p' q | None => false end.

(** bfc.go:166-222, the loop of [insert]. *)
Fixpoint insertLoop (fuel : nat) (s : bfc) (b : option nat) (block : nat) : option bfc :=
  match fuel, b with
  | O, _ => None
  | _, None => None                                            (* 222 *)
  | S f, Some pb =>
      do mb <- deref s pb;
      do mk <- deref s block;
      let ov := overlaps (Nat.eqb pb block) mb mk in
      if (address mb <? address mk) && ov then                 (* 170 *)
        if cap mk <=? cap mb then Some s
        else update s pb (setSize (size mb + (cap mb - cap mk)))
      else if (address mb <? address mk) && negb ov then       (* 182 *)
        do mn <- derefO s (next mb);
        if cap mk <=? address mn then
          do s <- update s pb (setNext (Some block));
          do s <- update s block (setNext (next mb));
          do s <- update s block (setPrev (Some pb));
          do s <- updateO s (next mb) (setPrev (Some block));
          Some (withLen s (len s + 1))
        else insertLoop f s (next mb) block
      else if address mb =? address mk then                    (* 198 *)
        if size mk <? size mb then Some s else update s pb (setSize (size mk))
      else if (address mk <? address mb) && ov then            (* 204 *)
        if cap mb <=? cap mk then
          do s <- update s pb (setAddr (address mk)); update s pb (setSize (size mk))
        else
          do s <- update s pb (setAddr (address mk)); update s pb (setSize (size mk + (cap mb - cap mk)))
      else None                                                (* 215-222 *)
  end.

(** bfc.go:113-223 [insert]. *)
Definition insert (s : bfc) (block : nat) : option bfc :=
  match first s with
  | None => Some (withLen (withLast (withFirst s (Some block)) (Some block)) (len s + 1))
  | Some pf =>
      do mk <- deref s block;
      do ml <- derefO s (last s);
      do mf <- deref s pf;
      if address ml <=? address mk then                        (* 122 *)
        if overlaps (eqO (last s) block) mk ml then
          if cap mk <? cap ml then Some s
          else updateO s (last s) (setSize (size ml + (cap mk - cap ml)))
        else
          do s1 <- updateO s (last s) (setNext (Some block));
          do s2 <- update s1 block (setPrev (last s));
          do s3 <- update s2 block (setNext None);
          Some (withLen (withLast s3 (Some block)) (len s + 1))
      else if address mk <? address mf then                    (* 145 *)
        if overlaps (Nat.eqb block pf) mk mf then
          if cap mf <? cap mk then Some s
          else update s pf (setSize (size mf + (cap mk - cap mf)))
        else
          do s1 <- update s pf (setPrev (Some block));
          do s2 <- update s1 block (setNext (Some pf));
          Some (withLen (withFirst s2 (Some block)) (len s + 1))
      else insertLoop (S (fresh s)) s (Some pf) block
  end.

(** bfc.go:225-243 [remove]. *)
Definition remove (s : bfc) (block : nat) : option bfc :=
  do m <- deref s block;
  do s1 <- (if eqO (first s) block then Some (withFirst s (next m))
            else updateO s (prev m) (setNext (next m)));
  do m1 <- deref s1 block;
  do s2 <- (if eqO (last s1) block then Some (withLast s1 (prev m1))
            else updateO s1 (next m1) (setPrev (prev m1)));
  do s3 <- update s2 block (setNext None);
  do s4 <- update s3 block (setPrev None);
  Some (withLen s4 (len s4 - 1)).

(** bfc.go:61-71 [split]. *)
Definition split (s : bfc) (a : nat) (z : Z) : option (bfc * nat) :=
  do m <- deref s a;
  if size m <=? z then None
  else do s1 <- update s a (setSize z); Some (newMemblock s1 (address m + z) (size m - z)).

(** bfc.go:247-250, 251-254: one of the two conditional splits of [splitOrRemove]. *)
Definition splitIf (s : bfc) (block : nat) (z : Z) : option bfc :=
  do m <- deref s block;
  if z <? size m then do r <- split s block z; insert (fst r) (snd r) else Some s.
(** bfc.go:246-256 [splitOrRemove]. *)
Definition splitOrRemove (s : bfc) (block : nat) (aligned z : Z) : option bfc :=
  do s1 <- splitIf s block aligned;
  do s2 <- splitIf s1 block z;
  remove s2 block.

(** bfc.go:413-420 [bestFit]; the outer option is for not ending. *)
Fixpoint bestFitLoop (fuel : nat) (s : bfc) (block : option nat) (z : Z) : option (option nat) :=
  match fuel, block with
  | O, _ => None
  | _, None => Some None
  | S f, Some p =>
      do m <- deref s p;
      if z <=? size m then Some (Some p) else bestFitLoop f s (next m) z
  end.
(** bfc.go:413-420. *)
Definition bestFit (s : bfc) (z : Z) : option (option nat) := bestFitLoop (S (fresh s)) s (first s) z.

(** bfc.go:433-452, the inner loop of [coalesce]. *)
Fixpoint coalesceInner (fuel : nat) (s : bfc) (block : nat) : option bfc :=
  match fuel with
  | O => None
  | S f =>
      do mb <- deref s block;
      match next mb with
      | None => Some s
      | Some pn =>
          do mn <- deref s pn;
          if cap mb =? address mn then
            do s <- update s block (setSize (size mb + size mn));
            do s <- update s block (setNext (next mn));
            do s <- update s pn (setNext None);
            do s <- update s pn (setPrev None);
            coalesceInner f (withLen (if eqO (last s) pn then withLast s (Some block) else s) (len s - 1)) block
          else if overlaps (Nat.eqb block pn) mb mn then None
          else Some s
      end
  end.
(** bfc.go:425-454 [coalesce]. *)
Fixpoint coalesceLoop (fuel : nat) (s : bfc) (block : option nat) : option bfc :=
  match fuel, block with
  | O, _ => None
  | _, None => Some s
  | S f, Some p =>
      do m <- deref s p;
      do s <- (if negb (address m mod blockSize s =? 0) then Some s
               else coalesceInner (S (fresh s)) s p);
      do m <- deref s p;
      coalesceLoop f s (next m)
  end.
(** bfc.go:425-454. *)
Definition coalesce (s : bfc) : option bfc := coalesceLoop (S (fresh s)) s (first s).

(** bfc.go:456-463 [align]. *)
Definition align (s : bfc) (z : Z) : Z :=
  let blocks := Z.rem z (blockSize s) in
  if blocks =? 0 then z else z - blocks + blockSize s.

(** The map [used]: lookup, store, delete. (bfc.go:394.) *)
Fixpoint usedGet (u : list (Z * Z)) (a : Z) : option Z :=
  match u with [] => None | (k, v) :: r => if k =? a then Some v else usedGet r a end.
(** delete(b.used, addr) (bfc.go:404). *)
Definition usedDel (u : list (Z * Z)) (a : Z) : list (Z * Z) := filter (fun e => negb (fst e =? a)) u.
(** b.used[addr] = size (bfc.go:376). *)
Definition usedSet (u : list (Z * Z)) (a z : Z) : list (Z * Z) := (a, z) :: usedDel u a.

(** bfc.go:318-324 [makeBFC], then 333-340 [reserve]. *)
Definition makeBFC (alignment : Z) : bfc :=
  BFC (fun _ => None) 0 None None 0 0 0 alignment 0 [] 0 0 0.
(** bfc.go:333-340 [reserve]. *)
Definition reserve (s : bfc) (st z : Z) : option bfc :=
  let s1 := BFC (mem s) (fresh s) (first s) (last s) (len s) st (z - Z.rem z (blockSize s)) (blockSize s) z (used s) (allocated s) (allocs s) (frees s) in
  let (s2, p) := newMemblock s1 0 z in insert s2 p.

(** bfc.go:351-382 [alloc]. *)
Inductive answer := Address (a : Z) | BadSize | OutOfMemory | Freed.
(** Lines 375-381. (bfc.go:375-381.) *)
Definition take (s : bfc) (block : nat) (aligned z : Z) : option (bfc * answer) :=
  do s1 <- splitOrRemove s block aligned z;
  do m <- deref s1 block;
  Some (BFC (mem s1) (fresh s1) (first s1) (last s1) (len s1) (start s1) (total s1) (blockSize s1) (reserved s1)
          (usedSet (used s1) (address m) z) (allocated s1 + z) (allocs s1 + 1) (frees s1),
        Address (address m + start s1)).
(** bfc.go:351-382 [alloc]. *)
Definition alloc (s : bfc) (z : Z) : option (bfc * answer) :=
  if z <=? 0 then Some (s, BadSize)
  else
    do fit <- bestFit s (align s z);
    match fit with
    | Some block => take s block (align s z) z
    | None =>
        do s1 <- coalesce s;
        do fit <- bestFit s1 (align s z);
        match fit with
        | Some block => take s1 block (align s z) z
        | None => Some (s1, OutOfMemory)
        end
    end.

(** bfc.go:384-407, [free] up to the counters. *)
Definition giveBack (s : bfc) (a z : Z) : option bfc :=
  let (s1, p) := newMemblock s a z in
  do s2 <- insert s1 p;
  Some (BFC (mem s2) (fresh s2) (first s2) (last s2) (len s2) (start s2) (total s2) (blockSize s2) (reserved s2)
          (usedDel (used s2) a) (allocated s2 - z) (allocs s2) (frees s2 + 1)).
(** bfc.go:408: float64(frees)/float64(allocs) >= 0.75 (also when allocs is 0: the
    quotient is infinite), exact below 2^53 calls. *)
Definition thresh (s : bfc) : bool := 3 * allocs s <=? 4 * frees s.
(** bfc.go:384-411 [free]. *)
Definition free (s : bfc) (addr : Z) : option (bfc * answer) :=
  let a := addr - start s in
  match usedGet (used s) a with
  | None => Some (s, Freed)
  | Some z =>
      do s1 <- giveBack s a z;
      if thresh s1 then do s2 <- coalesce s1; Some (s2, Freed) else Some (s1, Freed)
  end.

(** A history of calls. (bfc.go:351 [alloc], 384 [free].) *)
Inductive call := Alloc (z : Z) | Free (a : Z).
(** One call of alloc or free (bfc.go:351-410). *)
Definition step (s : bfc) (c : call) : option (bfc * answer) :=
  match c with Alloc z => alloc s z | Free a => free s a end.
(** Calls one after the other (bfc.go:351-410). *)
Fixpoint run (s : bfc) (cs : list call) : option (bfc * list answer) :=
  match cs with
  | [] => Some (s, [])
  | c :: r => do x <- step s c; do y <- run (fst x) r; Some (fst y, snd x :: snd y)
  end.
