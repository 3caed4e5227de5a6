(** Model of group normalisation and of its gradient operator (op_group_norm.go), float64
    case, over exact reals.  No proofs in this file.

    runInParallel starts one goroutine per group (or channel); each of them writes only
    the cells of its own group, so they are run one after the other. *)
From Coq Require Import Arith Reals List Bool.
From Verif Require Import LoopModel.
Import ListNotations.
Local Open Scope R_scope.

(** op_group_norm.go:16-19. *)
Definition vecSize : nat := 8.
(** op_group_norm.go:16-19. *)
Definition chunkSize : nat := 16.

(** vecf64.Sub, Add, Mul and Scale (op_group_norm.go:192-206): entry by entry.  All the
    slices they are used on have [vecSize] entries. *)
Fixpoint vzip (f : R -> R -> R) (a b : list R) : list R :=
  match a, b with x :: a', y :: b' => f x y :: vzip f a' b' | _, _ => [] end.
(** vecf64.Sub (op_group_norm.go:192-206). *)
Definition vsub := vzip Rminus.
(** vecf64.Add (op_group_norm.go:192-206). *)
Definition vadd := vzip Rplus.
(** vecf64.Mul (op_group_norm.go:192-206). *)
Definition vmul := vzip Rmult.
(** vecf64.Scale (op_group_norm.go:192-206). *)
Definition vscale (a : list R) (c : R) : list R := map (fun v => v * c) a.
(** make([]float64, vecSize) (op_group_norm.go:168-175). *)
Definition vzero : list R := repeat 0 vecSize.

(** op_group_norm.go:168-175: the three stacks m0stk, m1stk and m2stk.  The vectors on
    them are slices, which callers pass by reference: [M1 i] is m1stk[i], [M2 i] m2stk[i]. *)
Record stk := { m0s : list nat; m1s : list (list R); m2s : list (list R) }.
(** A slice on one of the stacks (op_group_norm.go:168-175). *)
Inductive ref := M1 (i : nat) | M2 (i : nat).
(** Reading through such a slice (op_group_norm.go:168-264). *)
Definition getv (st : stk) (r : ref) : option (list R) :=
  match r with M1 i => aget (m1s st) i | M2 i => aget (m2s st) i end.
(** Writing through such a slice (op_group_norm.go:168-264). *)
Definition setv (st : stk) (r : ref) (v : list R) : option stk :=
  match r with
  | M1 i => match aset (m1s st) i v with Some l => Some {| m0s := m0s st; m1s := l; m2s := m2s st |} | None => None end
  | M2 i => match aset (m2s st) i v with Some l => Some {| m0s := m0s st; m1s := m1s st; m2s := l |} | None => None end
  end.
(** op_group_norm.go:168-175, 214: make, and m0stk[k] = v. *)
Definition stkNew (depth : nat) : stk :=
  {| m0s := repeat 0%nat depth; m1s := repeat vzero depth; m2s := repeat vzero depth |}.
(** m0stk[k] = v (op_group_norm.go:214). *)
Definition setm0 (st : stk) (k v : nat) : option stk :=
  match aset (m0s st) k v with Some l => Some {| m0s := l; m1s := m1s st; m2s := m2s st |} | None => None end.

(** op_group_norm.go:245-249, 259-263: the weight of the added moments. *)
Definition weight (m0 m0add : nat) : R :=
  if (m0 + m0add =? 0)%nat then 0 else INR m0add / INR (m0 + m0add).

(** op_group_norm.go:258-285 [addMomentsVecF64]; [k] is the cell of m0stk, [r1] and [r2]
    the slices m1 and m2 that are updated, the second after the first. *)
Definition addMomentsVec (m0add : nat) (m1add m2add : list R) (k : nat) (r1 r2 : ref) (st : stk) : option stk :=
  match aget (m0s st) k, getv st r1 with
  | Some m0, Some v1 =>
      let c := weight m0 m0add in
      let delta := vsub m1add v1 in
      match setv st r1 (vadd v1 (vscale delta c)) with
      | None => None
      | Some st1 =>
          match getv st1 r2 with
          | None => None
          | Some v2 =>
              let tmp := vadd (vscale (vscale (vmul delta delta) c) (INR m0)) m2add in
              match setv st1 r2 (vadd v2 tmp) with
              | Some st2 => setm0 st2 k (m0 + m0add)
              | None => None
              end
          end
      end
  | _, _ => None
  end.

(** op_group_norm.go:244-256 [addMomentsF64]. *)
Definition addMoments (m0add : nat) (m1add m2add : R) (s : nat * R * R) : nat * R * R :=
  let '(m0, m1, m2) := s in
  let c := weight m0 m0add in
  let delta := m1add - m1 in
  ((m0 + m0add)%nat, m1 + c * delta, m2 + (m2add + delta * delta * c * INR m0)).

(** op_group_norm.go:178-207: the moments of chunk [i], lane by lane. *)
Definition chunk (x : list R) (i m0 : nat) : option (list R * list R) :=
  loop m0 (fun j (s : list R * list R) =>
    let base := (i * chunkSize * vecSize + j * vecSize)%nat in
    match aslice x base (base + vecSize) with
    | None => None
    | Some sec =>
        let delta := vsub sec (fst s) in
        let m1 := vadd (fst s) (vscale delta (1 / INR (j + 1))) in
        Some (m1, vadd (snd s) (vmul (vsub sec m1) delta))
    end) (vzero, vzero).

(** op_group_norm.go:212-218: the loop over [j]; [fuel] is depth - j. *)
Fixpoint carry (fuel j mask : nat) (st : stk) : option stk :=
  match fuel with
  | O => Some st
  | S fuel' =>
      if Nat.even mask then
        match aget (m0s st) (j - 1), aget (m1s st) (j - 1), aget (m2s st) (j - 1) with
        | Some a0, Some a1, Some a2 =>
            match addMomentsVec a0 a1 a2 j (M1 j) (M2 j) st with
            | None => None
            | Some st1 =>
                match setm0 st1 (j - 1) 0 with
                | None => None
                | Some st2 =>
                    match setv st2 (M1 (j - 1)) vzero with
                    | None => None
                    | Some st3 =>
                        match setv st3 (M2 (j - 1)) vzero with
                        | None => None
                        | Some st4 => carry fuel' (j + 1) (Nat.div2 mask) st4
                        end
                    end
                end
            end
        | _, _, _ => None
        end
      else Some st
  end.

(** op_group_norm.go:287-293 [ceilLog2F64]; the logarithm of a power of two is exact. *)
Definition ceilLog2 (x : nat) : nat := if (x <=? 2)%nat then 1%nat else Nat.log2_up x.

(** op_group_norm.go:177-219: the chunks of all vectors, pushed on the stacks. *)
Definition pushAll (x : list R) (nn m depth : nat) : option stk :=
  loop m (fun i st =>
    let m0 := Nat.min chunkSize (nn - i * chunkSize) in
    match chunk x i m0 with
    | None => None
    | Some (m1vec, m2vec) =>
        match addMomentsVec m0 m1vec m2vec 0 (M1 0) (M2 0) st with
        | None => None
        | Some st1 => carry (depth - 1) 1 (i + 1) st1
        end
    end) (stkNew depth).

(** op_group_norm.go:221-223: the stacks are merged into their first cell.  The slice
    m1stk[0] is passed for both moments. *)
Definition mergeAll (depth : nat) (st : stk) : option stk :=
  loop (depth - 1) (fun i0 st =>
    let i := (i0 + 1)%nat in
    match aget (m0s st) i, aget (m1s st) i, aget (m2s st) i with
    | Some a0, Some a1, Some a2 => addMomentsVec a0 a1 a2 0 (M1 0) (M1 0) st
    | _, _, _ => None
    end) st.

(** op_group_norm.go:230-235: what is left behind the last full vector. *)
Definition tail (x : list R) (nn n : nat) : option (nat * R * R) :=
  loop (n - nn * vecSize) (fun i0 (s : nat * R * R) =>
    match aget x (nn * vecSize + i0) with
    | None => None
    | Some v =>
        let '(m0, m1, m2) := s in
        let delta := v - m1 in
        let m1' := m1 + delta / INR (m0 + 1) in
        Some ((m0 + 1)%nat, m1', m2 + delta * (v - m1'))
    end) (0%nat, 0, 0).

(** op_group_norm.go:163-242 [rowwiseMomentsF64] with ddof = 0. *)
Definition rowwiseMoments (x : list R) (n : nat) : option (R * R) :=
  let nn := (n / vecSize)%nat in
  let m := ((nn + chunkSize - 1) / chunkSize)%nat in
  let depth := ceilLog2 m in
  match pushAll x nn m depth with
  | None => None
  | Some st =>
      match mergeAll depth st with
      | None => None
      | Some st' =>
          match tail x nn n, aget (m1s st') 0, aget (m2s st') 0 with
          | Some s0, Some l1, Some l2 =>
              match loop vecSize (fun i s =>
                      match aget l1 i, aget l2 i with
                      | Some a1, Some a2 => Some (addMoments nn a1 a2 s)
                      | _, _ => None
                      end) s0 with
              | Some (_, m1, m2) => Some (m1, m2 / INR n)
              | None => None
              end
          | _, _, _ => None
          end
      end
  end.

(** op_group_norm.go:56-62 [GroupNormOp]; mean and rstd have batch*numGroups cells
    (24-32). *)
Record gnOp := { numGroups : nat; epsilon : R; gmeans : list R; rstds : list R }.

(** op_group_norm.go:136-158 [f64s], the body of group [i]. *)
Definition groupBody (op : gnOp) (d imageSize : nat) (x : list R) (i : nat) (st : list R * list R * list R) : option (list R * list R * list R) :=
  let '(y, ms, rs) := st in
  let innerSize := (d * imageSize)%nat in
  match aslice x (i * innerSize) (i * innerSize + innerSize) with
  | None => None
  | Some sec =>
      match rowwiseMoments sec innerSize with
      | None => None
      | Some (mean, var) =>
          let rstd := 1 / sqrt (Rmax var 0 + epsilon op) in
          match loop d (fun j => loop imageSize (fun k y =>
                  let p := ((i * d + j) * imageSize + k)%nat in
                  match aget x p with Some v => aset y p (rstd * v + (- rstd * mean)) | None => None end)) y with
          | None => None
          | Some y' =>
              match aset ms i mean, aset rs i rstd with
              | Some ms', Some rs' => Some (y', ms', rs')
              | _, _ => None
              end
          end
      end
  end.

(** op_group_norm.go:101-161 [UsePreallocDo] and [f64s]. *)
Definition gnPrealloc (op : gnOp) (batch channels imageSize : nat) (prealloc x : list R) : option (gnOp * list R) :=
  let d := (channels / numGroups op)%nat in
  match loop (numGroups op * batch) (groupBody op d imageSize x) (prealloc, gmeans op, rstds op) with
  | Some (y, ms, rs) => Some ({| numGroups := numGroups op; epsilon := epsilon op; gmeans := ms; rstds := rs |}, y)
  | None => None
  end.
(** op_group_norm.go:94-99 [Do]: a fresh tensor is all zeros. *)
Definition gnDo (op : gnOp) (batch channels imageSize : nat) (x : list R) : option (gnOp * list R) :=
  gnPrealloc op batch channels imageSize (repeat 0 (length x)) x.

(** op_group_norm.go:21-42 [GroupNorm]: the operator it makes. *)
Definition gnNew (batch groups : nat) (eps : R) : gnOp :=
  {| numGroups := groups; epsilon := eps; gmeans := repeat 0 (batch * groups); rstds := repeat 0 (batch * groups) |}.

(** op_group_norm.go:638-658 [computeInternalGradientsF64]. *)
Definition internalGradients (batch channels imageSize : nat) (x dy : list R) : option (list R * list R) :=
  loop (batch * channels) (fun i (acc : list R * list R) =>
    match loop imageSize (fun j (s : R * R) =>
            match aget dy (i * imageSize + j), aget x (i * imageSize + j) with
            | Some g, Some v => Some (fst s + g * v, snd s + g)
            | _, _ => None
            end) (0, 0) with
    | Some (ds, db) => Some (fst acc ++ [ds], snd acc ++ [db])
    | None => None
    end) ([], []).

(** op_group_norm.go:605-633 [groupNormDiffOp.f64s], the body of group [i]. *)
Definition diffBody (op : gnOp) (d imageSize : nat) (x dy ds db : list R) (i : nat) (dx : list R) : option (list R) :=
  let s := 1 / INR (d * imageSize) in
  match loop d (fun j (acc : R * R) =>
          match aget ds (i * d + j), aget db (i * d + j) with
          | Some a, Some b => Some (fst acc + a, snd acc + b)
          | _, _ => None
          end) (0, 0), aget (gmeans op) i, aget (rstds op) i with
  | Some (dsum, bsum), Some mean, Some c1 =>
      let c2 := (bsum * mean - dsum) * c1 * c1 * c1 * s in
      let c3 := - c2 * mean - bsum * c1 * s in
      loop d (fun j => loop imageSize (fun k dx =>
        let p := ((i * d + j) * imageSize + k)%nat in
        match aget x p, aget dy p with
        | Some v, Some g => aset dx p (c1 * g + c2 * v + c3)
        | _, _ => None
        end)) dx
  | _, _, _ => None
  end.

(** op_group_norm.go:546-636 [Do] (the buffer is a clone of the input),
    [UsePreallocDo] and [f64s]. *)
Definition gnDiff (op : gnOp) (batch channels imageSize : nat) (x dy : list R) : option (list R) :=
  let d := (channels / numGroups op)%nat in
  match internalGradients batch channels imageSize x dy with
  | Some (ds, db) => loop (batch * numGroups op) (diffBody op d imageSize x dy ds db) x
  | None => None
  end.

(** op_group_norm.go:465-488 [GroupNormOp.DoDiff]: the new derivative of the input, which
    also becomes that of the output.  The operator gets three values and uses the first
    two, the input and the output's value; [yd], the output's derivative, is the third. *)
Definition gnDoDiff (op : gnOp) (batch channels imageSize : nat) (xv yv xd yd : list R) : option (list R) :=
  match gnDiff op batch channels imageSize xv yv with
  | Some r => Some (vadd xd r)
  | None => None
  end.
