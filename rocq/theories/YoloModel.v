(** Model of the YOLOv3 operator (op_yolo.go): decoding of boxes and the training output.
    Proof-free. Numbers are exact rationals instead of float32 (no rounding, infinities or
    NaN); the sigmoid, the exponential and the logarithm are any functions. *)
From Coq Require Import List ZArith QArith Bool Arith.
From Verif Require Import BroadcastModel ShapeGradModel.
Import ListNotations.
Local Open Scope nat_scope.

(** A dense tensor: its shape and its entries in row-major order (library). *)
Record yt := Yt { ysh : list nat; ydat : nat -> Q }.
(** tensor.Shape.TotalSize (library), used by Reshape at op_yolo.go:300-320. *)
Definition prodn (s : list nat) : nat := fold_right Nat.mul 1 s.
(** tensor.Dense.Reshape (library): the entries stay, the size must agree. *)
Definition reshapeY (t : yt) (s : list nat) : option yt :=
  if Nat.eqb (prodn (ysh t)) (prodn s) then Some (Yt s (ydat t)) else None.
(** T(0, 2, 1) followed by Transpose() (library) on a tensor of three axes: the entries
    are moved. *)
Definition transpose021 (t : yt) : option yt :=
  match ysh t with
  | [b; m; n] =>
      Some (Yt [b; n; m] (fun k => ydat t ((k / (m * n) * m + k mod m) * n + k / m mod n)))
  | _ => None
  end.
(** A tensor operation with UseUnsafe on a slice of the second and third axis of a tensor
    with three axes (library): the entries of the rows and columns chosen are replaced. *)
Definition onSlice (rows cols : nat -> bool) (f : nat -> nat -> Q -> Q) (t : yt) : yt :=
  match ysh t with
  | [b; r; c] =>
      Yt (ysh t) (fun k => let row := k / c mod r in let col := k mod c in
                           if rows row && cols col then f row col (ydat t k) else ydat t k)
  | _ => t
  end.
(** A nil slice: all rows (op_yolo.go:322-395). *)
Definition anyRow (r : nat) : bool := true.
(** A slice S(lo, hi) (op_yolo.go:322-395). *)
Definition between (lo hi k : nat) : bool := (lo <=? k) && (k <? hi).

(** yoloOp (op_yolo.go:15-22); the masks are ints. *)
Record yoloOp := Yolo { anchors : list Q; masks : list Z; ignoreTresh : Q; dimensions : nat; numClasses : nat }.

Section Functions.
Variables sg ex lg : Q -> Q.

(** float32(n) (op_yolo.go:340-395). *)
Definition qn (n : nat) : Q := inject_Z (Z.of_nat n).

(** evaluateYOLO_f32 (op_yolo.go:294-398), the first half: both reshapes and the
    transposition. The result is the state of the tensor, which is changed in place, and
    whether it went on. *)
Definition regroup (t : yt) (batch grid attrs nA : nat) : yt * bool :=
  match reshapeY t [batch; attrs * nA; grid * grid] with
  | None => (t, false)
  | Some t1 =>
      match transpose021 t1 with
      | None => (t1, false)
      | Some t2 =>
          match reshapeY t2 [batch; grid * grid * nA; attrs] with
          | None => (t2, false)
          | Some t3 => (t3, true)
          end
      end
  end.
(** op_yolo.go:332-356, the body of the loop over [i]: [i] is added to column 1 of the rows
    from i*step and, for every n, to column 0 of every step-th row from i*numAnchors+n. *)
Definition gridRow (step nA i : nat) (t : yt) : yt :=
  let t1 := onSlice (between (i * step) (i * step + step)) (Nat.eqb 1) (fun _ _ v => v + qn i)%Q t in
  fold_left (fun u n => onSlice (fun r => (i * nA + n <=? r) && Nat.eqb ((r - (i * nA + n)) mod step) 0) (Nat.eqb 0)
                                (fun _ _ v => v + qn i)%Q u) (seq 0 nA) t1.
(** op_yolo.go:294-398. Multiplying by the anchors fails if the shapes differ, that is for
    more than one image (library). *)
Definition evaluate (t : yt) (batch stride grid attrs nA : nat) (current : list Q) : yt * res unit :=
  let '(t1, ok) := regroup t batch grid attrs nA in
  if negb ok then (t1, Err)
  else
    let t2 := onSlice anyRow (between 0 2) (fun _ _ v => sg v) t1 in
    let t3 := onSlice anyRow (between 4 attrs) (fun _ _ v => sg v) t2 in
    let t4 := fold_left (fun u i => gridRow (grid * nA) nA i u) (seq 0 grid) t3 in
    let t5 := onSlice anyRow (between 2 4) (fun _ _ v => ex v) t4 in
    if negb (Nat.eqb batch 1) then (t5, Err)
    else
      let t6 := onSlice anyRow (between 2 4)
                  (fun r c v => v * (nth ((r * 2 + (c - 2)) mod length current) current 0 / qn stride))%Q t5 in
      (onSlice anyRow (between 0 4) (fun _ _ v => v * qn stride)%Q t6, Ok tt).

(** op_yolo.go:161-167 and 193-199: the anchors of the masks. An index out of range
    panics. *)
Fixpoint currentAnchors (an : list Q) (i : nat) (ms : list Z) : res (list Q) :=
  match ms with
  | [] => Ok []
  | m :: ms' =>
      if (Z.of_nat (length an / 2) <=? m)%Z then Err
      else match nth_error an (i * 2), nth_error an (i * 2 + 1) with
           | Some a, Some b => bind (currentAnchors an (S i) ms') (fun l => Ok (a :: b :: l))
           | _, _ => Panic
           end
  end.
(** yoloOp.Do (op_yolo.go:151-170) outside training: the input tensor afterwards, and the
    result, which is the input tensor itself. *)
Definition yoloDo (op : yoloOp) (t : yt) : yt * res yt :=
  match ysh t with
  | [batch; _; grid; _] =>
      if Nat.eqb grid 0 then (t, Panic)
      else match currentAnchors (anchors op) 0 (masks op) with
           | Err => (t, Err)
           | Panic => (t, Panic)
           | Ok cur =>
               let '(t', r) := evaluate t batch (dimensions op / grid) grid (5 + numClasses op) (length (masks op)) cur in
               (t', match r with Ok _ => Ok t' | Err => Err | Panic => Panic end)
           end
  | _ => (t, Err)
  end.
(** yoloOp.InferShape (op_yolo.go:79-89); Go divides by zero without masks. *)
Definition yoloShape (train : bool) (op : yoloOp) (s : list nat) : res (list nat) :=
  match s with
  | b :: c :: h :: w :: _ =>
      if Nat.eqb (length (masks op)) 0 then Panic
      else Ok [b; h * w * length (masks op); (if train then c - 1 else c) / length (masks op)]
  | _ => Err
  end.

(** ** Training *)
(** int of a float: towards zero (the Go language, for numbers that fit). *)
Definition trunc (q : Q) : Z := Z.quot (Qnum q) (Zpos (Qden q)).
(** image.Rectangle and image.Rect (Go library): the corners are put in order. *)
Record rect := Rc { x0 : Z; y0 : Z; x1 : Z; y1 : Z }.
(** image.Rect (Go library), called at op_yolo.go:496-498. *)
Definition mkRect (a b c d : Z) : rect := Rc (Z.min a c) (Z.min b d) (Z.max a c) (Z.max b d).
(** Rectangle.Empty, Dx, Dy and Intersect (Go library). *)
Definition emptyR (r : rect) : bool := (x1 r <=? x0 r)%Z || (y1 r <=? y0 r)%Z.
(** Rectangle.Dx (Go library), used at op_yolo.go:400-406. *)
Definition dx (r : rect) : Z := (x1 r - x0 r)%Z.
(** Rectangle.Dy (Go library), used at op_yolo.go:400-406. *)
Definition dy (r : rect) : Z := (y1 r - y0 r)%Z.
(** Rectangle.Intersect (Go library), used at op_yolo.go:400-406. *)
Definition intersect (r s : rect) : rect :=
  let u := Rc (Z.max (x0 r) (x0 s)) (Z.max (y0 r) (y0 s)) (Z.min (x1 r) (x1 s)) (Z.min (y1 r) (y1 s)) in
  if emptyR u then Rc 0 0 0 0 else u.
(** rectifyBox_f32 (op_yolo.go:496-498): the third number is the height. *)
Definition rectifyBox (x y h w : Q) (img : nat) : rect :=
  mkRect (Z.max (trunc (x - w / 2)) 0) (Z.max (trunc (y - h / 2)) 0)
         (Z.min (trunc (x + w / 2 + 1)) (Z.of_nat img)) (Z.min (trunc (y + h / 2 + 1)) (Z.of_nat img)).
(** iou_f32 (op_yolo.go:400-406); [None] is 0/0, a NaN: comparisons with it are false. *)
Definition iou (r s : rect) : option Q :=
  let i := (dx (intersect r s) * dy (intersect r s))%Z in
  let u := (dx r * dy r + dx s * dy s - i)%Z in
  if (u =? 0)%Z then None else Some (inject_Z i / inject_Z u)%Q.

(** Reading a slice of floats within its length (op_yolo.go:408-498). *)
Definition at0 (l : list Q) (i : nat) : Q := nth i l 0%Q.
(** The rectangle of the target at [j] and of the box at [i] (op_yolo.go:413-415). *)
Definition boxRect (l : list Q) (i img : nat) : rect := rectifyBox (at0 l i) (at0 l (i + 1)) (at0 l (i + 2)) (at0 l (i + 3)) img.
(** The rectangle of a target (op_yolo.go:413). *)
Definition targetRect (target : list Q) (j img : nat) : rect :=
  rectifyBox (at0 target (j + 1) * qn img) (at0 target (j + 2) * qn img) (at0 target (j + 3) * qn img) (at0 target (j + 4) * qn img) img.
(** getBestIOU_f32 (op_yolo.go:408-424) for one box: the best value and the number of its
    target (-1: none). *)
Definition bestIOU (r : rect) (target : list Q) (img : nat) : Q * Z :=
  fold_left (fun acc j =>
    let cur := iou r (targetRect target (j * 5) img) in
    match cur with Some q => if negb (Qle_bool q (fst acc)) then (q, Z.of_nat j) else acc | None => acc end) (seq 0 (length target / 5)) (0%Q, (-1)%Z).
(** findIntElement (op_yolo.go:487-494). *)
Fixpoint findInt (l : list Z) (e : Z) : option nat :=
  match l with
  | [] => None
  | a :: l' => if (a =? e)%Z then Some 0 else match findInt l' e with Some n => Some (S n) | None => None end
  end.
(** getBestAnchors_f32 (op_yolo.go:426-448) for one target: the place in the masks of the
    anchor that fits best, and the cell. The anchors are pairs. *)
Definition anchorRect (an : list Q) (i img : nat) : rect := rectifyBox 0 0 (at0 an (2 * i)) (at0 an (2 * i + 1)) img.
(** The rectangle of a target's size at the origin (op_yolo.go:430-436). *)
Definition sizeRect (target : list Q) (j img : nat) : rect :=
  rectifyBox 0 0 (at0 target (j + 3) * qn img) (at0 target (j + 4) * qn img) img.
(** op_yolo.go:430-440, the anchor that overlaps most. *)
Definition bestAnchor (target : list Q) (j : nat) (an : list Q) (img : nat) : nat :=
  fst (fold_left (fun acc i =>
    let cur := iou (anchorRect an i img) (sizeRect target j img) in
    match cur with Some q => if Qle_bool (snd acc) q then (i, q) else acc | None => acc end) (seq 0 (length an / 2)) (0, 0%Q)).
(** getBestAnchors_f32 (op_yolo.go:426-448). *)
Definition bestAnchors (target : list Q) (j : nat) (an : list Q) (ms : list Z) (img grid : nat) : option (nat * Z * Z) :=
  match findInt ms (Z.of_nat (bestAnchor target j an img)) with
  | None => None
  | Some n => Some (n, trunc (at0 target (j + 1) * qn grid), trunc (at0 target (j + 2) * qn grid))
  end.
(** op_yolo.go:500-513. *)
Definition eps16 : Q := 1 # (10 ^ 16).
(** op_yolo.go:500-505. *)
Definition bceLoss (one : bool) (pred : Q) : Q := (if one then - lg (pred + eps16) else - lg (1 - pred + eps16))%Q.
(** op_yolo.go:507-509. *)
Definition mseLoss (target pred scale : Q) : Q := ((scale * (target - pred)) * (scale * (target - pred)) / 2)%Q.
(** op_yolo.go:511-513. *)
Definition invsigm (t : Q) : Q := (- lg (1 - t + eps16) + lg (t + eps16))%Q.

(** Writing and reading a slice of floats: out of range panics. (op_yolo.go:450-485.) *)
Fixpoint setL (l : list Q) (i : nat) (v : Q) : option (list Q) :=
  match l, i with
  | [], _ => None
  | _ :: l', 0 => Some (v :: l')
  | a :: l', S i' => match setL l' i' v with Some r => Some (a :: r) | None => None end
  end.
(** Several writes, one after the other (op_yolo.go:450-485). *)
Fixpoint setAll (l : list Q) (writes : list (nat * Q)) : option (list Q) :=
  match writes with
  | [] => Some l
  | (i, v) :: w => match setL l i v with Some l' => setAll l' w | None => None end
  end.
(** prepareOutputYOLO_f32 (op_yolo.go:450-485), the first loop: the loss of no object being
    there, for every box whose best overlap is at most the threshold. *)
Definition noObject (yoloBoxes target : list Q) (nc img : nat) (thresh : Q) : list Q :=
  map (fun k => if Nat.eqb (k mod (5 + nc)) 4 && Qle_bool (fst (bestIOU (boxRect yoloBoxes (k - 4) img) target img)) thresh
                then bceLoss false (at0 yoloBoxes k) else 0%Q) (seq 0 (length yoloBoxes)).
(** The values written for target [i] (op_yolo.go:462-481), at [idx]. *)
Definition targetWrites (input yoloBoxes target an : list Q) (nc grid i n : nat) (gi gj : Z) (idx : nat) : list (nat * Q) :=
  let scale := (2 - at0 target (i * 5 + 3) * at0 target (i * 5 + 4))%Q in
  let gx := invsigm (at0 target (i * 5 + 1) * qn grid - inject_Z gi)%Q in
  let gy := invsigm (at0 target (i * 5 + 2) * qn grid - inject_Z gj)%Q in
  let gw := lg (at0 target (i * 5 + 3) / at0 an n + eps16)%Q in
  let gh := lg (at0 target (i * 5 + 4) / at0 an (n + 1) + eps16)%Q in
  [(idx, mseLoss gx (at0 input idx) scale); (idx + 1, mseLoss gy (at0 input (idx + 1)) scale);
   (idx + 2, mseLoss gw (at0 input (idx + 2)) scale); (idx + 3, mseLoss gh (at0 input (idx + 3)) scale);
   (idx + 4, bceLoss true (at0 yoloBoxes (idx + 4)))]
  ++ map (fun j => (idx + 5 + j, bceLoss (Z.of_nat j =? trunc (at0 target i))%Z (at0 yoloBoxes (idx + 4)))) (seq 0 nc).
(** op_yolo.go:450-485, one target. *)
Definition writeTarget (input yoloBoxes target an : list Q) (ms : list Z) (nc img grid : nat) (out : list Q) (i : nat) : option (list Q) :=
  match bestAnchors target (i * 5) an ms img grid with
  | None => Some out
  | Some (n, gi, gj) =>
      let idx := (gj * Z.of_nat (grid * length ms) + gi * Z.of_nat (length ms) + Z.of_nat n)%Z in
      if (idx <? 0)%Z then None
      else setAll out (targetWrites input yoloBoxes target an nc grid i n gi gj (Z.to_nat idx))
  end.
(** op_yolo.go:450-485, the loop over the targets. *)
Fixpoint writeTargets (input yoloBoxes target an : list Q) (ms : list Z) (nc img grid : nat) (out : list Q) (is : list nat) : option (list Q) :=
  match is with
  | [] => Some out
  | i :: is' => match writeTarget input yoloBoxes target an ms nc img grid out i with
                | Some out' => writeTargets input yoloBoxes target an ms nc img grid out' is'
                | None => None
                end
  end.
(** prepareOutputYOLO_f32 (op_yolo.go:450-485); [None] is a panic. Targets come in fives
    and anchors in pairs, otherwise an index is out of range. *)
Definition prepareOutput (input yoloBoxes target an : list Q) (ms : list Z) (nc img grid : nat) (thresh : Q) : option (list Q) :=
  if negb (Nat.eqb (length target mod 5) 0) || negb (Nat.eqb (length an mod 2) 0) then None
  else writeTargets input yoloBoxes target an ms nc img grid (noObject yoloBoxes target nc img thresh) (seq 0 (length target / 5)).

(** At of a tensor of four axes (library): [None] out of range. *)
Definition at4 (t : yt) (b c y x : nat) : option Q :=
  match ysh t with
  | [B; C; H; W] => if (b <? B) && (c <? C) && (y <? H) && (x <? W) then Some (ydat t (((b * C + c) * H + y) * W + x)) else None
  | _ => None
  end.
(** op_yolo.go:201-233: the targets in the last channel, after their number. *)
Fixpoint readTargets (t : yt) (c grid : nat) (is : list nat) : option (list Q) :=
  match is with
  | [] => Some []
  | i :: is' => match at4 t 0 c (i / grid) (i mod grid), readTargets t c grid is' with Some v, Some l => Some (v :: l) | _, _ => None end
  end.
(** Slice(nil, S(0, C-1), nil, nil) and Materialize (library): a new tensor without the
    last channel. *)
Definition dropChannel (t : yt) : yt :=
  match ysh t with
  | [B; C; H; W] =>
      let C' := C - 1 in
      Yt [B; C'; H; W] (fun k => ydat t ((k / (C' * H * W)) * (C * H * W) + k mod (C' * H * W)))
  | _ => t
  end.
(** The data of a tensor (library), as op_yolo.go:240-292 reads it. *)
Definition entries (t : yt) : list Q := map (ydat t) (seq 0 (prodn (ysh t))).
(** The input as it is compared with the targets and the decoded boxes in training
    (op_yolo.go:236-268): the tensor is regrouped before evaluateYOLO_f32 regroups it. *)
Definition trainInput (op : yoloOp) (t : yt) (batch grid : nat) : yt * bool :=
  regroup (dropChannel t) batch grid (5 + numClasses op) (length (masks op)).
(** op_yolo.go:236-292: the decoded boxes of the training pass. *)
Definition trainBoxes (op : yoloOp) (t : yt) (batch grid : nat) (cur : list Q) : yt * res unit :=
  evaluate (fst (trainInput op t batch grid)) batch (dimensions op / grid) grid (5 + numClasses op) (length (masks op)) cur.
(** yoloOp.Do in training (op_yolo.go:172-292). The input is not changed. *)
Definition yoloTrain (op : yoloOp) (t : yt) : res yt :=
  match ysh t with
  | [batch; C; grid; _] =>
      match at4 t 0 (C - 1) 0 0 with
      | None => Err
      | Some num =>
          if Nat.eqb grid 0 then Panic
          else bind (currentAnchors (anchors op) 0 (masks op)) (fun cur =>
            if (trunc num <? 0)%Z then Panic
            else match readTargets t (C - 1) grid (seq 1 (Z.to_nat (trunc num))) with
                 | None => Err
                 | Some target =>
                     let '(inp, ok) := trainInput op t batch grid in
                     if negb ok then Err
                     else bind (snd (trainBoxes op t batch grid cur)) (fun _ =>
                       let boxes := fst (trainBoxes op t batch grid cur) in
                       match prepareOutput (entries inp) (entries boxes) target (anchors op) (masks op) (numClasses op) (dimensions op) grid (ignoreTresh op) with
                       | None => Panic
                       | Some out => Ok (Yt [1; grid * grid * length (masks op); 5 + numClasses op] (fun k => at0 out k))
                       end)
                 end)
      end
  | _ => Err
  end.
End Functions.
