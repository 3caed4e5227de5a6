(** Model of max pooling, average pooling and upsampling with their gradients
    (op_nn.go:645-1133, nn.go:322-380, op_avg_pool.go, op_upsample.go).  No proofs
    in this file.

    Tensors are contiguous; a kernel that moves its slices on by the channel
    stride (op_nn.go:951-953) is modelled as running on each (batch, channel)
    plane. *)
From Coq Require Import Arith ZArith Reals List Bool.
From Verif Require Import Sums LoopModel ConvModel.
Import ListNotations.
Local Open Scope nat_scope.

(** op_nn.go:645-661 without the shape and the mask; op_avg_pool.go:76-92. *)
Record poolOp := {
  ph_ : nat; pw_ : nat;                       (* h, w *)
  padNorth : nat; padWest : nat; padSouth : nat; padEast : nat;
  explicitPadding : bool;
  pstrideH : nat; pstrideW : nat }.

(** op_nn.go:663-695 [newMaxPoolOp], op_avg_pool.go:94-129 [newAvgPoolOp]; fewer
    than two paddings panic. *)
Definition newPoolOp (kh kw : nat) (pad : list nat) (sh sw : nat) : option poolOp :=
  match pad with
  | [n; s; w; e] =>
      Some {| ph_ := kh; pw_ := kw; padNorth := n; padSouth := s; padWest := w; padEast := e;
              explicitPadding := true; pstrideH := sh; pstrideW := sw |}
  | n :: w :: _ =>
      Some {| ph_ := kh; pw_ := kw; padNorth := n; padSouth := n; padWest := w; padEast := w;
              explicitPadding := false; pstrideH := sh; pstrideW := sw |}
  | _ => None
  end.

(** nn.go:334-369 (op_avg_pool.go:32-67): positive strides, kernel not larger than
    the padded image. *)
Definition poolOk (op : poolOp) (h w : nat) : bool :=
  (1 <=? pstrideH op) && (1 <=? pstrideW op)
  && (ph_ op <=? h + padNorth op + padSouth op) && (pw_ op <=? w + padWest op + padEast op).

(** op_nn.go:810-816 [calcShape] (op_avg_pool.go:243-249). *)
Definition pooledH (op : poolOp) (h : nat) : nat :=
  (h + padSouth op + padNorth op - ph_ op) / pstrideH op + 1.
(** op_nn.go:810-816, the width. *)
Definition pooledW (op : poolOp) (w : nat) : nat :=
  (w + padEast op + padWest op - pw_ op) / pstrideW op + 1.

(** op_nn.go:919-924: with four paddings the window is shifted by the south and
    the east one. *)
Definition usedPadH (op : poolOp) : nat := if explicitPadding op then padSouth op else padNorth op.
(** op_nn.go:919-924, in the other direction. *)
Definition usedPadW (op : poolOp) : nat := if explicitPadding op then padEast op else padWest op.

(** [for i := lo; i < hi; i++] for lo not negative (op_nn.go:939-940). *)
Definition zloop {S : Type} (lo hi : Z) (body : nat -> S -> option S) (s : S) : option S :=
  foldM body (seq (Z.to_nat lo) (Z.to_nat hi - Z.to_nat lo)) s.

(** op_nn.go:930-935: the part of a window inside the image, in one direction:
    start (inclusive) and end (exclusive). *)
Definition winStart (p stride pad : nat) : Z :=
  Z.max (Z.of_nat p * Z.of_nat stride - Z.of_nat pad) 0.
(** op_nn.go:930-935, the end. *)
Definition winEnd (p stride pad k size : nat) : Z :=
  Z.min (Z.of_nat p * Z.of_nat stride - Z.of_nat pad + Z.of_nat k) (Z.of_nat size).

(** The two inner loops over the window of (ph, pw); [body] gets the index in the
    plane. (op_nn.go:930-945.) *)
Definition window {S : Type} (op : poolOp) (inH inW ph pw : nat) (body : nat -> S -> option S)
  (s : S) : option S :=
  zloop (winStart ph (pstrideH op) (usedPadH op)) (winEnd ph (pstrideH op) (usedPadH op) (ph_ op) inH)
    (fun hi => zloop (winStart pw (pstrideW op) (usedPadW op)) (winEnd pw (pstrideW op) (usedPadW op) (pw_ op) inW)
    (fun wi => body (hi * inW + wi))) s.

(** The loops over batches and channels (op_nn.go:926-927, 951-953;
    op_avg_pool.go:351-352, 377-379): the k-th plane of [size] values gives the
    k-th part of the output and of the mask. *)
Definition overPlanes {V : Type} (plane : list V -> option (list V * list Z)) (planes size : nat)
  (inData : list V) : option (list V * list Z) :=
  loop planes (fun k acc =>
    match aslice inData (k * size) ((k + 1) * size) with
    | Some p => match plane p with
                | Some (o, m) => Some (fst acc ++ o, snd acc ++ m)
                | None => None
                end
    | None => None
    end) ([], []).

Section MaxPool.
Variable V : Type.
(** > on the values, and -maxFloat64 (op_nn.go:916). *)
Variable gtb : V -> V -> bool.
Variable low : V.

(** op_nn.go:909-956 [maxPoolOp.f64s] on one plane: values and mask. *)
Definition maxPlane (op : poolOp) (inH inW outH outW : nat) (inData : list V)
  : option (list V * list Z) :=
  loop outH (fun ph =>
  loop outW (fun pw =>
    let poolIndex := ph * outW + pw in
    window op inH inW ph pw (fun i st =>
      match aget inData i, aget (fst st) poolIndex with
      | Some x, Some o =>
          if gtb x o then
            match aset (fst st) poolIndex x, aset (snd st) poolIndex (Z.of_nat i) with
            | Some o', Some m' => Some (o', m')
            | _, _ => None
            end
          else Some st
      | _, _ => None
      end))) (repeat low (outH * outW), repeat (-1)%Z (outH * outW)).

(** All planes: op_nn.go:828-861 [do] and the outer loops of f64s. *)
Definition maxPoolDo (op : poolOp) (planes inH inW : nat) (inData : list V)
  : option (list V * list Z) :=
  overPlanes (maxPlane op inH inW (pooledH op inH) (pooledW op inW)) planes (inH * inW) inData.

(** nn.go:322-375 [MaxPool2D] as the value it computes and the mask it leaves. *)
Definition maxPool2D (kh kw : nat) (pad : list nat) (sh sw : nat) (planes inH inW : nat)
  (inData : list V) : option (list V * list Z) :=
  match newPoolOp kh kw pad sh sw with
  | Some op => if poolOk op inH inW then maxPoolDo op planes inH inW inData else None
  | None => None
  end.

(** nn.go:378-380 [MaxPool1D]. *)
Definition maxPool1D (kernel pad stride : nat) (planes inH inW : nat) (inData : list V) :=
  maxPool2D 1 kernel [0; pad] 1 stride planes inH inW inData.
(** op_avg_pool.go:14-16 [AveragePool1D]. *)
Definition averagePool1D (kernel pad stride : nat) (planes inH inW : nat) (inData : list V) :=
  maxPool2D 1 kernel [0; pad] 1 stride planes inH inW inData.
End MaxPool.

Section Diff.
Context {A : Type} {CR : CRing A}.

(** inDiffData[inIndex] += v for an index from the mask; -1 panics
    (op_nn.go:1111-1112). *)
Definition incrZ (l : list A) (i : Z) (v : A) : option (list A) :=
  if (i <? 0)%Z then None else incr l (Z.to_nat i) v.

(** op_nn.go:1095-1120 [maxPoolDiffOp.f64s] on one plane. *)
Definition maxDiffPlane (inSize outH outW : nat) (outDiff : list A) (mask : list Z) : option (list A) :=
  loop outH (fun ph =>
  loop outW (fun pw inDiff =>
    let index := ph * outW + pw in
    match aget mask index, aget outDiff index with
    | Some inIndex, Some v => incrZ inDiff inIndex v
    | _, _ => None
    end)) (repeat r0 inSize).

(** op_nn.go:1095-1120, over all planes. *)
Definition maxDiffDo (planes inH inW outH outW : nat) (outDiff : list A) (mask : list Z)
  : option (list A) :=
  loop planes (fun k acc =>
    match aslice outDiff (k * (outH * outW)) ((k + 1) * (outH * outW)),
          aslice mask (k * (outH * outW)) ((k + 1) * (outH * outW)) with
    | Some g, Some m => match maxDiffPlane (inH * inW) outH outW g m with
                        | Some r => Some (acc ++ r)
                        | None => None
                        end
    | _, _ => None
    end) [].

(** op_upsample.go:94-124 [upsampleOp.Do], stride = scale-1 (line 40). *)
Definition upsampleDo (scale b c h w : nat) (inData : list A) : option (list A) :=
  loop b (fun bi => loop c (fun ci => loop h (fun hi => loop w (fun wi out =>
    match aget inData (((bi * c + ci) * h + hi) * w + wi) with
    | None => None
    | Some val =>
        loop scale (fun shi => loop scale (fun swi out =>
          aset out (((bi * c + ci) * (h * scale) + (hi * scale + shi)) * (w * scale) + (wi * scale + swi)) val)) out
    end)))) (repeat r0 (b * c * (h * scale) * (w * scale))).

(** op_upsample.go:188-226 [upsampleDiffOp.Do]. *)
Definition upsampleDiffDo (scale b c h w : nat) (grad : list A) : option (list A) :=
  loop b (fun bi => loop c (fun ci => loop h (fun hi => loop w (fun wi out =>
    match loop scale (fun sh => loop scale (fun sw summ =>
            match aget grad (((bi * c + ci) * (h * scale) + (hi * scale + sh)) * (w * scale) + (wi * scale + sw)) with
            | Some v => Some (radd summ v)
            | None => None
            end)) r0 with
    | Some summ => aset out (((bi * c + ci) * h + hi) * w + wi) summ
    | None => None
    end)))) (repeat r0 (b * c * h * w)).
End Diff.

Section AvgPool.
Local Open Scope R_scope.

(** op_avg_pool.go:333-382 [avgPoolOp.f64s] on one plane. *)
Definition avgPlane (op : poolOp) (inH inW outH outW : nat) (inData : list R)
  : option (list R * list Z) :=
  loop outH (fun ph =>
  loop outW (fun pw st0 =>
    let poolIndex := (ph * outW + pw)%nat in
    match window op inH inW ph pw (fun i st =>
            match aget inData i with
            | Some x => match incr (fst st) poolIndex x, aset (snd st) poolIndex (Z.of_nat i) with
                        | Some o', Some m' => Some (o', m')
                        | _, _ => None
                        end
            | None => None
            end) st0 with
    | Some st => match aget (fst st) poolIndex with
                 | Some s => match aset (fst st) poolIndex (s / INR inW) with
                             | Some o' => Some (o', snd st)
                             | None => None
                             end
                 | None => None
                 end
    | None => None
    end)) (repeat 0 (outH * outW)%nat, repeat (-1)%Z (outH * outW)%nat).

(** op_avg_pool.go:253-281 [do] on float64, and the outer loops. *)
Definition avgPoolDo (op : poolOp) (planes inH inW : nat) (inData : list R)
  : option (list R * list Z) :=
  overPlanes (avgPlane op inH inW (pooledH op inH) (pooledW op inW)) planes (inH * inW)%nat inData.

(** op_avg_pool.go:19-73 [AveragePool2D] as the value it computes and the mask it
    leaves. *)
Definition averagePool2D (kh kw : nat) (pad : list nat) (sh sw : nat) (planes inH inW : nat)
  (inData : list R) : option (list R * list Z) :=
  match newPoolOp kh kw pad sh sw with
  | Some op => if poolOk op inH inW then avgPoolDo op planes inH inW inData else None
  | None => None
  end.

(** op_avg_pool.go:560-617 [avgPoolDiffOp.f64s] on one plane. *)
Definition avgDiffPlane (op : poolOp) (inH inW outH outW : nat) (outDiff : list R) (mask : list Z)
  : option (list R) :=
  match maxDiffPlane (inH * inW) outH outW outDiff mask with
  | None => None
  | Some d =>
      loop inH (fun ph =>
      loop inW (fun pw d =>
        match window op inH inW ph pw (fun i total =>
                match aget d i with Some x => Some (total + x) | None => None end) 0 with
        | Some total => aset d (ph * inW + pw)%nat (total / INR inW)
        | None => None
        end)) d
  end.
End AvgPool.
