(** Loading of the darknet weights in the YOLO examples, the folding of the batch
    normalization into kernels and biases, and the convolutional layer
    (examples/tiny-yolo-v3-coco: weights_darknet.go, yolov3_tiny.go, conv_layer.go;
    examples/tiny-yolo-v2-coco: weights_darknet.go, net.go, feedforward.go). Floats are exact
    rationals; the square root and the decoding of four bytes are parameters. Proof-free. *)
From Coq Require Import List Arith QArith Bool.
From Verif Require Import BroadcastModel ShapeGradModel.
Import ListNotations.
Local Open Scope nat_scope.

(** Assignment to an element that exists (yolov3_tiny.go:160-163). *)
Fixpoint setQ (l : list Q) (i : nat) (v : Q) : list Q :=
  match l, i with
  | [], _ => []
  | _ :: l', O => v :: l'
  | x :: l', S i' => x :: setQ l' i' v
  end.
(** Reading and writing an element; an index out of range panics (yolov3_tiny.go:159-163). *)
Definition getQ (l : list Q) (i : nat) : res Q := match nth_error l i with Some x => Ok x | None => Panic end.
(** Writing (yolov3_tiny.go:160-163). *)
Definition putQ (l : list Q) (i : nat) (v : Q) : res (list Q) := if i <? length l then Ok (setQ l i v) else Panic.

Section Model.
(** Float32frombytes (weights_darknet.go of version 2: 100-104) of four bytes. *)
Variable f32 : list nat -> Q.
(** math32.Sqrt (yolov3_tiny.go:159), and the conversions around math.Sqrt
    (weights_darknet.go of version 2: 85). *)
Variable rt : Q -> Q.
(** epsilon (yolov3_tiny.go:68). *)
Variable eps : Q.

(** ParseWeights after the file is read (weights_darknet.go of version 3: 71-77; of version 2:
    33-38). The slice expression [summary[i:i+4]] may go beyond the length of [summary] up to
    its capacity; [spare] is the difference. The bytes there are zero (append clears them). *)
Fixpoint parse (spare : nat) (bs : list nat) : res (list Q) :=
  match bs with
  | [] => Ok []
  | a :: b :: c :: d :: r => bind (parse spare r) (fun l => Ok (f32 [a; b; c; d] :: l))
  | short => let more := 4 - length short in if more <=? spare then Ok [f32 (short ++ repeat 0 more)] else Panic
  end.
(** The weights with the rest of the capacity of their slice, zeros too
    (weights_darknet.go of version 3: 71-77). *)
Definition memory (ws : list Q) (spare : nat) : list Q := ws ++ repeat 0%Q spare.

(** The slice expression [weightsData[lo:lo+n]]: it panics beyond the capacity, not beyond
    the length. The result is where the slice begins. (yolov3_tiny.go:142-173.) *)
Definition view (mem : list Q) (lo n : nat) : res nat := if lo + n <=? length mem then Ok lo else Panic.

(** The inner loop over the kernel of one filter (yolov3_tiny.go:162-164; weights_darknet.go
    of version 2: 89-91): [n] rounds from [j] on. *)
Fixpoint scaleRow (n j base : nat) (sc : Q) (k : list Q) : res (list Q) :=
  match n with
  | O => Ok k
  | S n' => bind (getQ k (base + j)) (fun x => bind (putQ k (base + j) (x * sc)%Q) (scaleRow n' (S j) base sc))
  end.
(** The loop over the filters in version 3, in place (yolov3_tiny.go:158-165): [ob] .. [ok]
    are where the slices begin. *)
Fixpoint denorm3 (n s isize ob og om ov ok : nat) (mem : list Q) : res (list Q) :=
  match n with
  | O => Ok mem
  | S n' =>
      bind (getQ mem (og + s)) (fun g => bind (getQ mem (ov + s)) (fun v =>
        let scale := (g / rt (v + eps))%Q in
        bind (getQ mem (ob + s)) (fun b => bind (getQ mem (om + s)) (fun m =>
          bind (putQ mem (ob + s) (b - m * scale)%Q) (fun mem1 =>
            bind (scaleRow isize 0 (ok + isize * s) scale mem1) (denorm3 n' (S s) isize ob og om ov ok))))))
  end.

(** A convolutional block of the configuration (yolov3_tiny.go:76-137): the number of
    filters, the number of weights of a filter (all dimensions of the kernel but the first),
    [batch_normalize] if given (as a number), and whether the activation is "leaky". *)
Record cfg := Cfg { filters : nat; isize : nat; bnorm : option nat; leaky : bool }.
(** What a convolutional layer keeps (yolov3_tiny.go:176-180, conv_layer.go:43-52): where its
    kernels begin in the weights, of which they are a slice; and its biases, which ToNode
    copies at once. *)
Record layer := Layer { lcfg : cfg; kern : nat; nkern : nat; lbias : list Q }.

(** The weights of one convolutional block (yolov3_tiny.go:133-180). [batch_normalize=0]
    neither is positive nor sets [bias]: kernels and biases stay empty. *)
Definition loadConv (c : cfg) (mem : list Q) (idx : nat) : res (list Q * nat * layer) :=
  let nb := filters c in
  let nk := filters c * isize c in
  match bnorm c with
  | Some (S _) =>
      bind (view mem idx nb) (fun ob =>
      bind (view mem (idx + nb) nb) (fun og =>
      bind (view mem (idx + nb + nb) nb) (fun om =>
      bind (view mem (idx + nb + nb + nb) nb) (fun ov =>
      bind (view mem (idx + nb + nb + nb + nb) nk) (fun ok =>
      bind (denorm3 nb 0 (isize c) ob og om ov ok mem) (fun mem' =>
        Ok (mem', idx + nb + nb + nb + nb + nk, Layer c ok nk (firstn nb (skipn ob mem')))))))))
  | Some O => Ok (mem, idx, Layer c 0 0 [])
  | None =>
      bind (view mem idx nb) (fun ob =>
      bind (view mem (idx + nb) nk) (fun ok =>
        Ok (mem, idx + nb + nk, Layer c ok nk (firstn nb (skipn ob mem)))))
  end.
(** The convolutional blocks one after another (yolov3_tiny.go:67-185). *)
Fixpoint loadAll (cs : list cfg) (mem : list Q) (idx : nat) : res (list Q * list layer) :=
  match cs with
  | [] => Ok (mem, [])
  | c :: cs' =>
      bind (loadConv c mem idx) (fun '(mem', idx', l) =>
      bind (loadAll cs' mem' idx') (fun '(mem'', ls) => Ok (mem'', l :: ls)))
  end.

(** Version 2: PrepareData (weights_darknet.go:43-74) copies: biases, gammas, means, vars and
    kernels, and the index after them. *)
Definition prepareData (mem : list Q) (nb nk idx : nat) (batchNorm biased : bool)
  : res (list Q * list Q * list Q * list Q * list Q * nat) :=
  let cp lo n := bind (view mem lo n) (fun o => Ok (firstn n (skipn o mem))) in
  if batchNorm then
    bind (cp idx nb) (fun b => bind (cp (idx + nb) nb) (fun g =>
    bind (cp (idx + nb + nb) nb) (fun m => bind (cp (idx + nb + nb + nb) nb) (fun v =>
    bind (cp (idx + nb + nb + nb + nb) nk) (fun k =>
      Ok (b, g, m, v, k, idx + nb + nb + nb + nb + nk))))))
  else if biased then
    bind (cp idx nb) (fun b => bind (cp (idx + nb) nk) (fun k => Ok (b, [], [], [], k, idx + nb + nk)))
  else Ok ([], [], [], [], [], idx).
(** DenormalizeWeights (weights_darknet.go:77-97): [n] rounds from [i] on. *)
Fixpoint denorm2 (n i isize : nat) (b g m v k : list Q) : res (list Q * list Q) :=
  match n with
  | O => Ok (b, k)
  | S n' =>
      bind (getQ g i) (fun gi => bind (getQ v i) (fun vi =>
        let scale := (gi / rt (vi + eps))%Q in
        bind (getQ b i) (fun bi => bind (getQ m i) (fun mi =>
          bind (putQ b i (bi - mi * scale)%Q) (fun b' =>
            bind (scaleRow isize 0 (isize * i) scale k) (fun k' => denorm2 n' (S i) isize b' g m v k'))))))
  end.
(** The loading of a layer in version 2 (net.go:100-133): biases, kernels, index. *)
Definition load2 (mem : list Q) (nb isize idx : nat) (batchNorm biased : bool) : res (list Q * list Q * nat) :=
  bind (prepareData mem nb (nb * isize) idx batchNorm biased) (fun '(b, g, m, v, k, idx') =>
    if batchNorm then bind (denorm2 nb 0 isize b g m v k) (fun '(b', k') => Ok (b', k', idx')) else Ok (b, k, idx')).

(** A sum (the contraction of gorgonia.Conv2d, modelled in ConvModel; conv_layer.go:40). *)
Fixpoint sumQ (n : nat) (f : nat -> Q) : Q := match n with O => 0 | S n' => (sumQ n' f + f n')%Q end.
(** Conv2d (conv_layer.go:40; see ConvModel) of [N] samples with [P] output positions:
    element (sample, filter, position), row major; [patch] is the part of the input a kernel
    meets at a position, zero where padded. *)
Definition convOut (F P isz N : nat) (patch : nat -> nat -> nat -> Q) (k : list Q) : list Q :=
  map (fun x => sumQ isz (fun j => (nth (isz * ((x / P) mod F) + j)%nat k 0 * patch (x / P / F)%nat (x mod P)%nat j)%Q)) (seq 0 (N * F * P)).
(** The tensor of biases (conv_layer.go:45-53; PrepareBiases, net.go:164-176): each bias
    [iters] times. *)
Definition biasData (total : nat) (bs : list Q) : list Q := flat_map (fun b => repeat b (total / length bs)) bs.
(** Elementwise addition (conv_layer.go:56). *)
Fixpoint addL (a b : list Q) : list Q := match a, b with x :: a', y :: b' => (x + y)%Q :: addL a' b' | _, _ => [] end.
(** LeakyRelu of one element (nn.go:83-131, see ActModel). *)
Definition leak (coef x : Q) : Q := if Qle_bool 0 x then x else (x * coef)%Q.
(** ToNode of a convolutional layer and its value (conv_layer.go:38-69): the division by the
    number of biases panics when there are none, and so does tensor.New when the number of
    elements does not fit the shape (yolov3_tiny.go:176, conv_layer.go:52). *)
Definition toNode (coef : Q) (l : layer) (mem : list Q) (N P : nat) (patch : nat -> nat -> nat -> Q) : res (list Q) :=
  let F := filters (lcfg l) in
  let isz := isize (lcfg l) in
  if negb (nkern l =? F * isz) then Panic
  else
    let conv := convOut F P isz N patch (firstn (nkern l) (skipn (kern l) mem)) in
    if length (lbias l) =? 0 then Panic
    else
      let data := biasData (N * F * P) (lbias l) in
      if negb (length data =? N * F * P) then Panic
      else if leaky (lcfg l) then Ok (map (leak coef) (addL conv data)) else Ok conv.
(** A layer of version 2 (feedforward.go:44-183, net.go:152-176). *)
Definition layer2 (coef : Q) (F isz : nat) (b k : list Q) (N P : nat) (patch : nat -> nat -> nat -> Q) : res (list Q) :=
  if negb (length k =? F * isz) then Panic
  else if length b =? 0 then Panic
  else
    let data := biasData (N * F * P) b in
    if negb (length data =? N * F * P) then Panic
    else Ok (map (leak coef) (addL (convOut F P isz N patch k) data)).
End Model.
