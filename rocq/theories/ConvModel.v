(** Model of Im2Col, its gradient Col2Im and Conv2d (op_nn.go:157-640,
    nn.go:167-305).  No proofs in this file.

    The float64 and float32 kernels are the same text; they are modelled over
    an arbitrary commutative ring.  Go ints that nn.go:181-195 checks to be
    non-negative are natural numbers, positions in the image (which can be
    negative) are integers. *)
From Coq Require Import Arith ZArith List Bool.
From Verif Require Import Sums LoopModel MatModel.
Import ListNotations.
Local Open Scope nat_scope.

(** op_nn.go:159-164. *)
Record im2colOp := {
  kh : nat; kw : nat; padH : nat; padW : nat;
  strideH : nat; strideW : nat; dilationH : nat; dilationW : nat }.

(** nn.go:181-195: what Im2Col accepts. *)
Definition im2colOk (op : im2colOp) : bool :=
  (1 <=? kh op) && (1 <=? kw op) && (1 <=? strideH op) && (1 <=? strideW op)
  && (1 <=? dilationH op) && (1 <=? dilationW op).

(** op_nn.go:311-315 [retHW]; Go's division truncates towards zero.  A negative
    result makes the loops below empty (and tensor.New fail, not modelled). *)
Definition retDim (size pad k stride dilation : nat) : nat :=
  Z.to_nat (Z.quot (Z.of_nat size + 2 * Z.of_nat pad
                    - (Z.of_nat dilation * (Z.of_nat k - 1) + 1)) (Z.of_nat stride) + 1).
(** op_nn.go:311-315, the height. *)
Definition retH (op : im2colOp) (h : nat) := retDim h (padH op) (kh op) (strideH op) (dilationH op).
(** op_nn.go:311-315, the width. *)
Definition retW (op : im2colOp) (w : nat) := retDim w (padW op) (kw op) (strideW op) (dilationW op).

(** op_nn.go:391, 398: the row (column) of the image a kernel row (column) falls
    on. *)
Definition inputRow (op : im2colOp) (outputRow kernelRow : nat) : Z :=
  (- Z.of_nat (padH op) + Z.of_nat kernelRow * Z.of_nat (dilationH op)
   + Z.of_nat outputRow * Z.of_nat (strideH op))%Z.
(** op_nn.go:398: the column of the image. *)
Definition inputCol (op : im2colOp) (outputCol kernelCol : nat) : Z :=
  (- Z.of_nat (padW op) + Z.of_nat kernelCol * Z.of_nat (dilationW op)
   + Z.of_nat outputCol * Z.of_nat (strideW op))%Z.

Section Kernels.
Context {A : Type} {CR : CRing A}.

(** col[colIdx] = v; colIdx++ (op_nn.go:394-395, 400-405). *)
Definition push (v : A) (st : list A * nat) : option (list A * nat) :=
  match aset (fst st) (snd st) v with
  | Some c => Some (c, S (snd st))
  | None => None
  end.

(** op_nn.go:384-413 [im2colOp.f64s], one image: chanStride is height*width
    (line 332). *)
Definition im2colF (op : im2colOp) (chans height width retHeight retWidth : nat)
  (im col : list A) : option (list A) :=
  match
    loop retHeight (fun outputRow =>
    loop retWidth (fun outputCol =>
    loop chans (fun ch =>
    loop (kh op) (fun kernelRow =>
      let ir := inputRow op outputRow kernelRow in
      loop (kw op) (fun kernelCol st =>
        if (ir <? 0)%Z || (Z.of_nat height <=? ir)%Z then push r0 st
        else
          let ic := inputCol op outputCol kernelCol in
          if (ic <? 0)%Z || (Z.of_nat width <=? ic)%Z then push r0 st
          else
            let imIdx := height * width * ch + Z.to_nat ir * width + Z.to_nat ic in
            match aget im imIdx with
            | Some v => push v st
            | None => None
            end))))) (col, 0)
  with
  | Some (c, _) => Some c
  | None => None
  end.

(** op_nn.go:317-382 [im2colOp.do] for a contiguous image (strides c*h*w, …): the
    kernel runs on every image of the batch.  The goroutines write disjoint
    slices of the result, which is put together here image by image. *)
Definition im2colDo (op : im2colOp) (b c h w : nat) (im col : list A) : option (list A) :=
  let batchStrideIm := c * h * w in
  let batchStrideCol := retH op h * retW op w * (c * kw op * kh op) in
  loop b (fun i acc =>
    match aslice im (i * batchStrideIm) ((i + 1) * batchStrideIm),
          aslice col (i * batchStrideCol) ((i + 1) * batchStrideCol) with
    | Some imi, Some coli =>
        match im2colF op c h w (retH op h) (retW op w) imi coli with
        | Some r => Some (acc ++ r)
        | None => None
        end
    | _, _ => None
    end) [].

(** im[imIdx] += v. (op_nn.go:571-603.) *)
Definition incr (im : list A) (i : nat) (v : A) : option (list A) :=
  match aget im i with Some x => aset im i (radd x v) | None => None end.

(** op_nn.go:571-603 [col2imOp.f64s]: the result slice is zeroed, then every
    element of col is added to the pixel it came from. *)
Definition col2imF (op : im2colOp) (chans height width retHeight retWidth : nat)
  (col im : list A) : option (list A) :=
  match loop (length im) (fun i im => aset im i r0) im with
  | None => None
  | Some im0 =>
    match
      loop retHeight (fun outputRow =>
      loop retWidth (fun outputCol =>
      loop chans (fun ch =>
      loop (kh op) (fun kernelRow =>
        let ir := inputRow op outputRow kernelRow in
        loop (kw op) (fun kernelCol st =>
          if (ir <? 0)%Z || (Z.of_nat height <=? ir)%Z then Some (fst st, S (snd st))
          else
            let ic := inputCol op outputCol kernelCol in
            if (0 <=? ic)%Z && (ic <? Z.of_nat width)%Z then
              let imIdx := height * width * ch + Z.to_nat ir * width + Z.to_nat ic in
              match aget col (snd st) with
              | Some v => match incr (fst st) imIdx v with
                          | Some im' => Some (im', S (snd st))
                          | None => None
                          end
              | None => None
              end
            else Some (fst st, S (snd st))))))) (im0, 0)
    with
    | Some (r, _) => Some r
    | None => None
    end
  end.

(** op_nn.go:504-569 [col2imOp.do]: b, c, h, w are the unpadded sizes, rh, rw and
    z the sizes 1 to 3 of the gradient. *)
Definition col2imDo (op : im2colOp) (b c h w rh rw z : nat) (col im : list A) : option (list A) :=
  let batchStrideIm := c * h * w in
  let batchStrideCol := rh * rw * z in
  loop b (fun i acc =>
    match aslice col (i * batchStrideCol) ((i + 1) * batchStrideCol),
          aslice im (i * batchStrideIm) ((i + 1) * batchStrideIm) with
    | Some coli, Some imi =>
        match col2imF op c h w rh rw coli imi with
        | Some r => Some (acc ++ r)
        | None => None
        end
    | _, _ => None
    end) [].

(** op_nn.go:239-265 [SymDiff]: Col2Im of the gradient into a new tensor. *)
Definition im2colGrad (op : im2colOp) (b c h w : nat) (grad : list A) : option (list A) :=
  col2imDo op b c h w (retH op h) (retW op w) (c * kw op * kh op) grad (repeat r0 (b * c * h * w)).

(** op_nn.go:267-291 [DoDiff]: Col2Im of the output's derivative into the
    derivative bound to the input. *)
Definition im2colDoDiff (op : im2colOp) (b c h w : nat) (outd ind : list A) : option (list A) :=
  col2imDo op b c h w (retH op h) (retW op w) (c * kw op * kh op) outd ind.

(** The matrix whose rows are consecutive in the data (Reshape changes the shape
    of a contiguous tensor only). (op_tensor.go:1153-1189, as used by nn.go:211-305.) *)
Definition asMat (m n : nat) (data : list A) : mat A :=
  {| rows := m; cols := n; el := fun i j => nth (i * n + j) data r0 |}.

(** nn.go:211-305 [Conv2d], the value of the node it builds.  [fs] is the shape
    of the filter.  The result has shape (b, layer, m, n). *)
Definition conv2d (op : im2colOp) (b c h w : nat) (layer kernel row col : nat)
  (im filter : list A) : option (list nat * list A) :=
  if negb (im2colOk op) then None
  else
    let m := retH op h in
    let n := retW op w in
    let z := c * kw op * kh op in
    if negb (z =? kernel * row * col) then None                    (* 259-261 *)
    else
      match im2colDo op b c h w im (repeat r0 (b * (m * n * z))) with
      | None => None
      | Some colIm =>
          let patch := asMat (b * m * n) z colIm in                  (* 276 *)
          let flattened := asMat layer (kernel * row * col) filter in (* 264 *)
          match matMul false true patch flattened with               (* 287 *)
          | None => None
          | Some res =>
              (* reshape to (b, m, n, layer), transpose (0, 3, 1, 2): 294-298 *)
              Some ([b; layer; m; n],
                    flat_map (fun bi => flat_map (fun l => flat_map (fun i => map (fun j =>
                      el res ((bi * m + i) * n + j) l) (seq 0 n)) (seq 0 m)) (seq 0 layer)) (seq 0 b))
          end
      end.
End Kernels.
