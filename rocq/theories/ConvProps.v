(** Property theorems C21, C22, C54. *)
From Coq Require Import Arith ZArith List Bool Lia.
From Verif Require Import Sums LoopModel LoopProofs MatModel ConvModel ConvSpec ConvProofs.
Import ListNotations.
Local Open Scope nat_scope.

(** ** C21 *)

(** Whatever the preallocated tensor holds, Im2Col succeeds (every index is within
    bounds) and puts at each output position, channel and kernel position the
    pixel of the zero-padded image. *)
Theorem C21_im2col_entries :
  forall (A : Type) (CR : CRing A) (op : im2colOp) (b c h w : nat) (im prealloc : list A),
    length im = b * (c * h * w) ->
    length prealloc = b * (retH op h * retW op w * (c * kw op * kh op)) ->
    exists col, im2colDo op b c h w im prealloc = Some col /\ length col = length prealloc /\
      forall bi i j ch y x,
        bi < b -> i < retH op h -> j < retW op w -> ch < c -> y < kh op -> x < kw op ->
        nth_error col (((((bi * retH op h + i) * retW op w + j) * c + ch) * kh op + y) * kw op + x)
        = Some (padded c h w im bi ch
                  (Z.of_nat i * Z.of_nat (strideH op) + Z.of_nat y * Z.of_nat (dilationH op) - Z.of_nat (padH op))
                  (Z.of_nat j * Z.of_nat (strideW op) + Z.of_nat x * Z.of_nat (dilationW op) - Z.of_nat (padW op))).
Proof.
  intros A CR op b c h w im prealloc Hi Hc. eexists. split; [apply im2colDo_ok; assumption|]. split.
  - rewrite Hc. apply flat_map_seq_length. intros. apply im2colV_length.
  - intros bi i j ch y x Hb Hih Hj Hch Hy Hx.
    pose proof (im2col_entry op b c h w im bi i j ch y x Hb Hih Hj Hch Hy Hx) as E.
    rewrite colSize_eq in E.
    replace (((((bi * retH op h + i) * retW op w + j) * c + ch) * kh op + y) * kw op + x)
      with (bi * (retH op h * (retW op w * (c * (kh op * kw op)))) + (i * (retW op w * (c * (kh op * kw op))) +
             (j * (c * (kh op * kw op)) + (ch * (kh op * kw op) + (y * kw op + x))))) by nia.
    rewrite E. f_equal. f_equal; unfold inputRow, inputCol; lia.
Qed.

(** The gradient operator is the transpose, and never leaves its slices. *)
Theorem C21_adjoint :
  forall (A : Type) (CR : CRing A) (op : im2colOp) (b c h w : nat) (im prealloc grad : list A),
    length im = b * (c * h * w) ->
    length prealloc = b * (retH op h * retW op w * (c * kw op * kh op)) ->
    length grad = length prealloc ->
    exists col g, im2colDo op b c h w im prealloc = Some col /\
                  im2colGrad op b c h w grad = Some g /\
                  length g = length im /\ dot im g = dot col grad.
Proof.
  intros A CR op b c h w im prealloc grad Hi Hc Hg.
  destruct (col2imDo_ok op b c h w grad (repeat r0 (b * c * h * w))) as [g [G [L [D _]]]].
  - rewrite repeat_length. nia.
  - rewrite Hg. exact Hc.
  - exists (flat_map (im2colV op c h w im) (seq 0 b)), g.
    split; [apply im2colDo_ok; assumption|]. split; [exact G|]. split; [rewrite Hi; exact L|].
    apply D. exact Hi.
Qed.

(** In automatic differentiation the same operator runs on the derivative bound to
    the input: what was accumulated there is lost. *)
Theorem C21_automatic_gradient_overwrites :
  forall (A : Type) (CR : CRing A) (op : im2colOp) (b c h w : nat) (outd ind : list A),
    length ind = b * (c * h * w) ->
    length outd = b * (retH op h * retW op w * (c * kw op * kh op)) ->
    im2colDoDiff op b c h w outd ind = im2colGrad op b c h w outd.
Proof.
  intros A CR op b c h w outd ind Hi Ho.
  destruct (col2imDo_ok op b c h w outd (repeat r0 (b * c * h * w))) as [g [G [_ [_ I]]]];
    [rewrite repeat_length; nia|exact Ho|].
  unfold im2colDoDiff, im2colGrad. rewrite G. apply I. exact Hi.
Qed.

(** A 3x3 image, 2x2 kernel, padding 1, stride 2, dilation 1. *)
Definition exOp := {| kh := 2; kw := 2; padH := 1; padW := 1; strideH := 2; strideW := 2;
                      dilationH := 1; dilationW := 1 |}.
Definition exIm : list Z := [1; 2; 3; 4; 5; 6; 7; 8; 9]%Z.
Example C21_case : retH exOp 3 = 2 /\
  im2colDo exOp 1 1 3 3 exIm (repeat 77%Z 16) =
    Some [0; 0; 0; 1;  0; 0; 2; 3;  0; 4; 0; 7;  5; 6; 8; 9]%Z /\
  im2colGrad exOp 1 1 3 3 [1; 2; 3; 4; 5; 6; 7; 8; 9; 10; 11; 12; 13; 14; 15; 16]%Z =
    Some [4; 7; 8; 10; 13; 14; 12; 15; 16]%Z.
Proof. repeat split; vm_compute; reflexivity. Qed.

Theorem C21_automatic_gradient_accumulates_refuted :
  ~ (forall (op : im2colOp) (b c h w : nat) (outd ind g r : list Z),
       length ind = b * (c * h * w) ->
       length outd = b * (retH op h * retW op w * (c * kw op * kh op)) ->
       im2colGrad op b c h w outd = Some g -> im2colDoDiff op b c h w outd ind = Some r ->
       forall i x y, nth_error ind i = Some x -> nth_error g i = Some y ->
                     nth_error r i = Some (x + y)%Z).
Proof.
  intro H.
  pose proof (H exOp 1 1 3 3 (repeat 0%Z 16) (repeat 1%Z 9) (repeat 0%Z 9) (repeat 0%Z 9)
                eq_refl eq_refl eq_refl eq_refl 0 1%Z 0%Z eq_refl eq_refl) as E.
  discriminate E.
Qed.

(** ** C22 *)

(** Conv2d succeeds on every accepted combination; the value of its node is the
    convolution sum, the filter data read as (layer, channel, row, column). *)
Theorem C22_conv2d_is_the_convolution :
  forall (A : Type) (CR : CRing A) (op : im2colOp) (b c h w layer kernel row col : nat)
         (im filter : list A),
    1 <= kh op -> 1 <= kw op -> 1 <= strideH op -> 1 <= strideW op ->
    1 <= dilationH op -> 1 <= dilationW op ->
    c * kw op * kh op = kernel * row * col ->
    length im = b * (c * h * w) ->
    exists out, conv2d op b c h w layer kernel row col im filter
                  = Some ([b; layer; retH op h; retW op w], out) /\
      length out = b * (layer * (retH op h * retW op w)) /\
      forall bi l i j, bi < b -> l < layer -> i < retH op h -> j < retW op w ->
        nth_error out (((bi * layer + l) * retH op h + i) * retW op w + j)
        = Some (conv_at c h w (kh op) (kw op) (padH op) (padW op) (strideH op) (strideW op)
                  (dilationH op) (dilationW op) im filter bi l i j).
Proof.
  intros A CR op b c h w layer kernel row col im filter K1 K2 S1 S2 D1 D2 Hz Hi.
  apply conv2d_ok; auto. unfold im2colOk.
  repeat (apply andb_true_iff; split); apply Nat.leb_le; assumption.
Qed.

(** The shape of the filter is checked by its size only: a filter made for a 3x1
    kernel is accepted with the 1x3 kernel and applied to it. *)
Theorem C22_filter_shape_unchecked :
  let op := {| kh := 1; kw := 3; padH := 0; padW := 0; strideH := 1; strideW := 1;
               dilationH := 1; dilationW := 1 |} in
  forall (A : Type) (CR : CRing A) (b c h w layer : nat) (im filter : list A),
    length im = b * (c * h * w) ->
    exists out, conv2d op b c h w layer c 3 1 im filter = Some ([b; layer; h; w - 2], out).
Proof.
  intros op A CR b c h w layer im filter Hi.
  destruct (C22_conv2d_is_the_convolution A CR op b c h w layer c 3 1 im filter) as [out [E _]];
    cbn [op kh kw strideH strideW dilationH dilationW]; try lia.
  exists out. rewrite E.
  assert (R1 : retH op h = h) by (unfold retH, retDim; cbn [op kh padH strideH dilationH];
    rewrite Z.quot_1_r; lia).
  assert (R2 : retW op w = w - 2) by (unfold retW, retDim; cbn [op kw padW strideW dilationW];
    rewrite Z.quot_1_r; lia).
  rewrite R1, R2. reflexivity.
Qed.

Example C22_case :
  conv2d exOp 1 1 3 3 1 1 2 2 exIm [1; 10; 100; 1000]%Z = Some ([1; 1; 2; 2], [1000; 3200; 7040; 9865]%Z).
Proof. vm_compute. reflexivity. Qed.

(** ** C54 *)

(** With a kernel that fits, the output size is the number of places it fits at. *)
Theorem C54_output_size :
  forall size pad k stride dilation : nat, 1 <= k -> 1 <= stride ->
    dilation * (k - 1) + 1 <= size + 2 * pad ->
    forall i, i < retDim size pad k stride dilation <->
              i * stride + dilation * (k - 1) + 1 <= size + 2 * pad.
Proof.
  intros size pad k stride dilation Hk Hs Hf i. unfold retDim.
  set (num := (Z.of_nat size + 2 * Z.of_nat pad - (Z.of_nat dilation * (Z.of_nat k - 1) + 1))%Z).
  assert (N : (0 <= num)%Z) by (unfold num; nia).
  rewrite Z.quot_div_nonneg by lia.
  pose proof (Z.div_mod num (Z.of_nat stride) ltac:(lia)) as D.
  pose proof (Z.mod_pos_bound num (Z.of_nat stride) ltac:(lia)) as M.
  set (q := (num / Z.of_nat stride)%Z) in *. set (r := (num mod Z.of_nat stride)%Z) in *.
  assert (Q : (0 <= q)%Z) by (apply Z.div_pos; lia).
  assert (E : i * stride + dilation * (k - 1) + 1 <= size + 2 * pad <->
              (Z.of_nat i * Z.of_nat stride <= num)%Z) by (unfold num; split; nia).
  rewrite E. split; intro H; nia.
Qed.

(** A kernel that is too large by less than the stride still gives one output, of
    a window that sticks out of the padded image. *)
Theorem C54_kernel_larger_than_the_image :
  forall size pad k stride dilation : nat, 1 <= k ->
    size + 2 * pad < dilation * (k - 1) + 1 < size + 2 * pad + stride ->
    retDim size pad k stride dilation = 1.
Proof.
  intros size pad k stride dilation Hk Hf. unfold retDim.
  set (num := (Z.of_nat size + 2 * Z.of_nat pad - (Z.of_nat dilation * (Z.of_nat k - 1) + 1))%Z).
  assert (N : (- Z.of_nat stride < num < 0)%Z) by (unfold num; nia).
  replace num with (- (- num))%Z by lia. rewrite Z.quot_opp_l by lia.
  rewrite Z.quot_small by lia. reflexivity.
Qed.
Example C54_case : retDim 5 1 3 2 1 = 3 /\ retDim 2 0 3 2 1 = 1 /\ retDim 2 0 3 1 1 = 0.
Proof. vm_compute. auto. Qed.

Print Assumptions C21_im2col_entries.
Print Assumptions C21_adjoint.
Print Assumptions C21_automatic_gradient_overwrites.
Print Assumptions C21_automatic_gradient_accumulates_refuted.
Print Assumptions C22_conv2d_is_the_convolution.
Print Assumptions C22_filter_shape_unchecked.
Print Assumptions C54_output_size.
Print Assumptions C54_kernel_larger_than_the_image.
