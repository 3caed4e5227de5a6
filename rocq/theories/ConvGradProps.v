(** C69: the gradient of Conv2d. *)
From Coq Require Import Arith ZArith List Bool Lia.
From Verif Require Import Sums LoopModel LoopProofs MatModel ConvModel ConvSpec ConvProofs ConvProps ConvGradModel ConvGradSpec ConvGradProofs.
Import ListNotations.
Local Open Scope nat_scope.

(** For every accepted combination of sizes, paddings, strides and dilations the symbolic
    gradients of image and filter exist, have the sizes of image and filter, and are
    adjoint to the convolution sum in either argument, the other one fixed. *)
Theorem C69_conv2d_gradient :
  forall (A : Type) (CR : CRing A) (op : im2colOp) (b c h w layer kernel row col : nat) (im filter grad : list A),
    1 <= kh op -> 1 <= kw op -> 1 <= strideH op -> 1 <= strideW op -> 1 <= dilationH op -> 1 <= dilationW op ->
    c * kw op * kh op = kernel * row * col ->
    length im = b * (c * h * w) -> length filter = layer * (kernel * row * col) ->
    let pairing := weighted b c h w layer (retH op h) (retW op w) (kh op) (kw op) (padH op) (padW op)
                     (strideH op) (strideW op) (dilationH op) (dilationW op) grad in
    exists gIm gF, conv2dGrad op b c h w layer kernel row col im filter grad = Some (gIm, gF) /\
      length gIm = length im /\ length gF = length filter /\
      (forall im', length im' = length im -> dot im' gIm = pairing im' filter) /\
      (forall filter', length filter' = length filter -> dot filter' gF = pairing im filter').
Proof.
  intros A CR op b c h w layer kernel row col im filter grad K1 K2 S1 S2 D1 D2 Hz Hi Hf. cbv zeta.
  apply conv2dGrad_ok; auto. unfold im2colOk. repeat (apply andb_true_iff; split); apply Nat.leb_le; assumption.
Qed.
Print Assumptions C69_conv2d_gradient.

(** The same against the forward operator: pairing its output with [grad]. *)
Theorem C69_forward_and_gradient :
  forall (A : Type) (CR : CRing A) (op : im2colOp) (b c h w layer kernel row col : nat) (im filter grad : list A),
    1 <= kh op -> 1 <= kw op -> 1 <= strideH op -> 1 <= strideW op -> 1 <= dilationH op -> 1 <= dilationW op ->
    c * kw op * kh op = kernel * row * col ->
    length im = b * (c * h * w) -> length filter = layer * (kernel * row * col) ->
    length grad = b * (layer * (retH op h * retW op w)) ->
    exists gIm gF, conv2dGrad op b c h w layer kernel row col im filter grad = Some (gIm, gF) /\
      (forall im' s out, length im' = length im -> conv2d op b c h w layer kernel row col im' filter = Some (s, out) ->
         dot out grad = dot im' gIm) /\
      (forall filter' s out, length filter' = length filter -> conv2d op b c h w layer kernel row col im filter' = Some (s, out) ->
         dot out grad = dot filter' gF).
Proof.
  intros A CR op b c h w layer kernel row col im filter grad K1 K2 S1 S2 D1 D2 Hz Hi Hf Hg.
  destruct (C69_conv2d_gradient A CR op b c h w layer kernel row col im filter grad K1 K2 S1 S2 D1 D2 Hz Hi Hf) as [gIm [gF [E [_ [_ [AI AF]]]]]].
  assert (F : forall im' f' s out, length im' = b * (c * h * w) -> conv2d op b c h w layer kernel row col im' f' = Some (s, out) ->
    dot out grad = weighted b c h w layer (retH op h) (retW op w) (kh op) (kw op) (padH op) (padW op) (strideH op) (strideW op) (dilationH op) (dilationW op) grad im' f').
  { intros im' f' s out L C. destruct (C22_conv2d_is_the_convolution A CR op b c h w layer kernel row col im' f' K1 K2 S1 S2 D1 D2 Hz L) as [out' [C' [LO V]]]. rewrite C in C'. injection C' as _ <-.
    rewrite dot_nth by congruence. rewrite LO. unfold weighted. rewrite sum_prod. apply sum_ext. intros bi Hb. rewrite sum_prod. apply sum_ext. intros l Hl. rewrite sum_prod. apply sum_ext. intros i Hi'. apply sum_ext. intros j Hj.
    replace (bi * (layer * (retH op h * retW op w)) + (l * (retH op h * retW op w) + (i * retW op w + j))) with (((bi * layer + l) * retH op h + i) * retW op w + j) by ring.
    rewrite (nth_error_nth _ _ r0 (V bi l i j Hb Hl Hi' Hj)). reflexivity. }
  exists gIm, gF. split; [exact E|]. split.
  - intros im' s out L C. rewrite (AI im' L). apply (F im' filter s out); [congruence|exact C].
  - intros f' s out L C. rewrite (AF f' L). apply (F im f' s out); [exact Hi|exact C].
Qed.
Print Assumptions C69_forward_and_gradient.

(** The 3x3 image of C21 with a 2x2 filter, padding 1, stride 2. *)
Example C69_ex : conv2dGrad exOp 1 1 3 3 1 1 2 2 exIm [1; 10; 100; 1000]%Z [1; 2; 3; 4]%Z =
  Some ([1000; 200; 2000; 30; 4; 40; 3000; 400; 4000]%Z, [20; 36; 36; 64]%Z).
Proof. vm_compute. reflexivity. Qed.
(** With the filter's second entry alone the output is (0, 0, 4, 6): 3 * 4 + 4 * 6 = 36. *)
Example C69_pairing_ex : exists out, conv2d exOp 1 1 3 3 1 1 2 2 exIm [0; 1; 0; 0]%Z = Some ([1; 1; 2; 2], out) /\ dot out [1; 2; 3; 4]%Z = 36%Z.
Proof. eexists. split; vm_compute; reflexivity. Qed.
