From Coq Require Import Arith ZArith List Bool Lia.
From Verif Require Import Sums LoopModel LoopProofs MatModel MatSpec MatProofs ConvModel ConvSpec ConvProofs ConvGradModel ConvGradSpec.
Import ListNotations.
Local Open Scope nat_scope.

Section Proofs.
Context {A : Type} {CR : CRing A}.
Add Ring Aring : (@cr_th A CR).

Lemma dot_nth (u v : list A) : length u = length v -> dot u v = sum (length u) (fun k => rmul (nth k u r0) (nth k v r0)).
Proof.
  revert v. induction u as [|a u IH] using rev_ind; intros v H.
  - destruct v; [reflexivity|discriminate].
  - rewrite app_length in *. cbn [length] in *. destruct v as [|b v _] using rev_ind; [cbn in H; lia|]. rewrite app_length in H. cbn [length] in H.
    rewrite dot_app by lia. rewrite IH by lia. rewrite Nat.add_1_r. cbn [sum dot]. rewrite !app_nth2, Nat.sub_diag by lia. replace (length u - length v) with 0 by lia. cbn [nth].
    f_equal; [|ring]. apply sum_ext. intros i Hi. rewrite !app_nth1 by lia. reflexivity.
Qed.
Lemma flatten_length (m : mat A) : length (flatten m) = rows m * cols m.
Proof. apply flat_map_seq_length. intros. rewrite map_length, seq_length. reflexivity. Qed.
Lemma flatten_nth (m : mat A) i j : i < rows m -> j < cols m -> nth (i * cols m + j) (flatten m) r0 = el m i j.
Proof.
  intros Hi Hj. apply nth_error_nth. unfold flatten. rewrite nth_flat_map_seq; [|intros; rewrite map_length, seq_length; reflexivity|exact Hi|exact Hj].
  rewrite nth_error_map, nth_seq0 by exact Hj. reflexivity.
Qed.
(** The inner product of data and of the matrices over it. *)
Lemma dot_flatten m n (u : list A) (g : mat A) : length u = m * n -> rows g = m -> cols g = n -> dot u (flatten g) = dotM (asMat m n u) g.
Proof.
  intros Hu Hr Hc. rewrite dot_nth by (rewrite flatten_length; congruence). rewrite Hu, sum_prod. unfold dotM, asMat. cbn [rows cols el]. apply sum_ext. intros i Hi. apply sum_ext. intros j Hj.
  f_equal. rewrite <- Hc. apply flatten_nth; lia.
Qed.
Lemma resGrad_el b m n layer grad bi i j l : bi < b -> i < m -> j < n -> l < layer ->
  el (resGrad b m n layer grad) ((bi * m + i) * n + j) l = nth (((bi * layer + l) * m + i) * n + j) grad (r0 (A := A)).
Proof.
  intros Hb Hi Hj Hl. unfold resGrad, asMat. cbn [el]. apply nth_error_nth.
  assert (L1 : forall bi i j, length (map (fun l => nth (((bi * layer + l) * m + i) * n + j) grad r0) (seq 0 layer)) = layer) by (intros; rewrite map_length, seq_length; reflexivity).
  assert (L2 : forall bi i, length (flat_map (fun j => map (fun l => nth (((bi * layer + l) * m + i) * n + j) grad r0) (seq 0 layer)) (seq 0 n)) = n * layer) by (intros; apply flat_map_seq_length; intros; apply L1).
  assert (L3 : forall bi, length (flat_map (fun i => flat_map (fun j => map (fun l => nth (((bi * layer + l) * m + i) * n + j) grad r0) (seq 0 layer)) (seq 0 n)) (seq 0 m)) = m * (n * layer)) by (intros; apply flat_map_seq_length; intros; apply L2).
  replace (((bi * m + i) * n + j) * layer + l) with (bi * (m * (n * layer)) + (i * (n * layer) + (j * layer + l))) by nia.
  rewrite nth_flat_map_seq; [|intros; apply L3|exact Hb|apply idx_lt; [exact Hi|apply idx_lt; assumption]].
  rewrite nth_flat_map_seq; [|intros; apply L2|exact Hi|apply idx_lt; assumption].
  rewrite nth_flat_map_seq; [|intros; apply L1|exact Hj|exact Hl].
  rewrite nth_error_map, nth_seq0 by exact Hl. reflexivity.
Qed.

Section Conv.
Variables (op : im2colOp) (b c h w layer kernel row col : nat).
Hypothesis Hz : c * kw op * kh op = kernel * row * col.
Let m := retH op h.
Let n := retW op w.
Let z := c * kw op * kh op.
Definition cols_of (im : list A) : list A := flat_map (im2colV op c h w im) (seq 0 b).
Definition W (grad im filter : list A) : A := weighted b c h w layer m n (kh op) (kw op) (padH op) (padW op) (strideH op) (strideW op) (dilationH op) (dilationW op) grad im filter.

Lemma cols_len im : length (cols_of im) = b * (m * n * z).
Proof. unfold cols_of. apply flat_map_seq_length. intros. apply im2colV_length. Qed.

(** The product of patches and flattened filter, and its entries as convolution sums. *)
Lemma product_entries im filter : exists res, matMul false true (asMat (b * m * n) z (cols_of im)) (asMat layer (kernel * row * col) filter) = Some res /\
  rows res = b * m * n /\ cols res = layer /\
  forall bi l i j, bi < b -> l < layer -> i < m -> j < n ->
    el res ((bi * m + i) * n + j) l = conv_at c h w (kh op) (kw op) (padH op) (padW op) (strideH op) (strideW op) (dilationH op) (dilationW op) im filter bi l i j.
Proof.
  rewrite <- Hz. fold z. unfold matMul, matMulKernel, trIf, tr, asMat. cbn [rows cols el]. rewrite Nat.eqb_refl. eexists. split; [reflexivity|]. cbn [rows cols el]. split; [reflexivity|]. split; [reflexivity|].
  intros bi l i j Hb Hl Him Hjn. unfold conv_at. replace z with (c * (kh op * kw op)) by (unfold z; nia). rewrite sum3.
  apply sum_ext. intros ch Hc. apply sum_ext. intros y Hy. apply sum_ext. intros x Hx.
  f_equal.
  - pose proof (im2col_entry op b c h w im bi i j ch y x Hb Him Hjn Hc Hy Hx) as E. fold (cols_of im) in E. rewrite colSize_eq in E. fold m in E. fold n in E.
    replace (((bi * m + i) * n + j) * (c * (kh op * kw op)) + (ch * (kh op * kw op) + (y * kw op + x)))
      with (bi * (m * (n * (c * (kh op * kw op)))) + (i * (n * (c * (kh op * kw op))) +
             (j * (c * (kh op * kw op)) + (ch * (kh op * kw op) + (y * kw op + x))))) by nia.
    rewrite (nth_error_nth _ _ r0 E). f_equal; unfold inputRow, inputCol; lia.
  - f_equal. nia.
Qed.
Lemma product_weighted im filter grad res : matMul false true (asMat (b * m * n) z (cols_of im)) (asMat layer (kernel * row * col) filter) = Some res ->
  dotM res (resGrad b m n layer grad) = W grad im filter.
Proof.
  intro E. destruct (product_entries im filter) as [res' [E' [R [C F]]]]. rewrite E in E'. injection E' as <-.
  unfold dotM. rewrite R, C. rewrite <- Nat.mul_assoc, sum_prod. unfold W, weighted. apply sum_ext. intros bi Hb. rewrite sum_prod.
  rewrite (sum_swap layer m). apply sum_ext. intros i Hi. rewrite (sum_swap layer n). apply sum_ext. intros j Hj. apply sum_ext. intros l Hl.
  replace (bi * (m * n) + (i * n + j)) with ((bi * m + i) * n + j) by nia. rewrite F, resGrad_el by assumption. reflexivity.
Qed.
Lemma conv2dGrad_ok im filter grad : im2colOk op = true -> length im = b * (c * h * w) -> length filter = layer * (kernel * row * col) ->
  exists gIm gF, conv2dGrad op b c h w layer kernel row col im filter grad = Some (gIm, gF) /\ length gIm = length im /\ length gF = length filter /\
    (forall im', length im' = length im -> dot im' gIm = W grad im' filter) /\
    (forall filter', length filter' = length filter -> dot filter' gF = W grad im filter').
Proof.
  intros Hok Hi Hf. unfold conv2dGrad. rewrite Hok. cbn [negb]. fold m n z.
  rewrite im2colDo_ok by (try rewrite repeat_length; try reflexivity; exact Hi). fold (cols_of im).
  destruct (product_entries im filter) as [res [E [R [C _]]]].
  pose proof (matMul_product _ _ _ _ _ E) as P.
  assert (SG : same_size (resGrad b m n layer grad) res) by (split; [rewrite R|rewrite C]; reflexivity).
  destruct (matmul_adjoint false true _ _ _ _ P SG) as [gx [gy [D [Sx [Sy [Ax Ay]]]]]]. rewrite D.
  destruct Sx as [Sx1 Sx2]. destruct Sy as [Sy1 Sy2]. cbn [asMat rows cols] in Sx1, Sx2, Sy1, Sy2.
  assert (LX : length (flatten gx) = b * (m * n * z)) by (rewrite flatten_length, Sx1, Sx2; ring).
  destruct (col2imDo_ok op b c h w (flatten gx) (repeat r0 (b * c * h * w))) as [g [G [L [Dt _]]]].
  { rewrite repeat_length. ring. }
  { exact LX. }
  unfold im2colGrad. rewrite G. exists g, (flatten gy). split; [reflexivity|]. split; [rewrite L; symmetry; exact Hi|]. split; [rewrite flatten_length, Sy1, Sy2; symmetry; exact Hf|]. split.
  - intros im' H'. rewrite (Dt im') by (rewrite H'; exact Hi). fold (cols_of im'). rewrite (dot_flatten (b * m * n) z) by (first [exact Sx1|exact Sx2|rewrite cols_len; ring]).
    destruct (product_entries im' filter) as [res' [E' _]]. rewrite <- (product_weighted im' filter grad res' E'). symmetry. apply Ax; [split; reflexivity|]. apply (matMul_product _ _ _ _ _ E').
  - intros f' H'. rewrite (dot_flatten layer (kernel * row * col)) by (first [exact Sy1|exact Sy2|rewrite H'; exact Hf]).
    destruct (product_entries im f') as [res' [E' _]]. rewrite <- (product_weighted im f' grad res' E'). symmetry. apply Ay; [split; reflexivity|]. apply (matMul_product _ _ _ _ _ E').
Qed.
End Conv.
End Proofs.
