(** C26: Sparsemax. *)
From Coq Require Import Arith Reals List Bool Lia Lra.
From Verif Require Import LoopModel LoopProofs ConvProofs SparsemaxModel SparsemaxSpec SparsemaxProofs.
Import ListNotations.
Local Open Scope R_scope.

(** The output of a row is the point of the simplex nearest to the row. *)
Theorem C26_row_is_projection : forall low row, row <> [] -> nearest (sparsemaxRow low row) row.
Proof.
  intros low row Ne. destruct (sparsemaxRow_spec low row Ne) as [t [-> E]]. apply clip_nearest, E.
Qed.
Print Assumptions C26_row_is_projection.

(** There is only one nearest point, so this settles every entry of the output. *)
Theorem C26_projection_is_unique : forall low row y, row <> [] -> nearest y row -> y = sparsemaxRow low row.
Proof.
  intros low row y Ne H. destruct (sparsemaxRow_spec low row Ne) as [t [-> E]]. apply nearest_unique; assumption.
Qed.
Print Assumptions C26_projection_is_unique.

Example sparsemax_ex : sparsemaxRow 0 [1; 3; 2.5; 0] = [0; 0.75; 0.25; 0].
Proof.
  rewrite (sparsemaxRow_eq 0 _ 2.25); [|discriminate|].
  - cbn [map]. unfold clip. repeat f_equal;
    match goal with |- context [gtR ?a ?b] => destruct (gtR a b) eqn:E; rewrite ?gtR_true, ?gtR_false in E; lra end.
  - cbn [map total]. unfold clip, gtR. repeat destruct (Rlt_dec _ _); lra.
Qed.

(** Every row of a tensor. *)
Theorem C26_every_row_is_projection : forall low from to data out,
  length data = (from * to)%nat -> (0 < to)%nat -> sparsemaxData low from to data = Some out ->
  length out = length data /\
  forall i, (i < from)%nat -> nearest (firstn to (skipn (i * to) out)) (firstn to (skipn (i * to) data)).
Proof.
  intros low from to data out L Pos E. rewrite sparsemaxData_ok in E by assumption. injection E as <-.
  assert (H : forall k, (k < from)%nat -> length (sparsemaxRow low (chunk data to k)) = to).
  { intros k Hk. rewrite sparsemaxRow_length. apply (chunk_length data to k from); assumption. }
  split.
  - rewrite L. apply flat_map_seq_length. exact H.
  - intros i Hi. fold (chunk (flat_map (fun i => sparsemaxRow low (chunk data to i)) (seq 0 from)) to i).
    rewrite (chunk_flat_map (fun i => sparsemaxRow low (chunk data to i))) by assumption.
    fold (chunk data to i). apply C26_row_is_projection.
    intro Z. assert (Q := chunk_length data to i from L Hi). rewrite Z in Q. cbn in Q. lia.
Qed.
Print Assumptions C26_every_row_is_projection.

(** It never fails on a tensor of the right size. *)
Theorem C26_sparsemax_total : forall low from to data,
  length data = (from * to)%nat -> exists out, sparsemaxData low from to data = Some out.
Proof. intros. rewrite sparsemaxData_ok by assumption. eauto. Qed.
Print Assumptions C26_sparsemax_total.

Example sparsemax_rows_ex : exists out, sparsemaxData 0 2 2 [5; 9; 0; 0] = Some out /\ out = [0; 1; 1/2; 1/2].
Proof.
  eexists. split; [apply sparsemaxData_ok; reflexivity|]. cbn [flat_map seq chunk firstn skipn app Nat.mul Nat.add].
  unfold chunk. cbn [firstn skipn Nat.mul Nat.add].
  rewrite (sparsemaxRow_eq 0 [5; 9] 8), (sparsemaxRow_eq 0 [0; 0] (-1/2)); try discriminate;
  cbn [map total app]; unfold clip, gtR; repeat destruct (Rlt_dec _ _); try lra; repeat (apply f_equal2; [lra|]); reflexivity.
Qed.

(** The gradient operator is right: at a row with no value on the threshold, the
    output moves along every direction [u] exactly linearly, and pulling back a
    gradient [g] through that linear map is what the operator computes. *)
Theorem C26_gradient : forall low row u g tau,
  row <> [] -> length u = length row -> length g = length row ->
  sparsemaxRow low row = map (fun v => Rmax 0 (v - tau)) row -> (forall v, In v row -> v <> tau) ->
  exists w d, length w = length row /\ 0 < d /\
    (forall t, Rabs t < d -> sparsemaxRow low (along row u t) = along (sparsemaxRow low row) w t) /\
    inner u (sparsemaxDiffRow (sparsemaxRow low row) g) = inner w g.
Proof.
  intros low row u g tau Ne Lu Lg Et Ht.
  assert (Ec : map (fun v => Rmax 0 (v - tau)) row = map (clip tau) row).
  { apply map_ext. intro v. unfold clip, Rmax. destruct (Rle_dec 0 (v - tau)) as [E|E];
      destruct (gtR (v - tau) 0) eqn:F; rewrite ?gtR_true, ?gtR_false in *; lra. }
  rewrite Ec in Et.
  assert (S1 : total (map (clip tau) row) = 1).
  { rewrite <- Et. destruct (C26_row_is_projection low row Ne) as (_ & [_ T] & _). exact T. }
  set (m := map (supp tau) row). set (c := inner m u / total m).
  assert (Lm : length m = length u) by (unfold m; rewrite map_length; congruence).
  assert (Pm : 0 < total m) by (apply supp_total_pos, S1).
  set (w := map (fun p => fst p * (snd p - c)) (combine m u)).
  assert (Lw : length w = length row).
  { unfold w. rewrite map_length, combine_length, Lm, Nat.min_id. exact Lu. }
  destruct (clip_along tau c row u Ht (eq_sym Lu)) as [d [D H]].
  exists w, d. split; [exact Lw|]. split; [exact D|]. split.
  - intros t T. specialize (H t T). rewrite (sparsemaxRow_eq low (along row u t) (tau + t * c)).
    + rewrite Et. exact H.
    + intro Z. assert (Q := along_length row u t (eq_sym Lu)). rewrite Z in Q. destruct row; [congruence|]. cbn in *. lia.
    + rewrite H. fold m. fold w. rewrite total_along by (rewrite map_length; congruence).
      rewrite S1. unfold w. rewrite total_mask by exact Lm. unfold c. field. lra.
  - rewrite Et, sparsemaxDiffRow_mask by assumption. apply centring_symmetric; [exact Lm|congruence].
Qed.
Print Assumptions C26_gradient.

Example sparsemax_gradient_ex :
  sparsemaxRow 0 [3; 2.5; 0] = map (fun v => Rmax 0 (v - 2.25)) [3; 2.5; 0] /\
  (forall v, In v [3; 2.5; 0] -> v <> 2.25) /\
  sparsemaxDiffRow (sparsemaxRow 0 [3; 2.5; 0]) [1; 5; 7] = [-2; 2; 0].
Proof.
  assert (E : sparsemaxRow 0 [3; 2.5; 0] = [0.75; 0.25; 0]).
  { rewrite (sparsemaxRow_eq 0 _ 2.25); [|discriminate|];
      cbn [map total]; unfold clip, gtR; repeat destruct (Rlt_dec _ _); try lra; repeat (apply f_equal2; [lra|]); reflexivity. }
  rewrite E. split; [|split].
  - cbn [map]. unfold Rmax. repeat destruct (Rle_dec _ _); try lra; repeat (apply f_equal2; [lra|]); reflexivity.
  - intros v [<-|[<-|[<-|[]]]]; lra.
  - unfold sparsemaxDiffRow. cbn [map combine fst snd]. unfold nonZero, sumR.
    repeat destruct (Req_EM_T _ 0); try lra. cbn [fold_left]. repeat (apply f_equal2; [lra|]); reflexivity.
Qed.

(** With axis 0 the result is not normalised along axis 0. *)
Theorem C26_axis0_refuted : exists low data out,
  length data = 4%nat /\ sparsemaxAxis0 low 2 2 data = Some out /\
  nth 0 out 0 + nth 2 out 0 <> 1.
Proof.
  exists 0, [5; 9; 0; 0]. eexists. split; [reflexivity|]. split; [apply sparsemaxData_ok; reflexivity|].
  cbn [flat_map seq transposeData map nth app Nat.mul Nat.add]. unfold chunk. cbn [firstn skipn Nat.mul Nat.add].
  rewrite (sparsemaxRow_eq 0 [5; 0] 4), (sparsemaxRow_eq 0 [9; 0] 8); try discriminate;
  cbn [map total app nth]; unfold clip, gtR; repeat destruct (Rlt_dec _ _); lra.
Qed.
Print Assumptions C26_axis0_refuted.
