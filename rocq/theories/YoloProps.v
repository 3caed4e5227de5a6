(** C86: YOLOv3 outside training decodes the boxes of one square image, but with the first
    anchors instead of those of the masks, and destroys its input. *)
From Coq Require Import List ZArith QArith Bool Arith Lia Field.
From Verif Require Import BroadcastModel ShapeGradModel YoloModel YoloSpec YoloProofs.
Import ListNotations.
Local Open Scope nat_scope.

(** Masks that pass the check, no more of them than anchors. *)
Definition masks_ok (op : yoloOp) : Prop :=
  masks op <> [] /\ Forall (fun m => m < Z.of_nat (length (anchors op) / 2))%Z (masks op) /\ length (masks op) * 2 <= length (anchors op).

Theorem C86_detections : forall sg ex op t G,
  let A := length (masks op) in let attrs := 5 + numClasses op in
  masks_ok op -> 0 < G <= dimensions op -> ysh t = [1; A * attrs; G; G] ->
  exists out, yoloDo sg ex op t = (out, Ok out) /\ ysh out = [1; G * G * A; attrs] /\
    yoloShape false op (ysh t) = Ok (ysh out) /\
    forall gy gx n j, gy < G -> gx < G -> n < A -> j < attrs ->
      (ydat out (((gy * G + gx) * A + n) * attrs + j) ==
       box sg ex (fun j => ydat t (((n * attrs + j) * G + gy) * G + gx)) (qn gx) (qn gy) (qn (dimensions op / G))
           (nth (2 * n) (anchors op) 0) (nth (2 * n + 1) (anchors op) 0) j)%Q.
Proof.
  intros sg ex op t G A attrs (N & F & L) HG E.
  assert (HA : 0 < A) by (unfold A; destruct (masks op); [congruence|cbn; lia]).
  pose proof (current_ok (anchors op) (masks op) 0 F ltac:(lia)) as C. cbn [Nat.mul skipn] in C.
  destruct (evaluate_ok sg ex t (dimensions op / G) G attrs A (firstn (A * 2) (anchors op)) ltac:(unfold attrs; lia) HA) as (out & Ev & Sh & V).
  { rewrite E, prodn4. nia. }
  exists out. split; [|split; [exact Sh|split]].
  - unfold yoloDo. rewrite E. replace (Nat.eqb G 0) with false by (symmetry; apply Nat.eqb_neq; lia).
    rewrite C. fold A. fold attrs. rewrite Ev. reflexivity.
  - rewrite E, Sh. unfold yoloShape. fold A. replace (Nat.eqb A 0) with false by (symmetry; apply Nat.eqb_neq; lia).
    do 4 f_equal. rewrite Nat.mul_comm, Nat.div_mul by lia. reflexivity.
  - intros gy gx n j Hy Hx Hn Hj. pose proof (lt_mul G G gy gx Hy Hx) as P.
    pose proof (lt_mul (G * G) A (gy * G + gx) n P Hn) as R.
    rewrite V by assumption. rewrite moved_at by assumption.
    replace ((n * attrs + j) * (G * G) + (gy * G + gx)) with (((n * attrs + j) * G + gy) * G + gx) by lia.
    assert (c1 : ((gy * G + gx) * A + n) / (G * A) = gy).
    { replace ((gy * G + gx) * A + n) with (gy * (G * A) + (gx * A + n)) by lia. apply dm_row. apply lt_mul; lia. }
    assert (c0 : ((gy * G + gx) * A + n) mod (G * A) / A = gx).
    { replace ((gy * G + gx) * A + n) with (gy * (G * A) + (gx * A + n)) by lia. rewrite dm_col by (apply lt_mul; lia). apply dm_row. lia. }
    assert (S0 : ~ (qn (dimensions op / G) == 0)%Q).
    { unfold qn. assert (0 < dimensions op / G) by (apply Nat.div_str_pos; lia). unfold Qeq, inject_Z. cbn. lia. }
    assert (Len : length (firstn (A * 2) (anchors op)) = A * 2) by (apply firstn_length_le; unfold A; lia).
    assert (Ix : forall i, i < 2 -> nth ((((gy * G + gx) * A + n) * 2 + i) mod length (firstn (A * 2) (anchors op))) (firstn (A * 2) (anchors op)) 0%Q = nth (2 * n + i) (anchors op) 0%Q).
    { intros i Hi. rewrite Len. replace (((gy * G + gx) * A + n) * 2 + i) with ((gy * G + gx) * (A * 2) + (n * 2 + i)) by lia.
      rewrite dm_col by nia. rewrite nth_firstn by nia. f_equal. lia. }
    unfold decoded. rewrite c0, c1. destruct j as [|[|[|[|j]]]]; cbn [box]; try reflexivity.
    + change (2 - 2) with 0. rewrite (Ix 0 ltac:(lia)). rewrite Nat.add_0_r. field. exact S0.
    + change (3 - 2) with 1. rewrite (Ix 1 ltac:(lia)). field. exact S0.
Qed.
Print Assumptions C86_detections.

(** Two anchors of one class on a grid of 2 by 2, for a net of 8 by 8. *)
Definition exOp := Yolo [10; 13; 16; 30]%Q [0; 1]%Z (7 # 10) 8 1.
Definition exIn := Yt [1; 12; 2; 2] (fun k => inject_Z (Z.of_nat k)).
Definition exSg (q : Q) : Q := (q / 2)%Q.
Example C86_ex_decoded : masks_ok exOp /\
  let out := fst (yoloDo exSg (fun q => q) exOp exIn) in
  ysh out = [1; 8; 6] /\ (forall j, j < 6 -> nth j (entries out) 0%Q = ydat out j) /\
  map (fun j => Qred (ydat out (3 * 6 + j))) (seq 0 6) = [54; 58; 528; 1110; 41 # 2; 45 # 2]%Q /\
  map (fun j => Qred (box exSg (fun q => q) (fun j => ydat exIn (((6 + j) * 2 + 0) * 2 + 1)) 1%Q 0%Q 4%Q 16%Q 30%Q j)) (seq 0 6) = [54; 58; 528; 1110; 41 # 2; 45 # 2]%Q.
Proof.
  split; [repeat split; [discriminate|repeat constructor|cbn; lia]|]. split; [reflexivity|]. split; [|split; reflexivity].
  intros j Hj. do 6 (destruct j; [reflexivity|]). lia.
Qed.

(** The masks choose nothing: any others that pass the check give the same boxes. *)
Theorem C86_masks_unused : forall sg ex op ms t, masks_ok op -> length ms = length (masks op) ->
  Forall (fun m => m < Z.of_nat (length (anchors op) / 2))%Z ms ->
  yoloDo sg ex (Yolo (anchors op) ms (ignoreTresh op) (dimensions op) (numClasses op)) t = yoloDo sg ex op t.
Proof.
  intros sg ex op ms t (N & F & L) E F'. unfold yoloDo. cbn [anchors masks dimensions numClasses].
  rewrite (current_ok (anchors op) ms 0), (current_ok (anchors op) (masks op) 0) by (try assumption; lia). rewrite E. reflexivity.
Qed.
Print Assumptions C86_masks_unused.

(** So the width is not that of the anchor the mask names. *)
Theorem C86_masks_refuted :
  ~ (forall sg ex op t G, masks_ok op -> 0 < G <= dimensions op -> ysh t = [1; length (masks op) * (5 + numClasses op); G; G] ->
     forall gy gx n, gy < G -> gx < G -> n < length (masks op) ->
       (ydat (fst (yoloDo sg ex op t)) (((gy * G + gx) * length (masks op) + n) * (5 + numClasses op) + 2) ==
        ex (ydat t (((n * (5 + numClasses op) + 2) * G + gy) * G + gx)) * nth (2 * Z.to_nat (nth n (masks op) 0%Z)) (anchors op) 0)%Q).
Proof.
  intro H.
  specialize (H (fun q => q) (fun q => q) (Yolo [10; 13; 16; 30]%Q [1]%Z (7 # 10) 8 0) (Yt [1; 5; 1; 1] (fun _ => 1%Q)) 1).
  specialize (H ltac:(repeat split; [discriminate|repeat constructor|cbn; lia]) ltac:(cbn; lia) eq_refl 0 0 0 ltac:(lia) ltac:(lia) ltac:(cbn; lia)).
  vm_compute in H. discriminate H.
Qed.
Print Assumptions C86_masks_refuted.

(** More masks than anchors, each in bounds: a crash. One out of bounds: an error. *)
Theorem C86_bad_masks : forall sg ex op t b c G w, ysh t = [b; c; G; w] -> 0 < G ->
  (Forall (fun m => m < Z.of_nat (length (anchors op) / 2))%Z (masks op) -> length (anchors op) < length (masks op) * 2 -> yoloDo sg ex op t = (t, Panic)) /\
  (Exists (fun m => Z.of_nat (length (anchors op) / 2) <= m)%Z (masks op) -> length (masks op) * 2 <= length (anchors op) -> yoloDo sg ex op t = (t, Err)).
Proof.
  intros sg ex op t b c G w E HG. unfold yoloDo. rewrite E. replace (Nat.eqb G 0) with false by (symmetry; apply Nat.eqb_neq; lia). split; intros F L.
  - rewrite (current_panic (anchors op) (masks op) 0); [reflexivity|exact F|lia|]. intros X. rewrite X in L. cbn in L. lia.
  - rewrite (current_refused (anchors op) (masks op) 0); [reflexivity|exact F|lia].
Qed.
Print Assumptions C86_bad_masks.
Example C86_ex_bad : yoloDo exSg exSg (Yolo [10; 13]%Q [0; 0]%Z 0%Q 8 1) exIn = (exIn, Panic) /\
  yoloDo exSg exSg (Yolo [10; 13; 16; 30]%Q [1; 2]%Z 0%Q 8 1) exIn = (exIn, Err).
Proof. split; reflexivity. Qed.

(** The input node's tensor is the result: its numbers and its shape are gone, and running
    again on it is an error. *)
Theorem C86_input_destroyed : forall sg ex op t G,
  masks_ok op -> 0 < G <= dimensions op -> ysh t = [1; length (masks op) * (5 + numClasses op); G; G] ->
  let t' := fst (yoloDo sg ex op t) in
  snd (yoloDo sg ex op t) = Ok t' /\ ysh t' <> ysh t /\ yoloDo sg ex op t' = (t', Err).
Proof.
  intros sg ex op t G M HG E. destruct (C86_detections sg ex op t G M HG E) as (out & D & Sh & _). rewrite D. cbn [fst snd].
  split; [reflexivity|]. rewrite Sh, E. split; [discriminate|]. unfold yoloDo. rewrite Sh. reflexivity.
Qed.
Print Assumptions C86_input_destroyed.
Example C86_ex_destroyed : ysh exIn = [1; 12; 2; 2] /\ ysh (fst (yoloDo exSg (fun q => q) exOp exIn)) = [1; 8; 6] /\
  snd (yoloDo exSg (fun q => q) exOp (fst (yoloDo exSg (fun q => q) exOp exIn))) = Err.
Proof. repeat split. Qed.

(** More than one image: an error, although the shape is inferred, and the input has been
    decoded halfway. *)
Theorem C86_batch_refused : forall sg ex op t G B,
  let A := length (masks op) in let attrs := 5 + numClasses op in
  masks_ok op -> 0 < G -> 2 <= B -> ysh t = [B; A * attrs; G; G] ->
  (exists s, yoloShape false op (ysh t) = Ok s) /\
  snd (yoloDo sg ex op t) = Err /\ ysh (fst (yoloDo sg ex op t)) = [B; G * G * A; attrs].
Proof.
  intros sg ex op t G B A attrs (N & F & L) HG HB E.
  assert (HA : 0 < A) by (unfold A; destruct (masks op); [congruence|cbn; lia]).
  split. { rewrite E. unfold yoloShape. fold A. replace (Nat.eqb A 0) with false by (symmetry; apply Nat.eqb_neq; lia). eexists. reflexivity. }
  unfold yoloDo. rewrite E. replace (Nat.eqb G 0) with false by (symmetry; apply Nat.eqb_neq; lia).
  rewrite (current_ok (anchors op) (masks op) 0) by (try assumption; lia). fold A. fold attrs. unfold evaluate.
  rewrite regroup_ok by (rewrite E, prodn4; nia). cbn [negb]. replace (Nat.eqb B 1) with false by (symmetry; apply Nat.eqb_neq; lia). cbn [negb fst snd].
  split; [reflexivity|]. rewrite !onSlice_sh, loop_sh, !onSlice_sh. reflexivity.
Qed.
Print Assumptions C86_batch_refused.
Example C86_ex_batch : snd (yoloDo exSg exSg exOp (Yt [2; 12; 2; 2] (fun k => inject_Z (Z.of_nat k)))) = Err.
Proof. reflexivity. Qed.

(** An image that is not square is refused unless the sizes happen to agree; then the
    value has another shape than inferred. *)
Theorem C86_not_square : forall sg ex op t b c G w, ysh t = [b; c; G; w] -> masks_ok op -> 0 < G ->
  b * c * G * w <> b * ((5 + numClasses op) * length (masks op)) * (G * G) -> yoloDo sg ex op t = (t, Err).
Proof.
  intros sg ex op t b c G w E (N & F & L) HG D. unfold yoloDo. rewrite E. replace (Nat.eqb G 0) with false by (symmetry; apply Nat.eqb_neq; lia).
  rewrite (current_ok (anchors op) (masks op) 0) by (try assumption; lia). unfold evaluate. rewrite regroup_bad; [reflexivity|]. rewrite E, prodn4. exact D.
Qed.
Print Assumptions C86_not_square.
Theorem C86_shape_refuted :
  ~ (forall sg ex op t out s, masks_ok op -> snd (yoloDo sg ex op t) = Ok out -> yoloShape false op (ysh t) = Ok s -> ysh out = s).
Proof.
  intro H. specialize (H (fun q => q) (fun q => q) (Yolo [10; 13]%Q [0]%Z 0%Q 8 1) (Yt [1; 3; 2; 4] (fun _ => 0%Q))).
  specialize (H _ _ ltac:(repeat split; [discriminate|repeat constructor|cbn; lia]) eq_refl eq_refl). discriminate H.
Qed.
Print Assumptions C86_shape_refuted.
Example C86_ex_not_square : yoloDo exSg exSg exOp (Yt [1; 12; 2; 3] (fun _ => 0%Q)) = (Yt [1; 12; 2; 3] (fun _ => 0%Q), Err).
Proof. apply (C86_not_square exSg exSg exOp _ 1 12 2 3); [reflexivity|repeat split; [discriminate|repeat constructor|cbn; lia]|lia|cbn; lia]. Qed.
