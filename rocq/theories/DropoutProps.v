(** C27 (dropout) and C43 (minimum and maximum of two nodes). *)
From Coq Require Import Arith Reals List Bool Lia Lra.
From Verif Require Import LoopModel LoopProofs DropoutModel DropoutSpec.
Import ListNotations.
Local Open Scope R_scope.

Lemma ltR_true x y : ltR x y = true <-> x < y.
Proof. unfold ltR. destruct (Rlt_dec x y); split; intro; try lra; try discriminate; auto. Qed.
Lemma ltR_false x y : ltR x y = false <-> y <= x.
Proof. unfold ltR. destruct (Rlt_dec x y); split; intro; try lra; try discriminate; auto. Qed.
Lemma isZero_true x : isZero x = true <-> x = 0.
Proof. unfold isZero. destruct (Req_EM_T x 0); split; intro; try lra; try discriminate; auto. Qed.
Lemma isZero_false x : isZero x = false <-> x <> 0.
Proof. unfold isZero. destruct (Req_EM_T x 0); split; intro; try lra; try discriminate; auto. Qed.

Definition keep (p : R) (rnd : nat -> R) (i : nat) : bool := ltR (rnd i) (1 - p).

(** A loop that rewrites entry i at step i. *)
Lemma rewrite_loop (n : nat) (f : nat -> R -> R) (body : nat -> list R -> option (list R)) (init : list R) :
  length init = n ->
  (forall i out, (i < n)%nat -> length out = n -> nth_error out i = nth_error init i ->
     exists out', body i out = Some out' /\ length out' = n /\ nth_error out' i = Some (f i (nth i init 0)) /\
       forall j, j <> i -> nth_error out' j = nth_error out j) ->
  loop n body init = Some (map (fun i => f i (nth i init 0)) (seq 0 n)).
Proof.
  intros L H. unfold loop.
  assert (G : forall m, (m <= n)%nat -> exists out, foldM body (seq 0 m) init = Some out /\ length out = n /\
    (forall j, (j < m)%nat -> nth_error out j = Some (f j (nth j init 0))) /\
    (forall j, (m <= j)%nat -> nth_error out j = nth_error init j)).
  { induction m as [|m IH]; intro Hm.
    - exists init. cbn. repeat split; auto. intros; lia.
    - destruct (IH ltac:(lia)) as (out & E & Lo & A & B).
      destruct (H m out ltac:(lia) Lo (B m ltac:(lia))) as (o' & E' & L' & V & N).
      exists o'. rewrite seq_S, foldM_app, E. cbn [foldM Nat.add]. rewrite E'. repeat split; auto.
      + intros j Hj. destruct (Nat.eq_dec j m) as [->|D]; [exact V|]. rewrite N by exact D. apply A. lia.
      + intros j Hj. rewrite N by lia. apply B. lia. }
  destruct (G n ltac:(lia)) as (out & -> & Lo & A & _). f_equal.
  apply nth_ext with (d := 0) (d' := 0); [rewrite map_length, seq_length; exact Lo|].
  intros j Hj. rewrite Lo in Hj.
  rewrite (nth_error_nth _ _ _ (A j Hj)).
  symmetry. apply nth_error_nth. rewrite nth_error_map, nth_seq0 by exact Hj. reflexivity.
Qed.

Lemma dropoutLoop_ok p rnd input :
  dropoutLoop p rnd input (repeat 0 (length input)) =
  Some (map (fun i => if keep p rnd i then nth i input 0 / (1 - p) else 0) (seq 0 (length input))).
Proof.
  unfold dropoutLoop.
  rewrite (rewrite_loop (length input) (fun i old => if keep p rnd i then nth i input 0 / (1 - p) else old)).
  - f_equal. apply map_ext_in. intros i Hi. apply in_seq in Hi. rewrite nth_repeat. reflexivity.
  - apply repeat_length.
  - intros i out Hi Lo E0. unfold aget. rewrite (nth_error_nth' input 0 Hi). fold (keep p rnd i).
    destruct (keep p rnd i).
    + destruct (aset_some out i (nth i input 0 / (1 - p)) ltac:(lia)) as (o & E & L & V & N).
      exists o. rewrite E. repeat split; auto; congruence.
    + exists out. repeat split; auto. rewrite E0. apply nth_error_nth'. rewrite repeat_length. exact Hi.
Qed.

(** In training every entry is kept and divided by 1-p, or dropped, as the stream
    decides. *)
Theorem C27_output : forall op rnd x out i,
  isTraining op = true -> probability op <> 0 -> dropoutDo op rnd x = Some out -> (i < length x)%nat ->
  length out = length x /\
  (rnd i < 1 - probability op -> nth i out 0 = nth i x 0 / (1 - probability op)) /\
  (1 - probability op <= rnd i -> nth i out 0 = 0).
Proof.
  intros op rnd x out i T P E Hi. unfold dropoutDo in E. rewrite T in E. apply isZero_false in P. rewrite P in E.
  cbn [orb negb] in E. rewrite dropoutLoop_ok in E. injection E as <-.
  rewrite map_length, seq_length. split; [reflexivity|].
  assert (V : forall v, (if keep (probability op) rnd i then nth i x 0 / (1 - probability op) else 0) = v ->
    nth i (map (fun i => if keep (probability op) rnd i then nth i x 0 / (1 - probability op) else 0) (seq 0 (length x))) 0 = v).
  { intros v <-. apply nth_error_nth. rewrite nth_error_map, nth_seq0 by exact Hi. reflexivity. }
  split; intro H; apply V; unfold keep.
  - apply ltR_true in H. rewrite H. reflexivity.
  - apply ltR_false in H. rewrite H. reflexivity.
Qed.
Print Assumptions C27_output.

Theorem C27_total : forall op rnd x, exists out, dropoutDo op rnd x = Some out.
Proof.
  intros op rnd x. unfold dropoutDo. destruct (_ || _); [eauto|]. rewrite dropoutLoop_ok. eauto.
Qed.
Print Assumptions C27_total.

(** Out of training, or with probability 0, nothing changes. *)
Theorem C27_identity : forall op rnd x, isTraining op = false \/ probability op = 0 -> dropoutDo op rnd x = Some x.
Proof.
  intros op rnd x H. unfold dropoutDo. destruct (isZero (probability op)) eqn:E; [reflexivity|].
  apply isZero_false in E. destruct H as [H|H]; [rewrite H; reflexivity|contradiction].
Qed.
Print Assumptions C27_identity.

Definition op25 := {| probability := 1/4; isTraining := true |}.
Example dropout_ex : dropoutDo op25 (fun i => match i with 1%nat => 9/10 | _ => 1/10 end) [3; 5; 6] = Some [4; 0; 8].
Proof.
  unfold dropoutDo, op25. cbn [probability isTraining].
  assert (E : isZero (1/4) = false) by (apply isZero_false; lra). rewrite E. cbn [orb negb].
  rewrite dropoutLoop_ok. cbn [length seq map nth].
  assert (K : ltR (1/10) (1 - 1/4) = true) by (apply ltR_true; lra).
  assert (K' : ltR (9/10) (1 - 1/4) = false) by (apply ltR_false; lra).
  unfold keep. rewrite K, K'. apply f_equal. repeat (apply f_equal2; [lra|]). reflexivity.
Qed.

(** With a preallocated output it always panics in training. *)
Theorem C27_prealloc_panics : forall op rnd pre x,
  isTraining op = true -> probability op <> 0 -> dropoutPrealloc op rnd pre x = None.
Proof.
  intros op rnd pre x T P. unfold dropoutPrealloc. rewrite T. apply isZero_false in P. rewrite P. reflexivity.
Qed.
Print Assumptions C27_prealloc_panics.

(** ** The gradient *)
Lemma dropoutDiff_ok op pre out g : probability op <> 0 -> length out = length g -> length pre = length g ->
  dropoutDiff op pre out g =
  Some (map (fun i => if isZero (nth i out 0) then 0 else nth i g 0 / probability op) (seq 0 (length g))).
Proof.
  intros P L1 L2. unfold dropoutDiff.
  rewrite (rewrite_loop (length g) (fun i _ => if isZero (nth i out 0) then 0 else nth i g 0 / probability op)); [reflexivity|exact L2|].
  intros i o Hi Lo _. apply isZero_false in P. rewrite P. cbn [negb]. unfold aget.
  rewrite (nth_error_nth' out 0) by lia. rewrite (nth_error_nth' g 0) by lia.
  destruct (aset_some o i (if negb (isZero (nth i out 0)) then nth i g 0 / probability op else 0) ltac:(lia)) as (o' & E & L & V & N).
  exists o'. rewrite E. repeat split; [congruence| |exact N]. rewrite V. destruct (isZero (nth i out 0)); reflexivity.
Qed.

Lemma ip_map (f h : nat -> R) (n : nat) : forall lo,
  ip (map f (seq lo n)) (map h (seq lo n)) = fold_right Rplus 0 (map (fun i => f i * h i) (seq lo n)).
Proof. induction n as [|n IH]; intro lo; cbn; [reflexivity|]. rewrite IH. reflexivity. Qed.

Lemma list_as_map (x : list R) : x = map (fun i => nth i x 0) (seq 0 (length x)).
Proof.
  apply nth_ext with (d := 0) (d' := 0); [rewrite map_length, seq_length; reflexivity|].
  intros j Hj. symmetry. apply nth_error_nth. rewrite nth_error_map, nth_seq0 by exact Hj. reflexivity.
Qed.

Lemma nth_shifted x u t i : length u = length x -> nth i (shifted x u t) 0 = nth i x 0 + t * nth i u 0.
Proof.
  revert u i. induction x as [|a x IH]; intros [|b u] i L; cbn in L; try discriminate; [destruct i; cbn; lra|].
  destruct i; cbn; [reflexivity|]. apply IH. lia.
Qed.
Lemma shifted_length x u t : length u = length x -> length (shifted x u t) = length x.
Proof. revert u. induction x as [|a x IH]; intros [|b u] L; cbn in *; try discriminate; auto. Qed.

Lemma ip_fold p q n : length p = n -> length q = n ->
  ip p q = fold_right Rplus 0 (map (fun i => nth i p 0 * nth i q 0) (seq 0 n)).
Proof.
  intros <- L. rewrite (list_as_map p) at 1. rewrite (list_as_map q) at 1. rewrite L. apply ip_map.
Qed.

Lemma fold_lin (f h : nat -> R) t L :
  fold_right Rplus 0 (map (fun i => f i + t * h i) L) = fold_right Rplus 0 (map f L) + t * fold_right Rplus 0 (map h L).
Proof. induction L as [|a L IH]; cbn; [lra|]. rewrite IH. lra. Qed.

(** The dropout map of a fixed stream. *)
Definition dropped (op : dropout) (rnd : nat -> R) (x : list R) : list R :=
  match dropoutDo op rnd x with Some o => o | None => [] end.

Lemma dropped_eq op rnd x : isTraining op = true -> probability op <> 0 ->
  dropped op rnd x = map (fun i => if keep (probability op) rnd i then nth i x 0 / (1 - probability op) else 0) (seq 0 (length x)).
Proof.
  intros T P. unfold dropped, dropoutDo. rewrite T. apply isZero_false in P. rewrite P. cbn [orb negb].
  rewrite dropoutLoop_ok. reflexivity.
Qed.

(** The true gradient. *)
Lemma dropped_gradient op rnd x g d : isTraining op = true -> probability op <> 0 ->
  length g = length x -> length d = length x ->
  (is_gradient (dropped op rnd) x g d <->
   d = map (fun i => if keep (probability op) rnd i then nth i g 0 / (1 - probability op) else 0) (seq 0 (length x))).
Proof.
  intros T P Lg Ld. set (n := length x). set (p := probability op).
  set (true_d := map (fun i => if keep p rnd i then nth i g 0 / (1 - p) else 0) (seq 0 n)).
  assert (Lt : length true_d = n) by (unfold true_d; rewrite map_length, seq_length; reflexivity).
  assert (D : forall u, length u = n -> derivable_pt_lim (fun t => ip (dropped op rnd (shifted x u t)) g) 0 (ip u true_d)).
  { intros u Lu.
    assert (E : forall t, ip (dropped op rnd (shifted x u t)) g = ip (dropped op rnd x) g + t * ip u true_d).
    { intro t. rewrite !dropped_eq by assumption. rewrite shifted_length by exact Lu. fold n. fold p.
      rewrite !(ip_fold _ g n) by (try rewrite map_length, seq_length; auto).
      rewrite (ip_fold u true_d n) by assumption.
      rewrite <- fold_lin. f_equal. apply map_ext_in. intros i Hi. apply in_seq in Hi.
      assert (N : forall h, nth i (map h (seq 0 n)) 0 = h i).
      { intro h. apply nth_error_nth. rewrite nth_error_map, nth_seq0 by lia. reflexivity. }
      unfold true_d. rewrite !N. rewrite nth_shifted by exact Lu.
      destruct (keep p rnd i); unfold Rdiv; ring. }
    intros eps He. exists (mkposreal 1 Rlt_0_1). intros h Hh _. rewrite !E.
    replace ((ip (dropped op rnd x) g + (0 + h) * ip u true_d - (ip (dropped op rnd x) g + 0 * ip u true_d)) / h - ip u true_d)
      with 0 by (field; exact Hh). rewrite Rabs_R0. exact He. }
  split.
  - intros [_ H].
    assert (Q : forall u, length u = n -> ip u d = ip u true_d).
    { intros u Lu. eapply uniqueness_limite; [apply H, Lu|apply D, Lu]. }
    apply nth_ext with (d := 0) (d' := 0); [rewrite Lt; exact Ld|].
    intros j Hj. fold true_d.
    assert (B : forall q, length q = n -> ip (map (fun i => if i =? j then 1 else 0) (seq 0 n)) q = nth j q 0).
    { intros q Lq. rewrite (ip_fold _ q n) by (try rewrite map_length, seq_length; auto).
      transitivity (fold_right Rplus 0 (map (fun i => if i =? j then nth i q 0 else 0) (seq 0 n))).
      - f_equal. apply map_ext_in. intros i Hi. apply in_seq in Hi.
        rewrite (nth_error_nth (map (fun i => if i =? j then 1 else 0) (seq 0 n)) i 0 (x := if i =? j then 1 else 0))
          by (rewrite nth_error_map, nth_seq0 by lia; reflexivity).
        destruct (i =? j); ring.
      - assert (G : forall m lo, fold_right Rplus 0 (map (fun i => if i =? j then nth i q 0 else 0) (seq lo m)) =
                    if (lo <=? j) && (j <? lo + m) then nth j q 0 else 0).
        { induction m as [|m IHm]; intro lo; cbn [seq map fold_right].
          - destruct (Nat.leb_spec lo j); destruct (Nat.ltb_spec j (lo + 0)); cbn; try reflexivity; lia.
          - rewrite IHm. destruct (Nat.eqb_spec lo j) as [->|Ne].
            + destruct (Nat.leb_spec (S j) j); [lia|]. cbn [andb]. destruct (Nat.leb_spec j j); [|lia].
              destruct (Nat.ltb_spec j (j + S m)); [|lia]. cbn [andb]. lra.
            + destruct (Nat.leb_spec (S lo) j); destruct (Nat.leb_spec lo j); try lia; cbn [andb];
              destruct (Nat.ltb_spec j (S lo + m)); destruct (Nat.ltb_spec j (lo + S m)); try lia; lra. }
        rewrite G. cbn [Nat.leb andb Nat.add]. destruct (Nat.ltb_spec j n); [reflexivity|unfold n in *; lia]. }
    rewrite <- (B d Ld), <- (B true_d Lt). apply Q. rewrite map_length, seq_length. reflexivity.
  - intros ->. split; [exact Lt|exact D].
Qed.

(** What the operator computes is the gradient for every input without zeros and
    every stream exactly if p = 1/2. *)
Theorem C27_gradient_right_iff_half : forall op, isTraining op = true -> 0 < probability op < 1 ->
  ((forall rnd x g pre out d, length g = length x -> length pre = length x -> (forall v, In v x -> v <> 0) ->
      dropoutDo op rnd x = Some out -> dropoutDiff op pre out g = Some d ->
      is_gradient (dropped op rnd) x g d)
   <-> probability op = 1/2).
Proof.
  intros op T P. assert (Pz : probability op <> 0) by lra.
  assert (Diff : forall rnd x g pre out, length g = length x -> length pre = length x ->
    dropoutDo op rnd x = Some out ->
    dropoutDiff op pre out g = Some (map (fun i => if isZero (nth i (dropped op rnd x) 0) then 0 else nth i g 0 / probability op) (seq 0 (length g)))).
  { intros rnd x g pre out Lg Lp E. rewrite dropoutDiff_ok; [unfold dropped; rewrite E; reflexivity|assumption| |congruence].
    assert (Q := dropped_eq op rnd x T Pz). unfold dropped in Q. rewrite E in Q. rewrite Q, map_length, seq_length. congruence. }
  split.
  - intro H. specialize (H (fun _ => 0) [1] [1] [0]).
    destruct (C27_total op (fun _ => 0) [1]) as [out E].
    specialize (H out _ eq_refl eq_refl ltac:(intros v [<-|[]]; lra) E (Diff (fun _ => 0) [1] [1] [0] out eq_refl eq_refl E)).
    apply dropped_gradient in H; auto. rewrite (dropped_eq op) in H by assumption. cbn [length seq map nth] in H.
    assert (K : keep (probability op) (fun _ => 0) 0 = true) by (apply ltR_true; lra).
    rewrite K in H. injection H as H.
    assert (Z : isZero (1 / (1 - probability op)) = false).
    { apply isZero_false. apply Rgt_not_eq. unfold Rdiv. rewrite Rmult_1_l. apply Rinv_0_lt_compat. lra. }
    rewrite Z in H.
    assert (H2 : probability op = 1 - probability op).
    { unfold Rdiv in H. rewrite !Rmult_1_l in H. apply (f_equal Rinv) in H. rewrite !Rinv_inv in H. exact H. }
    lra.
  - intros Hp rnd x g pre out d Lg Lp Nz E Ed.
    rewrite (Diff rnd x g pre out Lg Lp E) in Ed. injection Ed as <-.
    apply dropped_gradient; auto; [rewrite map_length, seq_length; exact Lg|].
    rewrite Lg. apply map_ext_in. intros i Hi. apply in_seq in Hi.
    rewrite dropped_eq by assumption.
    rewrite (nth_error_nth _ i 0 (x := if keep (probability op) rnd i then nth i x 0 / (1 - probability op) else 0))
      by (rewrite nth_error_map, nth_seq0 by lia; reflexivity).
    destruct (keep (probability op) rnd i).
    + assert (Z : isZero (nth i x 0 / (1 - probability op)) = false).
      { apply isZero_false. unfold Rdiv. apply Rmult_integral_contrapositive_currified; [|apply Rinv_neq_0_compat; lra].
        apply Nz, nth_In. lia. }
      rewrite Z. rewrite Hp. f_equal. lra.
    + assert (Z : isZero 0 = true) by (apply isZero_true; reflexivity). rewrite Z. reflexivity.
Qed.
Print Assumptions C27_gradient_right_iff_half.

(** A kept zero gets no gradient, whatever p is. *)
Theorem C27_zero_input_refuted : exists op rnd x g pre out d,
  isTraining op = true /\ probability op = 1/2 /\
  dropoutDo op rnd x = Some out /\ dropoutDiff op pre out g = Some d /\ length g = length x /\
  ~ is_gradient (dropped op rnd) x g d.
Proof.
  set (op := {| probability := 1/2; isTraining := true |}).
  assert (P : probability op <> 0) by (cbn; lra).
  destruct (C27_total op (fun _ => 0) [0]) as [out E].
  assert (Eo : out = [0]).
  { assert (Q := dropped_eq op (fun _ => 0) [0] eq_refl P). unfold dropped in Q. rewrite E in Q. rewrite Q.
    cbn [length seq map nth]. destruct (keep _ _ _); unfold Rdiv; rewrite ?Rmult_0_l; reflexivity. }
  subst out.
  exists op, (fun _ => 0), [0], [1], [0], [0], [0]. repeat split; auto.
  - rewrite dropoutDiff_ok by (auto; cbn; lra). cbn [length seq map nth].
    assert (Z : isZero 0 = true) by (apply isZero_true; reflexivity). rewrite Z. reflexivity.
  - rewrite dropped_gradient by auto. cbn [length seq map nth].
    assert (K : keep (probability op) (fun _ => 0) 0 = true) by (apply ltR_true; cbn; lra). rewrite K.
    intro H. injection H as H. cbn in H. lra.
Qed.
Print Assumptions C27_zero_input_refuted.

(** Out of training the map is the identity, yet the gradient is divided by p. *)
Theorem C27_eval_gradient : forall op rnd x g pre,
  isTraining op = false -> probability op <> 0 -> length g = length x -> length pre = length x ->
  (forall v, In v x -> v <> 0) ->
  dropoutDo op rnd x = Some x /\
  exists d, dropoutDiff op pre x g = Some d /\ forall i, (i < length x)%nat -> nth i d 0 = nth i g 0 / probability op.
Proof.
  intros op rnd x g pre T P Lg Lp Nz. split; [apply C27_identity; auto|].
  rewrite dropoutDiff_ok by (auto; congruence). eexists. split; [reflexivity|]. intros i Hi.
  rewrite (nth_error_nth _ i 0 (x := if isZero (nth i x 0) then 0 else nth i g 0 / probability op))
    by (rewrite nth_error_map, nth_seq0 by lia; reflexivity).
  assert (Z : isZero (nth i x 0) = false) by (apply isZero_false, Nz, nth_In, Hi). rewrite Z. reflexivity.
Qed.
Print Assumptions C27_eval_gradient.

Example eval_gradient_ex : isTraining {| probability := 1/4; isTraining := false |} = false /\
  (forall v, In v [2; -3] -> v <> 0).
Proof. split; [reflexivity|]. intros v [<-|[<-|[]]]; lra. Qed.

(** With probability 0 the map is the identity and the gradient operator returns zeros. *)
Theorem C27_zero_probability_gradient : forall op rnd x g pre,
  probability op = 0 -> length g = length x -> length pre = length x ->
  dropoutDo op rnd x = Some x /\ exists d, dropoutDiff op pre x g = Some d /\ length d = length x /\ forall i, (i < length x)%nat -> nth i d 1 = 0.
Proof.
  intros op rnd x g pre P Lg Lp. split; [apply C27_identity; auto|].
  unfold dropoutDiff. apply isZero_true in P. rewrite P. cbn [negb].
  rewrite (rewrite_loop (length g) (fun _ _ => 0)); [|congruence|].
  - eexists. split; [reflexivity|]. rewrite map_length, seq_length. split; [exact Lg|]. intros i Hi.
    apply nth_error_nth. rewrite nth_error_map, nth_seq0 by lia. reflexivity.
  - intros i o Hi Lo _. destruct (aset_some o i 0 ltac:(lia)) as (o' & E & L & V & N).
    exists o'. rewrite E. repeat split; [congruence|exact V|exact N].
Qed.
Print Assumptions C27_zero_probability_gradient.

(** ** C43: MinBetween and MaxBetween *)

(** They are the minimum and the maximum. *)
Theorem C43_values : forall a b, betweenDo MinB a b = Rmin a b /\ betweenDo MaxB a b = Rmax a b.
Proof.
  intros a b. unfold betweenDo, Rmin, Rmax.
  destruct (ltR b a) eqn:E1; destruct (ltR a b) eqn:E2; rewrite ?ltR_true, ?ltR_false in *; destruct (Rle_dec a b); split; lra.
Qed.
Print Assumptions C43_values.

(** The true directional derivative of the map where the operands differ. *)
Lemma between_deriv k a b u v : a <> b ->
  derivable_pt_lim (fun t => betweenDo k (a + t * u) (b + t * v)) 0
    (match k with MinB => if ltR b a then v else u | MaxB => if ltR a b then v else u end).
Proof.
  intro Ne. set (gap := Rabs (b - a)). assert (G : 0 < gap) by (apply Rabs_pos_lt; lra).
  set (d := gap / (1 + Rabs (u - v))). assert (Q := Rabs_pos (u - v)).
  assert (D : 0 < d) by (apply Rdiv_lt_0_compat; lra).
  assert (Same : forall t, Rabs t < d -> ltR (a + t * u) (b + t * v) = ltR a b /\ ltR (b + t * v) (a + t * u) = ltR b a).
  { intros t Ht.
    assert (Small : Rabs (t * (u - v)) < gap).
    { rewrite Rabs_mult. apply Rle_lt_trans with (Rabs t * (1 + Rabs (u - v))).
      - apply Rmult_le_compat_l; [apply Rabs_pos|lra].
      - unfold d in Ht. apply Rmult_lt_reg_r with (/ (1 + Rabs (u - v))); [apply Rinv_0_lt_compat; lra|].
        rewrite Rmult_assoc, Rinv_r, Rmult_1_r by lra. exact Ht. }
    apply Rabs_def2 in Small. unfold gap in Small. clear - Small Ne.
    unfold Rabs in Small. destruct (Rcase_abs (b - a)); split;
      match goal with |- ltR ?x ?y = ltR ?z ?w => destruct (ltR x y) eqn:E; destruct (ltR z w) eqn:F end;
      rewrite ?ltR_true, ?ltR_false in *; try reflexivity; exfalso; lra. }
  intros eps He. exists (mkposreal d D). intros h Hh Hd. cbn [pos] in Hd.
  destruct (Same h Hd) as [S1 S2]. unfold betweenDo. rewrite !Rplus_0_l, S1, S2, !Rmult_0_l, !Rplus_0_r.
  destruct k.
  - destruct (ltR b a); match goal with |- Rabs ?e < _ => replace e with 0 by (field; exact Hh) end; rewrite Rabs_R0; exact He.
  - destruct (ltR a b); match goal with |- Rabs ?e < _ => replace e with 0 by (field; exact Hh) end; rewrite Rabs_R0; exact He.
Qed.

(** The symbolic gradient is the gradient. *)
Theorem C43_symbolic_gradient : forall k a b g u v, a <> b ->
  let '(ga, gb) := minmaxSymDiff a b (betweenDo k a b) g in
  derivable_pt_lim (fun t => betweenDo k (a + t * u) (b + t * v) * g) 0 (ga * u + gb * v).
Proof.
  intros k a b g u v Ne. unfold minmaxSymDiff.
  set (l := match k with MinB => if ltR b a then v else u | MaxB => if ltR a b then v else u end).
  assert (E : g * (if Req_EM_T a (betweenDo k a b) then 1 else 0) * u +
              (g - g * (if Req_EM_T a (betweenDo k a b) then 1 else 0)) * v = l * g).
  { unfold l, betweenDo. destruct k.
    - destruct (ltR b a) eqn:F; rewrite ?ltR_true, ?ltR_false in F; destruct (Req_EM_T a _); try lra.
    - destruct (ltR a b) eqn:F; rewrite ?ltR_true, ?ltR_false in F; destruct (Req_EM_T a _); try lra. }
  rewrite E.
  assert (H := derivable_pt_lim_mult _ (fct_cte g) 0 _ 0 (between_deriv k a b u v Ne) (derivable_pt_lim_const g 0)).
  unfold mult_fct, fct_cte in H. fold l in H. rewrite Rmult_0_r, Rplus_0_r in H. exact H.
Qed.
Print Assumptions C43_symbolic_gradient.

(** At a tie the whole gradient goes to the first operand, never more or less. *)
Theorem C43_symbolic_tie : forall k a g, minmaxSymDiff a a (betweenDo k a a) g = (g, 0).
Proof.
  intros k a g. assert (E : betweenDo k a a = a) by (unfold betweenDo; destruct k; destruct (ltR a a); reflexivity).
  rewrite E. unfold minmaxSymDiff. destruct (Req_EM_T a a); [f_equal; ring|congruence].
Qed.
Print Assumptions C43_symbolic_tie.

(** The automatic gradient gives the gradient to the operand that is not the
    maximum, and never to the first operand of a minimum. *)
Theorem C43_automatic_gradient : forall a b g, a <> b ->
  (minmaxAutoDiff a b (betweenDo MaxB a b) g 0 0 = if Rlt_dec a b then (g, 0) else (0, g)) /\
  minmaxAutoDiff a b (betweenDo MinB a b) g 0 0 = (0, g).
Proof.
  intros a b g Ne. unfold minmaxAutoDiff, betweenDo. split.
  - destruct (ltR a b) eqn:F; rewrite ?ltR_true, ?ltR_false in F.
    + assert (K : ltR a b = true) by (apply ltR_true, F). rewrite K. destruct (Rlt_dec a b); [f_equal; ring|lra].
    + assert (K : ltR a a = false) by (apply ltR_false; lra). rewrite K. destruct (Rlt_dec a b); [lra|f_equal; ring].
  - destruct (ltR b a) eqn:F; rewrite ?ltR_true, ?ltR_false in F.
    + assert (K : ltR a b = false) by (apply ltR_false; lra). rewrite K. f_equal; ring.
    + assert (K : ltR a a = false) by (apply ltR_false; lra). rewrite K. f_equal; ring.
Qed.
Print Assumptions C43_automatic_gradient.

(** Gradients already held by the operands: a's is kept, b's is lost and a's is
    subtracted from it. *)
Theorem C43_automatic_forgets : forall k a b g da db,
  let '(da', db') := minmaxAutoDiff a b (betweenDo k a b) g da db in da' + db' = g.
Proof. intros. unfold minmaxAutoDiff. ring. Qed.
Print Assumptions C43_automatic_forgets.

Theorem C43_automatic_gradient_refuted : exists a b g u v,
  a <> b /\
  let '(ga, gb) := minmaxAutoDiff a b (betweenDo MaxB a b) g 0 0 in
  ~ derivable_pt_lim (fun t => betweenDo MaxB (a + t * u) (b + t * v) * g) 0 (ga * u + gb * v).
Proof.
  exists 1, 2, 1, 1, 0. split; [lra|].
  destruct (C43_automatic_gradient 1 2 1 ltac:(lra)) as [-> _]. destruct (Rlt_dec 1 2); [|lra].
  intro H. assert (K := C43_symbolic_gradient MaxB 1 2 1 1 0 ltac:(lra)). unfold minmaxSymDiff in K.
  assert (E := uniqueness_limite _ _ _ _ H K). unfold betweenDo in E.
  assert (F : ltR 1 2 = true) by (apply ltR_true; lra). rewrite F in E. destruct (Req_EM_T 1 2); lra.
Qed.
Print Assumptions C43_automatic_gradient_refuted.

Example minmax_ex : minmaxSymDiff 1 2 (betweenDo MaxB 1 2) 5 = (0, 5) /\ minmaxAutoDiff 1 2 (betweenDo MaxB 1 2) 5 0 0 = (5, 0).
Proof.
  destruct (C43_automatic_gradient 1 2 5 ltac:(lra)) as [-> _]. destruct (Rlt_dec 1 2); [|lra].
  unfold minmaxSymDiff, betweenDo. assert (F : ltR 1 2 = true) by (apply ltR_true; lra). rewrite F.
  destruct (Req_EM_T 1 2); [lra|]. split; f_equal; ring.
Qed.
