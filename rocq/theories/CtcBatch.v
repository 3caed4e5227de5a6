(** The whole batch: what the CTC operator stores and returns. *)
From Coq Require Import Arith Lia Reals Lra List Bool.
From Verif Require Import LoopModel LoopProofs ConvProofs SparsemaxProofs CtcModel CtcSpec CtcPaths CtcProofs.
Import ListNotations.
Local Open Scope R_scope.

(** ** The tensor *)

Lemma map_nth_error_seq {X} (f : nat -> X) n i : (i < n)%nat -> nth_error (map f (seq 0 n)) i = Some (f i).
Proof. intro H. rewrite nth_error_map, nth_seq0 by exact H. reflexivity. Qed.

Lemma logTensor_nth T B L p t b c : (t < T)%nat -> (b < B)%nat -> (c < L)%nat ->
  nth ((t * B + b) * L + c) (logTensor T B L p) NaN = logOf (p t b c).
Proof.
  intros Ht Hb Hc. apply nth_error_nth. unfold logTensor.
  replace ((t * B + b) * L + c)%nat with (t * (B * L) + (b * L + c))%nat by ring.
  rewrite (nth_flat_map_seq _ (B * L)).
  - rewrite (nth_flat_map_seq _ L); [exact (map_nth_error_seq (fun c => logOf (p t b c)) L c Hc)| |exact Hb|exact Hc].
    intros k _. rewrite map_length, seq_length. reflexivity.
  - intros k _. apply flat_map_seq_length. intros j _. rewrite map_length, seq_length. reflexivity.
  - exact Ht.
  - nia.
Qed.

Lemma section_ok T B L p b : (b < B)%nat ->
  exists sec, aslice (transposeTB T B L (logTensor T B L p)) (b * (T * L)) ((b + 1) * (T * L)) = Some sec /\
    forall t c, (t < T)%nat -> (c < L)%nat -> nth_error sec (t * L + c) = Some (logOf (p t b c)).
Proof.
  intro Hb. unfold transposeTB.
  set (blk := fun b => flat_map (fun t => map (fun c => nth ((t * B + b) * L + c) (logTensor T B L p) NaN) (seq 0 L)) (seq 0 T)).
  assert (Hl : forall k, length (blk k) = (T * L)%nat).
  { intro k. apply flat_map_seq_length. intros j _. rewrite map_length, seq_length. reflexivity. }
  assert (Hall : length (flat_map blk (seq 0 B)) = (B * (T * L))%nat).
  { apply flat_map_seq_length. intros; apply Hl. }
  exists (blk b). split.
  - rewrite (aslice_chunk _ (T * L) b B Hall Hb). f_equal. apply chunk_flat_map; [intros; apply Hl|exact Hb].
  - intros t c Ht Hc. unfold blk. rewrite (nth_flat_map_seq _ L); [|intros; rewrite map_length, seq_length; reflexivity|exact Ht|exact Hc].
    rewrite map_nth_error_seq by exact Hc. rewrite logTensor_nth by assumption. reflexivity.
Qed.

(** ** Targets *)

Lemma fold_add l : forall a, fold_left Nat.add l a = (a + list_sum l)%nat.
Proof. induction l as [|x l IH]; intro a; cbn [fold_left list_sum fold_right]; [lia|]. rewrite IH. unfold list_sum. lia. Qed.
Lemma concat_length_sum {X} (l : list (list X)) : length (concat l) = list_sum (map (@length X) l).
Proof. induction l as [|x l IH]; cbn [concat map]; [reflexivity|]. rewrite app_length, IH. reflexivity. Qed.

Lemma concat_nth {X} (ys : list (list X)) : forall b k, (b < length ys)%nat -> (k < length (nth b ys []))%nat ->
  nth_error (concat ys) (length (concat (firstn b ys)) + k) = nth_error (nth b ys []) k.
Proof.
  induction ys as [|y ys IH]; intros b k Hb Hk; [cbn in Hb; lia|].
  destruct b as [|b]; cbn [firstn concat nth length] in *.
  - cbn [Nat.add]. apply nth_error_app1, Hk.
  - rewrite nth_error_app2 by (rewrite app_length; lia).
    rewrite app_length. replace (length y + length (concat (firstn b ys)) + k - length y)%nat
      with (length (concat (firstn b ys)) + k)%nat by lia. apply IH; [lia|exact Hk].
Qed.

Lemma placed_ok sh ys targets b : layout sh ys targets -> (b < length ys)%nat ->
  placed targets (targetOffset sh (map (@length nat) ys) b) (nth b ys []).
Proof.
  intros H Hb k Hk. destruct sh as [|w]; cbn [layout targetOffset] in *.
  - subst targets. rewrite fold_add. cbn [Nat.add]. rewrite firstn_map, <- concat_length_sum.
    rewrite concat_nth by assumption. apply nth_error_nth'. exact Hk.
  - destruct H as [rows [-> H]].
    assert (Hl : length rows = length ys) by (clear - H; induction H; cbn [length]; [reflexivity|f_equal; assumption]).
    assert (Hr : length (nth b rows []) = w /\ firstn (length (nth b ys [])) (nth b rows []) = nth b ys []).
    { clear - H Hb. revert b Hb. induction H as [|r y rs ys Hr H IH]; intros b Hb; [cbn in Hb; lia|].
      destruct b as [|b]; cbn [nth length] in *; [exact Hr|apply IH; lia]. }
    destruct Hr as [Hw Hf].
    assert (Hsum : length (concat (firstn b rows)) = (b * w)%nat).
    { clear - H Hb. revert b Hb. induction H as [|r y rs ys Hr H IH]; intros b Hb; [cbn in Hb; lia|].
      destruct b as [|b]; cbn [firstn concat length] in *; [reflexivity|]. rewrite app_length, (proj1 Hr), IH by lia. lia. }
    assert (Hk' : (k < length (nth b rows []))%nat).
    { rewrite <- Hf in Hk at 1. rewrite firstn_length in Hk. lia. }
    rewrite <- Hsum, concat_nth by (try assumption; lia).
    rewrite <- (nth_firstn _ (length (nth b ys [])) k) by exact Hk. rewrite Hf.
    apply nth_error_nth'. exact Hk.
Qed.

Lemma fold_max l : forall a, (a <= fold_left Nat.max l a)%nat /\ forall x, In x l -> (x <= fold_left Nat.max l a)%nat.
Proof.
  induction l as [|z l IH]; intro a; cbn [fold_left]; [split; [lia|intros x []]|].
  destruct (IH (Nat.max a z)) as [A B]. split; [lia|]. intros x [<-|H]; [lia|apply B, H].
Qed.

(** ** Sums of losses *)

Lemma total_seq_S f n : total f (seq 0 (S n)) = total f (seq 0 n) + f n.
Proof. rewrite seq_S, total_app. unfold total at 2. cbn [map fold_right Nat.add]. lra. Qed.

Section Batch.
Variables (red : reduction) (T B L : nat) (p : nat -> nat -> nat -> R) (sh : targetShape).
Variables (ys : list (list nat)) (targets ilens : list nat).
Hypothesis HL : (0 < L)%nat.
Hypothesis Hys : length ys = B.
Hypothesis Hil : length ilens = B.
Hypothesis Hp : forall t b c, 0 <= p t b c.
Hypothesis Hy : Forall (proper L) ys.
Hypothesis Hlens : Forall (fun l => (0 < l <= T)%nat) ilens.
Hypothesis Hlay : layout sh ys targets.

Definition tl (b : nat) : list nat := nth b ys [].
Definition il (b : nat) : nat := nth b ilens 0%nat.
Definition lik (b : nat) : R := likelihood (fun t c => p t b c) L (il b) (tl b).
Definition nllOf (b : nat) : ext := if (length (tl b) =? 0)%nat then logOf (lik b) else negLogOf (lik b).
Definition width : nat := (2 * fold_left Nat.max (firstn B (map (@length nat) ys)) 0 + 1)%nat.
Definition rowsOf (b : nat) (sec : list ext) : Prop := rows (tl b) (fun t c => p t b c) (T * width) (il b) sec.

Lemma tl_proper b : (b < B)%nat -> proper L (tl b).
Proof. intro H. rewrite Forall_forall in Hy. apply Hy, nth_In. lia. Qed.
Lemma il_bound b : (b < B)%nat -> (0 < il b <= T)%nat.
Proof. intro H. rewrite Forall_forall in Hlens. apply Hlens, nth_In. lia. Qed.
Lemma width_ok b : (b < B)%nat -> (2 * length (tl b) + 1 <= width)%nat.
Proof.
  intro H. unfold width. rewrite firstn_all2 by (rewrite map_length; lia).
  pose proof (proj2 (fold_max (map (@length nat) ys) 0) (length (tl b))) as F.
  assert (In (length (tl b)) (map (@length nat) ys)) by (apply in_map, nth_In; lia). specialize (F H0). lia.
Qed.
Lemma aget_tl b : (b < B)%nat -> aget (map (@length nat) ys) b = Some (length (tl b)).
Proof.
  intro H. unfold aget. rewrite nth_error_map. unfold tl. rewrite (nth_error_nth' ys []) by lia. reflexivity.
Qed.
Lemma aget_il b : (b < B)%nat -> aget ilens b = Some (il b).
Proof. intro H. unfold aget, il. apply nth_error_nth'. lia. Qed.

Definition stored (k : nat) (st : list (list ext) * list ext) : Prop :=
  length (fst st) = k /\ length (snd st) = k /\
  forall b, (b < k)%nat -> (exists sec, nth_error (fst st) b = Some sec /\ rowsOf b sec) /\ nth_error (snd st) b = Some (nllOf b).

Lemma stored_snoc k st sec : stored k st -> rowsOf k sec -> stored (S k) (fst st ++ [sec], snd st ++ [nllOf k]).
Proof.
  intros [L1 [L2 H]] Hr. split; [|split]; cbn [fst snd].
  - rewrite app_length, L1. cbn [length]. lia.
  - rewrite app_length, L2. cbn [length]. lia.
  - intros b Hb. destruct (Nat.eq_dec b k) as [->|D].
    + split.
      * exists sec. split; [|exact Hr]. rewrite nth_error_app2, L1, Nat.sub_diag by lia. reflexivity.
      * rewrite nth_error_app2, L2, Nat.sub_diag by lia. reflexivity.
    + destruct (H b ltac:(lia)) as [[s [A C]] D']. split.
      * exists s. split; [|exact C]. rewrite nth_error_app1 by lia. exact A.
      * rewrite nth_error_app1 by lia. exact D'.
Qed.

(** The value of the loss from the saved likelihoods. *)
Definition lossOf (nlls : list ext) : option ext :=
  match loop (length (map (@length nat) ys)) (fun i loss =>
          match aget nlls i, aget (map (@length nat) ys) i with
          | Some x, Some v => Some (xadd loss (match red with ReductionSum => x | ReductionMean => xdivn x (if (v <? 1)%nat then 1%nat else v) end))
          | _, _ => None
          end) (Fin 0) with
  | None => None
  | Some loss => Some (match red with ReductionMean => xdivn loss (length (map (@length nat) ys)) | ReductionSum => loss end)
  end.

Lemma forward_stored :
  exists alphas nlls, stored B (alphas, nlls) /\
    ctcForward red T B L (logTensor T B L p) sh targets ilens (map (@length nat) ys) =
      match lossOf nlls with Some loss => Some (loss, alphas, nlls) | None => None end.
Proof.
  unfold ctcForward. cbv zeta. fold width.
  replace (existsb (fun n => (T <? n)%nat) (firstn B ilens)) with false.
  2:{ symmetry. apply not_true_is_false. intro E. apply existsb_exists in E as [x [Hx E]].
      rewrite firstn_all2 in Hx by lia. rewrite Forall_forall in Hlens. specialize (Hlens x Hx).
      apply Nat.ltb_lt in E. lia. }
  match goal with |- context [loop B ?f ([], [])] =>
    destruct (loop_inv B f stored ([], [])) as [[alphas nlls] [E St]] end.
  - split; [reflexivity|]. split; [reflexivity|]. intros b Hb. lia.
  - intros b [alphas nlls] Hb St. rewrite aget_il, aget_tl by exact Hb.
    destruct (section_ok T B L p b Hb) as [sec [-> Hsec]].
    destruct (alphaTable_ok targets (targetOffset sh (map (@length nat) ys) b) (tl b) L T (il b)
                (fun t c => p t b c) sec (tl_proper b Hb) HL) with (width := width) as [tab [E Hrows]].
    + apply placed_ok; [exact Hlay|lia].
    + intros; apply Hp.
    + apply il_bound, Hb.
    + exact Hsec.
    + apply width_ok, Hb.
    + rewrite E. rewrite (read_ok (tl b) L T (il b) (fun t c => p t b c) (tl_proper b Hb) HL ltac:(intros; apply Hp) (il_bound b Hb) (T * width) tab Hrows).
      fold (lik b). fold (nllOf b). eexists. split; [reflexivity|]. apply (stored_snoc b (alphas, nlls) tab St Hrows).
  - exists alphas, nlls. split; [exact St|]. rewrite E. unfold lossOf.
    match goal with |- match ?x with _ => _ end = _ => destruct x; reflexivity end.
Qed.

Lemma lossOf_some nlls (f : nat -> ext) : length nlls = B -> (forall b, (b < B)%nat -> nth_error nlls b = Some (f b)) ->
  exists x, lossOf nlls = Some x.
Proof.
  intros Hl Hn. unfold lossOf. rewrite map_length, Hys.
  match goal with |- context [loop B ?g ?z] => destruct (loop_inv B g (fun _ _ => True) z I) as [x [E _]] end.
  - intros b s Hb _. unfold aget at 1. rewrite Hn, aget_tl by exact Hb. eauto.
  - rewrite E. eauto.
Qed.

Lemma loss_finite nlls : (forall b, (b < B)%nat -> nth_error nlls b = Some (nllOf b)) ->
  (forall b, (b < B)%nat -> tl b <> [] /\ 0 < lik b) ->
  lossOf nlls = Some (Fin (reduced red B (fun b => - ln (lik b)) (fun b => length (tl b)))).
Proof.
  intros Hn H. unfold lossOf. rewrite map_length, Hys.
  set (term := fun b => match red with ReductionSum => - ln (lik b) | ReductionMean => - ln (lik b) / INR (length (tl b)) end).
  match goal with |- context [loop B ?g ?z] =>
    destruct (loop_inv B g (fun k x => x = Fin (total term (seq 0 k))) z) as [x [E Q]] end.
  - reflexivity.
  - intros b s Hb ->. unfold aget at 1. rewrite Hn, aget_tl by exact Hb.
    destruct (H b Hb) as [Hne Hpos]. eexists. split; [reflexivity|]. rewrite total_seq_S.
    assert (L0 : length (tl b) <> 0%nat) by (destruct (tl b); [congruence|discriminate]).
    unfold nllOf, negLogOf. destruct (Nat.eqb_spec (length (tl b)) 0); [contradiction|].
    destruct (Rlt_dec 0 (lik b)); [|contradiction]. unfold term.
    destruct (Nat.ltb_spec (length (tl b)) 1); [lia|]. destruct red; cbn [xdivn xadd]; reflexivity.
  - rewrite E, Q. unfold reduced, term. destruct red; reflexivity.
Qed.

Lemma loss_infinite nlls b0 : (forall b, (b < B)%nat -> nth_error nlls b = Some (nllOf b)) ->
  (forall b, (b < B)%nat -> tl b <> []) -> (b0 < B)%nat -> lik b0 = 0 -> lossOf nlls = Some PInf.
Proof.
  intros Hn H Hb0 H0. unfold lossOf. rewrite map_length, Hys.
  match goal with |- context [loop B ?g ?z] =>
    destruct (loop_inv B g (fun k x => (x = PInf \/ exists r, x = Fin r) /\ ((b0 < k)%nat -> x = PInf)) z) as [x [E [_ Q]]] end.
  - split; [right; eexists; reflexivity|lia].
  - intros b s Hb [Q1 Q2]. unfold aget at 1. rewrite Hn, aget_tl by exact Hb.
    specialize (H b Hb). eexists. split; [reflexivity|].
    assert (L0 : length (tl b) <> 0%nat) by (destruct (tl b); [congruence|discriminate]).
    unfold nllOf, negLogOf. destruct (Nat.eqb_spec (length (tl b)) 0); [contradiction|].
    split.
    + destruct Q1 as [->|[r ->]]; destruct (Rlt_dec 0 (lik b)); destruct red; cbn [xdivn xadd]; eauto.
    + intro Hk. destruct (Nat.eq_dec b b0) as [->|D].
      * rewrite H0. destruct (Rlt_dec 0 0); [lra|]. destruct Q1 as [->|[r ->]]; destruct red; reflexivity.
      * rewrite (Q2 ltac:(lia)). destruct (Rlt_dec 0 (lik b)); destruct red; reflexivity.
  - rewrite E, (Q Hb0). destruct red; reflexivity.
Qed.
End Batch.
