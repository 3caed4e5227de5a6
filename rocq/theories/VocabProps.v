(** C124: classes as vectors and indexes, and back. *)
From Coq Require Import List ZArith Bool Lia Permutation.
From Coq.Floats Require Import SpecFloat.
Import ListNotations.
From Verif Require Import BroadcastModel MnistModel VocabModel.
Local Open Scope Z_scope.

(** How often a rune occurs in the sentences. *)
Definition times (ss : list (list Z)) (r : Z) : Z := Z.of_nat (count_occ Z.eq_dec (concat ss) r).

Lemma loop_out : forall l i m r, ~ In r l -> indexLoop i l m r = m r.
Proof.
  induction l as [|v l IH]; intros i m r N; cbn; [reflexivity|]. rewrite IH by (intro; apply N; right; assumption).
  destruct (Z.eqb_spec r v); [exfalso; apply N; left; congruence|reflexivity].
Qed.
Lemma loop_in : forall l i m r k, NoDup l -> nth_error l k = Some r -> indexLoop i l m r = Some (i + k)%nat.
Proof.
  induction l as [|v l IH]; intros i m r [|k] ND E; try discriminate; inversion ND; subst; cbn in E |- *.
  - injection E as ->. rewrite loop_out by assumption. rewrite Z.eqb_refl, Nat.add_0_r. reflexivity.
  - rewrite (IH _ _ _ k) by assumption. f_equal. lia.
Qed.

Lemma nodup_vocab order ss thresh : (forall l, Permutation (order l) l) -> 1 <= thresh ->
  times ss START < thresh -> times ss END < thresh -> NoDup (initVocab order [] ss thresh).
Proof.
  intros P T H1 H2. unfold initVocab. cbn [app].
  assert (F : forall r, In r (filter (fun ch => thresh <=? dictAt (concat ss) ch) (order (dictKeys (concat ss)))) -> thresh <= times ss r).
  { intros r I. apply filter_In in I as [_ I]. apply Z.leb_le in I. exact I. }
  constructor.
  - intro I. apply in_app_or in I as [I|[I|[]]]; [apply F in I; lia|discriminate].
  - assert (ND : NoDup (filter (fun ch => thresh <=? dictAt (concat ss) ch) (order (dictKeys (concat ss))))).
    { apply NoDup_filter. apply (Permutation_NoDup (Permutation_sym (P _))). apply NoDup_nodup. }
    apply (Permutation_NoDup (Permutation_cons_append _ END)). constructor; [intro I; apply F in I; lia|exact ND].
Qed.

(** The vocabulary made by the first call from text in which neither marker occurs often enough
    to count as a letter: it starts with the one marker and ends with the other, it holds exactly
    these and the runes that occur [thresh] times or more, none twice, and vocab and vocabIndex
    are inverse to each other, in whatever order the map is visited. *)
Theorem C124_vocab : forall order ss thresh, (forall l, Permutation (order l) l) -> 1 <= thresh ->
  times ss 2 < thresh -> times ss 3 < thresh ->
  let vocab := initVocab order [] ss thresh in
  (exists mid, vocab = [2] ++ mid ++ [3]) /\ NoDup vocab /\
  (forall r, In r vocab <-> r = 2 \/ r = 3 \/ thresh <= times ss r) /\
  (forall i r, nth_error vocab i = Some r -> vocabIndex vocab r = i).
Proof.
  intros order ss thresh P T H1 H2 vocab. pose proof (nodup_vocab order ss thresh P T H1 H2) as ND. fold vocab in ND.
  split; [eexists; reflexivity|]. split; [exact ND|]. split.
  - intro r. unfold vocab, initVocab. cbn [app]. split.
    + intros [<-|I]; [left; reflexivity|]. apply in_app_or in I as [I|[<-|[]]]; [|right; left; reflexivity].
      apply filter_In in I as [_ I]. apply Z.leb_le in I. right. right. exact I.
    + intros [->|[->|I]]; [left; reflexivity|right; apply in_or_app; right; left; reflexivity|].
      right. apply in_or_app. left. apply filter_In. split; [|apply Z.leb_le; exact I].
      apply (Permutation_in _ (Permutation_sym (P _))). unfold dictKeys. apply nodup_In.
      unfold times in I. apply (count_occ_In Z.eq_dec). lia.
  - intros i r E. unfold vocabIndex. rewrite (loop_in vocab 0 _ r i ND E). reflexivity.
Qed.
Print Assumptions C124_vocab.

(** A rune outside the vocabulary has the index of the start marker. *)
Theorem C124_unknown : forall order ss thresh r, (forall l, Permutation (order l) l) -> 1 <= thresh ->
  times ss r < thresh -> r <> 2 -> r <> 3 ->
  let vocab := initVocab order [] ss thresh in vocabIndex vocab r = 0%nat /\ nth_error vocab 0 = Some 2.
Proof.
  intros order ss thresh r P T H N1 N2 vocab. split; [|reflexivity]. unfold vocabIndex. rewrite loop_out; [reflexivity|].
  unfold vocab, initVocab. cbn [app]. intros [E|I]; [apply N1; symmetry; exact E|]. apply in_app_or in I as [I|[E|[]]]; [|apply N2; symmetry; exact E].
  apply filter_In in I as [_ I]. apply Z.leb_le in I. unfold dictAt in I. unfold times in H. lia.
Qed.
Print Assumptions C124_unknown.

(** Text with a marker in it, and a second call: indexes and runes are no longer inverse. *)
Theorem C124_inverse_refuted :
  ~ (forall order old ss thresh i r, (forall l, Permutation (order l) l) -> 1 <= thresh ->
       nth_error (initVocab order old ss thresh) i = Some r -> vocabIndex (initVocab order old ss thresh) r = i) /\
  (exists ss, nth_error (initVocab (fun l => l) [] ss 1) 0 = Some 2 /\ vocabIndex (initVocab (fun l => l) [] ss 1) 2 = 1%nat) /\
  (forall order ss ss' thresh thresh', (forall l, Permutation (order l) l) ->
     let v := initVocab order (initVocab order [] ss thresh) ss' thresh' in nth_error v 0 = Some 2 /\ vocabIndex v 2 <> 0%nat).
Proof.
  split; [|split].
  - intro H. specialize (H (fun l => l) [] [[2]] 1 0%nat 2 ltac:(reflexivity) ltac:(lia) eq_refl). discriminate.
  - exists [[2]]. split; reflexivity.
  - intros order ss ss' thresh thresh' P v. split; [reflexivity|]. unfold vocabIndex.
    assert (G : forall l i m k, nth_error l k = Some 2 -> exists j, indexLoop i l m 2 = Some j /\ (i + k <= j)%nat).
    { clear. induction l as [|x l IH]; intros i m [|k] E; try discriminate; cbn in E |- *.
      - injection E as ->. destruct (in_dec Z.eq_dec 2 l) as [I|I].
        + apply In_nth_error in I as [k E]. destruct (IH (S i) (fun x => if x =? 2 then Some i else m x) k E) as (j & J1 & J2). exists j. split; [exact J1|lia].
        + exists i. rewrite loop_out by exact I. rewrite Z.eqb_refl. split; [reflexivity|lia].
      - destruct (IH (S i) (fun y => if y =? x then Some i else m y) k E) as (j & J1 & J2). exists j. split; [exact J1|lia]. }
    set (old := initVocab order [] ss thresh) in *.
    assert (E : nth_error v (length old) = Some 2).
    { unfold v, initVocab at 1. rewrite <- app_assoc, nth_error_app2 by lia. rewrite Nat.sub_diag. reflexivity. }
    destruct (G v 0%nat (fun _ => None) _ E) as (j & J1 & J2). rewrite J1. subst old. cbn [initVocab app length] in J2. lia.
Qed.
Print Assumptions C124_inverse_refuted.

(** OneHotVector: accepted exactly for the five dtypes and an index among the classes; then 1 at the
    index, 0 elsewhere; and the index of its greatest entry is the one given. *)
Theorem C124_one_hot : forall id classes t,
  ((exists v, oneHot id classes t = Ok v) <-> t <> OhOther /\ 0 <= id < classes) /\
  (oneHot id classes t <> Err) /\
  forall v, oneHot id classes t = Ok v ->
    Z.of_nat (length v) = classes /\ nth_error v (Z.to_nat id) = Some 1 /\
    (forall j x, nth_error v j = Some x -> Z.of_nat j <> id -> x = 0) /\ maxSample v = Ok (Z.to_nat id).
Proof.
  intros id classes t.
  assert (C : oneHot id classes t = Panic /\ ~ (t <> OhOther /\ 0 <= id < classes) \/
    (t <> OhOther /\ 0 <= id < classes) /\ oneHot id classes t = Ok (map (fun j => if Z.of_nat j =? id then 1 else 0) (seq 0 (Z.to_nat classes)))).
  { unfold oneHot. destruct (Z.leb_spec 0 id), (Z.ltb_spec id classes); destruct t; cbn [andb];
      try (left; split; [reflexivity|intros [? ?]; (lia || congruence)]); right; (split; [split; [discriminate|lia]|reflexivity]). }
  destruct C as [[E N]|[H E]]; rewrite E.
  - split; [split; [intros [v X]; discriminate|contradiction]|]. split; discriminate.
  - split; [split; [intros _; exact H|eauto]|]. split; [discriminate|]. intros v X. injection X as <-. destruct H as [_ H].
    split; [rewrite map_length, seq_length; lia|]. split.
    { rewrite nth_error_map. rewrite (nth_error_nth' _ 0%nat) by (rewrite seq_length; lia). rewrite seq_nth by lia. cbn. rewrite Z2Nat.id, Z.eqb_refl by lia. reflexivity. }
    split.
    { intros j x Ej Nj. rewrite nth_error_map in Ej. destruct (nth_error (seq 0 (Z.to_nat classes)) j) as [y|] eqn:Q; [|discriminate].
      assert (L : (j < Z.to_nat classes)%nat) by (rewrite <- (seq_length (Z.to_nat classes) 0); apply nth_error_Some; congruence).
      rewrite (nth_error_nth' _ 0%nat) in Q by (rewrite seq_length; lia). rewrite seq_nth in Q by lia. injection Q as <-. cbn in Ej.
      destruct (Z.eqb_spec (Z.of_nat j) id); [contradiction|]. congruence. }
    assert (A1 : forall n i bi, argmaxFrom (map (fun j => if Z.of_nat j =? id then 1 else 0) (seq i n)) i bi 1 = bi).
    { induction n as [|n IH]; intros i bi; cbn; [reflexivity|]. destruct (Z.of_nat i =? id); cbn; apply IH. }
    assert (A0 : forall n i, (i <= Z.to_nat id < i + n)%nat -> argmaxFrom (map (fun j => if Z.of_nat j =? id then 1 else 0) (seq i n)) i 0 0 = Z.to_nat id).
    { induction n as [|n IH]; intros i L; [lia|]. cbn. destruct (Z.eqb_spec (Z.of_nat i) id) as [Q|Q]; cbn; [rewrite A1; lia|apply IH; lia]. }
    replace (Z.to_nat classes) with (S (Z.to_nat classes - 1)) by lia. cbn [seq map maxSample]. f_equal.
    destruct (Z.eqb_spec (Z.of_nat 0) id) as [Q|Q]; [rewrite A1; lia|apply A0; lia].
Qed.
Print Assumptions C124_one_hot.

(** The targets of the MNIST reader are read back: the labels below ten, in order; a row with another
    label is left out, so the labels behind it move up. *)
Theorem C124_targets : forall labels, Forall (fun l => 0 <= l) labels ->
  map Z.of_nat (makeTargets (prepareY labels F64)) = filter (fun l => l <? 10) labels.
Proof.
  intros labels H. unfold makeTargets, prepareY. cbn [mRows mCols mData store].
  set (row := fun l : Z => map (fun j => if Z.of_nat j =? l then c09 else c01) (seq 0 10)).
  assert (LR : forall l, length (row l) = 10%nat) by (intro; unfold row; rewrite map_length, seq_length; reflexivity).
  assert (RW : forall l, 0 <= l -> findTarget (row l) 0 = if l <? 10 then Some (Z.to_nat l) else None).
  { intros l Hl. destruct (Z.ltb_spec l 10) as [Q|Q].
    - assert (C : l = 0 \/ l = 1 \/ l = 2 \/ l = 3 \/ l = 4 \/ l = 5 \/ l = 6 \/ l = 7 \/ l = 8 \/ l = 9) by lia.
      repeat (destruct C as [->|C]; [reflexivity|]). subst l. reflexivity.
    - unfold row. cbn [seq map]. repeat match goal with |- context [Z.of_nat ?k =? l] => replace (Z.of_nat k =? l) with false by (symmetry; apply Z.eqb_neq; lia) end. reflexivity. }
  assert (SK : forall ls i l, nth_error ls i = Some l -> firstn 10 (skipn (i * 10) (flat_map row ls)) = row l).
  { clear - LR. induction ls as [|x ls IH]; intros [|i] l E; try discriminate; cbn [flat_map nth_error] in *.
    - injection E as ->. cbn [Nat.mul skipn]. rewrite firstn_app, LR, Nat.sub_diag, firstn_O, app_nil_r. apply firstn_all2. rewrite LR. lia.
    - change (S i * 10)%nat with (10 + i * 10)%nat. rewrite skipn_app, LR. replace (10 + i * 10 - 10)%nat with (i * 10)%nat by lia.
      rewrite skipn_all2 by (rewrite LR; lia). cbn [app]. apply IH, E. }
  assert (G : forall pre ls, labels = pre ++ ls ->
    map Z.of_nat (flat_map (fun i => match findTarget (firstn 10 (skipn (i * 10) (flat_map row labels))) 0 with Some j => [j] | None => [] end) (seq (length pre) (length ls)))
    = filter (fun l => l <? 10) ls).
  { intros pre ls. revert pre. induction ls as [|l ls IH]; intros pre E; [reflexivity|]. cbn [length seq flat_map filter].
    rewrite (SK labels (length pre) l) by (rewrite E, nth_error_app2, Nat.sub_diag by lia; reflexivity).
    assert (Hl : 0 <= l) by (rewrite E in H; apply Forall_app in H as [_ H]; inversion H; assumption).
    rewrite RW by exact Hl. assert (E' : labels = (pre ++ [l]) ++ ls) by (rewrite <- app_assoc; exact E).
    specialize (IH _ E'). rewrite app_length in IH. cbn [length] in IH. rewrite Nat.add_1_r in IH. rewrite map_app, IH.
    destruct (l <? 10); cbn [map app]; [rewrite Z2Nat.id by exact Hl|]; reflexivity. }
  exact (G [] labels eq_refl).
Qed.
Print Assumptions C124_targets.

(** One target for each row: false. *)
Theorem C124_each_row_refuted : ~ (forall labels, Forall (fun l => 0 <= l <= 255) labels ->
  length (makeTargets (prepareY labels F64)) = length labels).
Proof.
  intro H. specialize (H [3; 11; 4]). assert (F : Forall (fun l => 0 <= l <= 255) [3; 11; 4]) by (repeat constructor; lia).
  specialize (H F). vm_compute in H. discriminate.
Qed.
Print Assumptions C124_each_row_refuted.

(** "abba", "ca" with the letters that occur twice: a and b, whatever the order. *)
Example C124_ex_vocab :
  initVocab (@rev Z) [] [[97; 98; 98; 97]; [99; 97]] 2 = [2; 97; 98; 3] /\
  vocabIndex [2; 97; 98; 3] 98 = 2%nat /\ vocabIndex [2; 97; 98; 3] 99 = 0%nat /\
  times [[97; 98; 98; 97]; [99; 97]] 2 < 2.
Proof. repeat split. Qed.
Example C124_ex_one_hot : oneHot 2 4 OhF32 = Ok [0; 0; 1; 0] /\ oneHot 4 4 OhF32 = Panic /\ maxSample [0; 0; 1; 0] = Ok 2%nat.
Proof. repeat split. Qed.
Example C124_ex_targets : makeTargets (prepareY [3; 11; 4] F64) = [3; 4]%nat.
Proof. vm_compute. reflexivity. Qed.
