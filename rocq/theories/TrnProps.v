(** C102: StandardEngine.Transpose. *)
From Coq Require Import List Arith Bool Lia Permutation.
From Verif Require Import BroadcastModel TrnModel TrnSpec.
Import ListNotations.

Notation prod := (fold_right Nat.mul 1).

Lemma it_len : forall s st, length s = length st -> length (iterator s st) = prod s.
Proof.
  induction s as [|d s IH]; intros [|k st] L; try discriminate; [reflexivity|]. cbn [iterator fold_right].
  injection L as L. specialize (IH st L). generalize 0 at 1 as b. clear - IH.
  induction d as [|d IHd]; intros b; [reflexivity|]. cbn [seq flat_map]. rewrite app_length, map_length, IHd, IH. lia.
Qed.
Lemma nth_blocks (f : nat -> list nat) n : (forall i, length (f i) = n) -> forall d b i o, i < d -> o < n ->
  nth_error (flat_map f (seq b d)) (i * n + o) = nth_error (f (b + i)) o.
Proof.
  intros L. induction d as [|d IH]; intros b i o Hi Ho; [lia|]. cbn [seq flat_map]. destruct i as [|i].
  - cbn. rewrite nth_error_app1 by (rewrite L; lia). rewrite Nat.add_0_r. reflexivity.
  - rewrite nth_error_app2 by (rewrite L; cbn; lia). rewrite L. replace (S i * n + o - n) with (i * n + o) by (cbn; lia).
    rewrite IH by lia. f_equal. f_equal. lia.
Qed.
Lemma place_lt : forall s idx, within idx s -> place idx (calcStrides s) < prod s.
Proof.
  induction s as [|d s IH]; intros idx W; inversion W as [|i d' idx' s' Hi W']; subst; cbn [place calcStrides fold_right]; [lia|].
  specialize (IH _ W'). nia.
Qed.
Lemma it_nth : forall s st idx, length s = length st -> within idx s ->
  nth_error (iterator s st) (place idx (calcStrides s)) = Some (place idx st).
Proof.
  induction s as [|d s IH]; intros [|k st] idx L W; try discriminate; inversion W as [|i d' idx' s' Hi W']; subst; [reflexivity|].
  injection L as L. cbn [place calcStrides iterator].
  rewrite (nth_blocks _ (prod s)); [|intros; rewrite map_length; apply it_len; exact L|exact Hi|apply place_lt; exact W'].
  rewrite nth_error_map, (IH st idx' L W'). reflexivity.
Qed.
Lemma it_le : forall s st o, In o (iterator s st) -> o <= top s st.
Proof.
  induction s as [|d s IH]; intros [|k st] o I; cbn in *; try (destruct I as [<-|[]]; lia).
  apply in_flat_map in I. destruct I as (i & Hi & I). apply in_map_iff in I. destruct I as (o' & <- & I).
  apply in_seq in Hi. specialize (IH _ _ I). nia.
Qed.
Lemma last_app_ne {X} (a b : list X) d : b <> [] -> last (a ++ b) d = last b d.
Proof. intros N. induction a as [|x a IH]; [reflexivity|]. cbn [app last]. destruct (a ++ b) eqn:E; [destruct a, b; try discriminate; contradiction|]. exact IH. Qed.
Lemma it_ne : forall s st, Forall (lt 0) s -> iterator s st <> [].
Proof.
  induction s as [|d s IH]; intros [|k st] P; try discriminate. inversion P as [|? ? Hd P']; subst. cbn [iterator]. destruct d; [lia|]. cbn [seq flat_map].
  intro E. apply app_eq_nil in E. destruct E as [E _]. apply map_eq_nil in E. exact (IH st P' E).
Qed.
Lemma it_last : forall s st, length s = length st -> Forall (lt 0) s -> last (iterator s st) 0 = top s st.
Proof.
  induction s as [|d s IH]; intros [|k st] L P; try discriminate; [reflexivity|]. inversion P as [|? ? Hd P']; subst. injection L as L.
  cbn [iterator top]. destruct d as [|d]; [lia|]. rewrite seq_S, flat_map_app. cbn [flat_map Nat.add]. rewrite app_nil_r, last_app_ne.
  - assert (M : forall l, l <> [] -> last (map (fun o => d * k + o) l) 0 = d * k + last l 0).
    { clear. induction l as [|x l IH]; [intros N; contradiction|]. intros _. cbn [map last]. destruct l as [|y l]; [reflexivity|]. cbn [map]. apply IH. discriminate. }
    rewrite M by (apply it_ne; exact P'). rewrite (IH st L P'). replace (S d - 1) with d by lia. reflexivity.
  - intro E. apply map_eq_nil in E. exact (it_ne s st P' E).
Qed.
Lemma gather_ok {A} (data : list A) d : forall ns, (forall n, In n ns -> n < length data) -> gather data ns = Some (map (fun n => nth n data d) ns).
Proof.
  induction ns as [|n ns IH]; intros B; [reflexivity|]. cbn [gather map].
  rewrite (nth_error_nth' data d) by (apply B; left; reflexivity). rewrite IH by (intros; apply B; right; assumption). reflexivity.
Qed.
(** The sum of (d - 1) * stride does not depend on the order of the axes. *)
Lemma top_sum p : forall s st, top (reorder p s) (reorder p st) = fold_right Nat.add 0 (map (fun k => (nth k s 0 - 1) * nth k st 0) p).
Proof. induction p as [|k p IH]; intros; cbn; [reflexivity|]. rewrite <- IH. reflexivity. Qed.
Lemma sum_perm l l' : Permutation l l' -> fold_right Nat.add 0 l = fold_right Nat.add 0 l'.
Proof. induction 1; cbn; lia. Qed.
Lemma reorder_id : forall l, reorder (seq 0 (length l)) l = l.
Proof.
  induction l as [|x l IH]; [reflexivity|]. unfold reorder in *. cbn [length seq map nth]. f_equal.
  rewrite <- seq_shift, map_map. exact IH.
Qed.
Lemma strides_len s : length (calcStrides s) = length s.
Proof. induction s; cbn; congruence. Qed.
Lemma top_dense s : Forall (lt 0) s -> S (top s (calcStrides s)) = prod s.
Proof.
  induction s as [|d s IH]; intros P; [reflexivity|]. inversion P as [|? ? Hd P']; subst. specialize (IH P'). cbn [top calcStrides fold_right]. nia.
Qed.
Lemma top_reorder p s : axesOf p (length s) -> Forall (lt 0) s -> S (top (reorder p s) (reorder p (calcStrides s))) = prod s.
Proof.
  intros X P. rewrite top_sum. rewrite (sum_perm _ _ (Permutation_map _ X)), <- top_sum, reorder_id.
  rewrite <- (strides_len s) at 1. rewrite reorder_id. apply top_dense, P.
Qed.
Lemma prod_perm l l' : Permutation l l' -> prod l = prod l'.
Proof. induction 1; cbn; lia. Qed.
Lemma prod_reorder p s : axesOf p (length s) -> prod (reorder p s) = prod s.
Proof. intros X. unfold reorder. rewrite (prod_perm _ _ (Permutation_map _ X)). fold (reorder (seq 0 (length s)) s). rewrite reorder_id. reflexivity. Qed.
Lemma pos_reorder p s : axesOf p (length s) -> Forall (lt 0) s -> Forall (lt 0) (reorder p s).
Proof.
  intros X P. unfold reorder. apply Forall_map, Forall_forall. intros k I. apply (Permutation_in _ X), in_seq in I.
  apply (proj1 (Forall_forall _ _) P), nth_In. lia.
Qed.
Lemma reorder_len p l : length (reorder p l) = length p. Proof. apply map_length. Qed.

Section Props.
Variable A : Type.
Variable zero : A.
Notation T := (engineTranspose zero).

(** The general case: a tensor of any strides inside its memory. *)
Lemma both s st data : length s = length st -> Forall (lt 0) s -> top s st < length data -> prod s <= S (top s st) ->
  T true true s st data = Ok (map (fun n => nth n data zero) (iterator s st) ++ repeat zero (S (top s st) - prod s) ++ skipn (S (top s st)) data) /\
  T true false s st data = Ok (map (fun n => nth n data zero) (iterator s st) ++ repeat zero (length data - prod s)).
Proof.
  intros L P B N. unfold engineTranspose. cbn [negb]. split.
  - unfold transpose64. destruct (iterator s st) as [|n0 ns0] eqn:E; [exfalso; exact (it_ne s st P E)|]. rewrite <- E.
    rewrite (it_last s st L P). destruct (Nat.ltb_spec (length data) (S (top s st))); [lia|].
    rewrite (gather_ok _ zero).
    2:{ intros n I. apply it_le in I. rewrite firstn_length. lia. }
    rewrite map_length, (it_len s st L). destruct (Nat.ltb_spec (S (top s st)) (prod s)); [lia|]. f_equal. f_equal.
    apply map_ext_in. intros n I. apply it_le in I. rewrite <- (firstn_skipn (S (top s st)) data) at 2.
    rewrite app_nth1; [reflexivity|]. rewrite firstn_length. lia.
  - unfold transpose32. rewrite (gather_ok _ zero) by (intros n I; apply it_le in I; lia). rewrite map_length, (it_len s st L).
    destruct (Nat.ltb_spec (length data) (prod s)); [lia|]. reflexivity.
Qed.

(** A dense tensor with its axes in another order: afterwards the entries are the same, read by
    rows, for both float types alike. *)
Theorem C102_dense : forall p s data is64, axesOf p (length s) -> Forall (lt 0) s -> length data = prod s ->
  exists data', T true is64 (reorder p s) (reorder p (calcStrides s)) data = Ok data' /\ length data' = length data /\
    forall idx, within idx (reorder p s) -> nth_error data' (place idx (calcStrides (reorder p s))) = nth_error data (place idx (reorder p (calcStrides s))).
Proof.
  intros p s data is64 X P L. pose proof (top_reorder p s X P) as Tp. pose proof (pos_reorder p s X P) as Pp. pose proof (prod_reorder p s X) as Pr.
  assert (Ls : length (reorder p s) = length (reorder p (calcStrides s))) by (rewrite !reorder_len; reflexivity).
  destruct (both (reorder p s) (reorder p (calcStrides s)) data Ls Pp) as [E64 E32]; [lia|lia|].
  rewrite Tp, Pr in E64. rewrite Pr in E32. rewrite Nat.sub_diag in E64. rewrite <- L in E64, E32. rewrite Nat.sub_diag in E32. rewrite skipn_all in E64. cbn [repeat app] in E64, E32.
  rewrite app_nil_r in E64, E32.
  eexists. split; [destruct is64; [exact E64|exact E32]|]. split; [rewrite map_length, (it_len _ _ Ls), Pr; congruence|].
  intros idx W. rewrite nth_error_map, (it_nth _ _ _ Ls W). cbn [option_map].
  assert (I : In (place idx (reorder p (calcStrides s))) (iterator (reorder p s) (reorder p (calcStrides s)))) by (eapply nth_error_In, it_nth; assumption).
  apply it_le in I. rewrite (nth_error_nth' data zero) by lia. reflexivity.
Qed.
(** A tensor that does not fill its memory (a part of another one): its entries are moved to the
    front of the memory in order; the places behind them, which are not its own, are zeroed, for
    float64 up to its last entry and for float32 up to the end. *)
Theorem C102_views : forall s st data, length s = length st -> Forall (lt 0) s -> top s st < length data -> prod s <= S (top s st) ->
  exists d64 d32, T true true s st data = Ok d64 /\ T true false s st data = Ok d32 /\
    (forall idx, within idx s -> nth_error d64 (place idx (calcStrides s)) = nth_error data (place idx st) /\
                                 nth_error d32 (place idx (calcStrides s)) = nth_error data (place idx st)) /\
    (forall q, prod s <= q -> q <= top s st -> nth_error d64 q = Some zero) /\
    (forall q, top s st < q -> nth_error d64 q = nth_error data q) /\
    (forall q, prod s <= q -> q < length data -> nth_error d32 q = Some zero).
Proof.
  intros s st data L P B N. destruct (both s st data L P B N) as [E64 E32]. eexists _, _. split; [exact E64|]. split; [exact E32|].
  assert (M : length (map (fun n => nth n data zero) (iterator s st)) = prod s) by (rewrite map_length; apply it_len, L).
  assert (Z : forall k n, k < n -> nth_error (repeat zero n) k = Some zero).
  { intros k n. revert k. induction n as [|n IH]; intros [|k] Hk; cbn; try lia; [reflexivity|]. apply IH. lia. }
  split; [|split; [|split]].
  - intros idx W. pose proof (place_lt s idx W) as Lt.
    assert (I : In (place idx st) (iterator s st)) by (eapply nth_error_In, it_nth; assumption). apply it_le in I.
    rewrite !nth_error_app1 by (rewrite M; exact Lt). rewrite nth_error_map, (it_nth _ _ _ L W). cbn [option_map].
    rewrite (nth_error_nth' data zero) by lia. split; reflexivity.
  - intros q H1 H2. rewrite nth_error_app2, M by (rewrite M; exact H1). rewrite nth_error_app1 by (rewrite repeat_length; lia). apply Z. lia.
  - intros q H1. rewrite nth_error_app2, M by (rewrite M; lia). rewrite nth_error_app2 by (rewrite repeat_length; lia). rewrite repeat_length.
    rewrite <- (firstn_skipn (S (top s st)) data) at 2. rewrite nth_error_app2 by (rewrite firstn_length; lia). f_equal. rewrite firstn_length. lia.
  - intros q H1 H2. rewrite nth_error_app2, M by (rewrite M; exact H1). apply Z. lia.
Qed.
(** Memory of a device is refused; a float64 tensor without entries panics, a float32 one does not. *)
Theorem C102_refused : forall s st data is64, T false is64 s st data = Err /\
  (iterator s st = [] -> T true true s st data = Panic /\ T true false s st data = Ok (repeat zero (length data))).
Proof.
  intros s st data is64. split; [reflexivity|]. intros E. unfold engineTranspose. cbn [negb]. rewrite E. split; [reflexivity|].
  unfold transpose32. cbn [gather length]. cbn [Nat.ltb Nat.leb]. rewrite Nat.sub_0_r. reflexivity.
Qed.
End Props.

(** The claim that the memory outside the tensor is left alone is false: of a 3 × 3 matrix the
    upper left 2 × 2 part, transposed. *)
Theorem C102_neighbours_refuted : ~ (forall (data data' : list nat) s st is64 q, length s = length st -> Forall (lt 0) s -> top s st < length data ->
  engineTranspose 0 true is64 s st data = Ok data' -> ~ In q (iterator s st) -> nth_error data' q = nth_error data q).
Proof.
  intro H. specialize (H [1; 2; 3; 4; 5] [1; 4; 2; 5; 0] [2; 2] [1; 3] true 2 eq_refl). cbn in H.
  assert (E : Some 2 = Some 3) by (apply H; [repeat constructor|lia|reflexivity|intros I; repeat destruct I as [I|I]; try discriminate; destruct I]).
  discriminate E.
Qed.
Print Assumptions C102_dense.
Print Assumptions C102_views.
Print Assumptions C102_refused.
Print Assumptions C102_neighbours_refuted.

(** A 2 × 3 matrix with its axes exchanged. *)
Example C102_case : axesOf [1; 0] 2 /\ reorder [1; 0] [2; 3] = [3; 2] /\ reorder [1; 0] (calcStrides [2; 3]) = [1; 3] /\
  engineTranspose 0 true true [3; 2] [1; 3] [1; 2; 3; 4; 5; 6] = Ok [1; 4; 2; 5; 3; 6] /\
  engineTranspose 0 true false [3; 2] [1; 3] [1; 2; 3; 4; 5; 6] = Ok [1; 4; 2; 5; 3; 6].
Proof. repeat split. apply perm_swap. Qed.
