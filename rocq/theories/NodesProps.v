(** C99: slices of nodes as sets. *)
From Coq Require Import List Arith Bool Lia Sorted Permutation.
From Verif Require Import NodesModel NodesSpec.
Import ListNotations.

Lemma setArr_len h : forall i a, length (setArr h i a) = length h.
Proof. induction h as [|x h IH]; intros [|i] a; cbn; congruence. Qed.
Lemma setArr_same h : forall i a d, i < length h -> nth i (setArr h i a) d = a.
Proof. induction h as [|x h IH]; intros [|i] a d H; cbn in *; try lia; [reflexivity|]. apply IH. lia. Qed.
Lemma setArr_other h : forall i j a d, i <> j -> nth j (setArr h i a) d = nth j h d.
Proof.
  induction h as [|x h IH]; intros [|i] [|j] a d H; cbn; try reflexivity; try lia.
  apply IH. lia.
Qed.
Lemma over_len a p xs : p + length xs <= length a -> length (over a p xs) = length a.
Proof. intros H. unfold over. rewrite !app_length, firstn_length, skipn_length. lia. Qed.
Lemma over_nth a p xs k d : p + length xs <= length a ->
  nth k (over a p xs) d = if (p <=? k) && (k <? p + length xs) then nth (k - p) xs d else nth k a d.
Proof.
  intros H. unfold over. destruct (Nat.leb_spec p k) as [L|L]; cbn [andb].
  - rewrite app_nth2; rewrite firstn_length; [|lia]. replace (Nat.min p (length a)) with p by lia.
    destruct (Nat.ltb_spec k (p + length xs)) as [L2|L2].
    + rewrite app_nth1 by lia. reflexivity.
    + rewrite app_nth2 by lia.
      rewrite <- (firstn_skipn (p + length xs) a) at 2. rewrite app_nth2; rewrite firstn_length; [|lia]. f_equal. lia.
  - rewrite app_nth1 by (rewrite firstn_length; lia).
    rewrite <- (firstn_skipn p a) at 2. rewrite app_nth1 by (rewrite firstn_length; lia). reflexivity.
Qed.
Lemma view_len h s : fitsIn h s -> length (view h s) = len s.
Proof. intros (A & B & C). unfold view. rewrite firstn_length, skipn_length. lia. Qed.
Lemma nth_firstn (l : list nat) : forall n k d, k < n -> nth k (firstn n l) d = nth k l d.
Proof. induction l as [|x l IH]; intros [|n] [|k] d H; cbn; try reflexivity; try lia. apply IH. lia. Qed.
Lemma nth_skipn (l : list nat) : forall n k d, nth k (skipn n l) d = nth (n + k) l d.
Proof. induction l as [|x l IH]; intros [|n] k d; cbn; try reflexivity; [destruct k; reflexivity|apply IH]. Qed.
Lemma view_nth h s k d : k < len s -> nth k (view h s) d = nth (off s + k) (nth (arr s) h []) d.
Proof. intros H. unfold view. rewrite nth_firstn by exact H. apply nth_skipn. Qed.
Lemma eq_nth (a b : list nat) : length a = length b -> (forall k, k < length a -> nth k a 0 = nth k b 0) -> a = b.
Proof. intros L H. apply (nth_ext a b 0 0 L H). Qed.

(** Storing inside the capacity. *)
Lemma store_fits h s p xs t : p + length xs <= cap s -> fitsIn h s -> fitsIn h t -> fitsIn (store h s p xs) t.
Proof.
  intros H (A & B & C) (A' & B' & C'). unfold fitsIn, store. rewrite setArr_len. split; [exact A'|]. split; [exact B'|].
  destruct (Nat.eq_dec (arr s) (arr t)) as [E|E].
  - rewrite <- E. rewrite setArr_same by exact A. rewrite over_len by lia. rewrite E. exact C'.
  - rewrite setArr_other by exact E. exact C'.
Qed.
Lemma store_other h s p xs a d : a <> arr s -> nth a (store h s p xs) d = nth a h d.
Proof. intros H. unfold store. apply setArr_other. congruence. Qed.
Lemma store_view_other h s p xs t : arr t <> arr s -> view (store h s p xs) t = view h t.
Proof. intros H. unfold view. rewrite store_other by exact H. reflexivity. Qed.
Lemma store_len h s p xs : length (store h s p xs) = length h.
Proof. apply setArr_len. Qed.
(** A slice with the same start: place by place. *)
Lemma store_view h s p xs n c k d : fitsIn h s -> p + length xs <= cap s -> n <= cap s -> k < n ->
  nth k (view (store h s p xs) (Sl (arr s) (off s) n c)) d
  = if (p <=? k) && (k <? p + length xs) then nth (k - p) xs d else nth (off s + k) (nth (arr s) h []) d.
Proof.
  intros (A & B & C) H Hn Hk. rewrite view_nth by exact Hk. cbn [off arr].
  unfold store. rewrite setArr_same by exact A. rewrite over_nth by lia.
  destruct (Nat.leb_spec p k) as [L|L]; cbn [andb].
  - destruct (Nat.leb_spec (off s + p) (off s + k)); [|lia]. cbn [andb].
    destruct (Nat.ltb_spec k (p + length xs)); destruct (Nat.ltb_spec (off s + k) (off s + p + length xs)); try lia; try reflexivity. f_equal; lia.
  - destruct (Nat.leb_spec (off s + p) (off s + k)); [lia|reflexivity].
Qed.
Lemma store_view_self h s p xs k d : fitsIn h s -> p + length xs <= cap s -> k < len s ->
  nth k (view (store h s p xs) s) d
  = if (p <=? k) && (k <? p + length xs) then nth (k - p) xs d else nth (off s + k) (nth (arr s) h []) d.
Proof.
  intros F H Hk. pose proof F as (_ & B & _). pose proof (store_view h s p xs (len s) (cap s) k d F H B Hk) as X.
  destruct s as [a o l c]. exact X.
Qed.
Lemma store_all h s xs : fitsIn h s -> length xs = len s -> view (store h s 0 xs) s = xs.
Proof.
  intros F L. pose proof F as (A & B & C). apply eq_nth.
  - rewrite view_len; [lia|]. apply store_fits; [lia|exact F|exact F].
  - intros k Hk. assert (Hk' : k < len s) by (rewrite view_len in Hk by (apply store_fits; [lia|exact F|exact F]); exact Hk).
    rewrite store_view_self by (try exact F; lia). cbn [Nat.leb andb].
    destruct (Nat.ltb_spec k (0 + length xs)); [|lia]. f_equal. lia.
Qed.

Lemma insert_perm x l : Permutation (insertN x l) (x :: l).
Proof.
  induction l as [|y l IH]; cbn [insertN]; [apply Permutation_refl|]. destruct (x <=? y); [apply Permutation_refl|].
  eapply Permutation_trans; [apply perm_skip, IH|apply perm_swap].
Qed.
Lemma sort_perm l : Permutation (sortL l) l.
Proof. induction l as [|x l IH]; cbn; [constructor|]. eapply Permutation_trans; [apply insert_perm|apply perm_skip, IH]. Qed.
Lemma insert_sorted x l : StronglySorted le l -> StronglySorted le (insertN x l).
Proof.
  induction l as [|y l IH]; intros H; cbn [insertN]; [constructor; constructor|].
  inversion H as [|? ? Hs Hf]; subst. destruct (Nat.leb_spec x y) as [L|L].
  - constructor; [exact H|]. constructor; [exact L|]. eapply Forall_impl; [|exact Hf]. cbv beta. intros; lia.
  - constructor; [apply IH, Hs|]. rewrite Forall_forall in *. intros z Hz.
    apply (Permutation_in _ (insert_perm x l)) in Hz. destruct Hz as [<-|Hz]; [lia|]. apply Hf, Hz.
Qed.
Lemma sort_sorted l : StronglySorted le (sortL l).
Proof. induction l as [|x l IH]; cbn; [constructor|]. apply insert_sorted, IH. Qed.
Lemma sort_strict l : NoDup l -> strict (sortL l).
Proof.
  intros N. assert (N' : NoDup (sortL l)) by (eapply Permutation_NoDup; [apply Permutation_sym, sort_perm|exact N]).
  pose proof (sort_sorted l) as S0. revert S0 N'. generalize (sortL l). clear. intros l S0 N'. unfold strict.
  induction S0 as [|x l H IH F]; [constructor|]. inversion N' as [|? ? Ni N0]; subst. constructor; [apply IH, N0|].
  rewrite Forall_forall in *. intros z Hz. specialize (F z Hz). assert (z <> x) by (intros ->; contradiction). lia.
Qed.
Lemma sort_len l : length (sortL l) = length l.
Proof. apply Permutation_length, sort_perm. Qed.
Lemma sortN_view h s : fitsIn h s -> view (sortN h s) s = sortL (view h s).
Proof. intros F. apply store_all; [exact F|]. rewrite sort_len. apply view_len, F. Qed.
Lemma sortN_fits h s t : fitsIn h s -> fitsIn h t -> fitsIn (sortN h s) t.
Proof. intros F Ft. apply store_fits; [rewrite sort_len, view_len by exact F; apply F|exact F|exact Ft]. Qed.

Lemma append_ok spare h s xs : fitsIn h s ->
  let (h', t) := append spare h s xs in
  view h' t = view h s ++ xs /\ fitsIn h' t /\ view h' s = view h s /\ length h <= length h' /\
  (forall u, fitsIn h u -> fitsIn h' u) /\
  (forall a, a < length h -> a <> arr s -> nth a h' [] = nth a h []) /\
  len t = len s + length xs /\
  (if len s + length xs <=? cap s then t = Sl (arr s) (off s) (len s + length xs) (cap s)
   else arr t = length h /\ forall a, a < length h -> nth a h' [] = nth a h []).
Proof.
  intros F. pose proof F as (A & B & C). unfold append. destruct (Nat.leb_spec (len s + length xs) (cap s)) as [L|L].
  - assert (F' : forall u, fitsIn h u -> fitsIn (store h s (len s) xs) u) by (intros u Fu; apply store_fits; [lia|exact F|exact Fu]).
    assert (Ft : fitsIn (store h s (len s) xs) (Sl (arr s) (off s) (len s + length xs) (cap s))).
    { destruct (F' s F) as (A1 & B1 & C1). split; [exact A1|]. cbn [len cap off arr]. split; [exact L|exact C1]. }
    split; [|split; [exact Ft|split; [|split; [rewrite store_len; lia|split; [exact F'|split; [|split; reflexivity]]]]]].
    + apply eq_nth.
      * rewrite view_len by exact Ft. rewrite app_length, view_len by exact F. reflexivity.
      * intros k Hk. rewrite view_len in Hk by exact Ft. cbn [len] in Hk. rewrite store_view by (try exact F; lia).
        destruct (Nat.leb_spec (len s) k) as [L2|L2]; cbn [andb].
        -- destruct (Nat.ltb_spec k (len s + length xs)); [|lia]. rewrite app_nth2; rewrite view_len by exact F; [reflexivity|lia].
        -- rewrite app_nth1 by (rewrite view_len by exact F; exact L2). rewrite view_nth by exact L2. reflexivity.
    + apply eq_nth.
      * rewrite !view_len; [reflexivity|exact F|apply F', F].
      * intros k Hk. rewrite view_len in Hk by (apply F', F).
        rewrite store_view_self by (try exact F; lia). destruct (Nat.leb_spec (len s) k); [lia|]. cbn [andb]. rewrite view_nth by exact Hk. reflexivity.
    + intros a _ Ha. apply store_other, Ha.
  - set (n := len s + length xs) in *.
    assert (V : length (view h s) = len s) by (apply view_len, F).
    assert (NT : forall a, a < length h -> nth a (h ++ [view h s ++ xs ++ repeat 0 (spare n)]) [] = nth a h []) by (intros a Ha; apply app_nth1, Ha).
    assert (NL : nth (length h) (h ++ [view h s ++ xs ++ repeat 0 (spare n)]) [] = view h s ++ xs ++ repeat 0 (spare n))
      by (rewrite app_nth2 by lia; rewrite Nat.sub_diag; reflexivity).
    split; [|split; [|split; [|split; [rewrite app_length; lia|split; [|split; [|split; [reflexivity|split; [reflexivity|exact NT]]]]]]]].
    + unfold view at 1. cbn [len off arr skipn]. rewrite NL.
      rewrite app_assoc, firstn_app. replace (n - length (view h s ++ xs)) with 0 by (rewrite app_length, V; unfold n; lia).
      rewrite firstn_O, app_nil_r. apply firstn_all2. rewrite app_length, V. unfold n. lia.
    + split; [cbn [arr]; rewrite app_length; cbn; lia|]. cbn [len cap off arr]. split; [lia|]. rewrite NL. rewrite !app_length, repeat_length, V. unfold n. lia.
    + unfold view. rewrite NT by exact A. reflexivity.
    + intros u (A1 & B1 & C1). split; [rewrite app_length; cbn; lia|]. split; [exact B1|]. rewrite NT by exact A1. exact C1.
    + intros a Ha _. apply NT, Ha.
Qed.

Lemma combine_ok spare keep f : lawful2 keep f -> (forall a a' b b', (a <-> a') -> (b <-> b') -> (keep a b <-> keep a' b')) ->
  forall h s o, fitsIn h s -> fitsIn h o -> arr s <> arr o -> NoDup (view h s) -> NoDup (view h o) ->
  let (h', r) := combine spare f h s o in combined keep h s o h' r.
Proof.
  intros Lw K h s o Fs Fo D Ns No. unfold combine.
  set (h1 := sortN h s). set (h2 := sortN h1 o).
  assert (F1s : fitsIn h1 s) by (apply sortN_fits; assumption). assert (F1o : fitsIn h1 o) by (apply sortN_fits; assumption).
  assert (F2s : fitsIn h2 s) by (apply sortN_fits; assumption). assert (F2o : fitsIn h2 o) by (apply sortN_fits; assumption).
  assert (V1s : view h1 s = sortL (view h s)) by (apply sortN_view; exact Fs).
  assert (V1o : view h1 o = view h o) by (apply store_view_other; congruence).
  assert (V2o : view h2 o = sortL (view h o)) by (unfold h2; rewrite sortN_view by exact F1o; rewrite V1o; reflexivity).
  assert (V2s : view h2 s = sortL (view h s)) by (unfold h2, sortN; rewrite store_view_other by exact D; exact V1s).
  assert (L2 : length h2 = length h) by (unfold h2, h1, sortN; rewrite !store_len; reflexivity).
  pose proof (append_ok spare h2 s (view h2 o) F2s) as AP. destruct (append spare h2 s (view h2 o)) as [h3 t].
  destruct AP as (Vt & Ft & V3s & Lh & Fk & Ot & Lt & Kind).
  assert (Lo : length (view h2 o) = len o) by (apply view_len, F2o).
  assert (Fs3 : fitsIn h3 s) by (apply Fk, F2s). assert (Fo3 : fitsIn h3 o) by (apply Fk, F2o).
  rewrite Lo in *. rewrite V2s, V2o in Vt.
  assert (Ln : length (sortL (view h s)) = len s) by (rewrite sort_len; apply view_len, Fs).
  destruct (Lw (sortL (view h s)) (sortL (view h o)) (sort_strict _ Ns) (sort_strict _ No)) as (P & Q & S0 & M).
  rewrite Ln, <- Vt in P, Q, S0, M. destruct (f (view h3 t) (len s)) as [l count]. cbn [fst snd] in *.
  assert (Ll : length l = len t) by (rewrite (Permutation_length P); apply view_len, Ft).
  rewrite view_len in Q by exact Ft.
  assert (Ta : arr t <> arr o).
  { destruct (len s + len o <=? cap s); [subst t; cbn; exact D|]. destruct Kind as [-> _]. destruct F2o as (X & _). lia. }
  set (h4 := store h3 t 0 l).
  assert (Vh : view h4 t = l) by (apply store_all; assumption).
  assert (Vr : view h4 (Sl (arr t) (off t) count (cap t)) = firstn count l).
  { rewrite <- Vh. unfold view. cbn [len off arr]. rewrite firstn_firstn. f_equal. lia. }
  assert (MemS : forall x, In x (sortL (view h s)) <-> In x (view h s)) by (intros x; split; apply Permutation_in; [|apply Permutation_sym]; apply sort_perm).
  assert (MemO : forall x, In x (sortL (view h o)) <-> In x (view h o)) by (intros x; split; apply Permutation_in; [|apply Permutation_sym]; apply sort_perm).
  unfold combined. rewrite Vr. split; [exact S0|]. split; [intros x; rewrite M; apply K; [apply MemS|apply MemO]|].
  assert (V4o : view h4 o = sortL (view h o)).
  { unfold h4. rewrite store_view_other by congruence. unfold view. rewrite (Ot (arr o)); [|apply F2o|congruence].
    change (view h2 o = sortL (view h o)). exact V2o. }
  split; [rewrite V4o; apply sort_perm|]. split; [|split].
  - intros Lc. destruct (Nat.leb_spec (len s + len o) (cap s)) as [X|X]; [lia|]. destruct Kind as [Et _].
    unfold h4. rewrite store_view_other by (rewrite Et; destruct F2s as (X1 & _); lia). rewrite V3s, V2s. apply sort_perm.
  - intros Lc. destruct (Nat.leb_spec (len s + len o) (cap s)) as [X|X]; [|lia]. rewrite <- Kind, Vh.
    eapply Permutation_trans; [exact P|]. rewrite Vt. apply Permutation_app; apply sort_perm.
  - intros a Ha Hs Ho.
    assert (Ht : a <> arr t). { destruct (len s + len o <=? cap s); [subst t; exact Hs|]. destruct Kind as [-> _]. lia. }
    unfold h4. rewrite store_other by exact Ht. rewrite Ot by (try exact Hs; lia).
    unfold h2, h1, sortN. rewrite !store_other by assumption. reflexivity.
Qed.

(** Difference and Intersect of slices without repetitions that share no memory give the
    difference and the intersection, ascending by address. Both slices are reordered; if the
    receiver has room behind it, that room is overwritten. *)
Theorem C99_difference : forall spare lib, lawful2 keepDiff (diff lib) ->
  forall h s o, fitsIn h s -> fitsIn h o -> arr s <> arr o -> NoDup (view h s) -> NoDup (view h o) ->
  let (h', r) := Difference spare lib h s o in combined keepDiff h s o h' r.
Proof. intros spare lib L. apply combine_ok; [exact L|]. unfold keepDiff. intros; intuition. Qed.
Theorem C99_intersect : forall spare lib, lawful2 keepInter (inter lib) ->
  forall h s o, fitsIn h s -> fitsIn h o -> arr s <> arr o -> NoDup (view h s) -> NoDup (view h o) ->
  let (h', r) := Intersect spare lib h s o in combined keepInter h s o h' r.
Proof. intros spare lib L. apply combine_ok; [exact L|]. unfold keepInter. intros; intuition. Qed.

(** Whatever the library does inside its contract: Difference on a slice with room behind it
    destroys what another slice of the same array holds there. *)
Theorem C99_untouched_refuted : forall spare lib, lawful2 keepDiff (diff lib) ->
  exists h s o big, fitsIn h s /\ fitsIn h o /\ fitsIn h big /\ arr s <> arr o /\ NoDup (view h s) /\ NoDup (view h o) /\
    In 5 (view h big) /\ ~ In 5 (view h o) /\
    ~ In 5 (view (fst (Difference spare lib h s o)) big).
Proof.
  intros spare lib L. exists [[1; 5]; [2]], (Sl 0 0 1 2), (Sl 1 0 1 1), (Sl 0 0 2 2).
  assert (Fs : fitsIn [[1; 5]; [2]] (Sl 0 0 1 2)) by (repeat split; cbn; lia).
  assert (Fo : fitsIn [[1; 5]; [2]] (Sl 1 0 1 1)) by (repeat split; cbn; lia).
  assert (N1 : NoDup (view [[1; 5]; [2]] (Sl 0 0 1 2))) by (cbn; constructor; [intros []|constructor]).
  assert (N2 : NoDup (view [[1; 5]; [2]] (Sl 1 0 1 1))) by (cbn; constructor; [intros []|constructor]).
  split; [exact Fs|]. split; [exact Fo|]. split; [repeat split; cbn; lia|]. split; [cbn; lia|]. split; [exact N1|]. split; [exact N2|].
  split; [cbn; tauto|]. split; [cbn; lia|].
  pose proof (C99_difference spare lib L _ _ _ Fs Fo ltac:(cbn; lia) N1 N2) as H.
  destruct (Difference spare lib [[1; 5]; [2]] (Sl 0 0 1 2) (Sl 1 0 1 1)) as [h' r]. cbn [fst].
  destruct H as (_ & _ & _ & _ & H & _). specialize (H ltac:(cbn; lia)). cbn [arr off len cap] in H. intros I.
  apply (Permutation_in _ H) in I. cbn in I. lia.
Qed.

(** Set: the same nodes, ascending and without repetition, in the same memory. *)
Theorem C99_set : forall lib, lawfulUniq (uniq lib) -> forall h s, fitsIn h s ->
  let (h', r) := Set_ lib h s in
  strict (view h' r) /\ (forall x, In x (view h' r) <-> In x (view h s)) /\
  Permutation (view h' s) (view h s) /\ view h' r = firstn (len r) (view h' s) /\
  (forall a, a <> arr s -> nth a h' [] = nth a h []).
Proof.
  intros lib L h s F. unfold Set_. set (h1 := sortN h s).
  assert (V1 : view h1 s = sortL (view h s)) by (apply sortN_view, F).
  assert (F1 : fitsIn h1 s) by (apply sortN_fits; exact F).
  destruct (L (view h1 s)) as (P & Q & S0 & M); [rewrite V1; apply sort_sorted|].
  destruct (uniq lib (view h1 s)) as [l size]. cbn [fst snd] in *.
  assert (Ll : length l = len s) by (rewrite (Permutation_length P); apply view_len, F1).
  assert (Vh : view (store h1 s 0 l) s = l) by (apply store_all; assumption).
  rewrite view_len in Q by exact F1.
  assert (Vr : view (store h1 s 0 l) (Sl (arr s) (off s) size (cap s)) = firstn size l).
  { rewrite <- Vh at 2. unfold view. cbn [len off arr]. rewrite firstn_firstn. f_equal. lia. }
  assert (PV : Permutation (view h1 s) (view h s)) by (rewrite V1; apply sort_perm).
  rewrite Vr, Vh. cbn [len]. split; [exact S0|]. split.
  { intros x. rewrite M. split; apply Permutation_in; [exact PV|apply Permutation_sym, PV]. }
  split; [eapply Permutation_trans; [exact P|exact PV]|]. split; [reflexivity|].
  intros a Ha. unfold h1, sortN. rewrite !store_other by exact Ha. reflexivity.
Qed.

Lemma existsb_eqb n l : existsb (Nat.eqb n) l = true <-> In n l.
Proof.
  rewrite existsb_exists. split; [intros (x & I & E); apply Nat.eqb_eq in E; subst; exact I|].
  intros I. exists n. split; [exact I|apply Nat.eqb_refl].
Qed.
Lemma not_in_eqb n l : ~ In n l -> existsb (Nat.eqb n) l = false.
Proof. intros N. destruct (existsb (Nat.eqb n) l) eqn:E; [apply existsb_eqb in E; contradiction|reflexivity]. Qed.
(** Contains and Add: a node is put behind the others unless it is there; without repetitions
    before, there are none afterwards, and the receiver still shows what it showed. *)
Theorem C99_add : forall spare h s n, fitsIn h s ->
  (Contains h s n = true <-> In n (view h s)) /\
  let (h', r) := Add spare h s n in
  fitsIn h' r /\ (In n (view h s) -> view h' r = view h s) /\ (~ In n (view h s) -> view h' r = view h s ++ [n]) /\
  (NoDup (view h s) -> NoDup (view h' r)) /\ view h' s = view h s.
Proof.
  intros spare h s n F. split; [apply existsb_eqb|]. unfold Add. destruct (existsb (Nat.eqb n) (view h s)) eqn:E.
  - apply existsb_eqb in E. split; [exact F|]. split; [reflexivity|]. split; [intros X; contradiction|]. split; [intros X; exact X|reflexivity].
  - assert (NI : ~ In n (view h s)) by (intros I; apply existsb_eqb in I; congruence).
    pose proof (append_ok spare h s [n] F) as A. destruct (append spare h s [n]) as [h' t].
    destruct A as (V & Ft & Vs & _). split; [exact Ft|]. split; [intros X; contradiction|]. split; [intros _; exact V|]. split; [|exact Vs].
    intros N. rewrite V. eapply Permutation_NoDup; [apply Permutation_cons_append|]. constructor; assumption.
Qed.
(** Two nodes added to one slice: the two results are independent if the slice is full, and
    the second addition destroys the first if there is room. *)
Theorem C99_add_twice : forall spare h s x y, fitsIn h s -> cap s = len s -> ~ In x (view h s) -> ~ In y (view h s) ->
  let (h1, a) := Add spare h s x in let (h2, b) := Add spare h1 s y in
  view h2 a = view h s ++ [x] /\ view h2 b = view h s ++ [y].
Proof.
  intros spare h s x y F C Nx Ny.
  assert (Ex : existsb (Nat.eqb x) (view h s) = false) by (apply not_in_eqb, Nx).
  unfold Add at 1. rewrite Ex. pose proof (append_ok spare h s [x] F) as A. destruct (append spare h s [x]) as [h1 a].
  destruct A as (V & Fa & Vs & Lh & Fk & Ot & _ & Kd).
  destruct (Nat.leb_spec (len s + length [x]) (cap s)) as [L|L]; [cbn in L; lia|]. destruct Kd as [Ea Kd].
  assert (Ey : existsb (Nat.eqb y) (view h1 s) = false) by (rewrite Vs; apply not_in_eqb, Ny).
  unfold Add. rewrite Ey. pose proof (append_ok spare h1 s [y] (Fk s F)) as B. destruct (append spare h1 s [y]) as [h2 b].
  destruct B as (Vb & _ & _ & _ & _ & Ob & _). split; [|rewrite Vb, Vs; reflexivity].
  rewrite <- V. unfold view. rewrite (Ob (arr a)); [reflexivity|apply Fa|]. rewrite Ea. destruct F as (X & _). lia.
Qed.
Theorem C99_add_twice_refuted : forall spare, exists h s, fitsIn h s /\ ~ In 7 (view h s) /\ ~ In 8 (view h s) /\
  let (h1, a) := Add spare h s 7 in let (h2, b) := Add spare h1 s 8 in
  In 7 (view h1 a) /\ ~ In 7 (view h2 a) /\ In 8 (view h2 a).
Proof.
  intros spare. exists [[3; 0]], (Sl 0 0 1 2). split; [repeat split; cbn; lia|]. cbn. split; [lia|]. split; [lia|]. lia.
Qed.

(** Equals asks for equal lengths and for every node of the receiver in the other slice. On
    slices without repetitions that is equality as sets, whatever the order; with repetitions
    it depends on the side. *)
Theorem C99_equals : forall h s o, fitsIn h s -> fitsIn h o -> NoDup (view h s) ->
  (Equals h s o = true <-> Permutation (view h s) (view h o)).
Proof.
  intros h s o Fs Fo N. unfold Equals. rewrite andb_true_iff, Nat.eqb_eq, forallb_forall.
  rewrite <- (view_len h s Fs), <- (view_len h o Fo). split.
  - intros [L A]. apply NoDup_Permutation_bis; [exact N|lia|]. intros x I. apply A in I. apply existsb_eqb in I. exact I.
  - intros P. split; [apply Permutation_length, P|]. intros x I. apply existsb_eqb. apply (Permutation_in _ P), I.
Qed.
Theorem C99_equals_refuted : exists h s o, fitsIn h s /\ fitsIn h o /\ Equals h s o = true /\ Equals h o s = false.
Proof. exists [[1; 1; 2]; [1; 2; 3]], (Sl 0 0 3 3), (Sl 1 0 3 3). repeat split; cbn; lia. Qed.

(** AllSameGraph: there is a node, and some graph holds every node that is no constant. *)
Theorem C99_same_graph : forall isConst graphOf l,
  AllSameGraph isConst graphOf l = true <-> l <> [] /\ exists g, forall n, In n l -> isConst n = false -> graphOf n = g.
Proof.
  intros isConst graphOf l. unfold AllSameGraph. destruct l as [|x0 l0]; [split; [discriminate|intros [X _]; contradiction]|].
  set (l := x0 :: l0). destruct (find (fun n => negb (isConst n)) l) as [n0|] eqn:E.
  - apply find_some in E as [I0 C0]. rewrite forallb_forall. split.
    + intros A. split; [discriminate|]. exists (graphOf n0). intros n I Cn. specialize (A n I). rewrite Cn, orb_false_r in A. apply Nat.eqb_eq, A.
    + intros [_ [g G]] n I. destruct (isConst n) eqn:Cn; [apply orb_true_r|]. rewrite orb_false_r. apply Nat.eqb_eq.
      rewrite (G n I Cn). symmetry. apply G; [exact I0|]. apply negb_true_iff, C0.
  - rewrite forallb_forall. pose proof (find_none _ _ E) as NN. cbv beta in NN. split.
    + intros A. split; [discriminate|]. exists 0. intros n I Cn. rewrite (A n I) in Cn. discriminate.
    + intros _ n I. specialize (NN n I). apply negb_false_iff, NN.
Qed.

Lemma index_some l : forall n i, index l n = Some i -> i < length l /\ nth i l 0 = n /\ ~ In n (firstn i l).
Proof.
  induction l as [|x l IH]; intros n i E; cbn in E; [discriminate|]. destruct (Nat.eqb_spec x n) as [->|D].
  - injection E as <-. cbn. split; [lia|]. split; [reflexivity|intros []].
  - destruct (index l n) as [j|] eqn:Ej; cbn in E; [|discriminate]. injection E as <-. destruct (IH _ _ Ej) as (A & B & C).
    cbn. split; [lia|]. split; [exact B|]. intros [X|X]; [congruence|contradiction].
Qed.
Lemma index_none l : forall n, index l n = None -> ~ In n l.
Proof.
  induction l as [|x l IH]; intros n E; cbn in E; [intros []|]. destruct (Nat.eqb_spec x n) as [->|D]; [discriminate|].
  destruct (index l n) eqn:Ej; cbn in E; [discriminate|]. intros [X|X]; [congruence|]. exact (IH _ Ej X).
Qed.
(** index finds the first place. *)
Theorem C99_index : forall l n,
  match index l n with
  | Some i => nth_error l i = Some n /\ ~ In n (firstn i l)
  | None => ~ In n l
  end.
Proof.
  intros l n. destruct (index l n) as [i|] eqn:E; [|apply index_none, E]. apply index_some in E as (A & B & C).
  split; [|exact C]. rewrite nth_error_nth' with (d := 0) by exact A. congruence.
Qed.

Lemma filter_cut w : forall i what, i < length w -> nth i w 0 = what ->
  filter (fun n => negb (Nat.eqb n what)) (firstn i w ++ skipn (S i) w) = filter (fun n => negb (Nat.eqb n what)) w.
Proof.
  intros i what L E. rewrite <- (firstn_skipn i w) at 3. rewrite !filter_app. f_equal.
  assert (X : skipn i w = nth i w 0 :: skipn (S i) w).
  { clear E. revert i L. induction w as [|x w IH]; intros [|i] L; cbn in *; try lia; [reflexivity|]. apply IH. lia. }
  rewrite X, E. cbn [filter]. rewrite Nat.eqb_refl. reflexivity.
Qed.
Lemma removeAt_ok h s i : fitsIn h s -> i < len s ->
  let (h', s') := removeAt h s i in
  fitsIn h' s' /\ view h' s' = firstn i (view h s) ++ skipn (S i) (view h s) /\ len s' = len s - 1 /\ arr s' = arr s /\ off s' = off s /\ cap s' = cap s /\
  (forall m, len s <= m -> m <= cap s -> view h' (Sl (arr s) (off s) m (cap s)) = view h' s' ++ 0 :: skipn (len s) (view h (Sl (arr s) (off s) m (cap s)))) /\
  (forall a, a <> arr s -> nth a h' [] = nth a h []).
Proof.
  intros F L. unfold removeAt. set (w := view h s). set (h1 := store h s i (skipn (S i) w)).
  assert (Lw : length w = len s) by (apply view_len, F). pose proof F as (A & B & C).
  assert (Lk : length (skipn (S i) w) = len s - S i) by (rewrite skipn_length, Lw; reflexivity).
  assert (F1 : fitsIn h1 s) by (apply store_fits; [lia|exact F|exact F]).
  set (h2 := store h1 s (len s - 1) [0]).
  assert (F2 : fitsIn h2 s) by (apply store_fits; [cbn; lia|exact F1|exact F1]).
  assert (Ft : fitsIn h2 (Sl (arr s) (off s) (len s - 1) (cap s))) by (destruct F2 as (X & Y & Z); split; [exact X|]; cbn [len cap off arr]; split; [lia|exact Z]).
  assert (PT : forall k m c, m <= cap s -> k < m -> nth k (view h2 (Sl (arr s) (off s) m c)) 0
           = if k =? len s - 1 then 0 else if (i <=? k) && (k <? len s - 1) then nth (S k) w 0 else nth (off s + k) (nth (arr s) h []) 0).
  { intros k m c Hm Hk. unfold h2. rewrite store_view by (try exact F1; cbn [length]; lia). cbn [length].
    destruct (Nat.eqb_spec k (len s - 1)) as [->|D].
    - destruct (Nat.leb_spec (len s - 1) (len s - 1)); [|lia]. destruct (Nat.ltb_spec (len s - 1) (len s - 1 + 1)); [|lia]. cbn [andb].
      rewrite Nat.sub_diag. reflexivity.
    - destruct ((len s - 1 <=? k) && (k <? len s - 1 + 1)) eqn:X; [apply andb_true_iff in X as [X1 X2]; apply Nat.leb_le in X1; apply Nat.ltb_lt in X2; lia|].
      pose proof (view_nth h1 (Sl (arr s) (off s) m c) k 0 Hk) as X1. cbn [off arr] in X1. rewrite <- X1. unfold h1.
      rewrite store_view by (try exact F; lia). rewrite Lk. replace (i + (len s - S i)) with (len s - 1) by lia.
      destruct (Nat.leb_spec i k) as [Y|Y]; cbn [andb]; [|reflexivity]. destruct (k <? len s - 1); [|reflexivity].
      rewrite nth_skipn. f_equal. lia. }
  assert (V2 : view h2 (Sl (arr s) (off s) (len s - 1) (cap s)) = firstn i w ++ skipn (S i) w).
  { apply eq_nth.
    - rewrite view_len by exact Ft. rewrite app_length, firstn_length, Lk, Lw. cbn [len]. lia.
    - intros k Hk. rewrite view_len in Hk by exact Ft. cbn [len] in Hk. rewrite PT by lia.
      destruct (Nat.eqb_spec k (len s - 1)); [lia|]. destruct (Nat.leb_spec i k) as [Y|Y]; cbn [andb].
      + destruct (Nat.ltb_spec k (len s - 1)); [|lia]. rewrite app_nth2; rewrite firstn_length, Lw; [|lia].
        rewrite nth_skipn. f_equal. lia.
      + rewrite app_nth1 by (rewrite firstn_length, Lw; lia). rewrite nth_firstn by exact Y. unfold w. rewrite view_nth by lia. reflexivity. }
  split; [exact Ft|]. split; [exact V2|]. split; [reflexivity|]. split; [reflexivity|]. split; [reflexivity|]. split; [reflexivity|]. split.
  - intros m Hm1 Hm2.
    assert (Fm : fitsIn h (Sl (arr s) (off s) m (cap s))) by (split; [exact A|]; cbn [len cap off arr]; split; [exact Hm2|exact C]).
    assert (Fm2 : fitsIn h2 (Sl (arr s) (off s) m (cap s))) by (destruct F2 as (X & Y & Z); split; [exact X|]; cbn [len cap off arr]; split; [exact Hm2|exact Z]).
    assert (Lv : length (view h2 (Sl (arr s) (off s) (len s - 1) (cap s))) = len s - 1) by (apply view_len, Ft).
    apply eq_nth.
    + rewrite view_len by exact Fm2. rewrite app_length, Lv. cbn [length]. rewrite skipn_length, view_len by exact Fm. cbn [len]. lia.
    + intros k Hk. rewrite view_len in Hk by exact Fm2. cbn [len] in Hk.
      destruct (Nat.lt_ge_cases k (len s - 1)) as [Y|Y].
      * rewrite app_nth1 by (rewrite Lv; exact Y). rewrite !PT by lia. reflexivity.
      * rewrite app_nth2 by (rewrite Lv; exact Y). rewrite Lv, PT by lia.
        destruct (Nat.eqb_spec k (len s - 1)) as [->|D]; [rewrite Nat.sub_diag; reflexivity|].
        replace (k - (len s - 1)) with (S (k - len s)) by lia. cbn [nth]. rewrite nth_skipn.
        destruct (Nat.ltb_spec k (len s - 1)); [lia|]. rewrite andb_false_r.
        rewrite view_nth by (cbn [len]; lia). cbn [off arr]. f_equal. lia.
  - intros a Ha. unfold h2, h1. rewrite !store_other by exact Ha. reflexivity.
Qed.
Lemma filter_short (l : list nat) what : length (filter (fun n => negb (Nat.eqb n what)) l) <= length l.
Proof. induction l as [|x l IH]; cbn; [lia|]. destruct (negb _); cbn; lia. Qed.
Lemma cut_len (w : list nat) : forall i, i < length w -> length (firstn i w ++ skipn (S i) w) = length w - 1.
Proof. intros i H. rewrite app_length, firstn_length, skipn_length. lia. Qed.

Lemma removeLoop_ok what : forall fuel h s, fitsIn h s -> len s < fuel ->
  let (h', r) := removeLoop fuel h s what in
  fitsIn h' r /\ view h' r = filter (fun n => negb (Nat.eqb n what)) (view h s) /\ arr r = arr s /\ off r = off s /\ cap r = cap s /\
  (forall m, len s <= m -> m <= cap s -> view h' (Sl (arr s) (off s) m (cap s))
     = view h' r ++ repeat 0 (len s - len r) ++ skipn (len s) (view h (Sl (arr s) (off s) m (cap s)))) /\
  (forall a, a <> arr s -> nth a h' [] = nth a h []).
Proof.
  induction fuel as [|fuel IH]; intros h s F L; [lia|]. cbn [removeLoop].
  destruct (index (view h s) what) as [i|] eqn:E.
  - apply index_some in E as (Hi & E & _). rewrite view_len in Hi by exact F.
    pose proof (removeAt_ok h s i F Hi) as R. destruct (removeAt h s i) as [h1 s1].
    destruct R as (F1 & V1 & L1 & A1 & O1 & C1 & P1 & Q1).
    specialize (IH h1 s1 F1 ltac:(lia)). destruct (removeLoop fuel h1 s1 what) as [h2 r].
    destruct IH as (F2 & V2 & A2 & O2 & C2 & P2 & Q2). rewrite A1, O1, C1 in *.
    assert (Lf : len r <= len s - 1).
    { rewrite <- (view_len h2 r F2), V2, <- L1, <- (view_len h1 s1 F1). apply filter_short. }
    split; [exact F2|]. split; [|split; [exact A2|split; [exact O2|split; [exact C2|split]]]].
    + rewrite V2, V1. apply filter_cut; [rewrite view_len by exact F; exact Hi|exact E].
    + intros m Hm1 Hm2. rewrite (P2 m) by lia. f_equal. rewrite (P1 m Hm1 Hm2).
      assert (Lv : length (view h1 s1) = len s1) by (apply view_len, F1).
      rewrite skipn_app, Lv, Nat.sub_diag, skipn_all2 by lia. cbn [app skipn].
      replace (len s - len r) with (len s1 - len r + 1) by lia. rewrite repeat_app, <- app_assoc. reflexivity.
    + intros a Ha. rewrite Q2 by exact Ha. apply Q1, Ha.
  - apply index_none in E. split; [exact F|]. split; [|split; [reflexivity|split; [reflexivity|split; [reflexivity|split]]]].
    + assert (X : forall l, ~ In what l -> filter (fun n => negb (Nat.eqb n what)) l = l); [|symmetry; apply X, E].
      induction l as [|x l IHl]; intros NI; cbn; [reflexivity|]. destruct (Nat.eqb_spec x what) as [->|D]; [exfalso; apply NI; left; reflexivity|].
      cbn. f_equal. apply IHl. intros I. apply NI. right. exact I.
    + intros m Hm1 Hm2. rewrite Nat.sub_diag. cbn [repeat app].
      rewrite <- (firstn_skipn (len s) (view h (Sl (arr s) (off s) m (cap s)))) at 1. f_equal.
      unfold view. cbn [len off arr]. rewrite firstn_firstn. f_equal. lia.
    + reflexivity.
Qed.
(** remove takes out every occurrence and keeps the order; the receiver, and any longer slice
    of its memory, shows nil in the places given up. *)
Theorem C99_remove : forall h s what, fitsIn h s ->
  let (h', r) := remove h s what in
  view h' r = filter (fun n => negb (Nat.eqb n what)) (view h s) /\
  view h' s = filter (fun n => negb (Nat.eqb n what)) (view h s) ++ repeat 0 (count_occ Nat.eq_dec (view h s) what) /\
  (forall a, a <> arr s -> nth a h' [] = nth a h []).
Proof.
  intros h s what F. unfold remove. pose proof (removeLoop_ok what (S (len s)) h s F ltac:(lia)) as R.
  destruct (removeLoop (S (len s)) h s what) as [h' r]. destruct R as (Fr & V & _ & _ & _ & P & Q).
  split; [exact V|]. split; [|exact Q]. specialize (P (len s) (le_n _)). destruct F as (A & B & C). specialize (P B).
  assert (F : fitsIn h s) by (split; [exact A|split; [exact B|exact C]]).
  replace (Sl (arr s) (off s) (len s) (cap s)) with s in P by (destruct s; reflexivity).
  rewrite P, V. f_equal. rewrite skipn_all2 by (rewrite view_len by exact F; lia). rewrite app_nil_r. f_equal.
  rewrite <- (view_len h' r Fr), V, <- (view_len h s F). generalize (view h s). clear.
  induction l as [|x l IH]; cbn [filter count_occ length]; [reflexivity|].
  pose proof (filter_short l what). destruct (Nat.eqb_spec x what) as [->|D]; cbn [negb length].
  - destruct (Nat.eq_dec what what); [|congruence]. lia.
  - destruct (Nat.eq_dec x what); [congruence|]. exact IH.
Qed.
(** replace exchanges every occurrence in place. *)
Theorem C99_replace : forall h s what wth, fitsIn h s ->
  let (h', r) := replace h s what wth in
  r = s /\ view h' s = map (fun n => if Nat.eqb n what then wth else n) (view h s) /\ (forall a, a <> arr s -> nth a h' [] = nth a h []).
Proof.
  intros h s what wth F. unfold replace. split; [reflexivity|]. split; [|intros; apply store_other; assumption].
  apply store_all; [exact F|]. rewrite map_length. apply view_len, F.
Qed.

Lemma swap_len l i o : length (swap l i o) = length l.
Proof. unfold swap. rewrite map_length, seq_length. reflexivity. Qed.
Lemma swap_nth l i o k : k < length l -> nth k (swap l i o) 0 = nth (if Nat.eqb k i then o else if Nat.eqb k o then i else k) l 0.
Proof.
  intros H. unfold swap. set (f := fun k => _). rewrite nth_indep with (d' := f 0) by (rewrite map_length, seq_length; exact H).
  rewrite (map_nth f), seq_nth by exact H. reflexivity.
Qed.
Lemma reverseLoop_ok : forall i l, i <= length l / 2 ->
  length (reverseLoop l i) = length l /\
  forall k, k < length l -> nth k (reverseLoop l i) 0 = if (k <? i) || (length l - 1 - k <? i) then nth (length l - 1 - k) l 0 else nth k l 0.
Proof.
  induction i as [|i IH]; intros l H; cbn [reverseLoop].
  - split; [reflexivity|]. intros k Hk. rewrite !(proj2 (Nat.ltb_ge _ _)) by lia. reflexivity.
  - assert (H2 : 2 * (length l / 2) <= length l) by (apply Nat.mul_div_le; lia).
    destruct (IH (swap l i (length l - 1 - i))) as [Le N]; [rewrite swap_len; lia|]. rewrite swap_len in Le, N.
    split; [exact Le|]. intros k Hk. rewrite N by exact Hk.
    rewrite !swap_nth by lia.
    destruct (Nat.ltb_spec k i); destruct (Nat.ltb_spec (length l - 1 - k) i); destruct (Nat.ltb_spec k (S i)); destruct (Nat.ltb_spec (length l - 1 - k) (S i));
      cbn [orb]; try lia; repeat match goal with |- context [Nat.eqb ?a ?b] => destruct (Nat.eqb_spec a b) end; try lia; f_equal; lia.
Qed.
(** reverse turns the slice round in place. *)
Theorem C99_reverse : forall h s, fitsIn h s ->
  view (reverse h s) s = rev (view h s) /\ (forall a, a <> arr s -> nth a (reverse h s) [] = nth a h []).
Proof.
  intros h s F. unfold reverse. split; [|intros; apply store_other; assumption].
  pose proof (view_len h s F) as L. destruct (reverseLoop_ok (len s / 2) (view h s)) as [Le N]; [rewrite L; lia|].
  rewrite store_all by (try exact F; lia). apply eq_nth; [rewrite rev_length; exact Le|].
  intros k Hk. rewrite Le in Hk. rewrite N by exact Hk. rewrite rev_nth by exact Hk.
  assert (H2 : length (view h s) < 2 * S (len s / 2)) by (rewrite L; pose proof (Nat.mul_succ_div_gt (len s) 2); lia).
  destruct (Nat.ltb_spec k (len s / 2)); destruct (Nat.ltb_spec (length (view h s) - 1 - k) (len s / 2)); cbn [orb]; f_equal; lia.
Qed.

(** A library that keeps its contract: the result in front, all other nodes behind it. *)
Definition exPart (yes : bool) (l : list nat) (p : nat) : list nat * nat :=
  let keepIt x := Bool.eqb yes (existsb (Nat.eqb x) (skipn p l)) in
  let front := filter keepIt (firstn p l) in
  (front ++ filter (fun x => negb (keepIt x)) (firstn p l) ++ skipn p l, length front).
Fixpoint exSplit (l : list nat) : list nat * list nat :=
  match l with
  | [] => ([], [])
  | x :: l' => let (f, r) := exSplit l' in if existsb (Nat.eqb x) f then (f, x :: r) else (x :: f, r)
  end.
Definition exLib : setLib :=
  SetLib (fun l => (fst (exSplit l) ++ snd (exSplit l), length (fst (exSplit l)))) (exPart false) (exPart true).
Lemma exPart_lawful : forall yes : bool, lawful2 (if yes then keepInter else keepDiff) (exPart yes).
Proof.
  intros yes a b Sa Sb. unfold exPart. cbn [fst snd].
  rewrite firstn_app, Nat.sub_diag, firstn_all, firstn_O, app_nil_r, skipn_app, Nat.sub_diag, skipn_all. cbn [app skipn].
  set (k := fun x => Bool.eqb yes (existsb (Nat.eqb x) b)).
  assert (P : forall l, Permutation (filter k l ++ filter (fun x => negb (k x)) l) l).
  { induction l as [|x l IH]; [constructor|]. cbn [filter]. destruct (k x); cbn [negb app].
    - constructor. exact IH.
    - eapply Permutation_trans; [apply Permutation_sym, Permutation_middle|]. constructor. exact IH. }
  split; [rewrite app_assoc; apply Permutation_app; [apply P|apply Permutation_refl]|].
  split; [rewrite app_length; pose proof (Permutation_length (P a)) as X; rewrite app_length in X; lia|].
  rewrite firstn_app, Nat.sub_diag, firstn_all, firstn_O, app_nil_r. split.
  - clear P. unfold strict in *. induction Sa as [|x l H IH F]; cbn [filter]; [constructor|]. destruct (k x); [|exact IH].
    constructor; [exact IH|]. rewrite Forall_forall in *. intros z Hz. apply filter_In in Hz as [Hz _]. apply F, Hz.
  - intros x. rewrite filter_In. unfold k. destruct yes; unfold keepDiff, keepInter.
    + destruct (existsb (Nat.eqb x) b) eqn:E; cbn [Bool.eqb].
      * apply existsb_eqb in E. split; [intros [I _]|intros [I _]]; auto.
      * split; [intros [_ D]; discriminate D|]. intros [_ I]. apply existsb_eqb in I. congruence.
    + destruct (existsb (Nat.eqb x) b) eqn:E; cbn [Bool.eqb].
      * apply existsb_eqb in E. split; [intros [_ D]; discriminate D|]. intros [_ N]. contradiction.
      * split; intros [I _]; (split; [exact I|]); [|reflexivity]. intros I'. apply existsb_eqb in I'. congruence.
Qed.
Lemma exSplit_in : forall l x, In x (fst (exSplit l)) <-> In x l.
Proof.
  induction l as [|y l IH]; intros x; [reflexivity|]. cbn [exSplit]. specialize (IH x). pose proof (existsb_eqb y (fst (exSplit l))) as Y. destruct (exSplit l) as [f r]. cbn [fst] in *.
  destruct (existsb (Nat.eqb y) f); cbn [fst In]; [|rewrite IH; reflexivity].
  split; [intros H; right; apply IH, H|]. intros [<-|H]; [apply Y; reflexivity|apply IH, H].
Qed.
Lemma exLib_lawful : lawfulUniq (uniq exLib) /\ lawful2 keepDiff (diff exLib) /\ lawful2 keepInter (inter exLib).
Proof.
  split; [|split; [exact (exPart_lawful false)|exact (exPart_lawful true)]].
  intros l S0. cbn [uniq exLib fst snd]. rewrite firstn_app, Nat.sub_diag, firstn_all, firstn_O, app_nil_r.
  assert (P : Permutation (fst (exSplit l) ++ snd (exSplit l)) l).
  { clear S0. induction l as [|x l IH]; [constructor|]. cbn [exSplit]. destruct (exSplit l) as [f r]. cbn [fst snd] in *.
    destruct (existsb (Nat.eqb x) f); cbn [fst snd]; [|cbn [app]; constructor; exact IH].
    eapply Permutation_trans; [apply Permutation_sym, Permutation_middle|]. constructor. exact IH. }
  split; [exact P|]. split; [rewrite <- (Permutation_length P), app_length; lia|]. split; [|apply exSplit_in].
  clear P. unfold strict. induction S0 as [|x l H IH F]; [constructor|]. cbn [exSplit].
  pose proof (exSplit_in l) as M. pose proof (existsb_eqb x (fst (exSplit l))) as Y. destruct (exSplit l) as [f r]. cbn [fst] in *.
  destruct (existsb (Nat.eqb x) f); cbn [fst]; [exact IH|]. constructor; [exact IH|].
  rewrite Forall_forall in *. intros z Hz. pose proof (proj1 (M z) Hz) as Hl. specialize (F z Hl).
  assert (z <> x) by (intros ->; pose proof (proj2 Y Hz); discriminate). lia.
Qed.
(** Difference of (9, 4, 6) and (6, 2); nodes removed, turned round; AllSameGraph with a
    constant of another graph. *)
Example C99_case :
  let h := [[9; 4; 6]; [6; 2]] in
  let (h', r) := Difference (fun n => n) exLib h (Sl 0 0 3 3) (Sl 1 0 2 2) in
  view h' r = [4; 9] /\ view h' (Sl 0 0 3 3) = [4; 6; 9] /\ view h' (Sl 1 0 2 2) = [2; 6] /\
  view (fst (remove [[5; 7; 5; 8]] (Sl 0 0 4 4) 5)) (Sl 0 0 4 4) = [7; 8; 0; 0] /\
  view (reverse [[5; 7; 5; 8]] (Sl 0 0 4 4)) (Sl 0 0 4 4) = [8; 5; 7; 5] /\
  AllSameGraph (Nat.eqb 3) (fun n => if n =? 3 then 1 else 0) [1; 3; 2] = true.
Proof. vm_compute. repeat split. Qed.

Print Assumptions C99_difference.
Print Assumptions C99_intersect.
Print Assumptions C99_untouched_refuted.
Print Assumptions C99_set.
Print Assumptions C99_add.
Print Assumptions C99_add_twice.
Print Assumptions C99_add_twice_refuted.
Print Assumptions C99_equals.
Print Assumptions C99_equals_refuted.
Print Assumptions C99_same_graph.
Print Assumptions C99_index.
Print Assumptions C99_remove.
Print Assumptions C99_replace.
Print Assumptions C99_reverse.
