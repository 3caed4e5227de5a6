(** Lemmas on loops and slices. *)
From Coq Require Import Arith List Bool Lia.
From Verif Require Import LoopModel.
Import ListNotations.
Local Open Scope nat_scope.

Lemma foldM_app {B S} (f : B -> S -> option S) l l' s :
  foldM f (l ++ l') s = match foldM f l s with Some s' => foldM f l' s' | None => None end.
Proof.
  revert s. induction l as [|p l IH]; intro s; simpl; [reflexivity|].
  destruct (f p s); [apply IH|reflexivity].
Qed.

Lemma foldM_ext {B S} (f g : B -> S -> option S) l s :
  (forall p t, In p l -> f p t = g p t) -> foldM f l s = foldM g l s.
Proof.
  revert s. induction l as [|p l IH]; intros s H; simpl; [reflexivity|].
  rewrite H by (left; reflexivity). destruct (g p s); [|reflexivity].
  apply IH. intros q t Hq. apply H. right; exact Hq.
Qed.

(** Nested loops are one loop over the list of all index tuples. *)
Lemma foldM_flat {B C S} (body : B -> S -> option S) (g : C -> S -> option S) (l : B -> list C) L s :
  (forall i t, In i L -> body i t = foldM g (l i) t) ->
  foldM body L s = foldM g (flat_map l L) s.
Proof.
  revert s. induction L as [|i L IH]; intros s H; simpl; [reflexivity|].
  rewrite foldM_app, H by (left; reflexivity).
  destruct (foldM g (l i) s); [|reflexivity]. apply IH. intros j t Hj. apply H. right; exact Hj.
Qed.

Lemma loop_flat {C S} n (body : nat -> S -> option S) (g : C -> S -> option S) (l : nat -> list C) s :
  (forall i t, i < n -> body i t = foldM g (l i) t) ->
  loop n body s = foldM g (flat_map l (seq 0 n)) s.
Proof.
  intro H. apply foldM_flat. intros i t Hi. apply in_seq in Hi. apply H. lia.
Qed.

Lemma loop_map {C S} n (body : nat -> S -> option S) (g : C -> S -> option S) (l : nat -> C) s :
  (forall i t, i < n -> body i t = g (l i) t) ->
  loop n body s = foldM g (map l (seq 0 n)) s.
Proof.
  intro H. unfold loop. 
  assert (G : forall L s, (forall i, In i L -> i < n) -> foldM body L s = foldM g (map l L) s).
  { induction L as [|i L IH]; intros t HL; simpl; [reflexivity|].
    rewrite H by (apply HL; left; reflexivity). destruct (g (l i) t); [|reflexivity].
    apply IH. intros j Hj. apply HL. right; exact Hj. }
  apply G. intros i Hi. apply in_seq in Hi. lia.
Qed.

Lemma aset_some {A} (l : list A) i v : i < length l ->
  exists l', aset l i v = Some l' /\ length l' = length l /\ nth_error l' i = Some v /\
             (forall j, j <> i -> nth_error l' j = nth_error l j).
Proof.
  revert i. induction l as [|x l IH]; intros i H; simpl in H; [lia|]. destruct i as [|i]; simpl.
  - exists (v :: l). repeat split; auto. intros [|j] Hj; [congruence|reflexivity].
  - destruct (IH i) as [l' [E [L [N F]]]]; [lia|]. rewrite E. exists (x :: l').
    repeat split; simpl; auto. intros [|j] Hj; simpl; [reflexivity|apply F; congruence].
Qed.

Lemma aset_app {A} (l : list A) a r v : aset (l ++ a :: r) (length l) v = Some (l ++ v :: r).
Proof. induction l as [|x l IH]; simpl; [reflexivity|]. rewrite IH. reflexivity. Qed.

Lemma aset_none {A} (l : list A) i v : length l <= i -> aset l i v = None.
Proof.
  revert i. induction l as [|x l IH]; intros [|i] H; simpl in *; try reflexivity; try lia.
  rewrite IH by lia. reflexivity.
Qed.

Lemma aget_some {A} (l : list A) i : i < length l -> exists v, aget l i = Some v.
Proof.
  intro H. unfold aget. destruct (nth_error l i) as [v|] eqn:E; [eauto|].
  apply nth_error_None in E. lia.
Qed.

(** Filling a slice from left to right. *)
Lemma fill_ok {B A} (f : B -> option A) (val : B -> A) (L : list B) : forall (d r : list A),
  (forall p, In p L -> f p = Some (val p)) -> length r = length L ->
  foldM (fun p (st : list A * nat) =>
           match f p with
           | None => None
           | Some v => match aset (fst st) (snd st) v with
                       | Some c => Some (c, S (snd st))
                       | None => None
                       end
           end) L (d ++ r, length d)
  = Some (d ++ map val L, length d + length L).
Proof.
  induction L as [|p L IH]; intros d r Hf Hr; simpl in Hr.
  - destruct r; [|discriminate]. simpl. rewrite app_nil_r, Nat.add_0_r. reflexivity.
  - destruct r as [|x r]; [discriminate|]. simpl. rewrite Hf by (left; reflexivity).
    rewrite aset_app.
    specialize (IH (d ++ [val p]) r). rewrite <- app_assoc in IH. simpl in IH.
    rewrite app_length in IH. simpl in IH. rewrite Nat.add_1_r in IH.
    rewrite IH; [|intros q Hq; apply Hf; right; exact Hq|simpl in Hr; lia].
    rewrite <- app_assoc. simpl. f_equal. f_equal. lia.
Qed.

(** ** Positions in lists of equal blocks *)
Lemma flat_map_length {B C} (f : B -> list C) m L :
  (forall x, In x L -> length (f x) = m) -> length (flat_map f L) = length L * m.
Proof.
  induction L as [|a L IH]; intro H; simpl; [reflexivity|].
  rewrite app_length, H by (left; reflexivity). rewrite IH; [reflexivity|].
  intros x Hx. apply H. right; exact Hx.
Qed.

Lemma nth_flat_map {B C} (f : B -> list C) m L : forall i j a,
  (forall x, In x L -> length (f x) = m) -> j < m -> nth_error L i = Some a ->
  nth_error (flat_map f L) (i * m + j) = nth_error (f a) j.
Proof.
  induction L as [|b L IH]; intros i j a H Hj Ha; [destruct i; discriminate|].
  destruct i as [|i]; simpl in Ha.
  - injection Ha as ->. simpl. apply nth_error_app1. rewrite H by (left; reflexivity). exact Hj.
  - simpl. rewrite nth_error_app2; rewrite (H b) by (left; reflexivity); [|lia].
    replace (m + i * m + j - m) with (i * m + j) by lia.
    apply IH; auto. intros x Hx. apply H. right; exact Hx.
Qed.

Lemma nth_seq0 n i : i < n -> nth_error (seq 0 n) i = Some i.
Proof.
  intro H. rewrite (nth_error_nth' _ 0) by (rewrite seq_length; exact H).
  rewrite seq_nth by exact H. reflexivity.
Qed.

Lemma flat_map_seq_length {C} (f : nat -> list C) m n :
  (forall i, i < n -> length (f i) = m) -> length (flat_map f (seq 0 n)) = n * m.
Proof.
  intro H. rewrite (flat_map_length f m); [rewrite seq_length; reflexivity|].
  intros x Hx. apply in_seq in Hx. apply H. lia.
Qed.

Lemma nth_flat_map_seq {C} (f : nat -> list C) m n i j :
  (forall k, k < n -> length (f k) = m) -> i < n -> j < m ->
  nth_error (flat_map f (seq 0 n)) (i * m + j) = nth_error (f i) j.
Proof.
  intros H Hi Hj. apply nth_flat_map; auto; [|apply nth_seq0; exact Hi].
  intros x Hx. apply in_seq in Hx. apply H. lia.
Qed.

Lemma aslice_some {A} (l : list A) a b : a <= b -> b <= length l ->
  aslice l a b = Some (firstn (b - a) (skipn a l)).
Proof.
  intros H1 H2. unfold aslice. destruct (Nat.leb_spec a b); [|lia].
  destruct (Nat.leb_spec b (length l)); [reflexivity|lia].
Qed.

Lemma nth_firstn {A} (l : list A) n i : i < n -> nth_error (firstn n l) i = nth_error l i.
Proof.
  revert l i. induction n as [|n IH]; intros l i H; [lia|].
  destruct l as [|x l]; [reflexivity|]. destruct i as [|i]; simpl; [reflexivity|apply IH; lia].
Qed.

Lemma nth_skipn {A} (l : list A) n i : nth_error (skipn n l) i = nth_error l (n + i).
Proof.
  revert l. induction n as [|n IH]; intro l; simpl; [reflexivity|].
  destruct l as [|x l]; [destruct i; reflexivity|apply IH].
Qed.

(** Invariants of a loop. *)
Lemma foldM_inv {B S} (f : B -> S -> option S) (P : list B -> S -> Prop) (L : list B) s0 :
  P [] s0 ->
  (forall done p rest s, L = done ++ p :: rest -> P done s ->
     exists s', f p s = Some s' /\ P (done ++ [p]) s') ->
  exists s', foldM f L s0 = Some s' /\ P L s'.
Proof.
  intros H0 Hs.
  assert (G : forall rest done s, L = done ++ rest -> P done s ->
    exists s', foldM f rest s = Some s' /\ P L s').
  { induction rest as [|p rest IH]; intros done s E H.
    - rewrite app_nil_r in E. subst. exists s. split; [reflexivity|exact H].
    - destruct (Hs done p rest s E H) as [s1 [F1 H1]]. simpl. rewrite F1.
      apply (IH (done ++ [p])); [rewrite <- app_assoc; exact E|exact H1]. }
  apply (G L []); [reflexivity|exact H0].
Qed.

(** Pairs of the indices of two nested loops, and where each of them stands. *)
Definition pairs (n m : nat) : list (nat * nat) := flat_map (fun i => map (fun j => (i, j)) (seq 0 m)) (seq 0 n).

Lemma loop2_pairs {S} n m (body : nat -> nat -> S -> option S) s :
  loop n (fun i => loop m (fun j => body i j)) s = foldM (fun p => body (fst p) (snd p)) (pairs n m) s.
Proof.
  apply loop_flat. intros i t _. apply (loop_map m (body i) (fun p => body (fst p) (snd p)) (fun j => (i, j))).
  reflexivity.
Qed.

Lemma pairs_length n m : length (pairs n m) = n * m.
Proof. apply flat_map_seq_length. intros. rewrite map_length, seq_length. reflexivity. Qed.

Lemma pairs_nth n m i j : i < n -> j < m -> nth_error (pairs n m) (i * m + j) = Some (i, j).
Proof.
  intros Hi Hj. unfold pairs. rewrite nth_flat_map_seq; [|intros; rewrite map_length, seq_length; reflexivity|exact Hi|exact Hj].
  rewrite nth_error_map, nth_seq0 by exact Hj. reflexivity.
Qed.

Lemma pairs_nth_inv n m k i j : nth_error (pairs n m) k = Some (i, j) -> k = i * m + j /\ i < n /\ j < m.
Proof.
  intro H. assert (Hk : k < n * m).
  { rewrite <- pairs_length. apply nth_error_Some. rewrite H. discriminate. }
  assert (m <> 0) by lia.
  assert (E : k = (k / m) * m + k mod m) by (rewrite Nat.mul_comm; apply Nat.div_mod; assumption).
  assert (D : k / m < n) by (apply Nat.div_lt_upper_bound; lia).
  assert (M : k mod m < m) by (apply Nat.mod_upper_bound; assumption).
  rewrite E, pairs_nth in H by assumption. injection H as <- <-. auto.
Qed.
