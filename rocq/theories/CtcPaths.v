(** The forward recursion of CTC computes sums over label sequences. *)
From Coq Require Import Arith Lia Reals Lra List Bool.
From Verif Require Import CtcModel CtcSpec.
Import ListNotations.
Local Open Scope R_scope.

(** ** Sums over lists *)

Lemma total_ext {X} (f g : X -> R) l : (forall x, In x l -> f x = g x) -> total f l = total g l.
Proof.
  unfold total. induction l as [|a l IH]; intro H; cbn [map fold_right]; [reflexivity|].
  rewrite H by (left; reflexivity). f_equal. apply IH. intros; apply H; right; assumption.
Qed.
Lemma total_app {X} (f : X -> R) l l' : total f (l ++ l') = total f l + total f l'.
Proof. unfold total. induction l as [|a l IH]; cbn [app map fold_right]; [|rewrite IH]; lra. Qed.
Lemma total_flat_map {X Y} (f : Y -> R) (g : X -> list Y) l :
  total f (flat_map g l) = total (fun x => total f (g x)) l.
Proof.
  induction l as [|a l IH]; [reflexivity|]. cbn [flat_map]. rewrite total_app, IH. reflexivity.
Qed.
Lemma total_map {X Y} (f : Y -> R) (g : X -> Y) l : total f (map g l) = total (fun x => f (g x)) l.
Proof. unfold total. rewrite map_map. reflexivity. Qed.
Lemma total_add {X} (f g : X -> R) l : total (fun x => f x + g x) l = total f l + total g l.
Proof. unfold total. induction l as [|a l IH]; cbn [map fold_right]; [|rewrite IH]; lra. Qed.
Lemma total_mul_r {X} (f : X -> R) c l : total (fun x => f x * c) l = total f l * c.
Proof. unfold total. induction l as [|a l IH]; cbn [map fold_right]; [|rewrite IH]; lra. Qed.
Lemma total_mul_l {X} (f : X -> R) c l : total (fun x => c * f x) l = c * total f l.
Proof. unfold total. induction l as [|a l IH]; cbn [map fold_right]; [|rewrite IH]; lra. Qed.
Lemma total_zero {X} (f : X -> R) l : (forall x, In x l -> f x = 0) -> total f l = 0.
Proof.
  unfold total. induction l as [|a l IH]; intro H; cbn [map fold_right]; [reflexivity|].
  rewrite H by (left; reflexivity). rewrite IH; [lra|]. intros; apply H; right; assumption.
Qed.
Lemma total_swap {X Y} (f : X -> Y -> R) l m :
  total (fun x => total (f x) m) l = total (fun y => total (fun x => f x y) l) m.
Proof.
  induction l as [|a l IH].
  - symmetry. apply total_zero. reflexivity.
  - change (total (f a) m + total (fun x => total (f x) m) l =
            total (fun y => f a y + total (fun x => f x y) l) m).
    rewrite total_add, IH. reflexivity.
Qed.
Lemma total_filter {X} (f : X -> R) (b : X -> bool) l :
  total f (filter b l) = total (fun x => if b x then f x else 0) l.
Proof.
  unfold total. induction l as [|a l IH]; cbn [filter map fold_right]; [reflexivity|].
  destruct (b a); cbn [map fold_right]; rewrite IH; lra.
Qed.
Lemma total_nonneg {X} (f : X -> R) l : (forall x, In x l -> 0 <= f x) -> 0 <= total f l.
Proof.
  unfold total. induction l as [|a l IH]; intro H; cbn [map fold_right]; [lra|].
  pose proof (H a (or_introl eq_refl)). specialize (IH (fun x h => H x (or_intror h))). lra.
Qed.
Lemma total_seq_single (f : nat -> R) n k : (k < n)%nat ->
  total (fun i => if (i =? k)%nat then f i else 0) (seq 0 n) = f k.
Proof.
  intro H. replace n with (k + S (n - k - 1))%nat by lia.
  rewrite seq_app, total_app. cbn [seq Nat.add].
  unfold total at 2. cbn [map fold_right]. rewrite Nat.eqb_refl.
  fold (total (fun i => if (i =? k)%nat then f i else 0) (seq (S k) (n - k - 1))).
  rewrite !total_zero.
  - lra.
  - intros x Hx. apply in_seq in Hx. destruct (Nat.eqb_spec x k); [lia|reflexivity].
  - intros x Hx. apply in_seq in Hx. destruct (Nat.eqb_spec x k); [lia|reflexivity].
Qed.

(** ** Sequences *)

Lemma paths_snoc (f : list nat -> R) L T :
  total f (paths L (S T)) = total (fun l => total (fun c => f (l ++ [c])) (seq 0 L)) (paths L T).
Proof.
  revert f. induction T as [|T IH]; intro f.
  - cbn [paths]. rewrite total_flat_map. unfold total at 3. cbn [map fold_right app]. rewrite Rplus_0_r.
    apply total_ext. intros x _. unfold total. cbn [map fold_right]. lra.
  - change (paths L (S (S T))) with (flat_map (fun c => map (cons c) (paths L (S T))) (seq 0 L)).
    rewrite total_flat_map.
    transitivity (total (fun x => total (fun l => total (fun c => f (x :: l ++ [c])) (seq 0 L)) (paths L T)) (seq 0 L)).
    + apply total_ext. intros x _. rewrite total_map. rewrite (IH (fun l => f (x :: l))). reflexivity.
    + cbn [paths]. rewrite total_flat_map. apply total_ext. intros x _. rewrite total_map. reflexivity.
Qed.

Lemma paths_length L T l : In l (paths L T) -> length l = T.
Proof.
  revert l. induction T as [|T IH]; intros l H; cbn [paths] in H.
  - destruct H as [<-|[]]. reflexivity.
  - apply in_flat_map in H as [c [_ H]]. apply in_map_iff in H as [r [<- H]]. cbn [length]. f_equal. apply IH, H.
Qed.
Lemma paths_bound L T l : In l (paths L T) -> Forall (fun c => (c < L)%nat) l.
Proof.
  revert l. induction T as [|T IH]; intros l H; cbn [paths] in H.
  - destruct H as [<-|[]]. constructor.
  - apply in_flat_map in H as [c [Hc H]]. apply in_map_iff in H as [r [<- H]]. apply in_seq in Hc.
    constructor; [lia|apply IH, H].
Qed.

Lemma pathProb_snoc p l : forall t c, pathProb p t (l ++ [c]) = pathProb p t l * p (t + length l)%nat c.
Proof.
  induction l as [|a l IH]; intros t c; cbn [app pathProb length].
  - rewrite Nat.add_0_r. lra.
  - rewrite IH. replace (S t + length l)%nat with (t + S (length l))%nat by lia. lra.
Qed.
Lemma pathProb_nonneg p : (forall t c, 0 <= p t c) -> forall l t, 0 <= pathProb p t l.
Proof.
  intros H l. induction l as [|a l IH]; intro t; cbn [pathProb]; [lra|].
  apply Rmult_le_pos; [apply H|apply IH].
Qed.

Lemma last_cons2 {X} (a b : X) l d : last (a :: b :: l) d = last (b :: l) d.
Proof. reflexivity. Qed.

Lemma dedup_snoc l x : l <> [] ->
  dedup (l ++ [x]) = if (last l 0 =? x)%nat then dedup l else dedup l ++ [x].
Proof.
  induction l as [|a l IH]; intro H; [congruence|]. destruct l as [|b l].
  - cbn. destruct (Nat.eqb_spec a x) as [->|]; reflexivity.
  - rewrite last_cons2. specialize (IH ltac:(discriminate)).
    change (dedup ((a :: b :: l) ++ [x])) with (if (a =? b)%nat then dedup ((b :: l) ++ [x]) else a :: dedup ((b :: l) ++ [x])).
    change (dedup (a :: b :: l)) with (if (a =? b)%nat then dedup (b :: l) else a :: dedup (b :: l)).
    rewrite IH. destruct (last (b :: l) 0 =? x)%nat, (a =? b)%nat; reflexivity.
Qed.
Lemma collapse_snoc l x : l <> [] ->
  collapse (l ++ [x]) = if (x =? 0)%nat then collapse l
                        else if (last l 0 =? x)%nat then collapse l else collapse l ++ [x].
Proof.
  intro H. unfold collapse. rewrite dedup_snoc by exact H.
  destruct (Nat.eqb_spec (last l 0%nat) x) as [E|D].
  - destruct (x =? 0)%nat; reflexivity.
  - rewrite filter_app. cbn [filter]. destruct (Nat.eqb_spec x 0) as [->|]; cbn [negb].
    + rewrite app_nil_r. reflexivity.
    + reflexivity.
Qed.
Lemma collapse_last l : l <> [] -> last l 0%nat <> 0%nat -> exists q, collapse l = q ++ [last l 0%nat].
Proof.
  induction l as [|x l IH] using rev_ind; intros H N; [congruence|].
  rewrite last_last in *. destruct l as [|a l].
  - exists []. cbn. destruct (Nat.eqb_spec x 0); [contradiction|reflexivity].
  - rewrite collapse_snoc by discriminate. destruct (Nat.eqb_spec x 0); [contradiction|].
    destruct (Nat.eqb_spec (last (a :: l) 0%nat) x) as [E|D].
    + destruct IH as [q IH]; [discriminate|rewrite E; assumption|]. exists q. rewrite IH, E. reflexivity.
    + eexists. reflexivity.
Qed.

Section Target.
Variables (y : list nat) (L : nat).
Hypothesis Hy : proper L y.
Hypothesis HL : (0 < L)%nat.
Let n := length y.

Definition pr (s : nat) : nat := if Nat.even s then 0%nat else nth (Nat.div2 s) y 0%nat.

Definition Ev k l := collapse l = firstn k y /\ last l 0%nat = 0%nat.
Definition Od k l := collapse l = firstn (S k) y /\ last l 0%nat <> 0%nat.

Lemma firstn_last k : (k < n)%nat -> firstn (S k) y = firstn k y ++ [nth k y 0%nat].
Proof.
  unfold n. clear. revert k. induction y as [|a r IH]; intros k H; [cbn in H; lia|].
  destruct k; [reflexivity|]. cbn [firstn nth app]. cbn [length] in H. rewrite <- IH by lia. reflexivity.
Qed.
Lemma nth_label k : (k < n)%nat -> (0 < nth k y 0 < L)%nat.
Proof.
  intro H. unfold proper in Hy. rewrite Forall_forall in Hy. apply Hy, nth_In, H.
Qed.

Lemma Ev_snoc k l c : l <> [] -> (k <= n)%nat ->
  (Ev k (l ++ [c]) <-> c = 0%nat /\ (Ev k l \/ exists j, k = S j /\ Od j l)).
Proof.
  intros Hl Hk. unfold Ev, Od. rewrite last_last, collapse_snoc by exact Hl. split.
  - intros [A ->]. split; [reflexivity|]. rewrite Nat.eqb_refl in A.
    destruct (Nat.eq_dec (last l 0%nat) 0) as [E|D]; [left; tauto|]. right.
    destruct (collapse_last l Hl D) as [q E]. destruct k as [|j].
    + rewrite A in E. destruct q; discriminate.
    + exists j. tauto.
  - intros [-> H]. rewrite Nat.eqb_refl. split; [|reflexivity].
    destruct H as [[A _]|[j [-> [A _]]]]; exact A.
Qed.

Lemma Od_snoc k l c : l <> [] -> (k < n)%nat ->
  (Od k (l ++ [c]) <-> c = nth k y 0%nat /\
     (Od k l \/ Ev k l \/ exists j, k = S j /\ nth j y 0%nat <> nth k y 0%nat /\ Od j l)).
Proof.
  intros Hl Hk. pose proof (nth_label k Hk) as Hn.
  unfold Ev, Od. rewrite last_last, collapse_snoc by exact Hl. rewrite (firstn_last k Hk). split.
  - intros [A N]. destruct (Nat.eqb_spec c 0) as [|_]; [contradiction|].
    destruct (Nat.eqb_spec (last l 0%nat) c) as [E|D].
    + destruct (collapse_last l Hl ltac:(congruence)) as [q F].
      pose proof A as A'. rewrite F in A'. apply app_inj_tail in A' as [_ A'].
      split; [congruence|]. left. split; [exact A|congruence].
    + apply app_inj_tail in A as [A ->]. split; [reflexivity|]. right.
      destruct (Nat.eq_dec (last l 0%nat) 0) as [E|D0]; [left; tauto|]. right.
      destruct (collapse_last l Hl D0) as [q F]. destruct k as [|j].
      * rewrite A in F. destruct q; discriminate.
      * exists j. split; [reflexivity|]. split; [|tauto].
        rewrite A, (firstn_last j) in F by lia. apply app_inj_tail in F as [_ F]. congruence.
  - intros [-> H]. split; [|lia]. destruct (Nat.eqb_spec (nth k y 0%nat) 0) as [|_]; [lia|].
    destruct H as [[A N]|[[A E]|[j [-> [D [A N]]]]]].
    + destruct (collapse_last l Hl N) as [q F]. rewrite A in F. apply app_inj_tail in F as [_ F].
      rewrite <- F, Nat.eqb_refl. exact A.
    + rewrite E. destruct (Nat.eqb_spec 0 (nth k y 0%nat)); [lia|]. rewrite A. reflexivity.
    + destruct (collapse_last l Hl N) as [q F]. rewrite A, (firstn_last j) in F by lia.
      apply app_inj_tail in F as [_ F]. rewrite <- F.
      destruct (Nat.eqb_spec (nth j y 0%nat) (nth (S j) y 0%nat)); [contradiction|]. rewrite A. reflexivity.
Qed.

(** A sequence leads to state [s] of the extended target. *)
Definition at_state (s : nat) (l : list nat) : bool :=
  if Nat.even s then is_label_of (firstn (Nat.div2 s) y) l && (last l 0 =? 0)%nat
  else is_label_of (firstn (S (Nat.div2 s)) y) l && negb (last l 0 =? 0)%nat.

Lemma is_label_of_iff z l : is_label_of z l = true <-> collapse l = z.
Proof. unfold is_label_of. destruct (list_eq_dec Nat.eq_dec (collapse l) z); split; congruence. Qed.

Lemma at_even k l : at_state (2 * k) l = true <-> Ev k l.
Proof.
  unfold at_state. rewrite Nat.even_mul. cbn [Nat.even orb]. rewrite Nat.div2_double.
  rewrite andb_true_iff, is_label_of_iff, Nat.eqb_eq. reflexivity.
Qed.
Lemma at_odd k l : at_state (2 * k + 1) l = true <-> Od k l.
Proof.
  clear Hy HL.
  unfold at_state. rewrite Nat.even_add, Nat.even_mul. cbn [Nat.even orb Bool.eqb].
  replace (2 * k + 1)%nat with (S (2 * k)) by lia. rewrite Nat.div2_succ_double.
  rewrite andb_true_iff, is_label_of_iff, negb_true_iff, Nat.eqb_neq. reflexivity.
Qed.
Lemma pr_even k : pr (2 * k) = 0%nat.
Proof. unfold pr. rewrite Nat.even_mul. reflexivity. Qed.
Lemma pr_odd k : pr (2 * k + 1) = nth k y 0%nat.
Proof.
  clear Hy HL.
  unfold pr. rewrite Nat.even_add, Nat.even_mul. cbn [Nat.even orb Bool.eqb].
  replace (2 * k + 1)%nat with (S (2 * k)) by lia. rewrite Nat.div2_succ_double. reflexivity.
Qed.
Lemma pr_bound s : (s < 2 * n + 1)%nat -> (pr s < L)%nat.
Proof.
  intro H. destruct (Nat.Even_or_Odd s) as [[k ->]|[k ->]].
  - rewrite pr_even. exact HL.
  - rewrite pr_odd. apply nth_label. lia.
Qed.

Definition ind (b : bool) : R := if b then 1 else 0.

Lemma Ev_Od_excl j k l : Ev j l -> Od k l -> False.
Proof. intros [_ A] [_ B]. contradiction. Qed.
Lemma Od_unique j k l : (j < n)%nat -> (k < n)%nat -> Od j l -> Od k l -> j = k.
Proof.
  intros Hj Hk [A _] [B _]. rewrite A in B. apply (f_equal (@length _)) in B.
  rewrite !firstn_length in B. fold n in B. lia.
Qed.
Lemma ind_true b : b = true -> ind b = 1. Proof. intros ->. reflexivity. Qed.
Lemma ind_false b : b = false -> ind b = 0. Proof. intros ->. reflexivity. Qed.
Lemma iff_false b (P : Prop) : (b = true <-> P) -> ~ P -> b = false.
Proof. intros H N. destruct b; [exfalso; tauto|reflexivity]. Qed.

(** One more label: from the same state, the one before, or over the blank. *)
Lemma state_step s l c : l <> [] -> (s < 2 * n + 1)%nat ->
  ind (at_state s (l ++ [c])) =
  ind (c =? pr s)%nat *
    (ind (at_state s l) + (if (0 <? s)%nat then ind (at_state (s - 1) l) else 0) +
     (if (1 <? s)%nat then if (pr (s - 2) =? pr s)%nat then 0 else ind (at_state (s - 2) l) else 0)).
Proof.
  intros Hl Hs. destruct (Nat.Even_or_Odd s) as [[k ->]|[k ->]].
  - rewrite pr_even. replace (if (1 <? 2 * k)%nat then _ else 0) with 0.
    2:{ destruct (Nat.ltb_spec 1 (2 * k)); [|reflexivity].
        replace (2 * k - 2)%nat with (2 * (k - 1))%nat by lia. rewrite pr_even. reflexivity. }
    rewrite Rplus_0_r. assert (Hk : (k <= n)%nat) by lia.
    pose proof (Ev_snoc k l c Hl Hk) as E.
    destruct (Nat.eqb_spec c 0) as [Hc|Hc].
    2:{ rewrite (iff_false _ _ (at_even k (l ++ [c]))) by tauto. cbn [ind]. lra. }
    change (ind true) with 1. rewrite Rmult_1_l. destruct k as [|j].
    + change (0 <? 2 * 0)%nat with false. cbv iota. rewrite Rplus_0_r. f_equal.
      apply Bool.eq_iff_eq_true. rewrite !at_even. rewrite E. split; [intros [_ [A|[j [A _]]]]; [exact A|discriminate]|tauto].
    + destruct (Nat.ltb_spec 0 (2 * S j)); [|lia]. replace (2 * S j - 1)%nat with (2 * j + 1)%nat by lia.
      destruct (at_state (2 * j + 1) l) eqn:F.
      * apply at_odd in F. rewrite (ind_true (at_state (2 * S j) (l ++ [c]))).
        2:{ apply at_even, E. split; [exact Hc|]. right. exists j. tauto. }
        rewrite (ind_false (at_state (2 * S j) l)). { cbn [ind]. lra. }
        apply (iff_false _ _ (at_even _ _)). intro A. exact (Ev_Od_excl _ _ _ A F).
      * cbn [ind]. rewrite Rplus_0_r. f_equal. apply Bool.eq_iff_eq_true. rewrite !at_even. rewrite E. split; [|tauto].
        intros [_ [A|[i [A B]]]]; [exact A|]. injection A as <-. apply at_odd in B. congruence.
  - rewrite pr_odd. assert (Hk : (k < n)%nat) by lia. pose proof (Od_snoc k l c Hl Hk) as E.
    destruct (Nat.eqb_spec c (nth k y 0%nat)) as [Hc|Hc].
    2:{ rewrite (iff_false _ _ (at_odd k (l ++ [c]))) by tauto. cbn [ind]. lra. }
    change (ind true) with 1. rewrite Rmult_1_l.
    destruct (Nat.ltb_spec 0 (2 * k + 1)); [|lia]. replace (2 * k + 1 - 1)%nat with (2 * k)%nat by lia.
    set (third := if (1 <? 2 * k + 1)%nat then _ else 0).
    assert (Ht : third = 1 /\ (exists j, k = S j /\ nth j y 0%nat <> nth k y 0%nat /\ Od j l) \/
                 third = 0 /\ ~ (exists j, k = S j /\ nth j y 0%nat <> nth k y 0%nat /\ Od j l)).
    { unfold third. destruct (Nat.ltb_spec 1 (2 * k + 1)) as [G|G].
      - replace (2 * k + 1 - 2)%nat with (2 * (k - 1) + 1)%nat by lia. rewrite pr_odd.
        destruct k as [|j]; [lia|]. replace (S j - 1)%nat with j by lia.
        destruct (Nat.eqb_spec (nth j y 0%nat) (nth (S j) y 0%nat)) as [F|F].
        + right. split; [reflexivity|]. intros [i [A [B _]]]. injection A as <-. contradiction.
        + destruct (at_state (2 * j + 1) l) eqn:At.
          * left. split; [reflexivity|]. exists j. apply at_odd in At. tauto.
          * right. split; [reflexivity|]. intros [i [A [_ B]]]. injection A as <-. apply at_odd in B. congruence.
      - right. split; [reflexivity|]. intros [j [A _]]. lia. }
    clearbody third.
    destruct (at_state (2 * k + 1) l) eqn:F1.
    + apply at_odd in F1. rewrite (ind_false (at_state (2 * k) l)).
      2:{ apply (iff_false _ _ (at_even _ _)). intro A. exact (Ev_Od_excl _ _ _ A F1). }
      destruct Ht as [[-> [j [A [_ B]]]]|[-> _]].
      * pose proof (Od_unique j k l ltac:(lia) Hk B F1). lia.
      * rewrite (ind_true (at_state _ _)); [cbn [ind]; lra|]. apply at_odd, E. tauto.
    + assert (N1 : ~ Od k l) by (intro A; apply at_odd in A; congruence).
      destruct (at_state (2 * k) l) eqn:F2.
      * apply at_even in F2. destruct Ht as [[-> [j [A [_ B]]]]|[-> _]]; [exfalso; exact (Ev_Od_excl _ _ _ F2 B)|].
        rewrite (ind_true (at_state _ _)); [cbn [ind]; lra|]. apply at_odd, E. tauto.
      * assert (N2 : ~ Ev k l) by (intro A; apply at_even in A; congruence).
        destruct Ht as [[-> B]|[-> B]].
        -- rewrite (ind_true (at_state _ _)); [cbn [ind]; lra|]. apply at_odd, E. tauto.
        -- rewrite (ind_false (at_state _ _)); [cbn [ind]; lra|]. apply (iff_false _ _ (at_odd _ _)).
           intro A. apply E in A. tauto.
Qed.

Section Table.
Variable p : nat -> nat -> R.

(** The forward recursion on probabilities. *)
Fixpoint alphaR (t s : nat) : R :=
  match t with
  | O => if (s =? 0)%nat then p 0 0 else if (s =? 1)%nat && (0 <? n)%nat then p 0%nat (pr 1) else 0
  | S t' => (alphaR t' s + (if (0 <? s)%nat then alphaR t' (s - 1) else 0) +
             (if (1 <? s)%nat then if (pr (s - 2) =? pr s)%nat then 0 else alphaR t' (s - 2) else 0)) * p t (pr s)
  end.

Lemma total_seq_ind (f : nat -> R) k : (k < L)%nat -> total (fun c => ind (c =? k)%nat * f c) (seq 0 L) = f k.
Proof.
  intro H. rewrite <- (total_seq_single f L k H). apply total_ext. intros x _.
  destruct (x =? k)%nat; cbn [ind]; lra.
Qed.

Theorem alphaR_paths t : forall s, (s < 2 * n + 1)%nat ->
  alphaR t s = total (fun l => ind (at_state s l) * pathProb p 0 l) (paths L (S t)).
Proof.
  induction t as [|t IH]; intros s Hs.
  - cbn [paths]. rewrite total_flat_map.
    transitivity (total (fun c => ind (at_state s [c]) * p 0%nat c) (seq 0 L)).
    2:{ apply total_ext. intros c _. unfold total. cbn [map fold_right pathProb]. lra. }
    cbn [alphaR]. destruct (Nat.Even_or_Odd s) as [[k ->]|[k ->]].
    + destruct k as [|k].
      * change (2 * 0 =? 0)%nat with true. cbv iota. symmetry.
        rewrite <- (total_seq_ind (fun c => p 0%nat c) 0 HL). apply total_ext. intros c _. f_equal. f_equal.
        apply Bool.eq_iff_eq_true. rewrite at_even, Nat.eqb_eq. unfold Ev. cbn.
        split; [tauto|intros ->; split; reflexivity].
      * destruct (Nat.eqb_spec (2 * S k) 0); [lia|]. destruct (Nat.eqb_spec (2 * S k) 1); [lia|]. cbn [andb].
        symmetry. apply total_zero. intros c _. rewrite (ind_false (at_state _ _)); [lra|].
        apply (iff_false _ _ (at_even _ _)). unfold Ev. cbn [last]. intros [A ->]. cbn in A.
        destruct y as [|a r]; [unfold n in Hs; cbn in Hs; lia|discriminate].
    + destruct (Nat.eqb_spec (2 * k + 1) 0); [lia|]. destruct k as [|k].
      * replace (0 <? n)%nat with true by (symmetry; apply Nat.ltb_lt; lia).
        change (2 * 0 + 1 =? 1)%nat with true. cbn [andb].
        assert (Hn : (0 < n)%nat) by lia. pose proof (nth_label 0 Hn) as Hl0.
        change 1%nat with (2 * 0 + 1)%nat at 1. rewrite pr_odd. symmetry.
        rewrite <- (total_seq_ind (fun c => p 0%nat c) (nth 0 y 0%nat)) by lia.
        apply total_ext. intros c _. f_equal. f_equal. apply Bool.eq_iff_eq_true.
        rewrite at_odd, Nat.eqb_eq. unfold Od. rewrite (firstn_last 0 Hn). cbn [last firstn app].
        unfold collapse. cbn [dedup filter]. destruct (Nat.eqb_spec c 0) as [->|Hc]; cbn [negb].
        -- split; [intros [A _]; discriminate|intro; lia].
        -- split; [intros [A _]; congruence|intros ->; split; [reflexivity|lia]].
      * destruct (Nat.eqb_spec (2 * S k + 1) 1); [lia|]. cbn [andb].
        symmetry. apply total_zero. intros c _. rewrite (ind_false (at_state _ _)); [lra|].
        apply (iff_false _ _ (at_odd _ _)). unfold Od. intros [A _].
        apply (f_equal (@length _)) in A. rewrite firstn_length in A. fold n in A.
        unfold collapse in A. cbn [dedup filter] in A. destruct (negb (c =? 0)%nat); cbn [length] in A; lia.
  - change (alphaR (S t) s) with
      ((alphaR t s + (if (0 <? s)%nat then alphaR t (s - 1) else 0) +
        (if (1 <? s)%nat then if (pr (s - 2) =? pr s)%nat then 0 else alphaR t (s - 2) else 0)) * p (S t) (pr s)).
    rewrite paths_snoc.
    transitivity (total (fun l =>
      (ind (at_state s l) * pathProb p 0 l + (if (0 <? s)%nat then ind (at_state (s - 1) l) * pathProb p 0 l else 0) +
       (if (1 <? s)%nat then if (pr (s - 2) =? pr s)%nat then 0 else ind (at_state (s - 2) l) * pathProb p 0 l else 0))
       * p (S t) (pr s)) (paths L (S t))).
    + rewrite total_mul_r. f_equal. rewrite !total_add. f_equal; [f_equal|].
      * apply IH, Hs.
      * destruct (0 <? s)%nat; [apply IH; lia|symmetry; apply total_zero; reflexivity].
      * destruct (1 <? s)%nat; [|symmetry; apply total_zero; reflexivity].
        destruct (pr (s - 2) =? pr s)%nat; [symmetry; apply total_zero; reflexivity|apply IH; lia].
    + apply total_ext. intros l Hl. pose proof (paths_length _ _ _ Hl) as Len.
      assert (Nl : l <> []) by (intros ->; discriminate).
      rewrite <- (total_seq_ind (fun c => (ind (at_state s l) * pathProb p 0 l +
         (if (0 <? s)%nat then ind (at_state (s - 1) l) * pathProb p 0 l else 0) +
         (if (1 <? s)%nat then if (pr (s - 2) =? pr s)%nat then 0 else ind (at_state (s - 2) l) * pathProb p 0 l else 0))
         * p (S t) c) (pr s)) by (apply pr_bound; exact Hs).
      apply total_ext. intros c _. rewrite state_step by assumption. rewrite pathProb_snoc, Len.
      cbn [Nat.add]. destruct (0 <? s)%nat, (1 <? s)%nat, (pr (s - 2) =? pr s)%nat; ring.
Qed.

(** The likelihood is what the last row holds at its last two states. *)
Theorem likelihood_alpha T : (0 < T)%nat ->
  likelihood p L T y = alphaR (T - 1) (2 * n) + (if (0 <? n)%nat then alphaR (T - 1) (2 * n - 1) else 0).
Proof.
  intro HT. unfold likelihood. rewrite total_filter. rewrite alphaR_paths by lia.
  replace (S (T - 1)) with T by lia.
  assert (F : firstn n y = y) by apply firstn_all.
  destruct (Nat.ltb_spec 0 n) as [Hn|Hn].
  - rewrite alphaR_paths by lia. replace (S (T - 1)) with T by lia. rewrite <- total_add.
    apply total_ext. intros l Hl. replace (2 * n - 1)%nat with (2 * (n - 1) + 1)%nat by lia.
    pose proof (at_even n l) as A. pose proof (at_odd (n - 1) l) as B. unfold Ev, Od in *.
    replace (S (n - 1)) with n in B by lia. rewrite F in *. pose proof (is_label_of_iff y l) as C.
    destruct (is_label_of y l), (at_state (2 * n) l), (at_state (2 * (n - 1) + 1) l); cbn [ind];
      try lra; exfalso; intuition congruence.
  - rewrite Rplus_0_r. apply total_ext. intros l Hl.
    assert (Nl : l <> []) by (intros ->; apply paths_length in Hl; cbn in Hl; lia).
    pose proof (at_even n l) as A. unfold Ev in A. rewrite F in A. pose proof (is_label_of_iff y l) as C.
    assert (Y : y = []) by (destruct y; [reflexivity|unfold n in Hn; cbn in Hn; lia]).
    assert (Z : collapse l = y -> last l 0%nat = 0%nat).
    { intro E. destruct (Nat.eq_dec (last l 0%nat) 0) as [|D]; [assumption|].
      destruct (collapse_last l Nl D) as [q G]. rewrite E, Y in G. destruct q; discriminate. }
    destruct (is_label_of y l), (at_state (2 * n) l); cbn [ind]; try lra; exfalso; intuition congruence.
Qed.

Lemma alphaR_nonneg t : (forall t c, 0 <= p t c) -> forall s, 0 <= alphaR t s.
Proof.
  intro H. induction t as [|t IH]; intro s; cbn [alphaR].
  - destruct (s =? 0)%nat; [apply H|]. destruct ((s =? 1)%nat && (0 <? n)%nat); [apply H|lra].
  - apply Rmult_le_pos; [|apply H]. pose proof (IH s). pose proof (IH (s - 1)%nat). pose proof (IH (s - 2)%nat).
    destruct (0 <? s)%nat, (1 <? s)%nat, (pr (s - 2) =? pr s)%nat; lra.
Qed.
End Table.
End Target.
