(** Invariants of the two derivative tensors. *)
From Coq Require Import Arith List Reals Lia Bool.
From Verif Require Import AliasModel AliasSpec.
Import ListNotations.
Local Open Scope nat_scope.

Lemma sumFrom_app v a b : sumFrom v (a ++ b) = sumFrom (sumFrom v a) b.
Proof. unfold sumFrom. apply fold_left_app. Qed.

(** Distinct tensors at [a] (input) and [b] (output). *)
Definition apart (w : world) (a b : nat) (u v : vec) : Prop :=
  xd w = Some a /\ sd w = Some b /\ a <> b /\ cells w a = Some u /\ cells w b = Some v /\ pool w = [] /\ a < next w /\ b < next w.
(** One tensor for both. *)
Definition shared (w : world) (a : nat) (u : vec) : Prop :=
  xd w = Some a /\ sd w = Some a /\ cells w a = Some u /\ pool w = [] /\ a < next w.

Lemma add_ok w a u g : cells w a = Some u -> addTo (Some a) g w = Some (store a (Some (vadd u g)) w).
Proof. intro E. cbn [addTo]. rewrite E. reflexivity. Qed.
Lemma store_same a v w : cells (store a v w) a = v.
Proof. cbn [store cells]. rewrite Nat.eqb_refl. reflexivity. Qed.
Lemma store_other a b v w : a <> b -> cells (store a v w) b = cells w b.
Proof. intro N. cbn [store cells]. destruct (Nat.eqb_spec b a); [congruence|reflexivity]. Qed.

Lemma apart_happen es : forall w a b u v, apart w a b u v ->
  exists w', happenAll es w = Some w' /\ apart w' a b (sumFrom u (forX es)) (sumFrom v (forS es)).
Proof.
  induction es as [|e es IH]; intros w a b u v H; [exists w; split; [reflexivity|exact H]|].
  destruct H as [X [S [N [U [V [P [LA LB]]]]]]]. destruct e as [g|g]; cbn [happenAll happen].
  - rewrite X, (add_ok w a u g U). destruct (IH (store a (Some (vadd u g)) w) a b (vadd u g) v) as [w' [E A]]; [|exists w'; split; [exact E|exact A]].
    repeat split; auto; [apply store_same|rewrite store_other; auto].
  - rewrite S, (add_ok w b v g V). destruct (IH (store b (Some (vadd v g)) w) a b u (vadd v g)) as [w' [E A]]; [|exists w'; split; [exact E|exact A]].
    repeat split; auto; [rewrite store_other; auto|apply store_same].
Qed.
Lemma shared_happen es : forall w a u, shared w a u -> exists w', happenAll es w = Some w' /\ shared w' a (sumFrom u (forBoth es)).
Proof.
  induction es as [|e es IH]; intros w a u H; [exists w; split; [reflexivity|exact H]|].
  destruct H as [X [S [U [P L]]]]. destruct e as [g|g]; cbn [happenAll happen]; rewrite ?X, ?S, (add_ok w a u g U);
  (destruct (IH (store a (Some (vadd u g)) w) a (vadd u g)) as [w' [E A]]; [|exists w'; split; [exact E|exact A]]; repeat split; auto; apply store_same).
Qed.
Lemma forX_map gs : forX (map ToX gs) = gs.
Proof. induction gs as [|g gs IH]; cbn; [reflexivity|]. f_equal. exact IH. Qed.
Lemma forS_map gs : forS (map ToX gs) = [].
Proof. induction gs as [|g gs IH]; cbn; [reflexivity|]. exact IH. Qed.
Lemma forBoth_map gs : forBoth (map ToX gs) = gs.
Proof. unfold forBoth. rewrite map_map. apply map_id. Qed.
Definition seed (root : bool) : vec := fun _ => if root then 1%R else 0%R.

(** The rest of a round once the forward half left distinct tensors. *)
Definition backHalf (adopts : bool) (r : round) (w : world) : option world :=
  match happenAll (rbefore r) w with
  | None => None
  | Some w1 => match doDiff adopts (rpull r) w1 with None => None | Some w2 => happenAll (map ToX (rafter r)) w2 end
  end.
Lemma run_back leaf root adopts r w : run leaf root adopts r w = backHalf adopts r (forwardS root (forwardX leaf w)).
Proof. reflexivity. Qed.
Lemma back_plain r w a b u v : apart w a b u v ->
  exists w', backHalf false r w = Some w' /\ apart w' a b (sumFrom u (forX (rbefore r) ++ [rpull r (sumFrom v (forS (rbefore r)))] ++ rafter r)) (sumFrom v (forS (rbefore r))).
Proof.
  intro H. unfold backHalf. destruct (apart_happen (rbefore r) w a b u v H) as [w1 [E1 A1]]. rewrite E1. pose proof A1 as [X [S [N [U [V [P [LA LB]]]]]]].
  unfold doDiff. rewrite S, V, X, (add_ok w1 a _ _ U).
  set (u1 := sumFrom u (forX (rbefore r))) in *. set (v1 := sumFrom v (forS (rbefore r))) in *.
  destruct (apart_happen (map ToX (rafter r)) (store a (Some (vadd u1 (rpull r v1))) w1) a b (vadd u1 (rpull r v1)) v1) as [w2 [E2 A2]].
  { repeat split; auto; [apply store_same|rewrite store_other; auto]. }
  exists w2. split; [exact E2|]. rewrite forX_map, forS_map in A2. rewrite !sumFrom_app. exact A2.
Qed.
Lemma back_adopt_apart r w a b u v : apart w a b u v ->
  exists w', backHalf true r w = Some w' /\ shared w' a (sumFrom u (forX (rbefore r) ++ [rpull r (sumFrom v (forS (rbefore r)))] ++ rafter r)).
Proof.
  intro H. unfold backHalf. destruct (apart_happen (rbefore r) w a b u v H) as [w1 [E1 A1]]. rewrite E1. pose proof A1 as [X [S [N [U [V [P [LA LB]]]]]]].
  unfold doDiff. rewrite S, V, X, (add_ok w1 a _ _ U).
  set (u1 := sumFrom u (forX (rbefore r))) in *. set (v1 := sumFrom v (forS (rbefore r))) in *. cbn [store xd]. rewrite X.
  destruct (shared_happen (map ToX (rafter r)) (setS (Some a) (store a (Some (vadd u1 (rpull r v1))) w1)) a (vadd u1 (rpull r v1))) as [w2 [E2 A2]].
  { repeat split; auto. cbn [setS cells]. apply store_same. }
  exists w2. split; [exact E2|]. rewrite forBoth_map in A2. rewrite !sumFrom_app. exact A2.
Qed.
Lemma back_adopt_shared r w a u : shared w a u ->
  exists w', backHalf true r w = Some w' /\ shared w' a (sumFrom (sumFrom u (forBoth (rbefore r))) (rpull r (sumFrom u (forBoth (rbefore r))) :: rafter r)).
Proof.
  intro H. unfold backHalf. destruct (shared_happen (rbefore r) w a u H) as [w1 [E1 A1]]. rewrite E1. pose proof A1 as [X [S [U [P L]]]].
  unfold doDiff. rewrite S, U, X, (add_ok w1 a _ _ U).
  set (u1 := sumFrom u (forBoth (rbefore r))) in *. cbn [store xd]. rewrite X.
  destruct (shared_happen (map ToX (rafter r)) (setS (Some a) (store a (Some (vadd u1 (rpull r u1))) w1)) a (vadd u1 (rpull r u1))) as [w2 [E2 A2]].
  { repeat split; auto. cbn [setS cells]. apply store_same. }
  exists w2. split; [exact E2|]. rewrite forBoth_map in A2. exact A2.
Qed.
(** The forward halves. *)
Lemma forward_start leaf root d0 : exists a b,
  apart (forwardS root (forwardX leaf (start d0))) a b (if leaf then orZero d0 else vzero) (seed root).
Proof.
  destruct d0 as [d|].
  - exists 0, 1. destruct leaf, root; repeat split; try reflexivity; cbn; lia.
  - exists 1, 2. destruct leaf, root; repeat split; try reflexivity; cbn; lia.
Qed.
Lemma forward_apart leaf root w a b u v : apart w a b u v -> apart (forwardS root (forwardX leaf w)) a b (if leaf then u else vzero) (seed root).
Proof.
  intros [X [S [N [U [V [P [LA LB]]]]]]]. unfold forwardX. rewrite X. unfold forwardS.
  destruct leaf; cbn [store sd]; rewrite S; (repeat split; auto; [|rewrite store_same; destruct root; reflexivity]); rewrite store_other by auto; [exact U|apply store_same].
Qed.
Lemma forward_shared leaf root w a u : shared w a u -> shared (forwardS root (forwardX leaf w)) a (seed root).
Proof.
  intros [X [S [U [P L]]]]. unfold forwardX. rewrite X. unfold forwardS.
  destruct leaf; cbn [store sd]; rewrite S; (repeat split; auto); rewrite store_same; destruct root; reflexivity.
Qed.
Lemma runs_app leaf root adopts rs r : forall w, runs leaf root adopts (rs ++ [r]) w = match runs leaf root adopts rs w with None => None | Some w' => run leaf root adopts r w' end.
Proof. induction rs as [|q rs IH]; intro w; cbn [app runs]; [destruct (run leaf root adopts r w); reflexivity|]. destruct (run leaf root adopts q w); [apply IH|reflexivity]. Qed.
