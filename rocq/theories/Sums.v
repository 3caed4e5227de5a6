(** Finite sums over an arbitrary commutative ring; library file (no code of
    /repo is modelled here). *)
From Coq Require Import Arith Lia Ring Ring_theory List Bool Reals ZArith.
Import ListNotations.

(** A commutative ring. *)
Class CRing (A : Type) := {
  r0 : A; r1 : A;
  radd : A -> A -> A; rmul : A -> A -> A; rsub : A -> A -> A; ropp : A -> A;
  cr_th : ring_theory r0 r1 radd rmul rsub ropp eq
}.

Declare Scope cr_scope.
Delimit Scope cr_scope with cr.
Notation "x + y" := (radd x y) : cr_scope.
Notation "x * y" := (rmul x y) : cr_scope.
Notation "x - y" := (rsub x y) : cr_scope.
Notation "- x" := (ropp x) : cr_scope.
Notation "0" := r0 : cr_scope.
Notation "1" := r1 : cr_scope.

#[export] Instance CRing_Z : CRing Z := {
  r0 := 0%Z; r1 := 1%Z; radd := Z.add; rmul := Z.mul; rsub := Z.sub; ropp := Z.opp;
  cr_th := Zth }.

Lemma Rring_theory :
  ring_theory 0%R 1%R Rplus Rmult Rminus Ropp eq.
Proof. exact RTheory. Qed.

#[export] Instance CRing_R : CRing R := {
  r0 := 0%R; r1 := 1%R; radd := Rplus; rmul := Rmult; rsub := Rminus; ropp := Ropp;
  cr_th := Rring_theory }.

Section Sums.
Context {A : Type} {CR : CRing A}.
Add Ring Aring : (@cr_th A CR).
Local Open Scope cr_scope.

(** [sum n f] is f 0 + … + f (n-1). *)
Fixpoint sum (n : nat) (f : nat -> A) : A :=
  match n with
  | O => 0
  | S k => sum k f + f k
  end.

Lemma sum_ext n f g : (forall i, (i < n)%nat -> f i = g i) -> sum n f = sum n g.
Proof.
  induction n as [|n IH]; intro H; simpl; [reflexivity|].
  rewrite IH by (intros; apply H; lia). rewrite (H n) by lia. reflexivity.
Qed.

Lemma sum_ext2 n m f g :
  n = m -> (forall i, (i < n)%nat -> f i = g i) -> sum n f = sum m g.
Proof. intros <-. apply sum_ext. Qed.

Lemma sum_add n f g : sum n (fun i => f i + g i) = sum n f + sum n g.
Proof. induction n as [|n IH]; simpl; [ring|]. rewrite IH. ring. Qed.

Lemma sum_sub n f g : sum n (fun i => f i - g i) = sum n f - sum n g.
Proof. induction n as [|n IH]; simpl; [ring|]. rewrite IH. ring. Qed.

Lemma sum_mul_l n c f : sum n (fun i => c * f i) = c * sum n f.
Proof. induction n as [|n IH]; simpl; [ring|]. rewrite IH. ring. Qed.

Lemma sum_mul_r n c f : sum n (fun i => f i * c) = sum n f * c.
Proof. induction n as [|n IH]; simpl; [ring|]. rewrite IH. ring. Qed.

Lemma sum_zero n : sum n (fun _ => 0) = 0.
Proof. induction n as [|n IH]; simpl; [reflexivity|]. rewrite IH. ring. Qed.

Lemma sum_zero_ext n f : (forall i, (i < n)%nat -> f i = 0) -> sum n f = 0.
Proof. intro H. rewrite (sum_ext n f (fun _ => 0)) by exact H. apply sum_zero. Qed.

Lemma sum_swap n m f :
  sum n (fun i => sum m (fun j => f i j)) = sum m (fun j => sum n (fun i => f i j)).
Proof.
  induction n as [|n IH]; simpl.
  - symmetry. apply sum_zero_ext. reflexivity.
  - rewrite IH. rewrite sum_add. reflexivity.
Qed.

Lemma sum_split n m f : sum (n + m) f = sum n f + sum m (fun i => f (n + i)%nat).
Proof.
  induction m as [|m IH].
  - rewrite Nat.add_0_r. simpl. ring.
  - rewrite Nat.add_succ_r. simpl. rewrite IH. ring.
Qed.

(** Row-major flattening of a double sum. *)
Lemma sum_prod n m f :
  sum (n * m) f = sum n (fun i => sum m (fun j => f (i * m + j)%nat)).
Proof.
  induction n as [|n IH]; simpl; [reflexivity|].
  rewrite Nat.add_comm, sum_split, IH. reflexivity.
Qed.

Lemma sum_single n k f :
  (k < n)%nat -> (forall i, (i < n)%nat -> i <> k -> f i = 0) -> sum n f = f k.
Proof.
  induction n as [|n IH]; intros Hk H; [lia|]. simpl.
  destruct (Nat.eq_dec k n) as [->|Hn].
  - rewrite sum_zero_ext; [ring|]. intros i Hi. apply H; lia.
  - rewrite IH; [|lia|intros; apply H; lia]. rewrite (H n) by lia. ring.
Qed.

Lemma sum_indicator n k f :
  sum n (fun i => if Nat.eqb i k then f i else 0) = if Nat.ltb k n then f k else 0.
Proof.
  destruct (Nat.ltb_spec k n) as [H|H].
  - rewrite (sum_single n k); [rewrite Nat.eqb_refl; reflexivity|exact H|].
    intros i _ Hi. apply Nat.eqb_neq in Hi. rewrite Hi. reflexivity.
  - apply sum_zero_ext. intros i Hi. destruct (Nat.eqb_spec i k); [lia|reflexivity].
Qed.

(** Sum of the elements of a list. *)
Fixpoint lsum (l : list A) : A :=
  match l with
  | [] => 0
  | x :: r => x + lsum r
  end.

Lemma lsum_app l l' : lsum (l ++ l') = lsum l + lsum l'.
Proof. induction l as [|a l IH]; simpl; [ring|]. rewrite IH. ring. Qed.

Lemma lsum_map_seq f n : lsum (map f (seq 0 n)) = sum n f.
Proof.
  induction n as [|n IH]; [reflexivity|].
  rewrite seq_S, map_app, lsum_app, IH. simpl. ring.
Qed.

Lemma lsum_map_add {B} (f g : B -> A) l :
  lsum (map (fun x => f x + g x) l) = lsum (map f l) + lsum (map g l).
Proof. induction l as [|a l IH]; simpl; [ring|]. rewrite IH. ring. Qed.

Lemma lsum_map_mul_l {B} (f : B -> A) c l :
  lsum (map (fun x => c * f x) l) = c * lsum (map f l).
Proof. induction l as [|a l IH]; simpl; [ring|]. rewrite IH. ring. Qed.

Lemma lsum_map_zero {B} (f : B -> A) l : (forall x, In x l -> f x = 0) -> lsum (map f l) = 0.
Proof.
  induction l as [|a l IH]; simpl; intro H; [reflexivity|].
  rewrite IH by auto. rewrite H by auto. ring.
Qed.

End Sums.
