(** The automatic gradient: derivatives as tables. *)
From Coq Require Import List Arith ZArith Reals Bool Lia Lra Psatz.
From Verif Require Import Sums ShapeGradModel BroadcastModel SoftmaxProofs EwiseModel EwiseSpec.
Import ListNotations.
Local Open Scope R_scope.

Definition tab (n : nat) (a : nat -> R) : list R := map a (seq 0 n).
Lemma tab_ext n a b : (forall i, (i < n)%nat -> a i = b i) -> tab n a = tab n b.
Proof. intro H. apply map_ext_in. intros i Hi. apply H. apply in_seq in Hi. lia. Qed.
Lemma tab_len n a : length (tab n a) = n.
Proof. unfold tab. rewrite map_length, seq_length. reflexivity. Qed.
Lemma tab_item n a i : (i < n)%nat -> item (tab n a) i = a i.
Proof. intro H. unfold item, tab. rewrite (nth_indep _ 0 (a 0%nat)) by (rewrite map_length, seq_length; exact H). rewrite map_nth, seq_nth by exact H. reflexivity. Qed.
Lemma tab_of l : tab (length l) (item l) = l.
Proof.
  apply nth_ext with (d := 0) (d' := 0); [apply tab_len|]. intros i Hi. rewrite tab_len in Hi. apply (tab_item (length l)). exact Hi.
Qed.
Lemma tab_map f n a : map f (tab n a) = tab n (fun i => f (a i)).
Proof. unfold tab. apply map_map. Qed.
Lemma combine_map {B C D} (f : B -> C) (g : B -> D) l : combine (map f l) (map g l) = map (fun x => (f x, g x)) l.
Proof. induction l as [|x l IH]; [reflexivity|]. cbn. rewrite IH. reflexivity. Qed.
Lemma tab_zip f n a b : map (fun p => f (fst p) (snd p)) (combine (tab n a) (tab n b)) = tab n (fun i => f (a i) (b i)).
Proof. unfold tab. rewrite combine_map, map_map. reflexivity. Qed.
Lemma lsum_app (l m : list R) : lsumR (l ++ m) = lsumR l + lsumR m.
Proof. induction l as [|x l IH]; cbn [app]; rewrite ?lsumR_cons, ?lsumR_nil; [ring|]. rewrite IH. ring. Qed.
Lemma lsum_tab n a : lsumR (tab n a) = total n a.
Proof.
  induction n as [|n IH]; [reflexivity|]. unfold tab. rewrite seq_S, map_app. cbn [map plus]. fold (tab n a). rewrite lsum_app, IH, lsumR_cons, lsumR_nil. cbn [total]. ring.
Qed.
Lemma total_ext n a b : (forall i, (i < n)%nat -> a i = b i) -> total n a = total n b.
Proof. induction n as [|n IH]; intro H; cbn [total]; [reflexivity|]. rewrite IH by (intros; apply H; lia). rewrite H by lia. reflexivity. Qed.
Lemma total_shift n c a : total n (fun i => c + a i) = INR n * c + total n a.
Proof. induction n as [|n IH]; [cbn; ring|]. cbn [total]. rewrite IH, S_INR. ring. Qed.

Ltac crunch := unfold ewiseDoDiff, addDiff, subDiff, mulDiff, divDiff, powDiff, ewIncrDo, ewUnsafeDo; cbn [newEBOByType ewDo bind xd yd zd zipOp mapV sumDeriv fst snd]; rewrite ?tab_map, ?tab_zip; cbn [newEBOByType ewDo bind xd yd zd zipOp mapV sumDeriv fst snd]; rewrite ?tab_map, ?tab_zip; cbn [newEBOByType ewDo bind xd yd zd zipOp mapV sumDeriv fst snd]; rewrite ?tab_map, ?tab_zip, ?lsum_tab.

(** The former derivative of the scalar that ends up in the other one. *)
Definition leakL (o : arith) (d : R) : R := match o with OAdd => d | _ => 0 end.
Definition leakZ (o : arith) (d : R) : R := match o with OAdd | OSub => d | _ => 0 end.

Lemma left_tab o n s a y z b w : (forall i, (i < n)%nat -> smooth_at o s (y i)) -> (forall i, (i < n)%nat -> z i = meant o s (y i)) ->
  ewiseDoDiff o (Sc s) (Te (tab n y)) (Te (tab n z)) (Dv (Sc a) (Te (tab n b)) (Te (tab n w))) =
  Ok (Dv (Sc (INR n * a + total n (fun i => partial1 o s (y i) * w i)))
         (Te (tab n (fun i => b i + partial2 o s (y i) * w i + leakL o a)))
         (Te (tab n (fun i => w i + leakZ o a)))).
Proof.
  intros SM V. destruct o; crunch; rewrite <- total_shift; f_equal; f_equal; f_equal; try (apply total_ext); try (apply tab_ext); intros i Hi; cbn; try ring.
  - unfold Rdiv; ring.
  - rewrite V by exact Hi. cbn. field. apply (SM i Hi).
  - unfold Rpower. ring.
  - rewrite V by exact Hi. cbn. ring.
Qed.
Lemma right_tab o n x s z a b w : o <> OPow -> (forall i, (i < n)%nat -> smooth_at o (x i) s) -> (forall i, (i < n)%nat -> z i = meant o (x i) s) ->
  ewiseDoDiff o (Te (tab n x)) (Sc s) (Te (tab n z)) (Dv (Te (tab n a)) (Sc b) (Te (tab n w))) =
  Ok (Dv (Te (tab n (fun i => a i + partial1 o (x i) s * w i)))
         (Sc (INR n * b + total n (fun i => partial2 o (x i) s * w i)))
         (Te (tab n (fun i => w i + leakL o b)))).
Proof.
  intros NP SM V. destruct o; [| | | |congruence]; crunch; rewrite <- total_shift; f_equal; f_equal; f_equal; try (apply total_ext); try (apply tab_ext); intros i Hi; cbn; try ring.
  - unfold Rdiv; ring.
  - rewrite V by exact Hi. cbn. field. apply (SM i Hi).
Qed.
Lemma both_tab o n x y z a b w : (forall i, (i < n)%nat -> smooth_at o (x i) (y i)) -> (forall i, (i < n)%nat -> z i = meant o (x i) (y i)) ->
  ewiseDoDiff o (Te (tab n x)) (Te (tab n y)) (Te (tab n z)) (Dv (Te (tab n a)) (Te (tab n b)) (Te (tab n w))) =
  Ok (Dv (Te (tab n (fun i => a i + partial1 o (x i) (y i) * w i)))
         (Te (tab n (fun i => b i + partial2 o (x i) (y i) * w i)))
         (Te (tab n w))).
Proof.
  intros SM V. destruct o; crunch; f_equal; f_equal; f_equal; try (apply tab_ext); intros i Hi; cbn; try ring.
  - unfold Rdiv; ring.
  - rewrite V by exact Hi. cbn. field. apply (SM i Hi).
  - unfold Rpower. ring.
  - rewrite V by exact Hi. cbn. ring.
Qed.
Lemma scalars o x y z a b w : smooth_at o x y -> z = meant o x y ->
  ewiseDoDiff o (Sc x) (Sc y) (Sc z) (Dv (Sc a) (Sc b) (Sc w)) =
  Ok (Dv (Sc (a + partial1 o x y * w)) (Sc (b + partial2 o x y * w)) (Sc w)).
Proof.
  intros SM V. destruct o; crunch; f_equal; f_equal; f_equal; cbn; try ring.
  - unfold Rdiv; ring.
  - rewrite V. cbn. field. apply SM.
  - unfold Rpower. ring.
  - rewrite V. cbn. ring.
Qed.
Lemma exponent_tab n x s z a b w :
  ewiseDoDiff OPow (Te (tab n x)) (Sc s) (Te (tab n z)) (Dv (Te (tab n a)) (Sc b) (Te (tab n w))) = Err.
Proof. reflexivity. Qed.
