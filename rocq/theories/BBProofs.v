(** Proofs for the Barzilai-Borwein solver (C57). *)
From Coq Require Import Reals List Bool Arith Lia Lra.
From Verif Require Import SolverModel SolverSpec SolverProofs BBSpec.
Import ListNotations.

(** ** Vectors *)
Lemma vsub_map2 a : forall b, vsub a b = map2 Rminus a b.
Proof. unfold map2. induction a as [|x a IH]; intros [|y b]; cbn [vsub combine map fst snd]; try reflexivity. now rewrite IH. Qed.
Lemma dot_map2 a : forall b, dot a b = sumR (map2 Rmult a b).
Proof. unfold map2, sumR. induction a as [|x a IH]; intros [|y b]; cbn [dot combine map fst snd fold_right]; try reflexivity. now rewrite IH. Qed.
Lemma vsub_len a : forall b, length a = length b -> length (vsub a b) = length a.
Proof. induction a as [|x a IH]; intros [|y b] L; cbn [vsub length] in *; try reflexivity; try discriminate. now rewrite IH by lia. Qed.
Lemma scale_len k a : length (scale k a) = length a. Proof. apply map_length. Qed.
Lemma vsub_app a a' : forall b b', length a = length b -> vsub (a ++ a') (b ++ b') = vsub a b ++ vsub a' b'.
Proof. induction a as [|x a IH]; intros [|y b] b' L; cbn [vsub length app] in *; try reflexivity; try discriminate. now rewrite IH by lia. Qed.
Lemma dot_app a a' : forall b b', length a = length b -> dot (a ++ a') (b ++ b') = (dot a b + dot a' b')%R.
Proof. induction a as [|x a IH]; intros [|y b] b' L; cbn [dot length app] in *; try discriminate; [ring|]. rewrite IH by lia. ring. Qed.
Lemma scale_app k a b : scale k (a ++ b) = scale k a ++ scale k b. Proof. apply map_app. Qed.
Lemma dot_self_nonneg a : (0 <= dot a a)%R.
Proof. induction a as [|x a IH]; cbn [dot]; [lra|]. pose proof (Rle_0_sqr x) as K. unfold Rsqr in K. lra. Qed.
Lemma dot_self_zero a : dot a a = 0%R -> Forall (eq 0%R) a.
Proof.
  induction a as [|x a IH]; cbn [dot]; intros E; constructor; pose proof (dot_self_nonneg a); pose proof (Rle_0_sqr x) as K; unfold Rsqr in K.
  - assert (Q : (x * x = 0)%R) by lra. apply Rmult_integral in Q. destruct Q; auto.
  - apply IH. lra.
Qed.
Lemma vsub_zero a : forall b, length a = length b -> Forall (eq 0%R) (vsub a b) -> a = b.
Proof. induction a as [|x a IH]; intros [|y b] L F; cbn [vsub length] in *; try reflexivity; try discriminate. inversion_clear F as [|? ? E F']. f_equal; [lra|auto]. Qed.
Lemma vsub_self a : Forall (eq 0%R) (vsub a a).
Proof. induction a as [|x a IH]; cbn [vsub]; constructor; auto; lra. Qed.
Lemma dot_zero_r a : forall b, Forall (eq 0%R) b -> dot a b = 0%R.
Proof. induction a as [|x a IH]; intros [|y b] F; cbn [dot]; try reflexivity. inversion_clear F as [|? ? E F']. rewrite IH by exact F'. subst y. ring. Qed.

(** ** Models of tensors *)
Inductive St (h : heap) : list node -> list (list R) -> list (list R) -> Prop :=
| St_nil : St h [] [] []
| St_cons n g x y m xs ys : grad n = Some g -> cells h (weights n) = Some (Dn x) -> cells h g = Some (Dn y) -> length x = length y ->
    St h m xs ys -> St h (n :: m) (x :: xs) (y :: ys).
Lemma St_frame h h' m xs ys : St h m xs ys -> (forall q, In q (flat_map pointers m) -> cells h' q = cells h q) -> St h' m xs ys.
Proof.
  induction 1 as [|n g x y m xs ys G W Y L H IH]; intros F; econstructor; eauto.
  - rewrite F; [exact W|]. apply in_flat_map. exists n. split; left; reflexivity.
  - rewrite F; [exact Y|]. apply in_flat_map. exists n. split; [left; reflexivity|]. unfold pointers. rewrite G. right. left. reflexivity.
  - apply IH. intros q Q. apply F. cbn [flat_map]. apply in_or_app. auto.
Qed.
Lemma St_lens h m xs ys : St h m xs ys -> map (@length R) xs = map (@length R) ys /\ length xs = length m /\ length ys = length m.
Proof. induction 1 as [|n g x y m xs ys G W Y L H [I1 [I2 I3]]]; cbn [map length]; repeat split; congruence. Qed.
Lemma St_weights h m xs ys : St h m xs ys -> weightsIn h m = concat xs.
Proof. unfold weightsIn. induction 1 as [|n g x y m xs ys G W Y L H IH]; cbn [map concat]; [reflexivity|]. rewrite W, IH. reflexivity. Qed.
Lemma St_fun h m xs ys xs' ys' : St h m xs ys -> St h m xs' ys' -> xs = xs' /\ ys = ys'.
Proof.
  intros H. revert xs' ys'. induction H as [|n g x y m xs ys G W Y L H IH]; intros xs' ys' H'; inversion H' as [|n' g' x' y' m' xs'' ys'' G' W' Y' L' H'']; subst; auto.
  destruct (IH _ _ H'') as [-> ->]. split; congruence.
Qed.

Definition Sep (m : list node) (n0 : nat) : Prop := NoDup (flat_map pointers m) /\ Forall (fun q => (q < n0)%nat) (flat_map pointers m).
Lemma Sep_cons n m n0 g : grad n = Some g -> Sep (n :: m) n0 ->
  weights n <> g /\ ~ In (weights n) (flat_map pointers m) /\ ~ In g (flat_map pointers m) /\ (weights n < n0)%nat /\ (g < n0)%nat /\ Sep m n0.
Proof.
  intros G [N F]. cbn [flat_map] in N, F. unfold pointers at 1 in N. unfold pointers at 1 in F. rewrite G in N, F. cbn [app] in N, F.
  inversion_clear N as [|? ? N1 N']. inversion_clear N' as [|? ? N2 N3]. inversion_clear F as [|? ? F1 F']. inversion_clear F' as [|? ? F2 F3].
  repeat split; auto. - intros E. apply N1. left. auto. - intros Q. apply N1. right. exact Q.
Qed.
Lemma Sep_le m n0 n1 : (n0 <= n1)%nat -> Sep m n0 -> Sep m n1.
Proof. intros L [N F]. split; [exact N|]. eapply Forall_impl; [|exact F]. cbn. lia. Qed.

Lemma fit_St model h : fit model h -> tensors model h -> exists xs ys, St h model xs ys /\ Sep model (nextp h).
Proof.
  intros [F N O] T. assert (K : exists xs ys, St h model xs ys).
  { clear N O. induction model as [|n m IH]; [exists [], []; constructor|].
    pose proof (Forall_inv F) as [g [cw [cg [G [W [Y A]]]]]]. pose proof (Forall_inv_tail F) as F'. pose proof (Forall_inv T) as [lx Hl]. pose proof (Forall_inv_tail T) as T'.
    destruct (IH F' T') as [xs [ys K]]. rewrite W in Hl. injection Hl as ->. destruct cg as [|y]; cbn [alike] in A; [contradiction|].
    exists (lx :: xs), (y :: ys). econstructor; eauto. }
  destruct K as [xs [ys K]]. exists xs, ys. split; [exact K|]. split; assumption.
Qed.

Lemma feed_ok r : forall m i h xs ys n0, St h m xs ys -> Sep m n0 -> (forall j x, nth_error xs j = Some x -> alike (Dn x) (r (i + j)%nat)) ->
  St (feed m i r h) m xs (map (fun j => datum (r j)) (seq i (length m))) /\ nextp (feed m i r h) = nextp h /\
  (forall q, ~ In q (flat_map pointers m) -> cells (feed m i r h) q = cells h q) /\
  (forall q, In q (map weights m) -> cells (feed m i r h) q = cells h q).
Proof.
  induction m as [|n m IH]; intros i h xs ys n0 H S A.
  - inversion H; subst. cbn. repeat split; auto.
  - inversion H as [|n' g x y m' xs' ys' G W Y L H']; subst. destruct (Sep_cons _ _ _ _ G S) as [D1 [D2 [D3 [_ [_ S']]]]].
    cbn [feed length seq map]. rewrite G. pose proof (A 0%nat x eq_refl) as A0. rewrite Nat.add_0_r in A0.
    destruct (r i) as [|z] eqn:Ri; cbn [alike] in A0; [contradiction|].
    assert (H1 : St (set h g (Dn z)) m xs' ys') by (apply (St_frame h); [exact H'|]; intros q Q; apply cs_ne; intros ->; contradiction).
    destruct (IH (Datatypes.S i) (set h g (Dn z)) xs' ys' n0 H1 S') as [K1 [K2 [K3 K4]]].
    { intros j x' E. rewrite Nat.add_succ_l, <- Nat.add_succ_r. apply A. exact E. }
    repeat split.
    + econstructor; eauto; [rewrite K3 by exact D2; rewrite cs_ne by exact D1; exact W|rewrite K3 by exact D3; apply cs_eq].
    + rewrite K2. reflexivity.
    + intros q Q. cbn [flat_map] in Q. unfold pointers at 1 in Q. rewrite G in Q. cbn [app In] in Q. rewrite K3 by tauto. apply cs_ne. intros ->. tauto.
    + intros q [<-|Q]; [rewrite K3 by exact D2; apply cs_ne; auto|]. rewrite K4 by exact Q. apply cs_ne. intros ->. apply D3. clear - Q.
      apply in_map_iff in Q. destruct Q as [n [<- Q]]. apply in_flat_map. exists n. split; [exact Q|]. left. reflexivity.
Qed.

(** ** What is saved: the points and gradients of the last step, in cells of their own *)
Inductive Sv (h : heap) (n0 : nat) (c : cache) : nat -> list (list R) -> list (list R) -> Prop :=
| Sv_nil i : Sv h n0 c i [] []
| Sv_cons i v d x y xs ys : getCache c i = Some (Some (v, d)) -> cells h v = Some (Dn x) -> cells h d = Some (Dn y) ->
    (n0 <= v < nextp h)%nat -> (n0 <= d < nextp h)%nat -> Sv h n0 c (S i) xs ys -> Sv h n0 c i (x :: xs) (y :: ys).
Lemma Sv_frame h h' n0 c c' : forall i xs ys, Sv h n0 c i xs ys -> (nextp h <= nextp h')%nat -> (forall q, (n0 <= q < nextp h)%nat -> cells h' q = cells h q) ->
  (forall j, (i <= j)%nat -> getCache c' j = getCache c j) -> Sv h' n0 c' i xs ys.
Proof.
  induction 1 as [|i v d x y xs ys G V D Lv Ld H IH]; intros N F Cc; [constructor|]. econstructor.
  - rewrite Cc by lia. exact G.
  - rewrite F by exact Lv. exact V.
  - rewrite F by exact Ld. exact D.
  - lia.
  - lia.
  - apply IH; auto. intros j J. apply Cc. lia.
Qed.

Lemma sums_ok c h n0 : forall m i xs ys xo yo acc, St h m xs ys -> Sv h n0 c i xo yo -> map (@length R) xo = map (@length R) xs -> map (@length R) yo = map (@length R) ys ->
  bbSums m i c acc h = Ok ((fst acc + dot (vsub (concat xs) (concat xo)) (vsub (concat ys) (concat yo)))%R,
                           (snd acc + dot (vsub (concat ys) (concat yo)) (vsub (concat ys) (concat yo)))%R) h.
Proof.
  induction m as [|n m IH]; intros i xs ys xo yo acc H V L1 L2.
  - inversion H; subst. cbn [bbSums concat vsub dot]. unfold ret. rewrite !Rplus_0_r. destruct acc; reflexivity.
  - inversion H as [|n' g x y m' xs' ys' G W Y L H']; subst.
    destruct xo as [|x0 xo]; cbn [map] in L1; [discriminate|]. destruct yo as [|y0 yo]; cbn [map] in L2; [discriminate|].
    injection L1 as L1 L1'. injection L2 as L2 L2'. inversion V as [|i' v d x0' y0' xs0 ys0 Gc Ev Ed Lv Ld V']; subst.
    cbn [bbSums]. unfold extractWeightGrad. rewrite G, ret_b. cbn [fst snd]. rewrite (isDense_b _ _ _ _ W), (isDense_b _ _ _ _ Y). rewrite Gc. cbn [fst snd].
    rewrite (isDense_b _ _ _ _ Ev), (isDense_b _ _ _ _ Ed). rewrite L1, L2, L, !Nat.eqb_refl. cbn [andb].
    rewrite (IH (S i) xs' ys' xo yo _ H' V' L1' L2'). cbn [fst snd concat].
    rewrite !vsub_app by congruence. rewrite !dot_app by (rewrite !vsub_len by congruence; congruence). rewrite <- !vsub_map2, <- !dot_map2.
    do 2 f_equal; ring.
Qed.

Lemma setNth_eq {A} (l : list A) : forall i x, (i < length l)%nat -> nth_error (setNth l i x) i = Some x.
Proof. induction l as [|y l IH]; intros [|i] x L; cbn [setNth nth_error length] in *; try lia; auto. apply IH. lia. Qed.
Lemma setNth_ne {A} (l : list A) : forall i j x, i <> j -> nth_error (setNth l i x) j = nth_error l j.
Proof. induction l as [|y l IH]; intros [|i] [|j] x L; cbn [setNth nth_error]; try reflexivity; try lia. apply IH. lia. Qed.
Lemma setNth_len {A} (l : list A) : forall i x, length (setNth l i x) = length l.
Proof. induction l as [|y l IH]; intros [|i] x; cbn [setNth length]; auto. Qed.

Lemma clone_b {B} p c (k : nat -> heap -> res B) h : cells h p = Some c -> bind (cloneValue p) k h = k (nextp h) (allocate h c).
Proof. intros E. unfold bind, cloneValue. rewrite E. reflexivity. Qed.
Lemma cached_ok w g h cw cg : cells h w = Some cw -> cells h g = Some cg -> (g < nextp h)%nat ->
  newCachedDV w g false h = Ok (nextp h, S (nextp h)) (allocate (allocate h cw) cg).
Proof.
  intros W Y L. unfold newCachedDV. rewrite (clone_b _ _ _ _ W). rewrite (clone_b _ cg) by find. reflexivity.
Qed.

Lemma save_ok : forall m i l h xs ys n0, St h m xs ys -> Sep m n0 -> (n0 <= nextp h)%nat -> (i + length m <= length l)%nat ->
  exists l' h', bbSave m i (Some l) h = Done (Some l') h' /\ length l' = length l /\ (nextp h <= nextp h')%nat /\
    (forall q, (q < nextp h)%nat -> cells h' q = cells h q) /\ (forall j, (j < i)%nat -> nth_error l' j = nth_error l j) /\ Sv h' n0 (Some l') i xs ys.
Proof.
  induction m as [|n m IH]; intros i l h xs ys n0 H S N Hl.
  - inversion H; subst. exists l, h. cbn [bbSave]. repeat split; auto. constructor.
  - inversion H as [|n' g x y m' xs' ys' G W Y L H']; subst. destruct (Sep_cons _ _ _ _ G S) as [D1 [D2 [D3 [B1 [B2 S']]]]]. cbn [length] in Hl.
    cbn [bbSave]. unfold extractWeightGrad. rewrite G. unfold ret. cbn [getCache].
    destruct (nth_error l i) as [o|] eqn:El; [|apply nth_error_None in El; lia].
    rewrite (cached_ok _ _ _ _ _ W Y) by lia. cbn [setCache].
    set (h1 := allocate (allocate h (Dn x)) (Dn y)).
    assert (F1 : forall q, (q < nextp h)%nat -> cells h1 q = cells h q) by (intros q Q; unfold h1; look; reflexivity).
    assert (N1 : nextp h1 = Datatypes.S (Datatypes.S (nextp h))) by reflexivity.
    destruct (IH (Datatypes.S i) (setNth l i (Some (nextp h, Datatypes.S (nextp h)))) h1 xs' ys' n0) as [l' [h' [E [E1 [E2 [E3 [E4 E5]]]]]]].
    { apply (St_frame h); [exact H'|]. intros q Q. apply F1. destruct S' as [_ S']. rewrite Forall_forall in S'. specialize (S' q Q). cbn in S'. lia. }
    { exact S'. } { lia. } { rewrite setNth_len. lia. }
    exists l', h'. split; [exact E|]. rewrite setNth_len in E1. split; [exact E1|]. split; [lia|]. split; [intros q Q; rewrite E3 by lia; auto|]. split.
    + intros j J. rewrite E4 by lia. apply setNth_ne. lia.
    + econstructor; [cbn [getCache]; rewrite E4 by lia; apply setNth_eq; lia| | | | |exact E5]; try lia.
      * rewrite E3 by lia. unfold h1. look. reflexivity.
      * rewrite E3 by lia. unfold h1. look. reflexivity.
Qed.

Lemma update_ok e : forall m h xs ys n0, St h m xs ys -> Sep m n0 -> (n0 <= nextp h)%nat ->
  exists h', bbUpdate e m h = Ok tt h' /\ (nextp h <= nextp h')%nat /\
    St h' m (map (fun xy => vsub (fst xy) (scale e (snd xy))) (combine xs ys)) (map (map (fun _ => 0%R)) ys) /\
    (forall q, (q < nextp h)%nat -> ~ In q (flat_map pointers m) -> cells h' q = cells h q).
Proof.
  induction m as [|n m IH]; intros h xs ys n0 H S N.
  - inversion H; subst. exists h. cbn. repeat split; auto.
  - inversion H as [|n' g x y m' xs' ys' G W Y L H']; subst. destruct (Sep_cons _ _ _ _ G S) as [D1 [D2 [D3 [B1 [B2 S']]]]].
    cbn [bbUpdate]. unfold extractWeightGrad. rewrite G, ret_b. cbn [fst snd]. rewrite (isDense_b _ _ _ _ W), (isDense_b _ _ _ _ Y).
    rewrite (bind_ok _ _ _ _ _ (op1_safe _ _ _ _ Y)).
    set (h1 := allocate h _). set (u := map (fun z => (z * e)%R) y) in *.
    assert (W1 : cells h1 (weights n) = Some (Dn x)) by (unfold h1; find).
    assert (U1 : cells h1 (nextp h) = Some (Dn u)) by (unfold h1; find).
    assert (Lu : length x = length u) by (unfold u; rewrite map_length; exact L).
    rewrite (bind_ok _ _ _ _ _ (op2_unsafe Rminus _ _ _ _ _ W1 U1 Lu)).
    set (h2 := set h1 (weights n) _). assert (Y2 : cells h2 g = Some (Dn y)) by (unfold h2, h1; rewrite cs_ne by auto; rewrite ca_ne by lia; exact Y).
    rewrite (bind_ok _ _ _ _ _ (zero_ok _ _ _ Y2)). set (h3 := set h2 g _).
    assert (F3 : forall q, (q < nextp h)%nat -> q <> weights n -> q <> g -> cells h3 q = cells h q) by (intros q Q1 Q2 Q3; unfold h3, h2, h1; rewrite !cs_ne by auto; apply ca_ne; lia).
    assert (N3 : nextp h3 = Datatypes.S (nextp h)) by reflexivity.
    assert (B : forall q, In q (flat_map pointers m) -> (q < n0)%nat) by (destruct S' as [_ S']; rewrite Forall_forall in S'; exact S').
    destruct (IH h3 xs' ys' n0) as [h' [E1 [E2 [E3 E4]]]]; [|exact S'|lia|].
    { apply (St_frame h); [exact H'|]. intros q Q. pose proof (B q Q). apply F3; [lia| |]; intros ->; contradiction. }
    exists h'. split; [exact E1|]. split; [lia|]. split.
    + cbn [combine map fst snd]. econstructor; [exact G| | | |exact E3].
      * rewrite E4 by (auto; lia). unfold h3, h2. rewrite cs_ne by auto. rewrite cs_eq. do 2 f_equal. rewrite vsub_map2. unfold u, scale. rewrite !map2_map_r. apply map2_ext. intros; ring.
      * rewrite E4 by (auto; lia). unfold h3. apply cs_eq.
      * rewrite vsub_len by (rewrite scale_len; exact L). rewrite map_length. exact L.
    + intros q Q NI. cbn [flat_map] in NI. unfold pointers at 1 in NI. rewrite G in NI. cbn [app In] in NI. rewrite E4 by (try tauto; lia). apply F3; tauto || (intros ->; tauto).
Qed.

(** ** One Step *)
Definition upd (e : R) (xs ys : list (list R)) : list (list R) := map (fun xy => vsub (fst xy) (scale e (snd xy))) (combine xs ys).
Lemma upd_concat e : forall xs ys, map (@length R) xs = map (@length R) ys -> concat (upd e xs ys) = vsub (concat xs) (scale e (concat ys)).
Proof.
  unfold upd. induction xs as [|x xs IH]; intros [|y ys] L; cbn [map combine concat fst snd] in *; try discriminate; [reflexivity|].
  injection L as L L'. rewrite IH by exact L'. rewrite scale_app, vsub_app by (rewrite scale_len; exact L). reflexivity.
Qed.
Lemma upd_lens e : forall xs ys, map (@length R) xs = map (@length R) ys -> map (@length R) (upd e xs ys) = map (@length R) xs.
Proof.
  unfold upd. induction xs as [|x xs IH]; intros [|y ys] L; cbn [map combine fst snd] in *; try discriminate; [reflexivity|].
  injection L as L L'. rewrite IH by exact L'. rewrite vsub_len by (rewrite scale_len; exact L). reflexivity.
Qed.
Definition saneClip0 (p : params) : Prop := useClip p = true -> (0 <= clip p)%R.
Lemma limit_rate p n d : saneClip0 p -> bbRate p (n, d) = limit p (n / d).
Proof.
  intros HC. unfold bbRate, limit, between. cbn [fst snd]. destruct (useClip p) eqn:U; [|reflexivity]. specialize (HC U). cbn [andb]. unfold Rltb.
  set (e := (n / d)%R). destruct (Rlt_dec (clip p) (Rabs e)) as [A|A].
  - destruct (Rlt_dec e 0) as [B|B].
    + rewrite Rabs_left in A by exact B. rewrite Rmin_right by lra. rewrite Rmax_left by lra. reflexivity.
    + rewrite Rabs_right in A by lra. rewrite Rmin_left by lra. rewrite Rmax_right by lra. reflexivity.
  - assert (A' : (Rabs e <= clip p)%R) by lra. apply Rabs_le_inv in A' || idtac. pose proof (Rle_abs e). pose proof (Rle_abs (- e)). rewrite Rabs_Ropp in *.
    rewrite Rmin_right by lra. rewrite Rmax_right by lra. reflexivity.
Qed.

(** The state of the solver between Steps. *)
Definition Known (h : heap) (n0 : nat) (c : cache) (m : list node) (prev : option (list (list R) * list (list R))) : Prop :=
  match prev with
  | None => c = None
  | Some (xo, yo) => exists l, c = Some l /\ length l = length m /\ Sv h n0 c 0 xo yo /\ map (@length R) xo = map (@length R) yo /\ length xo = length m
  end.
Definition flat (o : option (list (list R) * list (list R))) : option (list R * list R) :=
  match o with None => None | Some (a, b) => Some (concat a, concat b) end.
Definition newRate (p : params) (e : R) (prev : option (list (list R) * list (list R))) (xs ys : list (list R)) : R :=
  match prev with None => e | Some (xo, yo) => bbRate p (dot (vsub (concat xs) (concat xo)) (vsub (concat ys) (concat yo)), dot (vsub (concat ys) (concat yo)) (vsub (concat ys) (concat yo))) end.

Lemma step_ok p m h n0 e c prev xs ys : St h m xs ys -> Sep m n0 -> (n0 <= nextp h)%nat -> Known h n0 c m prev ->
  (forall xo yo, prev = Some (xo, yo) -> map (@length R) xo = map (@length R) xs) ->
  let e' := newRate p e prev xs ys in
  exists c' h', bbStep p m (e, c) h = Done (e', c') h' /\ (nextp h <= nextp h')%nat /\
    St h' m (upd e' xs ys) (map (map (fun _ => 0%R)) ys) /\ Known h' n0 c' m (Some (xs, ys)) /\
    (forall q, (q < n0)%nat -> ~ In q (flat_map pointers m) -> cells h' q = cells h q).
Proof.
  intros H S N K Hp e'. pose proof (St_lens _ _ _ _ H) as [L1 [L2 L3]].
  assert (R : forall l, length l = length m -> exists c' h',
    match bbSave m 0 (Some l) h with
    | Crash => Crash
    | Fail c h' => Fail (e', c) h'
    | Done c h' => match bbUpdate e' m h' with Ok _ h'' => Done (e', c) h'' | Err h'' => Fail (e', c) h'' | Panic => Crash end
    end = Done (e', c') h' /\ (nextp h <= nextp h')%nat /\
    St h' m (upd e' xs ys) (map (map (fun _ => 0%R)) ys) /\ Known h' n0 c' m (Some (xs, ys)) /\
    (forall q, (q < n0)%nat -> ~ In q (flat_map pointers m) -> cells h' q = cells h q)).
  { intros l Hl. destruct (save_ok m 0 l h xs ys n0 H S N) as [l' [h1 [E1 [E2 [E3 [E4 [E5 E6]]]]]]]; [lia|]. rewrite E1.
    assert (B : forall q, In q (flat_map pointers m) -> (q < n0)%nat) by (destruct S as [_ S]; rewrite Forall_forall in S; exact S).
    destruct (update_ok e' m h1 xs ys n0) as [h2 [U1 [U2 [U3 U4]]]]; [|exact S|lia|].
    { apply (St_frame h); [exact H|]. intros q Q. apply E4. pose proof (B q Q). lia. }
    rewrite U1. exists (Some l'), h2. split; [reflexivity|]. split; [lia|]. split; [exact U3|]. split.
    - exists l'. split; [reflexivity|]. split; [lia|]. split; [|split; [exact L1|exact L2]].
      apply (Sv_frame h1 h2 n0 (Some l')); auto. intros q Q. apply U4; [lia|]. intros I. pose proof (B q I). lia.
    - intros q Q NI. rewrite U4 by (auto; lia). apply E4. lia. }
  unfold bbStep. cbn [fst snd]. destruct prev as [[xo yo]|]; cbn [Known newRate] in K, e'.
  - destruct K as [l [-> [Kl [Kv [Ko Kn]]]]]. specialize (Hp _ _ eq_refl).
    rewrite (sums_ok (Some l) h n0 m 0 xs ys xo yo (0%R, 0%R) H Kv Hp) by congruence. cbn [fst snd]. rewrite !Rplus_0_l. apply R. exact Kl.
  - subst c. apply (R (map (fun _ => None) m)). rewrite map_length. reflexivity.
Qed.

(** ** Rounds *)
Lemma Known_feed r m i h xs ys n0 c prev : St h m xs ys -> Sep m n0 -> (forall j x, nth_error xs j = Some x -> alike (Dn x) (r (i + j)%nat)) ->
  Known h n0 c m prev -> Known (feed m i r h) n0 c m prev.
Proof.
  intros H S A K. destruct (feed_ok r m i h xs ys n0 H S A) as [_ [F2 [F3 _]]]. destruct prev as [[xo yo]|]; cbn [Known] in *; [|exact K].
  destruct K as [l [E1 [E2 [E3 E4]]]]. exists l. repeat split; try tauto. apply (Sv_frame h _ n0 c); auto; [lia|].
  intros q Q. apply F3. intros I. destruct S as [_ S]. rewrite Forall_forall in S. specialize (S q I). cbn in S. lia.
Qed.
Lemma round_lens r xs (m : list node) : length xs = length m -> (forall j x, nth_error xs j = Some x -> alike (Dn x) (r j)) ->
  map (@length R) xs = map (@length R) (map (fun j => datum (r j)) (seq 0 (length m))).
Proof.
  intros L A. apply nth_ext with (d := 0%nat) (d' := 0%nat); rewrite ?map_length, ?seq_length; [exact L|]. intros j J.
  destruct (nth_error xs j) as [x|] eqn:E; [|apply nth_error_None in E; lia]. specialize (A j x E).
  rewrite (nth_indep _ 0%nat (length (@nil R))) by (rewrite map_length; lia). rewrite map_nth.
  erewrite nth_error_nth by exact E. rewrite map_map.
  rewrite (nth_indep _ 0%nat (length (datum (r 0%nat)))) by (rewrite map_length, seq_length; lia). rewrite (map_nth (fun j => length (datum (r j)))). rewrite seq_nth by lia.
  cbn [plus]. destruct (r j); cbn [alike datum] in *; [contradiction|exact A].
Qed.

Lemma rounds_ok p m n0 : saneClip0 p -> Sep m n0 -> forall rs h e c prev xs ys e' x',
  St h m xs ys -> (n0 <= nextp h)%nat -> Known h n0 c m prev ->
  (forall xo yo, prev = Some (xo, yo) -> map (@length R) xo = map (@length R) xs) ->
  Forall (fun r => forall j x, nth_error xs j = Some x -> alike (Dn x) (r j)) rs ->
  bb p e (flat prev) (concat xs) (map (gradsOf m) rs) = Some (e', x') ->
  exists c' h' xs' ys' prev', rounds (bbStep p) m rs (e, c) h = Done (e', c') h' /\ (nextp h <= nextp h')%nat /\
    St h' m xs' ys' /\ concat xs' = x' /\ map (@length R) xs' = map (@length R) xs /\ (rs <> [] -> Forall (Forall (eq 0%R)) ys') /\
    Known h' n0 c' m prev' /\ (forall xo yo, prev' = Some (xo, yo) -> map (@length R) xo = map (@length R) xs') /\
    (forall rs0 r, rs = rs0 ++ [r] -> exists xo, prev' = Some (xo, map (fun j => datum (r j)) (seq 0 (length m)))) /\
    (forall q, (q < n0)%nat -> ~ In q (flat_map pointers m) -> cells h' q = cells h q).
Proof.
  intros HC S. induction rs as [|r rs IH]; intros h e c prev xs ys e' x' H N K Hp F E.
  - cbn [map bb] in E. injection E as <- <-. exists c, h, xs, ys, prev. cbn [rounds]. repeat split; auto; try congruence. intros [|? ?] ? Q; discriminate.
  - inversion_clear F as [|? ? A F']. pose proof (St_lens _ _ _ _ H) as [L1 [L2 L3]].
    destruct (feed_ok r m 0 h xs ys n0 H S A) as [F1 [F2 [F3 _]]]. cbn [rounds].
    set (gs := map (fun j => datum (r j)) (seq 0 (length m))) in *.
    destruct (step_ok p m (feed m 0 r h) n0 e c prev xs gs F1 S) as [c1 [h1 [E1 [E2 [E3 [E4 E5]]]]]]; [lia|eapply Known_feed; eauto|exact Hp|].
    rewrite E1. set (e1 := newRate p e prev xs gs) in *.
    assert (Lg : map (@length R) xs = map (@length R) gs) by (apply round_lens; auto).
    assert (B : bb p e1 (flat (Some (xs, gs))) (concat (upd e1 xs gs)) (map (gradsOf m) rs) = Some (e', x')).
    { rewrite upd_concat by exact Lg. cbn [map bb] in E. change (gradsOf m r) with (concat gs) in E. destruct prev as [[xo yo]|]; cbn [flat newRate] in E, e1.
      - unfold rate in E. destruct (Req_EM_T _ _) as [Z|Z] in E; [discriminate|]. rewrite <- limit_rate in E by exact HC. exact E.
      - exact E. }
    assert (F'' : Forall (fun r => forall j x, nth_error (upd e1 xs gs) j = Some x -> alike (Dn x) (r j)) rs).
    { eapply Forall_impl; [|exact F']. cbn beta. intros r' A' j x X. pose proof (upd_lens e1 xs gs Lg) as Q. pose proof (map_nth_error (@length R) j _ X) as Q1. rewrite Q in Q1.
      rewrite nth_error_map in Q1. destruct (nth_error xs j) as [x0|] eqn:X0; [|discriminate]. cbn [option_map] in Q1. injection Q1 as Q1. specialize (A' j x0 X0). destruct (r' j); cbn [alike] in *; [contradiction|congruence]. }
    destruct (IH h1 e1 c1 (Some (xs, gs)) (upd e1 xs gs) _ e' x' E3) as [c' [h' [xs' [ys' [prev' [G1 [G2 [G3 [G4 [G5 [G6 [G7 [G8 [G9 G10]]]]]]]]]]]]]]; [lia|exact E4| |exact F''|exact B|].
    { intros xo yo Q. injection Q as <- <-. symmetry. apply upd_lens. exact Lg. }
    exists c', h', xs', ys', prev'. split; [exact G1|]. split; [lia|]. split; [exact G3|]. split; [exact G4|]. split; [rewrite G5; apply upd_lens; exact Lg|]. split; [|split; [exact G7|split; [exact G8|split]]].
    + intros _. destruct rs as [|r' rs]; [|apply G6; discriminate]. cbn [rounds] in G1. injection G1 as _ _ Eh. subst h'.
      pose proof (St_fun _ _ _ _ _ _ E3 G3) as [_ <-]. apply Forall_forall. intros l Il. apply in_map_iff in Il. destruct Il as [l0 [<- _]]. apply Forall_forall. intros z Iz. apply in_map_iff in Iz. destruct Iz as [? [<- _]]. reflexivity.
    + intros [|r0 rs0] r1 Q; cbn [app] in Q; injection Q as Q1 Q2.
      * subst r1 rs. cbn [rounds] in G1. injection G1 as _ Ec Eh. subst c' h'.
        (* the state after the only round *)
        destruct prev' as [[xo yo]|]; cbn [Known] in G7; [|destruct E4 as [l [El _]]; congruence].
        exists xo. f_equal. f_equal. destruct E4 as [l [-> [_ [V1 [_ L4]]]]]. destruct G7 as [l2 [_ [_ [V2 [_ L5]]]]].
        clear - V1 V2 L4 L5. assert (L6 : length xs = length xo) by congruence. clear L4 L5. fold gs. revert V1 V2 L6. generalize 0%nat, xs, gs, xo, yo. clear. intros i xs gs xo yo V1. revert xo yo.
        induction V1 as [|i v d x y xs ys A1 A2 A3 A4 A5 V IH]; intros xo yo V2 L; inversion V2 as [|i' v' d' x' y' xs' ys' B1 B2 B3 B4 B5 V']; subst; cbn [length] in L; try discriminate; [reflexivity|].
        rewrite A1 in B1. injection B1 as <- <-. rewrite A3 in B3. injection B3 as <-. f_equal. eapply IH; [exact V'|lia].
      * eapply G9. exact Q2.
    + intros q Q NI. rewrite G10 by auto. rewrite E5 by auto. apply F3. exact NI.
Qed.
