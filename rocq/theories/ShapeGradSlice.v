(** Proofs for ShapeGradProps.v: slicing, Unconcat and Concat. *)
From Coq Require Import List ZArith Bool Lia Ring.
From Verif Require Import Sums BroadcastModel BroadcastSpec BroadcastProofs ShapeGradModel ShapeGradSpec ShapeGradProofs.
Import ListNotations.
Local Open Scope Z_scope.

(** ** Positions *)
Lemma remove_app P x R : removeAt (P ++ x :: R) (length P) = P ++ R.
Proof. induction P as [|p P IH]; cbn [app removeAt length]; [reflexivity|]. rewrite IH. reflexivity. Qed.
Lemma insert_app P x R : insertAt (P ++ R) (length P) x = P ++ x :: R.
Proof. induction P as [|p P IH]; cbn [app length]; [destruct R; reflexivity|]. cbn [insertAt]. rewrite IH. reflexivity. Qed.
Lemma set_app P x R v : setZ (P ++ x :: R) (length P) v = P ++ v :: R.
Proof. apply set_split. Qed.
Lemma nth_app P (x : Z) R : nth (length P) (P ++ x :: R) 0 = x.
Proof. rewrite app_nth2, Nat.sub_diag by lia. reflexivity. Qed.
Lemma split_nth (l : list Z) k : (k < length l)%nat -> exists P x R, l = P ++ x :: R /\ length P = k.
Proof. intro H. exists (firstn k l), (nth k l 0), (skipn (S k) l). split; [|apply firstn_length_le; lia]. rewrite <- (firstn_skipn k l) at 1. f_equal. revert k H. induction l as [|a l IH]; intros [|k] H; cbn [length] in H; try lia; [reflexivity|]. cbn [skipn nth]. apply IH. lia. Qed.
Lemma inside_split P x R i : inside (P ++ x :: R) i <-> exists p y r, i = p ++ y :: r /\ inside P p /\ 0 <= y < x /\ inside R r.
Proof.
  split.
  - revert i. induction P as [|d P IH]; intros i H; cbn [app] in H.
    + inversion H as [|? y ? r Hy Hr]; subst. exists [], y, r. split; [reflexivity|]. split; [constructor|]. auto.
    + inversion H as [|? y ? r Hy Hr]; subst. destruct (IH r Hr) as [p [z [q [-> [Hp [Hz Hq]]]]]]. exists (y :: p), z, q. split; [reflexivity|]. split; [constructor; assumption|]. auto.
  - intros [p [y [r [-> [Hp [Hy Hr]]]]]]. apply Forall2_app; [exact Hp|]. constructor; assumption.
Qed.
Lemma inside_app P R i : inside (P ++ R) i -> exists p r, i = p ++ r /\ inside P p /\ inside R r.
Proof.
  revert i. induction P as [|d P IH]; intros i H; cbn [app] in H; [exists [], i; repeat split; [constructor|exact H]|].
  inversion H as [|? y ? r Hy Hr]; subst. destruct (IH r Hr) as [p [q [-> [Hp Hq]]]]. exists (y :: p), q. split; [reflexivity|]. split; [constructor; assumption|exact Hq].
Qed.

Section Sl.
Context {A : Type} {CR : CRing A}.
Add Ring Aring : (@cr_th A CR).
Notation tens := (@tens A).

(** One slice, by the shape split at the axis. *)
Lemma slice_split (t : tens) P d R st en : shp t = P ++ d :: R -> 0 <= st < en -> en <= d ->
  exists y, sliceNode t (Z.of_nat (length P)) (Some (st, en)) = Ok y /\
    (if en - st =? 1 then shp y = P ++ R /\ (forall p r, length p = length P -> at_ y (p ++ r) = at_ t (p ++ st :: r))
     else shp y = P ++ (en - st) :: R /\ (forall p i r, length p = length P -> at_ y (p ++ i :: r) = at_ t (p ++ i + st :: r))).
Proof.
  intros E H1 H2. unfold sliceNode. rewrite Nat2Z.id, E. rewrite nth_error_app2, Nat.sub_diag by lia. cbn [nth_error].
  destruct (Z.ltb_spec st 0); [lia|]. destruct (Z.leb_spec en st); [lia|]. destruct (Z.ltb_spec d en); [lia|]. cbn [orb]. destruct (en - st =? 1).
  - eexists. split; [reflexivity|]. cbn [shp at_]. split; [apply remove_app|]. intros p r L. rewrite <- L, insert_app. reflexivity.
  - eexists. split; [reflexivity|]. cbn [shp at_]. split; [apply set_app|]. intros p i r L. rewrite <- L, set_app, nth_app. reflexivity.
Qed.
Lemma slice_bad (t : tens) P d R st en : shp t = P ++ d :: R -> ~ (0 <= st < en /\ en <= d) -> sliceNode t (Z.of_nat (length P)) (Some (st, en)) = Err.
Proof.
  intros E H. unfold sliceNode. rewrite Nat2Z.id, E. rewrite nth_error_app2, Nat.sub_diag by lia. cbn [nth_error].
  destruct (Z.ltb_spec st 0); [reflexivity|]. destruct (Z.leb_spec en st); [reflexivity|]. destruct (Z.ltb_spec d en); [reflexivity|]. lia.
Qed.
(** ** The loop of Slice *)
Definition drops (sl : option (Z * Z)) : Z := match sl with Some (st, en) => if en - st =? 1 then 1 else 0 | None => 0 end.
Lemma sliceLoop_ok slices : forall (t : tens) i dc prev P R, shp t = P ++ R -> (length slices <= length R)%nat ->
  i - dc - drops prev = Z.of_nat (length P) ->
  (fits slices R /\ exists y, sliceLoop t i dc prev slices = Ok y /\ shp y = P ++ cut slices R /\
     forall p r, length p = length P -> inside (cut slices R) r -> at_ y (p ++ r) = at_ t (p ++ readAt slices r)) \/
  (~ fits slices R /\ sliceLoop t i dc prev slices = Err).
Proof.
  induction slices as [|s slices IH]; intros t i dc prev P R E HL HD; cbn [sliceLoop].
  - left. split; [exact I|]. exists t. split; [reflexivity|]. split; [exact E|]. reflexivity.
  - assert (HD' : (match prev with Some (st, en) => if en - st =? 1 then dc + 1 else dc | None => dc end) = dc + drops prev) by (destruct prev as [[? ?]|]; cbn [drops]; [destruct (_ =? 1)|]; lia).
    rewrite HD'. replace (i - (dc + drops prev)) with (Z.of_nat (length P)) by lia. destruct R as [|d R]; [cbn [length] in HL; lia|]. cbn [length] in HL. destruct s as [[st en]|].
    + cbn [fits cut readAt]. destruct (Z_le_dec 0 st) as [K1|K1]; [destruct (Z_lt_dec st en) as [K2|K2]; [destruct (Z_le_dec en d) as [K3|K3]|]|].
      2-4: right; split; [intros [? [? ?]]; lia|]; rewrite (slice_bad t P d R) by (try exact E; lia); reflexivity.
      destruct (slice_split t P d R st en E ltac:(lia) K3) as [y [-> Hy]]. cbn [bind]. destruct (en - st =? 1) eqn:W; destruct Hy as [Sy Vy].
      * destruct (IH y (i + 1) (dc + drops prev) (Some (st, en)) P R Sy ltac:(lia) ltac:(cbn [drops]; rewrite W; lia)) as [[F [z [Ez [Sz Vz]]]]|[F Ez]].
        -- left. split; [repeat split; auto|]. exists z. split; [exact Ez|]. split; [exact Sz|]. intros p r Lp Hr. rewrite Vz by assumption. apply Vy, Lp.
        -- right. split; [intros [_ [_ K]]; contradiction|exact Ez].
      * assert (SP : shp y = (P ++ [en - st]) ++ R) by (rewrite <- app_assoc; exact Sy).
        destruct (IH y (i + 1) (dc + drops prev) (Some (st, en)) (P ++ [en - st]) R SP ltac:(lia) ltac:(cbn [drops]; rewrite W, app_length; cbn [length]; lia)) as [[F [z [Ez [Sz Vz]]]]|[F Ez]].
        -- left. split; [repeat split; auto|]. exists z. split; [exact Ez|]. split; [rewrite <- app_assoc in Sz; exact Sz|]. intros p r Lp Hr. inversion Hr as [|? j ? r' Hj Hr']; subst.
           specialize (Vz (p ++ [j]) r'). rewrite <- !app_assoc in Vz. cbn [app] in Vz. rewrite Vz by (try exact Hr'; rewrite !app_length; cbn [length]; lia). apply Vy, Lp.
        -- right. split; [intros [_ [_ K]]; contradiction|exact Ez].
    + cbn [fits cut readAt sliceNode bind]. assert (SP : shp t = (P ++ [d]) ++ R) by (rewrite <- app_assoc; exact E).
      destruct (IH t (i + 1) (dc + drops prev) None (P ++ [d]) R SP ltac:(lia) ltac:(cbn [drops]; rewrite app_length; cbn [length]; lia)) as [[F [z [Ez [Sz Vz]]]]|[F Ez]].
      * left. split; [exact F|]. exists z. split; [exact Ez|]. split; [rewrite <- app_assoc in Sz; exact Sz|]. intros p r Lp Hr. inversion Hr as [|? j ? r' Hj Hr']; subst.
        specialize (Vz (p ++ [j]) r'). rewrite <- !app_assoc in Vz. cbn [app] in Vz. apply Vz; [rewrite !app_length; cbn [length]; lia|exact Hr'].
      * right. split; [exact F|exact Ez].
Qed.
Lemma fits_len slices : forall s, fits slices s -> (length slices <= length s)%nat.
Proof. induction slices as [|[[st en]|] slices IH]; intros [|d s] H; cbn [fits length] in *; try lia; try contradiction. - destruct H as [_ [_ H]]. apply IH in H. lia. - apply IH in H. lia. Qed.
Lemma sliceApi_ok (t : tens) slices : shp t <> [] ->
  (fits slices (shp t) /\ exists y, sliceApi t slices = Ok y /\ shp y = cut slices (shp t) /\ forall idx, inside (shp y) idx -> at_ y idx = at_ t (readAt slices idx)) \/
  (~ fits slices (shp t) /\ sliceApi t slices = Err).
Proof.
  intro H0. unfold sliceApi. destruct (shp t) as [|d s] eqn:E; [contradiction|]. rewrite <- E in *. destruct (Nat.ltb_spec (length (shp t)) (length slices)) as [L|L].
  - right. split; [intro K; apply fits_len in K; lia|reflexivity].
  - destruct (sliceLoop_ok slices t 0 0 None [] (shp t) eq_refl L eq_refl) as [[F [y [Ey [Sy Vy]]]]|[F Ey]].
    + left. split; [exact F|]. exists y. split; [exact Ey|]. split; [exact Sy|]. intros idx Hi. apply (Vy [] idx eq_refl). rewrite Sy in Hi. exact Hi.
    + right. auto.
Qed.
(** ** The gradient of one slice *)
Lemma slice_grad (t : tens) along sl y : 0 <= along < Z.of_nat (length (shp t)) -> sliceNode t along sl = Ok y -> forall g, shp g = shp y ->
  exists gx, sliceIncr t along sl g = Ok gx /\ pulled_back t y g gx.
Proof.
  intros Ha Hy g Hg. destruct sl as [[st en]|].
  2: { cbn [sliceNode] in Hy. injection Hy as <-. cbn [sliceIncr]. eexists. split; [reflexivity|]. split; [reflexivity|]. apply ip_ext; [reflexivity|]. intros idx _. cbn [at_]. ring. }
  destruct (split_nth (shp t) (Z.to_nat along) ltac:(lia)) as [P [d [R [E LP]]]].
  assert (EA : along = Z.of_nat (length P)) by lia. subst along.
  destruct (Z_le_dec 0 st) as [K1|K1]; [destruct (Z_lt_dec st en) as [K2|K2]; [destruct (Z_le_dec en d) as [K3|K3]|]|].
  2-4: rewrite (slice_bad t P d R st en) in Hy by (try exact E; lia); discriminate.
  destruct (slice_split t P d R st en E ltac:(lia) K3) as [y' [Ey Hs]]. rewrite Ey in Hy. injection Hy as ->.
  unfold sliceIncr. rewrite Nat2Z.id, E. rewrite nth_error_app2, Nat.sub_diag by lia. cbn [nth_error].
  destruct (Z.ltb_spec st 0); [lia|]. destruct (Z.leb_spec en st); [lia|]. destruct (Z.ltb_spec d en); [lia|]. cbn [orb].
  eexists. split; [reflexivity|]. split; [cbn [shp]; congruence|]. cbn [at_ shp]. rewrite E. destruct (en - st =? 1) eqn:W; destruct Hs as [Sy Vy]; rewrite Sy.
  - apply Z.eqb_eq in W. transitivity (ip (P ++ R) (fun full => at_ t (insertAt full (length P) st)) (at_ g)).
    { apply ip_ext; [|reflexivity]. intros idx Hi. destruct (inside_app _ _ _ Hi) as [p [r [-> [Hp Hr]]]]. rewrite Vy by apply (inside_len _ _ Hp). rewrite <- (inside_len _ _ Hp), insert_app. reflexivity. }
    apply (push (P ++ d :: R) (P ++ R) (fun full => insertAt full (length P) st)).
    + intros full Hf. destruct (inside_app _ _ _ Hf) as [p [r [-> [Hp Hr]]]]. rewrite <- (inside_len _ _ Hp), insert_app. apply inside_split. exists p, st, r. repeat split; auto; lia.
    + intros idx Hi. apply inside_split in Hi. destruct Hi as [p [j [r [-> [Hp [Hj Hr]]]]]]. pose proof (inside_len _ _ Hp) as Lp. rewrite <- Lp, nth_app, remove_app. destruct (Z.leb_spec st j), (Z.ltb_spec j en); cbn [andb].
      * assert (j = st) by lia. subst j. assert (HI : inside (P ++ R) (p ++ r)) by (apply Forall2_app; assumption). transitivity (at_ g (p ++ r)); [ring|]. rewrite <- (over_pick (P ++ R) (p ++ r) (at_ g) HI). apply over_ext. intros full Hf.
        destruct (inside_app _ _ _ Hf) as [p' [r' [-> [Hp' Hr']]]]. pose proof (inside_len _ _ Hp') as Lp'. rewrite Lp, <- Lp', insert_app.
        destruct (eqShape (p ++ r) (p' ++ r')) eqn:E1, (eqShape (p' ++ st :: r') (p ++ st :: r)) eqn:E2; try reflexivity.
        -- apply eqShape_iff in E1. assert (Q : p' = p /\ r' = r) by (apply app_inj_tail_iff || idtac; revert E1; clear - Lp Lp'; intro E1; assert (HL : length p = length p') by lia; clear Lp Lp'; revert p' HL E1; induction p as [|a p IH]; intros [|b p'] HL E1; try discriminate; cbn [app] in E1; [auto|]; injection E1 as -> E1; destruct (IH p' ltac:(cbn [length] in HL; lia) E1) as [-> ->]; auto). destruct Q as [-> ->]. rewrite eqShape_refl in E2. discriminate.
        -- apply eqShape_iff in E2. assert (Q : p' = p /\ r' = r) by (revert E2; clear - Lp Lp'; intro E1; assert (HL : length p = length p') by lia; clear Lp Lp'; revert p' HL E1; induction p as [|a p IH]; intros [|b p'] HL E1; try discriminate; cbn [app] in E1; [injection E1 as ->; auto|]; injection E1 as -> E1; destruct (IH p' ltac:(cbn [length] in HL; lia) E1) as [-> ->]; auto). destruct Q as [-> ->]. rewrite eqShape_refl in E1. discriminate.
      * symmetry. apply over_zero. intros full Hf. destruct (inside_app _ _ _ Hf) as [p' [r' [-> [Hp' Hr']]]]. pose proof (inside_len _ _ Hp') as Lp'. rewrite Lp, <- Lp', insert_app. destruct (eqShape _ _) eqn:E2; [|reflexivity]. apply eqShape_iff in E2. apply (f_equal (fun l => nth (length P) l 0)) in E2. rewrite <- Lp' in E2 at 1. rewrite nth_app in E2. rewrite <- Lp in E2. rewrite nth_app in E2. lia.
      * symmetry. apply over_zero. intros full Hf. destruct (inside_app _ _ _ Hf) as [p' [r' [-> [Hp' Hr']]]]. pose proof (inside_len _ _ Hp') as Lp'. rewrite Lp, <- Lp', insert_app. destruct (eqShape _ _) eqn:E2; [|reflexivity]. apply eqShape_iff in E2. apply (f_equal (fun l => nth (length P) l 0)) in E2. rewrite <- Lp' in E2 at 1. rewrite nth_app in E2. rewrite <- Lp in E2. rewrite nth_app in E2. lia.
      * symmetry. apply over_zero. intros full Hf. destruct (inside_app _ _ _ Hf) as [p' [r' [-> [Hp' Hr']]]]. pose proof (inside_len _ _ Hp') as Lp'. rewrite Lp, <- Lp', insert_app. destruct (eqShape _ _) eqn:E2; [|reflexivity]. apply eqShape_iff in E2. apply (f_equal (fun l => nth (length P) l 0)) in E2. rewrite <- Lp' in E2 at 1. rewrite nth_app in E2. rewrite <- Lp in E2. rewrite nth_app in E2. lia.
  - transitivity (ip (P ++ (en - st) :: R) (fun full => at_ t (setZ full (length P) (nth (length P) full 0 + st))) (at_ g)).
    { apply ip_ext; [|reflexivity]. intros idx Hi. apply inside_split in Hi. destruct Hi as [p [j [r [-> [Hp [Hj Hr]]]]]]. pose proof (inside_len _ _ Hp) as Lp. rewrite Vy by exact Lp. rewrite <- Lp, nth_app, set_app. reflexivity. }
    apply (push (P ++ d :: R) (P ++ (en - st) :: R) (fun full => setZ full (length P) (nth (length P) full 0 + st))).
    + intros full Hf. apply inside_split in Hf. destruct Hf as [p [j [r [-> [Hp [Hj Hr]]]]]]. pose proof (inside_len _ _ Hp) as Lp. rewrite <- Lp, nth_app, set_app. apply inside_split. exists p, (j + st), r. repeat split; auto; lia.
    + intros idx Hi. apply inside_split in Hi. destruct Hi as [p [j [r [-> [Hp [Hj Hr]]]]]]. pose proof (inside_len _ _ Hp) as Lp. rewrite <- Lp, nth_app. destruct (Z.leb_spec st j), (Z.ltb_spec j en); cbn [andb].
      2-4: symmetry; apply over_zero; intros full Hf; destruct (eqShape _ _) eqn:E2; [|reflexivity]; exfalso; apply eqShape_iff in E2;
           apply inside_split in Hf; destruct Hf as [p' [j' [r' [-> [Hp' [Hj' Hr']]]]]]; pose proof (inside_len _ _ Hp') as Lp';
           rewrite Lp, <- Lp', nth_app, set_app in E2; apply (f_equal (fun l => nth (length P) l 0)) in E2; rewrite <- Lp' in E2 at 1; rewrite nth_app in E2; rewrite <- Lp in E2; rewrite nth_app in E2; lia.
      rewrite set_app. assert (HI : inside (P ++ (en - st) :: R) (p ++ j - st :: r)) by (apply inside_split; exists p, (j - st), r; repeat split; auto; lia).
      transitivity (at_ g (p ++ j - st :: r)); [ring|]. rewrite <- (over_pick _ _ (at_ g) HI). apply over_ext. intros full Hf. apply inside_split in Hf. destruct Hf as [p' [j' [r' [-> [Hp' [Hj' Hr']]]]]]. pose proof (inside_len _ _ Hp') as Lp'.
      rewrite Lp, <- Lp', nth_app, set_app. assert (Q : forall x x', p ++ x :: r = p' ++ x' :: r' -> p' = p /\ r' = r /\ x = x').
      { intros x x'. clear - Lp Lp'. assert (HL : length p = length p') by lia. clear Lp Lp'. revert p' HL. induction p as [|a p IH]; intros [|b p'] HL E1; try discriminate; cbn [app] in E1; [injection E1 as -> ->; auto|]. injection E1 as -> E1. destruct (IH p' ltac:(cbn [length] in HL; lia) E1) as [-> [-> ->]]. auto. }
      destruct (eqShape (p ++ j - st :: r) (p' ++ j' :: r')) eqn:E1, (eqShape (p' ++ j' + st :: r') (p ++ j :: r)) eqn:E2; try reflexivity.
      * apply eqShape_iff in E1. destruct (Q _ _ E1) as [-> [-> EJ]]. replace (j' + st) with j in E2 by lia. rewrite eqShape_refl in E2. discriminate.
      * apply eqShape_iff in E2. symmetry in E2. destruct (Q _ _ E2) as [-> [-> EJ]]. replace (j - st) with j' in E1 by lia. rewrite eqShape_refl in E1. discriminate.
Qed.
End Sl.
