(** Proofs about the solvers: from one node to a model and to any number of rounds. *)
From Coq Require Import Reals List Bool Arith Lia Lra.
From Verif Require Import SolverModel SolverSpec SolverProofs.
Import ListNotations.

(** A node with what memory holds for it. *)
Record ent := En { en : node; ew : nat; eg : nat; ecv : option (nat * nat); eb : bool; em : list (R * R); elw : list R; elg : list R }.
Definition cvp (cv : option (nat * nat)) : list nat := match cv with Some (c, d) => [c; d] | None => [] end.
Definition ptrs (e : ent) : list nat := ew e :: eg e :: cvp (ecv e).
Definition zeros (lm : list (R * R)) : list (R * R) := map (fun _ => (0%R, 0%R)) lm.
Definition good1 (h : heap) (e : ent) : Prop :=
  grad (en e) = Some (eg e) /\ weights (en e) = ew e /\ length (elw e) = length (em e) /\ length (elg e) = length (em e) /\ (eb e = false -> length (em e) = 1%nat) /\
  cells h (ew e) = Some (mk (eb e) (elw e)) /\ cells h (eg e) = Some (mk (eb e) (elg e)) /\
  match ecv e with
  | Some (c, d) => cells h c = Some (mk (eb e) (map fst (em e))) /\ cells h d = Some (mk (eb e) (map snd (em e)))
  | None => em e = zeros (em e)
  end.
Record Good (h : heap) (E : list ent) : Prop := {
  g_one : Forall (good1 h) E;
  g_sep : NoDup (flat_map ptrs E);
  g_old : Forall (fun p => (p < nextp h)%nat) (flat_map ptrs E) }.

Definition upd (r : rule) (k : nat) (e : ent) (cv : option (nat * nat)) : ent :=
  let res := pt r (eb e) k (em e) (elw e) (elg e) in
  En (en e) (ew e) (eg e) cv (eb e) (map fst res) (map snd res) (map (fun _ => 0%R) (elg e)).

(** Changing one node. *)
Definition change (e e' : ent) (h h' : heap) : Prop :=
  (nextp h <= nextp h')%nat /\ good1 h' e' /\ NoDup (ptrs e') /\
  Forall (fun x => In x (ptrs e) \/ (nextp h <= x)%nat) (cvp (ecv e')) /\ Forall (fun x => (x < nextp h')%nat) (cvp (ecv e')) /\
  forall q, (q < nextp h)%nat -> ~ In q (ptrs e) -> cells h' q = cells h q.
(** What stepping one node must have done. *)
Definition effect (r : rule) (k : nat) (e : ent) (h : heap) (cv : option (nat * nat)) (h' : heap) : Prop := change e (upd r k e cv) h h'.

Lemma pt_length r b k lm lw lg : length lw = length lm -> length lg = length lm -> length (pt r b k lm lw lg) = length lm.
Proof. intros A B. unfold pt. rewrite map_length, !combine_length. lia. Qed.

Lemma nodup_swap {A} (N : A -> Prop) (X Y Z Y' : list A) : NoDup (X ++ Y ++ Z) -> NoDup Y' -> Forall (fun y => In y Y \/ N y) Y' -> Forall (fun x => ~ N x) (X ++ Z) -> NoDup (X ++ Y' ++ Z).
Proof.
  intros H HY HF HN. rewrite Forall_forall in HF, HN.
  assert (D : forall x, In x X \/ In x Z -> ~ In x Y').
  { intros x Hx Hy. destruct (HF x Hy) as [I|I]; [|exact (HN x (proj2 (in_app_iff _ _ _) Hx) I)].
    destruct Hx as [Hx|Hx].
    - apply in_split in Hx. destruct Hx as [a [b' ->]]. rewrite <- app_assoc in H. cbn [app] in H. apply NoDup_remove_2 in H. apply H. rewrite !in_app_iff. auto.
    - apply in_split in I. destruct I as [a [b' ->]]. rewrite <- app_assoc in H. cbn [app] in H. rewrite app_assoc in H. apply NoDup_remove_2 in H. apply H. rewrite !in_app_iff. auto. }
  assert (HX : NoDup (X ++ Z)).
  { clear - H. induction Y as [|y Y IH]; [exact H|]. apply IH. cbn [app] in H. apply NoDup_remove_1 in H. exact H. }
  clear H HF HN. induction Y' as [|y Y' IH]; [exact HX|]. cbn [app]. apply NoDup_Add with (a := y) (l := X ++ Y' ++ Z).
  - apply Add_app.
  - inversion_clear HY as [|? ? H1 H2]. split; [apply IH; auto; intros x Hx Hy; apply (D x Hx); right; exact Hy|].
    rewrite !in_app_iff. intros [I|[I|I]]; [exact (D y (or_introl I) (or_introl eq_refl))|contradiction|exact (D y (or_intror I) (or_introl eq_refl))].
Qed.

Lemma good1_frame h h' e : good1 h e -> (forall q, In q (ptrs e) -> cells h' q = cells h q) -> good1 h' e.
Proof.
  intros [A [B [C [D [E [F [G H]]]]]]] HF. unfold good1. repeat split; auto.
  - rewrite HF by (left; reflexivity). exact F.
  - rewrite HF by (right; left; reflexivity). exact G.
  - unfold ptrs in HF. destruct (ecv e) as [[c d]|]; [|exact H]. destruct H as [H1 H2]. cbn [cvp] in HF. rewrite !HF by (cbn [In]; auto). auto.
Qed.

Lemma good_change h A e B e' h' : Good h (A ++ e :: B) -> ew e' = ew e -> eg e' = eg e -> change e e' h h' -> Good h' (A ++ e' :: B).
Proof.
  intros [G1 G2 G3] Qw Qg [X [H1 [H2 [H3 [H4 H5]]]]].
  rewrite Forall_forall in G1. rewrite flat_map_app in *. cbn [flat_map] in *.
  assert (Fo : forall x, In x A \/ In x B -> forall q, In q (ptrs x) -> cells h' q = cells h q).
  { intros x Hx q Hq.
    assert (L : In q (flat_map ptrs A) \/ In q (flat_map ptrs B)) by (destruct Hx; [left|right]; apply in_flat_map; eauto).
    apply H5; [rewrite Forall_forall in G3; apply G3; rewrite !in_app_iff; tauto|]. intro I.
    destruct L as [L|L].
    - apply in_split in L. destruct L as [a [b' L]]. rewrite L, <- app_assoc in G2. cbn [app] in G2. apply NoDup_remove_2 in G2. apply G2. rewrite !in_app_iff. auto.
    - apply in_split in I. destruct I as [a [b' I]]. rewrite I, <- app_assoc in G2. cbn [app] in G2. rewrite app_assoc in G2. apply NoDup_remove_2 in G2. apply G2. rewrite !in_app_iff. auto. }
  split.
  - rewrite Forall_forall. intros x Hx. apply in_app_iff in Hx. destruct Hx as [Hx|[<-|Hx]].
    + apply (good1_frame h); [apply G1; rewrite in_app_iff; auto|apply Fo; auto].
    + exact H1.
    + apply (good1_frame h); [apply G1; rewrite in_app_iff; cbn [In]; auto|apply Fo; auto].
  - rewrite flat_map_app. cbn [flat_map]. eapply nodup_swap with (N := fun x => (nextp h <= x)%nat); [exact G2|exact H2| |].
    + unfold ptrs at 2. rewrite Qw, Qg. constructor; [left; left; reflexivity|]. constructor; [left; right; left; reflexivity|]. exact H3.
    + rewrite Forall_forall in *. intros x Hx. enough (x < nextp h)%nat by lia. apply G3. rewrite !in_app_iff in *. tauto.
  - rewrite flat_map_app. cbn [flat_map]. unfold ptrs at 2. rewrite Qw, Qg. rewrite Forall_forall in *. intros x Hx.
    rewrite !in_app_iff in Hx. destruct Hx as [Hx|[[<-|[<-|Hx]]|Hx]].
    + enough (x < nextp h)%nat by lia. apply G3. rewrite !in_app_iff. auto.
    + enough (ew e < nextp h)%nat by lia. apply G3. rewrite !in_app_iff. right; left; left; reflexivity.
    + enough (eg e < nextp h)%nat by lia. apply G3. rewrite !in_app_iff. right; left; right; left; reflexivity.
    + apply H4. exact Hx.
    + enough (x < nextp h)%nat by lia. apply G3. rewrite !in_app_iff. auto.
Qed.

Lemma good_step r k h A e B cv h' : Good h (A ++ e :: B) -> effect r k e h cv h' -> Good h' (A ++ upd r k e cv :: B).
Proof. intros G EF. apply (good_change h A e B); auto. Qed.

(** ** One node of a solver with a cache *)
Lemma mk_zero b l h p : cells h p = Some (mk b l) -> (b = false -> length l = 1%nat) -> zeroValue p h = Ok p (set h p (mk b (map (fun _ => 0%R) l))).
Proof.
  intros E L. unfold zeroValue. rewrite E. destruct b; cbn [mk] in *.
  - unfold bind. rewrite (zero_ok _ _ _ E). reflexivity.
  - destruct (one_entry l (L eq_refl)) as [x ->]. reflexivity.
Qed.
Lemma mk_clone b l h p : cells h p = Some (mk b l) -> cloneValue p h = Ok (nextp h) (allocate h (mk b l)).
Proof. intro E. unfold cloneValue. rewrite E. reflexivity. Qed.
Lemma newCached_ok b lw lg h w g : cells h w = Some (mk b lw) -> cells h g = Some (mk b lg) -> (g < nextp h)%nat -> (b = false -> length lw = 1%nat) -> (b = false -> length lg = 1%nat) ->
  exists h', newCachedDV w g true h = Ok (nextp h, S (nextp h)) h' /\ nextp h' = S (S (nextp h)) /\
    cells h' (nextp h) = Some (mk b (map (fun _ => 0%R) lw)) /\ cells h' (S (nextp h)) = Some (mk b (map (fun _ => 0%R) lg)) /\
    forall q, (q < nextp h)%nat -> cells h' q = cells h q.
Proof.
  intros Ew Eg Lg L1 L2. unfold newCachedDV.
  rewrite (bind_ok _ _ _ _ _ (mk_clone _ _ _ _ Ew)). erewrite bind_ok by (eapply mk_clone; find). nx. cbv iota.
  erewrite bind_ok by (eapply mk_zero; [find|exact L1]). erewrite bind_ok by (eapply mk_zero; [find|exact L2]).
  eexists. split; [reflexivity|]. split; [ne|]. split; [find|]. split; [find|]. intros q Hq. look. reflexivity.
Qed.

Lemma body_effect body r k e h : BodyOK body r -> good1 h e -> NoDup (ptrs e) -> Forall (fun p => (p < nextp h)%nat) (ptrs e) ->
  exists cv h1 cv' h', (match ecv e with Some c => Ok c h | None => newCachedDV (ew e) (eg e) true h end) = Ok cv h1 /\
    body k (en e) (ew e) (eg e) cv h1 = Ok cv' h' /\ effect r k e h (Some cv') h'.
Proof.
  intros HB G ND LT. pose proof G as [G1 [G2 [G3 [G4 [G5 [G6 [G7 G8]]]]]]].
  assert (Pre : exists c d h1, (match ecv e with Some c => Ok c h | None => newCachedDV (ew e) (eg e) true h end) = Ok (c, d) h1 /\
     (nextp h <= nextp h1)%nat /\ (c < nextp h1 /\ d < nextp h1)%nat /\ NoDup [ew e; eg e; c; d] /\
     Forall (fun x => In x (ptrs e) \/ (nextp h <= x)%nat) [c; d] /\ (forall q, (q < nextp h)%nat -> cells h1 q = cells h q) /\
     cells h1 c = Some (mk (eb e) (map fst (em e))) /\ cells h1 d = Some (mk (eb e) (map snd (em e)))).
  { unfold ptrs in *. destruct (ecv e) as [[c d]|]; cbn [cvp] in *.
    - exists c, d, h. rewrite Forall_forall in LT. split; [reflexivity|]. split; [lia|]. split; [split; apply LT; cbn [In]; auto|]. split; [exact ND|].
      split; [constructor; [left; cbn [In]; auto|constructor; [left; cbn [In]; auto|constructor]]|]. split; [reflexivity|exact G8].
    - rewrite Forall_forall in LT.
      destruct (newCached_ok (eb e) (elw e) (elg e) h (ew e) (eg e) G6 G7 ltac:(apply LT; cbn [In]; auto) ltac:(intro B; rewrite G3; auto) ltac:(intro B; rewrite G4; auto)) as [h1 [E1 [X1 [C1 [D1 F1]]]]].
      exists (nextp h), (S (nextp h)), h1. split; [exact E1|]. split; [lia|]. split; [lia|]. split.
      { inversion_clear ND as [|? ? N1 _]. pose proof (LT (ew e) (or_introl eq_refl)). pose proof (LT (eg e) (or_intror (or_introl eq_refl))).
        repeat constructor; cbn [In] in *; intuition lia. }
      split; [constructor; [right; lia|constructor; [right; lia|constructor]]|]. split; [exact F1|]. rewrite C1, D1. rewrite G8. unfold zeros. rewrite !map_map. cbn [fst snd].
      split; do 2 f_equal; [clear - G3|clear - G4].
      + revert G3. generalize (em e). induction (elw e) as [|x l IH]; intros [|y m] L; cbn [length map] in *; try discriminate; try reflexivity. f_equal. apply IH. lia.
      + revert G4. generalize (em e). induction (elg e) as [|x l IH]; intros [|y m] L; cbn [length map] in *; try discriminate; try reflexivity. f_equal. apply IH. lia. }
  destruct Pre as [c [d [h1 [E1 [X1 [B1 [N1 [I1 [F1 [C1 D1]]]]]]]]]].
  assert (LTw : (ew e < nextp h)%nat) by (rewrite Forall_forall in LT; apply LT; left; reflexivity). assert (LTg : (eg e < nextp h)%nat) by (rewrite Forall_forall in LT; apply LT; right; left; reflexivity).
  assert (Ne : (ew e <> eg e /\ ew e <> c /\ ew e <> d /\ eg e <> c /\ eg e <> d /\ c <> d)%nat).
  { inversion_clear N1 as [|? ? A1 N2]. inversion_clear N2 as [|? ? A2 N3]. inversion_clear N3 as [|? ? A3 _]. cbn [In] in *. intuition. }
  destruct (HB k (en e) (eb e) (ew e) (eg e) c d h1 (em e) (elw e) (elg e) Ne ltac:(lia) G3 G4 G5 ltac:(rewrite F1 by lia; exact G6) ltac:(rewrite F1 by lia; exact G7) C1 D1)
    as [c' [d' [h' [E2 [X2 [W2 [Gr2 [C2 [D2 [Fc [Fd [Ncd [B2 F2]]]]]]]]]]]]].
  exists (c, d), h1, (c', d'), h'. split; [exact E1|]. split; [exact E2|].
  pose proof (pt_length r (eb e) k (em e) (elw e) (elg e) G3 G4) as PL.
  split; [lia|]. split; [|split; [|split; [|split]]].
  - unfold good1. cbn [upd en ew eg ecv eb em elw elg]. rewrite !map_length, PL. repeat split; auto.
  - unfold ptrs. cbn [upd ew eg ecv cvp]. repeat constructor; cbn [In]; intuition lia.
  - cbn [cvp]. inversion_clear I1 as [|? ? Ic I2]. inversion_clear I2 as [|? ? Id _]. constructor; [|constructor; [|constructor]].
    + destruct Fc as [->|Fc]; [exact Ic|right; lia].
    + destruct Fd as [->|Fd]; [exact Id|right; lia].
  - cbn [cvp]. repeat constructor; lia.
  - intros q Hq Nq. unfold ptrs in Nq. cbn [In] in Nq. rewrite F2, F1; try lia; try reflexivity; try tauto.
    + intros ->. inversion_clear I1 as [|? ? Ic I2]. destruct Ic as [Ic|Ic]; [unfold ptrs in Ic; cbn [In] in Ic; tauto|lia].
    + intros ->. inversion_clear I1 as [|? ? Ic I2]. inversion_clear I2 as [|? ? Id _]. destruct Id as [Id|Id]; [unfold ptrs in Id; cbn [In] in Id; tauto|lia].
Qed.

(** ** The loop *)
Definition stepped (r : rule) (k : nat) (e e' : ent) : Prop := exists cv, e' = upd r k e cv.

Lemma setNth_app {A} (a b : list A) x y : setNth (a ++ x :: b) (length a) y = a ++ y :: b.
Proof. induction a as [|z a IH]; cbn [length app setNth]; [reflexivity|]. f_equal. exact IH. Qed.

Lemma Good_mid h A e B : Good h (A ++ e :: B) -> good1 h e /\ NoDup (ptrs e) /\ Forall (fun p => (p < nextp h)%nat) (ptrs e).
Proof.
  intros [G1 G2 G3]. rewrite flat_map_app in *. cbn [flat_map] in *. rewrite Forall_forall in *. split; [apply G1; rewrite in_app_iff; right; left; reflexivity|]. split.
  - clear - G2. induction (flat_map ptrs A) as [|x l IH]; cbn [app] in G2.
    + clear - G2. induction (ptrs e) as [|y p IH]; [constructor|]. cbn [app] in G2. inversion_clear G2 as [|? ? N1 N2]. constructor; [intro; apply N1; rewrite in_app_iff; auto|apply IH; exact N2].
    + inversion_clear G2. auto.
  - intros x Hx. apply G3. rewrite !in_app_iff. auto.
Qed.

Lemma loop_ok body r k : BodyOK body r -> forall rest done h, Good h (done ++ rest) ->
  exists rest' h', stepLoop (body k) (map en rest) (length done) (Some (map ecv (done ++ rest))) h = Done (Some (map ecv (done ++ rest'))) h' /\
    Good h' (done ++ rest') /\ Forall2 (stepped r k) rest rest' /\ (nextp h <= nextp h')%nat /\
    forall q, (q < nextp h)%nat -> ~ In q (flat_map ptrs (done ++ rest)) -> cells h' q = cells h q /\ ~ In q (flat_map ptrs (done ++ rest')).
Proof.
  intro HB. induction rest as [|e rest IH]; intros done h G.
  - exists [], h. split; [reflexivity|]. split; [exact G|]. split; [constructor|]. split; [lia|auto].
  - pose proof (Good_mid _ _ _ _ G) as [G1 [G2 G3]].
    destruct (body_effect body r k e h HB G1 G2 G3) as [cv [h1 [cv' [h2 [E1 [E2 EF]]]]]].
    pose proof (good_step r k h done e rest (Some cv') h2 G EF) as G'.
    change (done ++ upd r k e (Some cv') :: rest) with (done ++ [upd r k e (Some cv')] ++ rest) in G'. rewrite app_assoc in G'.
    destruct (IH (done ++ [upd r k e (Some cv')]) h2 G') as [rest' [h3 [E3 [G'' [F3 [X3 Fr3]]]]]].
    exists (upd r k e (Some cv') :: rest'), h3. rewrite <- app_assoc in E3, G''. cbn [app] in E3, G''.
    cbn [map stepLoop]. destruct G1 as [Gg [Gw G1']]. unfold extractWeightGrad. rewrite Gg, Gw. unfold ret. cbn [fst snd getCache].
    rewrite map_app. cbn [map]. rewrite nth_error_app2 by (rewrite map_length; lia). rewrite map_length, Nat.sub_diag. cbn [nth_error].
    rewrite E1, E2. cbn [setCache]. rewrite <- (map_length ecv done), setNth_app. rewrite app_length in E3. cbn [length] in E3. rewrite Nat.add_1_r in E3. rewrite map_length.
    rewrite <- app_assoc in E3. rewrite map_app in E3. cbn [app map] in E3. 
    split; [exact E3|]. split; [exact G''|]. split; [constructor; [eexists; reflexivity|exact F3]|]. destruct EF as [X [_ [_ [I1 [_ F]]]]]. split; [lia|].
    intros q Hq Nq. rewrite flat_map_app in Nq. cbn [flat_map] in Nq. rewrite !in_app_iff in Nq.
    destruct (Fr3 q) as [Q1 Q2]; [lia| |rewrite <- app_assoc in Q2; cbn [app] in Q2; split; [rewrite Q1; apply F; tauto|exact Q2]]. rewrite !flat_map_app. cbn [flat_map]. rewrite app_nil_r, !in_app_iff. unfold ptrs at 2. cbn [upd ew eg ecv In]. rewrite Forall_forall in I1.
    intros [[J|[J|[J|J]]]|J]; try tauto.
    + apply Nq. right; left. left. exact J.
    + apply Nq. right; left. right; left. exact J.
    + destruct (I1 q J) as [J'|J']; [tauto|lia].
Qed.

(** ** Vanilla *)
Lemma vanilla_effect p k e h : saneClip p -> ecv e = None -> good1 h e -> NoDup (ptrs e) -> Forall (fun p => (p < nextp h)%nat) (ptrs e) ->
  exists h', vanillaNode p (en e) h = Ok tt h' /\ effect (vanillaRule p) k e h None h'.
Proof.
  intros HC CV [G1 [G2 [G3 [G4 [G5 [G6 [G7 G8]]]]]]] ND LT. unfold ptrs in ND, LT. rewrite CV in *. cbn [cvp] in *.
  assert (N : ew e <> eg e) by (inversion_clear ND as [|? ? N1 _]; cbn [In] in N1; intuition).
  assert (Lw : (ew e < nextp h)%nat) by (inversion_clear LT; assumption). assert (Lg : (eg e < nextp h)%nat) by (inversion_clear LT as [|? ? _ LT']; inversion_clear LT'; assumption).
  assert (Core : exists h', vanillaNode p (en e) h = Ok tt h' /\ (nextp h <= nextp h')%nat /\
     cells h' (ew e) = Some (mk (eb e) (map snd (pt (vanillaRule p) (eb e) k (em e) (elw e) (elg e)))) /\ cells h' (eg e) = Some (mk (eb e) (map (fun _ => 0%R) (elg e))) /\
     forall q, (q < nextp h)%nat -> q <> ew e -> q <> eg e -> cells h' q = cells h q).
  { unfold vanillaNode, extractWeightGrad. rewrite G1, G2, ret_b. cbn [fst snd]. rewrite G6. destruct (eb e); cbn [mk] in *.
    - unfold vanillaDense. op. destruct (prepDense_ok p (ew e) (eg e) h (elw e) (elg e) HC N Lw Lg G6 G7 ltac:(congruence)) as [h1 [E1 [X1 [Gr1 F1]]]]. rewrite (bind_ok _ _ _ _ _ E1).
      assert (Ew1 : cells h1 (ew e) = Some (Dn (elw e))) by (rewrite F1 by auto; exact G6).
      do 2 op. erewrite zero_ok by find. eexists. split; [reflexivity|]. split; [ne|]. split; [|split].
      + look. revert G3 G4. clear. generalize (em e), (elw e), (elg e). intros lm lw lg Lw Lg. entries lm lw lg Lw Lg. unfold vanillaRule. cbn [fst snd]. ring.
      + look. revert G3 G4. clear. generalize (em e), (elw e), (elg e). intros lm lw lg Lw Lg. entries lm lw lg Lw Lg. reflexivity.
      + intros q Hq Nw Ng. look. apply F1; auto.
    - unfold vanillaScalar. destruct (one_entry (em e) (G5 eq_refl)) as [m Em]. rewrite Em in *. cbn [length] in *.
      destruct (one_entry (elw e) G3) as [x Ex]. destruct (one_entry (elg e) G4) as [y Ey]. rewrite Ex, Ey in *. cbn [hd] in *.
      do 2 op. rewrite prepScalar_ok by exact HC. op. eexists. split; [reflexivity|]. split; [ne|]. unfold pt, vanillaRule. cbn [combine map fst snd hd].
      split; [look; do 2 f_equal; ring|]. split; [look; reflexivity|]. intros q Hq Nw Ng. look. reflexivity. }
  destruct Core as [h' [E [X [W [Gr F]]]]]. exists h'. split; [exact E|]. pose proof (pt_length (vanillaRule p) (eb e) k (em e) (elw e) (elg e) G3 G4) as PL.
  split; [exact X|]. split; [|split; [|split; [|split]]].
  - unfold good1. cbn [upd en ew eg ecv eb em elw elg]. rewrite !map_length, PL. repeat split; auto.
    assert (M : map fst (pt (vanillaRule p) (eb e) k (em e) (elw e) (elg e)) = em e).
    { revert G3 G4. clear. unfold pt. generalize (em e), (elw e), (elg e). intros lm. induction lm as [|m lm IH]; intros [|x lw] [|y lg] L1 L2; cbn [length combine map fst snd] in *; try discriminate; try reflexivity. f_equal. apply IH; lia. }
    rewrite M. exact G8.
  - unfold ptrs. cbn [upd ew eg ecv cvp]. exact ND.
  - constructor.
  - constructor.
  - intros q Hq Nq. unfold ptrs in Nq. cbn [In] in Nq. apply F; [exact Hq|intros ->; tauto|intros ->; tauto].
Qed.

Lemma vanilla_loop p k : saneClip p -> forall rest done h, Good h (done ++ rest) -> Forall (fun e => ecv e = None) rest ->
  exists rest' h', vanillaStep p (map en rest) h = Ok tt h' /\ Good h' (done ++ rest') /\ Forall2 (stepped (vanillaRule p) k) rest rest' /\ Forall (fun e => ecv e = None) rest' /\ (nextp h <= nextp h')%nat /\
    forall q, (q < nextp h)%nat -> ~ In q (flat_map ptrs (done ++ rest)) -> cells h' q = cells h q /\ ~ In q (flat_map ptrs (done ++ rest')).
Proof.
  intro HC. induction rest as [|e rest IH]; intros done h G CV.
  - exists [], h. split; [reflexivity|]. split; [exact G|]. split; [constructor|]. split; [constructor|]. split; [lia|auto].
  - pose proof (Good_mid _ _ _ _ G) as [G1 [G2 G3]]. inversion_clear CV as [|? ? CV1 CV2].
    destruct (vanilla_effect p k e h HC CV1 G1 G2 G3) as [h2 [E2 EF]].
    pose proof (good_step _ k h done e rest None h2 G EF) as G'.
    change (done ++ upd (vanillaRule p) k e None :: rest) with (done ++ [upd (vanillaRule p) k e None] ++ rest) in G'. rewrite app_assoc in G'.
    destruct (IH (done ++ [upd (vanillaRule p) k e None]) h2 G' CV2) as [rest' [h3 [E3 [G'' [F3 [C3 [X3 Fr3]]]]]]].
    exists (upd (vanillaRule p) k e None :: rest'), h3. rewrite <- app_assoc in G''. cbn [app] in G''.
    cbn [map vanillaStep]. rewrite (bind_ok _ _ _ _ _ E2), E3. split; [reflexivity|]. split; [exact G''|]. split; [constructor; [eexists; reflexivity|exact F3]|].
    split; [constructor; [reflexivity|exact C3]|]. destruct EF as [X [_ [_ [_ [_ F]]]]]. split; [lia|].
    intros q Hq Nq. rewrite flat_map_app in Nq. cbn [flat_map] in Nq. rewrite !in_app_iff in Nq.
    destruct (Fr3 q) as [Q1 Q2]; [lia| |rewrite <- app_assoc in Q2; cbn [app] in Q2; split; [rewrite Q1; apply F; tauto|exact Q2]]. rewrite !flat_map_app. cbn [flat_map]. rewrite app_nil_r, !in_app_iff. unfold ptrs at 2. cbn [upd ew eg ecv In cvp].
    intros [[J|[J|[J|J]]]|J]; try tauto; apply Nq; right; left; unfold ptrs; cbn [In]; tauto.
Qed.

(** ** Feeding *)
Definition lst (c : cell) : list R := match c with Sc x => [x] | Dn l => l end.
Definition setg (e : ent) (l : list R) : ent := En (en e) (ew e) (eg e) (ecv e) (eb e) (em e) (elw e) l.
Fixpoint feedE (i : nat) (r : nat -> cell) (E : list ent) : list ent :=
  match E with [] => [] | e :: E' => setg e (lst (r i)) :: feedE (S i) r E' end.

Lemma alike_mk b l c : alike (mk b l) c -> (b = false -> length l = 1%nat) -> c = mk b (lst c) /\ length (lst c) = length l.
Proof.
  intros H L. destruct b, c; cbn [mk alike lst hd length] in *; try contradiction; auto. split; [reflexivity|]. symmetry. auto.
Qed.

Lemma feed_ok r : forall rest done i h, Good h (done ++ rest) -> (forall j e, nth_error rest j = Some e -> alike (mk (eb e) (elw e)) (r (i + j)%nat)) ->
  Good (feed (map en rest) i r h) (done ++ feedE i r rest) /\ nextp (feed (map en rest) i r h) = nextp h /\
  forall q, ~ In q (map eg rest) -> cells (feed (map en rest) i r h) q = cells h q.
Proof.
  induction rest as [|e rest IH]; intros done i h G HA; cbn [map feed feedE].
  - auto.
  - pose proof (Good_mid _ _ _ _ G) as [G1 [G2 G3]]. pose proof G1 as [Gg [Gw [L1 [L2 [L3 [W1 [W2 W3]]]]]]]. rewrite Gg.
    pose proof (HA 0%nat e eq_refl) as HA0. rewrite Nat.add_0_r in HA0.
    destruct (alike_mk (eb e) (elw e) (r i) HA0 ltac:(intro B; rewrite L1; auto)) as [EQ LQ].
    assert (CH : change e (setg e (lst (r i))) h (set h (eg e) (r i))).
    { assert (NP : forall q, In q (ptrs e) -> q <> eg e -> cells (set h (eg e) (r i)) q = cells h q) by (intros q _ Nq; apply cs_ne; exact Nq).
      unfold ptrs in G2, NP. assert (Nw : ew e <> eg e) by (inversion_clear G2 as [|? ? N1 _]; cbn [In] in N1; intuition).
      assert (Nc : forall q, In q (cvp (ecv e)) -> q <> eg e) by (inversion_clear G2 as [|? ? _ N1]; inversion_clear N1 as [|? ? N2 _]; intros q Hq ->; contradiction).
      split; [ne|]. split; [|split; [exact G2|split; [|split]]].
      - unfold good1. cbn [setg en ew eg ecv eb em elw elg]. repeat split; auto; try congruence.
        + rewrite cs_ne by exact Nw. exact W1.
        + rewrite cs_eq. rewrite EQ at 1. reflexivity.
        + destruct (ecv e) as [[c d]|]; [|exact W3]. cbn [cvp] in Nc. rewrite !cs_ne by (apply Nc; cbn [In]; auto). exact W3.
      - cbn [setg ecv]. rewrite Forall_forall. intros x Hx. left. right; right. exact Hx.
      - cbn [setg ecv]. rewrite Forall_forall in *. intros x Hx. apply G3. right; right. exact Hx.
      - intros q Hq Nq. apply cs_ne. intros ->. apply Nq. right; left; reflexivity. }
    pose proof (good_change h done e rest (setg e (lst (r i))) _ G eq_refl eq_refl CH) as G'.
    change (done ++ setg e (lst (r i)) :: rest) with (done ++ [setg e (lst (r i))] ++ rest) in G'. rewrite app_assoc in G'.
    destruct (IH (done ++ [setg e (lst (r i))]) (S i) _ G') as [H1 [H2 H3]].
    { intros j e' Hj. specialize (HA (S j) e' Hj). rewrite Nat.add_succ_r in HA. exact HA. }
    rewrite <- app_assoc in H1. split; [exact H1|]. split; [rewrite H2; reflexivity|].
    intros q Nq. cbn [map In] in Nq. rewrite H3 by tauto. apply cs_ne. intros ->. tauto.
Qed.

Lemma feedE_en i r E : map en (feedE i r E) = map en E.
Proof. revert i. induction E as [|e E IH]; intro i; cbn [feedE map]; [reflexivity|]. rewrite IH. reflexivity. Qed.
Lemma feedE_ecv i r E : map ecv (feedE i r E) = map ecv E.
Proof. revert i. induction E as [|e E IH]; intro i; cbn [feedE map]; [reflexivity|]. rewrite IH. reflexivity. Qed.
Lemma feedE_ptrs i r E : flat_map ptrs (feedE i r E) = flat_map ptrs E.
Proof. revert i. induction E as [|e E IH]; intro i; cbn [feedE flat_map]; [reflexivity|]. rewrite IH. reflexivity. Qed.
Lemma feedE_nth r E : forall i j, nth_error (feedE i r E) j = option_map (fun e => setg e (lst (r (i + j)%nat))) (nth_error E j).
Proof.
  induction E as [|e E IH]; intros i [|j]; cbn [feedE nth_error option_map]; try reflexivity.
  - rewrite Nat.add_0_r. reflexivity.
  - rewrite IH. rewrite Nat.add_succ_r. reflexivity.
Qed.
Lemma eg_ptrs E q : In q (map eg E) -> In q (flat_map ptrs E).
Proof. rewrite in_map_iff, in_flat_map. intros [e [<- I]]. exists e. split; [exact I|]. right; left; reflexivity. Qed.

(** ** Rounds *)
Definition ran (r : rule) (rs : list (nat -> cell)) (k i : nat) (e e' : ent) : Prop :=
  en e' = en e /\ eb e' = eb e /\ length (em e') = length (em e) /\
  (forall j, (j < length (em e))%nat ->
     (nth j (em e') (0, 0)%R, nth j (elw e') 0%R) = traj r (eb e) (S k) (nth j (em e) (0, 0)%R) (nth j (elw e) 0%R) (map (fun rd => entry (rd i) j) rs)) /\
  (rs = [] -> e' = e) /\ (rs <> [] -> forall j, nth j (elg e') 0%R = 0%R).

Lemma pt_nth r b k : forall lm lw lg j, length lw = length lm -> length lg = length lm -> (j < length lm)%nat ->
  nth j (pt r b k lm lw lg) ((0, 0), 0)%R = r b k (nth j lm (0, 0)%R) (nth j lw 0%R) (nth j lg 0%R).
Proof.
  induction lm as [|m lm IH]; intros [|x lw] [|y lg] j L1 L2 J; cbn [length] in *; try lia. destruct j as [|j]; [reflexivity|].
  unfold pt. cbn [combine map nth]. apply (IH lw lg j); lia.
Qed.
Lemma entry_lst c j : (j < length (lst c))%nat -> nth j (lst c) 0%R = entry c j.
Proof. destruct c; cbn [lst entry length nth]; [|reflexivity]. destruct j; [reflexivity|]. lia. Qed.

Section Rounds.
Variable St : Type.
Variable step : list node -> St -> heap -> out St.
Variable rel : nat -> St -> list node -> list (option (nat * nat)) -> Prop.
Variable r : rule.
Definition StepOK : Prop := forall k s E h, Good h E -> rel k s (map en E) (map ecv E) ->
  exists E' s' h', step (map en E) s h = Done s' h' /\ Good h' E' /\ Forall2 (stepped r (S k)) E E' /\ rel (S k) s' (map en E') (map ecv E') /\ (nextp h <= nextp h')%nat /\
    forall q, (q < nextp h)%nat -> ~ In q (flat_map ptrs E) -> cells h' q = cells h q /\ ~ In q (flat_map ptrs E').
Hypothesis HS : StepOK.

Lemma stepped_en k E E' : Forall2 (stepped r k) E E' -> map en E' = map en E.
Proof. induction 1 as [|e e' E E' [cv ->] _ IH]; cbn [map]; [reflexivity|]. rewrite IH. reflexivity. Qed.
Lemma stepped_nth k E E' i e' : Forall2 (stepped r k) E E' -> nth_error E' i = Some e' -> exists e, nth_error E i = Some e /\ stepped r k e e'.
Proof. intro F. revert i. induction F as [|e x E E' Hs _ IH]; intros [|i] H; cbn [nth_error] in *; try discriminate; eauto. injection H as ->. eauto. Qed.

Lemma rounds_ok : forall rs k s E h, Good h E -> rel k s (map en E) (map ecv E) ->
  Forall (fun rd => forall i e, nth_error E i = Some e -> alike (mk (eb e) (elw e)) (rd i)) rs ->
  exists E' s' h', rounds step (map en E) rs s h = Done s' h' /\ Good h' E' /\ length E' = length E /\
    (forall i e e', nth_error E i = Some e -> nth_error E' i = Some e' -> ran r rs k i e e') /\ rel (k + length rs) s' (map en E') (map ecv E') /\ (nextp h <= nextp h')%nat /\
    forall q, (q < nextp h)%nat -> ~ In q (flat_map ptrs E) -> cells h' q = cells h q /\ ~ In q (flat_map ptrs E').
Proof.
  induction rs as [|rd rs IH]; intros k s E h G HR HA.
  - exists E, s, h. split; [reflexivity|]. split; [exact G|]. split; [reflexivity|]. split; [|split; [rewrite Nat.add_0_r; exact HR|split; [lia|auto]]].
    intros i e e' H1 H2. rewrite H1 in H2. injection H2 as <-. split; [reflexivity|]. split; [reflexivity|]. split; [reflexivity|]. split; [reflexivity|]. split; [reflexivity|]. intro; contradiction.
  - inversion_clear HA as [|? ? HA1 HA2]. destruct (feed_ok rd E [] 0 h G) as [G1 [X1 F1]]; [intros j e Hj; apply HA1; exact Hj|]. cbn [app] in G1.
    destruct (HS k s (feedE 0 rd E) _ G1) as [E1 [s1 [h1 [Q1 [G2 [St1 [R1 [X2 F2]]]]]]]]; [rewrite feedE_en, feedE_ecv; exact HR|].
    rewrite feedE_en in Q1. rewrite feedE_ptrs in F2.
    assert (EN : map en E1 = map en E) by (rewrite (stepped_en _ _ _ St1); apply feedE_en).
    assert (One : forall i e1, nth_error E1 i = Some e1 -> exists e cv, nth_error E i = Some e /\ e1 = upd r (S k) (setg e (lst (rd i))) cv /\ length (elw e) = length (em e) /\ length (lst (rd i)) = length (em e) /\ (eb e = false -> length (em e) = 1%nat)).
    { intros i e1 H. destruct (stepped_nth _ _ _ _ _ St1 H) as [e0 [H0 [cv ->]]]. rewrite feedE_nth in H0. cbn [plus] in H0. destruct (nth_error E i) as [e|] eqn:Ei; [|discriminate]. cbn [option_map] in H0. injection H0 as <-.
      exists e, cv. destruct G as [Ga _ _]. rewrite Forall_forall in Ga. destruct (Ga e (nth_error_In _ _ Ei)) as [_ [_ [L1 [_ [L3 _]]]]].
      split; [reflexivity|]. split; [reflexivity|]. split; [exact L1|]. split; [|exact L3]. rewrite <- L1. apply (alike_mk (eb e)); [apply HA1; exact Ei|]. rewrite L1. exact L3. }
    destruct (IH (S k) s1 E1 h1 G2 R1) as [E' [s' [h' [Q3 [G3 [L3 [Rn3 [R3 [X3 F3]]]]]]]]].
    { apply Forall_forall. rewrite Forall_forall in HA2. intros rd' Hin i e1 Hi. destruct (One i e1 Hi) as [e [cv [Ei [-> [La [Lb Lc]]]]]]. specialize (HA2 rd' Hin i e Ei).
      cbn [upd setg eb elw em elg]. pose proof (pt_length r (eb e) (S k) (em e) (elw e) (lst (rd i)) La Lb) as PL. destruct (eb e), (rd' i); cbn [mk alike] in *; auto. rewrite map_length. congruence. }
    exists E', s', h'. cbn [rounds]. rewrite Q1. rewrite EN in Q3. split; [exact Q3|]. split; [exact G3|]. split; [rewrite L3, <- (map_length en), EN, map_length; reflexivity|].
    split; [|split; [cbn [length]; rewrite Nat.add_succ_r; exact R3|split; [lia|]]].
    + intros i e e' Ei Ei'. destruct (nth_error E1 i) as [e1|] eqn:E1i; [|apply nth_error_None in E1i; assert (nth_error E' i <> None) by congruence; apply nth_error_Some in H; lia].
      specialize (Rn3 i e1 e' E1i Ei'). destruct (One i e1 E1i) as [e0 [cv [Ei0 [-> [La [Lb Lc]]]]]]. rewrite Ei in Ei0. injection Ei0 as <-.
      pose proof (pt_length r (eb e) (S k) (em e) (elw e) (lst (rd i)) La Lb) as PL.
      destruct Rn3 as [N1 [N2 [N3 [N4 [N5 N6]]]]]. cbn [upd setg en eb em elw elg] in *. rewrite map_length in N3, N4.
      split; [exact N1|]. split; [exact N2|]. split; [congruence|]. split.
      * intros j Hj. rewrite N4 by lia. cbn [map traj].
        rewrite (map_nth fst _ ((0, 0), 0)%R j : nth j (map fst _) (0, 0)%R = _), (map_nth snd _ ((0, 0), 0)%R j : nth j (map snd _) 0%R = _).
        rewrite pt_nth by auto. rewrite entry_lst by lia. reflexivity.
      * split; [discriminate|]. intros _ j. destruct rs as [|rd2 rs]; [|apply N6; discriminate]. rewrite (N5 eq_refl). cbn [upd setg elg].
        clear. revert j. induction (lst (rd i)) as [|x l IHl]; intros [|j]; cbn [map nth]; auto.
    + intros q Hq Nq. destruct (F2 q ltac:(lia) Nq) as [A1 A2]. destruct (F3 q ltac:(lia) A2) as [A3 A4]. split; [|exact A4]. rewrite A3, A1. apply F1. intro I. apply Nq. apply eg_ptrs, I.
Qed.
End Rounds.

(** ** The solvers *)
(** A solver that keeps its cache in its state, with or without a counter. *)
Definition cached {St} (emb : nat -> cache -> St) (k : nat) (s : St) (ns : list node) (cvs : list (option (nat * nat))) : Prop :=
  exists c, s = emb k c /\ (k = 0%nat /\ c = None /\ cvs = map (fun _ => None) ns \/ c = Some cvs).
Lemma cached_ok {St} (step : list node -> St -> heap -> out St) (emb : nat -> cache -> St) body r : BodyOK body r ->
  (forall model k c h, step model (emb k c) h = match stepLoop (body (S k)) model 0 (initCache model c) h with Done c' h' => Done (emb (S k) c') h' | Fail c' h' => Fail (emb (S k) c') h' | Crash => Crash end) ->
  StepOK St step (cached emb) r.
Proof.
  intros HB HE k s E h G [c [-> HC]]. destruct (loop_ok body r (S k) HB E [] h G) as [E' [h' [Q [G' [F [X Fr]]]]]].
  assert (IC : initCache (map en E) c = Some (map ecv E)) by (destruct HC as [[_ [-> HC]]| ->]; [rewrite HC|]; reflexivity).
  exists E', (emb (S k) (Some (map ecv E'))), h'. cbn [app length] in *. rewrite HE, IC, Q. split; [reflexivity|]. split; [exact G'|]. split; [exact F|]. split; [|split; [exact X|exact Fr]].
  exists (Some (map ecv E')). split; [reflexivity|]. right. reflexivity.
Qed.

Lemma vanilla_ok p : saneClip p -> StepOK unit (vanillaOut p) (fun k s ns cvs => Forall (fun cv => cv = None) cvs) (vanillaRule p).
Proof.
  intros HC k s E h G HN. destruct (vanilla_loop p (S k) HC E [] h G) as [E' [h' [Q [G' [F [N [X Fr]]]]]]]; [rewrite Forall_map in HN; exact HN|].
  exists E', tt, h'. cbn [app] in *. unfold vanillaOut. rewrite Q. split; [reflexivity|]. split; [exact G'|]. split; [exact F|]. split; [rewrite Forall_map; exact N|]. split; [exact X|exact Fr].
Qed.

(** ** From a fitting model *)
Definition toEnt (h : heap) (n : node) : ent :=
  match cells h (weights n), grad n with
  | Some cw, Some g => match cells h g with
                       | Some cg => En n (weights n) g None (isDn cw) (zeros (map (fun x => (x, x)) (lst cw))) (lst cw) (lst cg)
                       | None => En n 0 0 None true [] [] [] end
  | _, _ => En n 0 0 None true [] [] []
  end.
Lemma mk_lst c : c = mk (isDn c) (lst c).
Proof. destruct c; reflexivity. Qed.
Lemma lst_size c : length (lst c) = size c.
Proof. destruct c; reflexivity. Qed.
Lemma toEnt_ok h n : (exists g cw cg, grad n = Some g /\ cells h (weights n) = Some cw /\ cells h g = Some cg /\ alike cw cg) -> good1 h (toEnt h n) /\ ptrs (toEnt h n) = pointers n /\ ecv (toEnt h n) = None /\ en (toEnt h n) = n.
Proof.
  intros [g [cw [cg [E1 [E2 [E3 E4]]]]]]. unfold toEnt, ptrs, pointers. rewrite E1, E2, E3. cbn [ew eg ecv cvp en]. split; [|auto].
  unfold good1. cbn [en ew eg ecv eb em elw elg]. unfold zeros. rewrite !map_length. rewrite E2, E3. repeat split; auto.
  - destruct cw, cg; cbn [alike lst length] in *; try contradiction; auto.
  - destruct cw; [reflexivity|discriminate].
  - f_equal. apply mk_lst.
  - f_equal. destruct cw, cg; cbn [alike] in *; try contradiction; reflexivity.
  - rewrite !map_map. reflexivity.
Qed.

Lemma fit_good model h : fit model h -> Good h (map (toEnt h) model) /\ map en (map (toEnt h) model) = model /\ map ecv (map (toEnt h) model) = map (fun _ => None) model /\ flat_map ptrs (map (toEnt h) model) = flat_map pointers model.
Proof.
  intros [F1 F2 F3].
  assert (P : flat_map ptrs (map (toEnt h) model) = flat_map pointers model).
  { clear F2 F3. induction F1 as [|n model Hn _ IH]; cbn [map flat_map]; [reflexivity|]. destruct (toEnt_ok h n Hn) as [_ [-> _]]. rewrite IH. reflexivity. }
  split; [|split; [|split; [|exact P]]].
  - split; [|rewrite P; exact F2|rewrite P; exact F3]. rewrite Forall_map. eapply Forall_impl; [|exact F1]. intros n Hn. apply toEnt_ok, Hn.
  - rewrite map_map. clear - F1. induction F1 as [|n model Hn _ IH]; cbn [map]; [reflexivity|]. destruct (toEnt_ok h n Hn) as [_ [_ [_ ->]]]. rewrite IH. reflexivity.
  - rewrite map_map. clear - F1. induction F1 as [|n model Hn _ IH]; cbn [map]; [reflexivity|]. destruct (toEnt_ok h n Hn) as [_ [_ [-> _]]]. rewrite IH. reflexivity.
Qed.

Lemma entry_mk b l j : (b = false -> length l = 1%nat) -> (j < length l)%nat -> entry (mk b l) j = nth j l 0%R.
Proof. intros L J. destruct b; cbn [mk entry]; [reflexivity|]. destruct (one_entry l (L eq_refl)) as [x ->]. destruct j; [reflexivity|]. cbn [length] in J. lia. Qed.

Lemma same_nodes r rs k E E' : length E' = length E -> (forall i e e', nth_error E i = Some e -> nth_error E' i = Some e' -> ran r rs k i e e') -> map en E' = map en E.
Proof.
  intros L H. assert (H' : forall i e e', nth_error E i = Some e -> nth_error E' i = Some e' -> en e' = en e) by (intros i e e' A B; exact (proj1 (H i e e' A B))). clear H.
  revert E' L H'. induction E as [|e E IH]; intros [|e' E'] L H; cbn [length map] in *; try discriminate; [reflexivity|]. f_equal; [apply (H 0%nat); reflexivity|]. apply IH; [lia|]. intros i x x' A B. exact (H (S i) x x' A B).
Qed.
Lemma fit_rounds model rs h : fit model h -> Forall (fitRound model h) rs -> Forall (fun rd => forall i e, nth_error (map (toEnt h) model) i = Some e -> alike (mk (eb e) (elw e)) (rd i)) rs.
Proof.
  intros F HF. eapply Forall_impl; [|exact HF]. intros rd H i e Hi. rewrite nth_error_map in Hi. destruct (nth_error model i) as [n|] eqn:Hn; [|discriminate]. cbn [option_map] in Hi. injection Hi as <-.
  pose proof (nth_error_In _ _ Hn) as I. pose proof F as [F1 _ _]. rewrite Forall_forall in F1. destruct (F1 n I) as [g [cw [cg [E1 [E2 [E3 E4]]]]]].
  specialize (H i n cw Hn E2). unfold toEnt. rewrite E1, E2, E3. cbn [eb elw]. rewrite <- mk_lst. exact H.
Qed.

(** Any solver that steps correctly follows its rule over any number of rounds. *)
Lemma follows_ok {St} (step : list node -> St -> heap -> out St) rel r : StepOK St step rel r ->
  forall model rs s h, fit model h -> rel 0%nat s model (map (fun _ => None) model) -> Forall (fitRound model h) rs ->
  exists s' h', rounds step model rs s h = Done s' h' /\ follows r model rs h h'.
Proof.
  intros HS model rs s h F HR HF. destruct (fit_good model h F) as [G [Qn [Qc Qp]]].
  assert (Cell : forall n c, In n model -> cells h (weights n) = Some c -> exists g, grad n = Some g /\ toEnt h n = En n (weights n) g None (isDn c) (zeros (map (fun x => (x, x)) (lst c))) (lst c) (elg (toEnt h n)) /\ weights n = ew (toEnt h n)).
  { intros n c Hin Hc. destruct F as [F1 _ _]. rewrite Forall_forall in F1. destruct (F1 n Hin) as [g [cw [cg [E1 [E2 [E3 E4]]]]]]. exists g. split; [exact E1|]. unfold toEnt. rewrite E1, E2, E3. rewrite Hc in E2. injection E2 as ->. split; reflexivity. }
  destruct (rounds_ok St step rel r HS rs 0%nat s (map (toEnt h) model) h G) as [E' [s' [h' [Q [G' [L [Rn [_ [X Fr]]]]]]]]].
  { rewrite Qn, Qc. exact HR. }
  { apply fit_rounds; assumption. }
  rewrite Qn in Q. exists s', h'. split; [exact Q|].
  assert (Mid : forall i n c, nth_error model i = Some n -> cells h (weights n) = Some c -> exists e', nth_error E' i = Some e' /\ good1 h' e' /\ ran r rs 0 i (toEnt h n) e').
  { intros i n c Hn Hc. assert (Hi : nth_error (map (toEnt h) model) i = Some (toEnt h n)) by (rewrite nth_error_map, Hn; reflexivity).
    destruct (nth_error E' i) as [e'|] eqn:E; [|apply nth_error_None in E; assert (H : nth_error (map (toEnt h) model) i <> None) by congruence; apply nth_error_Some in H; lia].
    exists e'. split; [reflexivity|]. split; [|apply Rn; auto]. destruct G' as [Ga _ _]. rewrite Forall_forall in Ga. apply Ga. eapply nth_error_In, E. }
  split; [|split].
  - intros i n c Hn Hc. destruct (Mid i n c Hn Hc) as [e' [He' [Ge [N1 [N2 [N3 [N4 _]]]]]]]. destruct (Cell n c (nth_error_In _ _ Hn) Hc) as [g [Hg [Et Ew]]].
    rewrite Et in *. cbn [en eb em elw] in *. unfold zeros in N3, N4. rewrite !map_length in N3, N4.
    destruct Ge as [_ [Gw [L1 [_ [L3 [W _]]]]]]. exists (mk (eb e') (elw e')). rewrite N1 in Gw. rewrite Gw. split; [exact W|]. split.
    + rewrite N2 in *. destruct c; cbn [isDn mk alike lst length] in *; [exact I|congruence].
    + intros j Hj. rewrite entry_mk; [|intro Hb; rewrite L1; auto|rewrite L1, N3, lst_size; exact Hj].
      rewrite <- lst_size in Hj. specialize (N4 j Hj). apply (f_equal snd) in N4. cbn [snd] in N4. rewrite N4. unfold after. rewrite entry_lst by exact Hj. do 2 f_equal.
      clear. revert j. induction (lst c) as [|x l IH]; intros [|j]; cbn [map nth]; auto.
  - intros n g Hin Hg Hrs. apply In_nth_error in Hin. destruct Hin as [i Hn]. pose proof F as [F1 _ _]. rewrite Forall_forall in F1. destruct (F1 n (nth_error_In _ _ Hn)) as [g0 [cw [cg [E1 [E2 [E3 E4]]]]]].
    destruct (Mid i n cw Hn E2) as [e' [He' [Ge [N1 [N2 [N3 [N4 [_ N6]]]]]]]]. destruct Ge as [Gg [_ [_ [L2 [L3 [_ [W _]]]]]]].
    destruct (Cell n cw (nth_error_In _ _ Hn) E2) as [g1 [Hg1 [Et _]]]. rewrite Et in N1. cbn [en] in N1. rewrite N1, Hg in Gg. injection Gg as ->.
    exists (mk (eb e') (elg e')). split; [exact W|]. intro j. specialize (N6 Hrs). destruct (eb e'); cbn [mk entry]; [apply N6|].
    specialize (N6 0%nat). destruct (elg e'); exact N6.
  - intros q Hq Nq. apply Fr; [exact Hq|]. rewrite Qp. exact Nq.
Qed.
