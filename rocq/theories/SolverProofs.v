(** Proofs about the solvers: symbolic execution on the memory, and a loop lemma shared by
    the solvers with a cache. *)
From Coq Require Import Reals List Bool Arith Lia Lra.
From Verif Require Import SolverModel SolverSpec.
Import ListNotations.

(** ** Memory *)
Lemma cs_eq h p c : cells (set h p c) p = Some c.
Proof. cbn [set cells]. rewrite Nat.eqb_refl. reflexivity. Qed.
Lemma cs_ne h p c q : q <> p -> cells (set h p c) q = cells h q.
Proof. intro H. cbn [set cells]. rewrite (proj2 (Nat.eqb_neq q p) H). reflexivity. Qed.
Lemma ca_eq h c q : q = nextp h -> cells (allocate h c) q = Some c.
Proof. intros ->. cbn [allocate cells]. rewrite Nat.eqb_refl. reflexivity. Qed.
Lemma ca_ne h c q : q <> nextp h -> cells (allocate h c) q = cells h q.
Proof. intro H. cbn [allocate cells]. rewrite (proj2 (Nat.eqb_neq _ _) H). reflexivity. Qed.
Lemma nx_set h p c : nextp (set h p c) = nextp h. Proof. reflexivity. Qed.
Lemma nx_alloc h c : nextp (allocate h c) = S (nextp h). Proof. reflexivity. Qed.
Ltac nx := rewrite ?nx_set, ?nx_alloc in *.
Ltac ne := repeat first [rewrite nx_set | rewrite nx_alloc]; lia.
Ltac look := repeat first [rewrite cs_eq | rewrite cs_ne by ne | rewrite ca_eq by ne | rewrite ca_ne by ne].
Ltac find := look; first [eassumption | reflexivity].

Lemma bind_ok {A B} (m : heap -> res A) (k : A -> heap -> res B) h a h' : m h = Ok a h' -> bind m k h = k a h'.
Proof. intro E. unfold bind. rewrite E. reflexivity. Qed.
Lemma ret_b {A B} (a : A) (k : A -> heap -> res B) h : bind (ret a) k h = k a h. Proof. reflexivity. Qed.
Lemma write_b {B} p c (k : unit -> heap -> res B) h : bind (write p c) k h = k tt (set h p c). Proof. reflexivity. Qed.
Lemma new_b {B} c (k : nat -> heap -> res B) h : bind (new c) k h = k (nextp h) (allocate h c). Proof. reflexivity. Qed.
Lemma dense_b {B} p (k : list R -> heap -> res B) h l : cells h p = Some (Dn l) -> bind (dense p) k h = k l h.
Proof. intro E. unfold bind, dense. rewrite E. reflexivity. Qed.
Lemma scalar_b {B} p (k : R -> heap -> res B) h x : cells h p = Some (Sc x) -> bind (scalar p) k h = k x h.
Proof. intro E. unfold bind, scalar. rewrite E. reflexivity. Qed.
Lemma isDense_b {B} p (k : list R -> heap -> res B) h l : cells h p = Some (Dn l) -> bind (isDense p) k h = k l h.
Proof. intro E. unfold bind, isDense. rewrite E. reflexivity. Qed.

Lemma op1_safe f t h l : cells h t = Some (Dn l) -> op1 f t Safe h = Ok (nextp h) (allocate h (Dn (map f l))).
Proof. intro E. unfold op1. rewrite (dense_b _ _ _ _ E). reflexivity. Qed.
Lemma op1_unsafe f t h l : cells h t = Some (Dn l) -> op1 f t Unsafe h = Ok t (set h t (Dn (map f l))).
Proof. intro E. unfold op1. rewrite (dense_b _ _ _ _ E). reflexivity. Qed.
Lemma op1_incr f t p h l o : cells h t = Some (Dn l) -> cells h p = Some (Dn o) -> length o = length l ->
  op1 f t (Incr p) h = Ok p (set h p (Dn (map2 Rplus o (map f l)))).
Proof. intros E E' L. unfold op1. rewrite (dense_b _ _ _ _ E). cbn [store]. rewrite (dense_b _ _ _ _ E'). rewrite map_length, L, Nat.eqb_refl. reflexivity. Qed.
Lemma op1_reuse f t p h l o : cells h t = Some (Dn l) -> cells h p = Some (Dn o) -> length o = length l ->
  op1 f t (Reuse p) h = Ok p (set h p (Dn (map f l))).
Proof. intros E E' L. unfold op1. rewrite (dense_b _ _ _ _ E). cbn [store]. rewrite (dense_b _ _ _ _ E'). rewrite map_length, L, Nat.eqb_refl. reflexivity. Qed.
Lemma op2_unsafe f a b h x y : cells h a = Some (Dn x) -> cells h b = Some (Dn y) -> length x = length y ->
  op2 f a b Unsafe h = Ok a (set h a (Dn (map2 f x y))).
Proof. intros E E' L. unfold op2. rewrite (dense_b _ _ _ _ E), (dense_b _ _ _ _ E'), L, Nat.eqb_refl. reflexivity. Qed.
Lemma map2_length f x y : length x = length y -> length (map2 f x y) = length x.
Proof. intro L. unfold map2. rewrite map_length, combine_length. lia. Qed.
Lemma op2_reuse f a b p h x y o : cells h a = Some (Dn x) -> cells h b = Some (Dn y) -> cells h p = Some (Dn o) -> length x = length y -> length o = length x ->
  op2 f a b (Reuse p) h = Ok p (set h p (Dn (map2 f x y))).
Proof.
  intros E E' Ep L L'. unfold op2. rewrite (dense_b _ _ _ _ E), (dense_b _ _ _ _ E'), L, Nat.eqb_refl. cbn [store]. rewrite (dense_b _ _ _ _ Ep).
  rewrite map2_length by exact L. rewrite L', Nat.eqb_refl. reflexivity.
Qed.
Lemma clone_ok t h l : cells h t = Some (Dn l) -> cloneT t h = Ok (nextp h) (allocate h (Dn l)).
Proof. intro E. unfold cloneT. rewrite (dense_b _ _ _ _ E). reflexivity. Qed.
Lemma zero_ok t h l : cells h t = Some (Dn l) -> zeroT t h = Ok tt (set h t (Dn (map (fun _ => 0%R) l))).
Proof. intro E. unfold zeroT. rewrite (dense_b _ _ _ _ E). reflexivity. Qed.
Lemma ignore_ok {A} (m : heap -> res A) h a h' : m h = Ok a h' -> ignore m h = Ok tt h'.
Proof. intro E. unfold ignore. rewrite E. reflexivity. Qed.

Lemma map2_len f x y : length (map2 f x y) = Nat.min (length x) (length y).
Proof. unfold map2. rewrite map_length, combine_length. reflexivity. Qed.
Ltac len := repeat first [rewrite map_length | rewrite map2_len]; cbn [length]; lia.
Ltac opx := first
  [ eapply clone_ok; find | eapply zero_ok; find | eapply op1_safe; find | eapply op1_unsafe; find
  | eapply op2_unsafe; [find|find|len]
  | eapply op1_incr; [find|find|len] | eapply op1_reuse; [find|find|len] | eapply op2_reuse; [find|find|find|len|len]
  | eapply ignore_ok; opx ].
(** One operation of a sequence. *)
Ltac op := first
  [ rewrite ret_b | rewrite write_b | rewrite new_b | erewrite dense_b by find | erewrite scalar_b by find | erewrite isDense_b by find
  | erewrite bind_ok by opx ].

(** ** Lists of entries *)
Lemma map2_map_l f g x y : map2 f (map g x) y = map2 (fun a b => f (g a) b) x y.
Proof. unfold map2. revert y. induction x as [|a x IH]; intros [|b y]; cbn [map combine fst snd]; try reflexivity. f_equal. apply IH. Qed.
Lemma map2_map_r f g x y : map2 f x (map g y) = map2 (fun a b => f a (g b)) x y.
Proof. unfold map2. revert y. induction x as [|a x IH]; intros [|b y]; cbn [map combine fst snd]; try reflexivity. f_equal. apply IH. Qed.
Lemma map_map2 f g x y : map f (map2 g x y) = map2 (fun a b => f (g a b)) x y.
Proof. unfold map2. rewrite map_map. reflexivity. Qed.
Lemma map2_same f x : map2 f x x = map (fun a => f a a) x.
Proof. unfold map2. induction x as [|a x IH]; cbn [map combine fst snd]; [reflexivity|]. f_equal. exact IH. Qed.
Lemma map2_ext f g x y : (forall a b, f a b = g a b) -> map2 f x y = map2 g x y.
Proof. intro H. unfold map2. apply map_ext. intros [a b]. apply H. Qed.
Lemma map2_l f g x y : length x = length y -> map2 (fun a b => g (f a b) b) x y = map2 g (map2 f x y) y.
Proof. unfold map2. revert y. induction x as [|a x IH]; intros [|b y] L; cbn [map combine fst snd] in *; try reflexivity. f_equal. apply IH. cbn in L. lia. Qed.
Lemma map2_lr f g x y : map2 (fun a b => g a (f a b)) x y = map2 g x (map2 f x y).
Proof. unfold map2. revert y. induction x as [|a x IH]; intros [|b y]; cbn [map combine fst snd] in *; try reflexivity. f_equal. apply IH. Qed.
Lemma map2_rr f g x y : map2 (fun a b => g (f b a) a) x y = map2 g (map2 f y x) x.
Proof. unfold map2. revert y. induction x as [|a x IH]; intros [|b y]; cbn [map combine fst snd] in *; try reflexivity. f_equal. apply IH. Qed.
Lemma map2_nth f x y j : length x = length y -> (j < length x)%nat -> nth j (map2 f x y) 0%R = f (nth j x 0%R) (nth j y 0%R).
Proof.
  unfold map2. revert y j. induction x as [|a x IH]; intros [|b y] j L J; cbn [map combine fst snd length nth] in *; try lia. destruct j as [|j]; [reflexivity|]. apply IH; lia.
Qed.

(** ** Preparing the gradient *)
Lemma signT_sgn x : signT x = sgn x.
Proof. unfold signT, sgn, Rltb. destruct (Rlt_dec x 0), (Rlt_dec 0 x); reflexivity. Qed.
Lemma clamp_between c x : (0 < c)%R -> clamp (- c) c x = between c x.
Proof.
  intro H. unfold clamp, between, Rltb, Rmax, Rmin. destruct (Rlt_dec x (- c)), (Rlt_dec c x), (Rle_dec c x); destruct (Rle_dec (- c) c); try destruct (Rle_dec (- c) x); lra.
Qed.
Lemma clipS_between c x : (0 < c)%R -> clipS c x = between c x.
Proof.
  intro H. unfold clipS, between, Rltb, Rmax, Rmin. destruct (Rlt_dec x (- c)), (Rlt_dec c x), (Rle_dec c x); destruct (Rle_dec (- c) c); try destruct (Rle_dec (- c) x); lra.
Qed.
Lemma Rltb_true x y : (x < y)%R -> Rltb x y = true.
Proof. intro H. unfold Rltb. destruct (Rlt_dec x y); [reflexivity|contradiction]. Qed.

Definition saneClip (p : params) : Prop := useClip p = true -> (0 < clip p)%R.

Lemma clipped_clamp p x : saneClip p -> clipped p x = if useClip p then clamp (- clip p) (clip p) x else x.
Proof. intro H. unfold clipped. destruct (useClip p) eqn:E; [|reflexivity]. rewrite clamp_between by auto. reflexivity. Qed.
Lemma clipped_clipS p x : saneClip p -> clipped p x = if useClip p then clipS (clip p) x else x.
Proof. intro H. unfold clipped. destruct (useClip p) eqn:E; [|reflexivity]. rewrite clipS_between by auto. reflexivity. Qed.

Lemma prepScalar_ok p w g : saneClip p -> prepScalar p w g = penalised p (sgnS w) w g.
Proof.
  intro H. unfold prepScalar, penalised. rewrite clipped_clipS by exact H. 
  assert (E : (let g0 := if useL1Reg p then (g + (if Rltb w 0 then - l1reg p else l1reg p))%R else g in
               let g1 := if useL2Reg p then (g0 + l2reg p * w)%R else g0 in
               if Rltb 1 (batch p) then (g1 * (1 / batch p))%R else g1) = ((g + l1 p * sgnS w + l2 p * w) / batchSize p)%R).
  { unfold l1, l2, batchSize, sgnS, Rltb. cbv zeta. destruct (useL1Reg p), (useL2Reg p), (Rlt_dec w 0), (Rlt_dec 1 (batch p)); try field; try lra. }
  cbv zeta in E. cbv zeta. rewrite E. reflexivity.
Qed.

Lemma prepDense_ok p r g h lr lg : saneClip p -> r <> g -> (r < nextp h)%nat -> (g < nextp h)%nat -> cells h r = Some (Dn lr) -> cells h g = Some (Dn lg) -> length lr = length lg ->
  exists h', prepDense p r g h = Ok tt h' /\ (nextp h <= nextp h')%nat /\ cells h' g = Some (Dn (map2 (fun a b => penalised p (sgn a) a b) lr lg)) /\
    forall q, (q < nextp h)%nat -> q <> g -> cells h' q = cells h q.
Proof.
  intros HC N Lr Lg Er Eg L. unfold prepDense.
  (* penalties on r *)
  assert (S1 : exists h1, (if useL1Reg p then bind (op1 signT r Safe) (fun a => bind (op1 (fun x => l1reg p * x)%R a Unsafe) (fun b => op2 Rplus g b Unsafe)) else ret g) h = Ok g h1 /\
     (nextp h <= nextp h1)%nat /\ cells h1 g = Some (Dn (map2 (fun a b => (b + l1 p * sgn a)%R) lr lg)) /\ forall q, (q < nextp h)%nat -> q <> g -> cells h1 q = cells h q).
  { unfold l1. destruct (useL1Reg p).
    - do 2 op. assert (Ls : length lg = length (map (fun x => (l1reg p * x)%R) (map signT lr))) by (rewrite !map_length; congruence).
      erewrite op2_unsafe; [|find|find|exact Ls]. eexists. split; [reflexivity|]. split; [ne|]. split.
      + look. do 2 f_equal. rewrite map_map. rewrite map2_map_r. unfold map2. clear - L. revert lg L. induction lr as [|a lr IH]; intros [|b lg] L; cbn [combine map fst snd length] in *; try reflexivity; try discriminate.
        rewrite signT_sgn. f_equal. apply IH. lia.
      + intros q Hq Nq. look. reflexivity.
    - exists h. split; [reflexivity|]. split; [lia|]. split; [|reflexivity]. rewrite Eg. do 2 f_equal. clear - L. unfold map2. revert lg L. induction lr as [|a lr IH]; intros [|b lg] L; cbn [combine map fst snd length] in *; try reflexivity; try discriminate.
      f_equal; [ring|apply IH; lia]. }
  destruct S1 as [h1 [E1 [N1 [G1 F1]]]]. rewrite (bind_ok _ _ _ _ _ E1).
  assert (Er1 : cells h1 r = Some (Dn lr)) by (rewrite F1 by auto; exact Er).
  assert (S2 : exists h2, (if useL2Reg p then bind (op1 (fun x => x * l2reg p)%R r Safe) (fun a => op2 Rplus g a Unsafe) else ret g) h1 = Ok g h2 /\
     (nextp h1 <= nextp h2)%nat /\ cells h2 g = Some (Dn (map2 (fun a b => (b + l1 p * sgn a + l2 p * a)%R) lr lg)) /\ forall q, (q < nextp h1)%nat -> q <> g -> cells h2 q = cells h1 q).
  { unfold l2. destruct (useL2Reg p).
    - op. assert (Ls : length (map2 (fun a b => (b + l1 p * sgn a)%R) lr lg) = length (map (fun x => (x * l2reg p)%R) lr)) by (rewrite map_length, map2_length; congruence).
      erewrite op2_unsafe; [|find|find|exact Ls]. eexists. split; [reflexivity|]. split; [ne|]. split.
      + look. do 2 f_equal. clear - L. rewrite map2_map_r. unfold map2. revert lg L. induction lr as [|a lr IH]; intros [|b lg] L; cbn [combine map fst snd length] in *; try reflexivity; try discriminate.
        f_equal; [ring|apply IH; lia].
      + intros q Hq Nq. look. reflexivity.
    - exists h1. split; [reflexivity|]. split; [lia|]. split; [|reflexivity]. rewrite G1. do 2 f_equal. apply map2_ext. intros; ring. }
  destruct S2 as [h2 [E2 [N2 [G2 F2]]]]. rewrite (bind_ok _ _ _ _ _ E2).
  assert (S3 : exists h3, (if Rltb 1 (batch p) then op1 (fun x => x * (1 / batch p))%R g Unsafe else ret g) h2 = Ok g h3 /\
     nextp h3 = nextp h2 /\ cells h3 g = Some (Dn (map2 (fun a b => ((b + l1 p * sgn a + l2 p * a) / batchSize p)%R) lr lg)) /\ forall q, q <> g -> cells h3 q = cells h2 q).
  { unfold batchSize, Rltb. destruct (Rlt_dec 1 (batch p)).
    - erewrite op1_unsafe by find. eexists. split; [reflexivity|]. split; [reflexivity|]. split.
      + look. rewrite map_map2. do 2 f_equal. apply map2_ext. intros; field; lra.
      + intros q Nq. look. reflexivity.
    - exists h2. split; [reflexivity|]. split; [reflexivity|]. split; [|reflexivity]. rewrite G2. do 2 f_equal. apply map2_ext. intros; field. }
  destruct S3 as [h3 [E3 [N3 [G3 F3]]]]. rewrite (bind_ok _ _ _ _ _ E3).
  assert (S4 : exists h4, (if useClip p && Rltb 0 (clip p) then op1 (clamp (- clip p) (clip p)) g Unsafe else ret g) h3 = Ok g h4 /\
     nextp h4 = nextp h3 /\ cells h4 g = Some (Dn (map2 (fun a b => penalised p (sgn a) a b) lr lg)) /\ forall q, q <> g -> cells h4 q = cells h3 q).
  { destruct (useClip p) eqn:U; cbn [andb].
    - rewrite Rltb_true by auto. erewrite op1_unsafe by find. eexists. split; [reflexivity|]. split; [reflexivity|]. split.
      + look. rewrite map_map2. do 2 f_equal. apply map2_ext. intros a b. unfold penalised. rewrite clipped_clamp by exact HC. rewrite U. reflexivity.
      + intros q Nq. look. reflexivity.
    - exists h3. split; [reflexivity|]. split; [reflexivity|]. split; [|reflexivity]. rewrite G3. do 2 f_equal. apply map2_ext. intros a b. unfold penalised, clipped. rewrite U. reflexivity. }
  destruct S4 as [h4 [E4 [N4 [G4 F4]]]]. rewrite (bind_ok _ _ _ _ _ E4).
  exists h4. split; [reflexivity|]. split; [lia|]. split; [exact G4|]. intros q Hq Nq. rewrite F4, F3, F2, F1 by (auto; lia). reflexivity.
Qed.

(** ** What every solver with a cache does to one node *)
Definition mk (b : bool) (l : list R) : cell := if b then Dn l else Sc (hd 0%R l).
Definition pt (r : rule) (b : bool) (k : nat) (lm : list (R * R)) (lw lg : list R) : list ((R * R) * R) :=
  map (fun x => r b k (fst x) (fst (snd x)) (snd (snd x))) (combine lm (combine lw lg)).

Definition BodyOK (body : nat -> node -> nat -> nat -> nat * nat -> heap -> res (nat * nat)) (r : rule) : Prop :=
  forall k n b w g c d h lm lw lg, (w <> g /\ w <> c /\ w <> d /\ g <> c /\ g <> d /\ c <> d)%nat ->
  (w < nextp h /\ g < nextp h /\ c < nextp h /\ d < nextp h)%nat ->
  length lw = length lm -> length lg = length lm -> (b = false -> length lm = 1%nat) ->
  cells h w = Some (mk b lw) -> cells h g = Some (mk b lg) -> cells h c = Some (mk b (map fst lm)) -> cells h d = Some (mk b (map snd lm)) ->
  exists c' d' h', body k n w g (c, d) h = Ok (c', d') h' /\ (nextp h <= nextp h')%nat /\
    cells h' w = Some (mk b (map snd (pt r b k lm lw lg))) /\ cells h' g = Some (mk b (map (fun _ => 0%R) lg)) /\
    cells h' c' = Some (mk b (map fst (map fst (pt r b k lm lw lg)))) /\ cells h' d' = Some (mk b (map snd (map fst (pt r b k lm lw lg)))) /\
    (c' = c \/ nextp h <= c')%nat /\ (d' = d \/ nextp h <= d')%nat /\ c' <> d' /\ (c' < nextp h' /\ d' < nextp h')%nat /\
    forall q, (q < nextp h)%nat -> q <> w -> q <> g -> q <> c -> q <> d -> cells h' q = cells h q.

Lemma one_entry {A} (l : list A) : length l = 1%nat -> exists x, l = [x].
Proof. destruct l as [|x [|y l]]; cbn [length]; try discriminate. eauto. Qed.

(** Equality of two lists of entries computed from the same lists, entry by entry. *)
Ltac entries lm lw lg Lw Lg := apply (f_equal (fun l => Some (Dn l))); clear - Lw Lg; unfold pt, map2; revert lw lg Lw Lg;
  induction lm as [|[m1 m2] lm IH]; intros [|x lw] [|y lg] Lw Lg; cbn [length map combine fst snd hd] in *; try discriminate; try reflexivity;
  apply f_equal2; [|apply (IH lw lg); lia].

Lemma momentum_body p : saneClip p -> BodyOK (fun _ => momentumNode p) (momentumRule p).
Proof.
  intros HC k n b w g c d h lm lw lg [N1 [N2 [N3 [N4 [N5 N6]]]]] [B1 [B2 [B3 B4]]] Lw Lg L1 Ew Eg Ec Ed. unfold momentumNode. cbn [fst snd]. rewrite Ec. destruct b; cbn [mk] in *.
  - erewrite dense_b by find. erewrite dense_b by find.
    destruct (prepDense_ok p c g h (map fst lm) lg HC ltac:(congruence) B3 B2 Ec Eg ltac:(rewrite map_length; congruence)) as [h1 [E1 [X1 [G1 F1]]]].
    rewrite (bind_ok _ _ _ _ _ E1).
    assert (Ec1 : cells h1 c = Some (Dn (map fst lm))) by (rewrite F1 by auto; exact Ec).
    assert (Ew1 : cells h1 w = Some (Dn lw)) by (rewrite F1 by auto; exact Ew).
    assert (Ed1 : cells h1 d = Some (Dn (map snd lm))) by (rewrite F1 by auto; exact Ed).
    do 2 op.
    op.
    op.
    op. eexists _, _, _. split; [reflexivity|]. split; [ne|].
    split; [look; entries lm lw lg Lw Lg; unfold momentumRule; cbn [fst snd]; ring|].
    split; [look; entries lm lw lg Lw Lg; reflexivity|].
    split; [look; entries lm lw lg Lw Lg; unfold momentumRule; cbn [fst snd]; ring|].
    split; [look; rewrite Ed1; entries lm lw lg Lw Lg; reflexivity|].
    split; [left; reflexivity|]. split; [left; reflexivity|]. split; [assumption|]. split; [split; ne|].
    intros q Hq. intros. look. apply F1; auto.
  - destruct (one_entry lm (L1 eq_refl)) as [[m1 m2] ->]. cbn [length map fst snd hd] in *. destruct (one_entry lw Lw) as [x ->]. destruct (one_entry lg Lg) as [y ->]. cbn [hd] in *.
    do 2 op. rewrite prepScalar_ok by exact HC. do 2 op. eexists _, _, _. split; [reflexivity|]. split; [ne|]. unfold pt. cbn [combine map fst snd hd momentumRule].
    split; [look; do 2 f_equal; ring|]. split; [look; reflexivity|]. split; [look; exact Ec|]. split; [look; exact Ed|].
    split; [left; reflexivity|]. split; [left; reflexivity|]. split; [assumption|]. split; [split; ne|]. intros q Hq. intros. look. reflexivity.
Qed.

Lemma l2_sub p (b : bool) u w : (if useL2Reg p then u - w * l2reg p else u)%R = (u - l2 p * w)%R.
Proof. unfold l2. destruct (useL2Reg p); ring. Qed.

(** The end shared by AdaGrad and RMSProp on tensors: scale, add the penalty, update. *)
Lemma scale_ok p w g c h lw lg lc (g' := map (clipped p) lg) : saneClip p -> (w <> g /\ w <> c /\ g <> c)%nat -> (w < nextp h /\ g < nextp h /\ c < nextp h)%nat ->
  cells h w = Some (Dn lw) -> cells h g = Some (Dn lg) -> cells h c = Some (Dn lc) -> length lw = length lc -> length lg = length lc ->
  forall cv, exists h',
    (do _ <- (if useClip p then op1 (clamp (- clip p) (clip p)) g Unsafe else ret g);
     do upd <- op1 (fun x => x + eps p)%R c Safe;
     do _ <- op1 invSqrt upd Unsafe;
     do _ <- op1 (fun x => x * - eta p)%R g Unsafe;
     do _ <- op2 Rmult upd g Unsafe;
     do _ <- (if useL2Reg p then do reg <- op1 (fun x => x * l2reg p)%R w Safe; op2 Rminus upd reg Unsafe else ret upd);
     do _ <- op2 Rplus w upd Unsafe;
     do _ <- zeroT g; ret (A := nat * nat) cv) h = Ok cv h' /\ (nextp h <= nextp h')%nat /\
    cells h' w = Some (Dn (map2 (fun x u => x + (u - l2 p * x))%R lw (map2 (fun cc gg => - eta p * gg / sqrt (cc + eps p))%R lc g'))) /\
    cells h' g = Some (Dn (map (fun _ => 0%R) lg)) /\ forall q, (q < nextp h)%nat -> q <> w -> q <> g -> cells h' q = cells h q.
Proof.
  intros HC [N1 [N2 N3]] [B1 [B2 B3]] Ew Eg Ec Lw Lg cv.
  assert (S1 : exists h1, (if useClip p then op1 (clamp (- clip p) (clip p)) g Unsafe else ret g) h = Ok g h1 /\ nextp h1 = nextp h /\ cells h1 g = Some (Dn g') /\ forall q, q <> g -> cells h1 q = cells h q).
  { unfold g'. destruct (useClip p) eqn:U.
    - erewrite op1_unsafe by find. eexists. split; [reflexivity|]. split; [reflexivity|]. split; [look; do 2 f_equal; apply map_ext; intro; rewrite clipped_clamp by exact HC; rewrite U; reflexivity|]. intros q Nq. look. reflexivity.
    - exists h. split; [reflexivity|]. split; [reflexivity|]. split; [|reflexivity]. rewrite Eg. do 2 f_equal. symmetry. erewrite map_ext; [apply map_id|]. intro. unfold clipped. rewrite U. reflexivity. }
  destruct S1 as [h1 [E1 [X1 [G1 F1]]]]. rewrite (bind_ok _ _ _ _ _ E1).
  assert (Ew1 : cells h1 w = Some (Dn lw)) by (rewrite F1 by auto; exact Ew). assert (Ec1 : cells h1 c = Some (Dn lc)) by (rewrite F1 by auto; exact Ec).
  assert (Lg' : length g' = length lc) by (unfold g'; rewrite map_length; exact Lg). clearbody g'.
  do 3 op. op.
  set (upd := nextp h1). match goal with |- context [bind _ _ ?H] => set (h2 := H) end.
  assert (Eu : cells h2 upd = Some (Dn (map2 (fun cc gg => - eta p * gg / sqrt (cc + eps p))%R lc g'))).
  { unfold h2, upd. look. do 2 f_equal. rewrite !map2_map_l, map2_map_r. apply map2_ext. intros. unfold invSqrt, Rdiv. ring. }
  assert (F2 : forall q, (q < nextp h)%nat -> q <> g -> cells h2 q = cells h q) by (intros q Hq Nq; unfold h2; look; apply F1; exact Nq).
  assert (X2 : nextp h2 = S (nextp h)) by (unfold h2; ne).
  assert (Eg2 : exists l, cells h2 g = Some (Dn l) /\ length l = length lg) by (eexists; split; [unfold h2; find|rewrite map_length; congruence]). destruct Eg2 as [l2' [Eg2 Ll2]].
  assert (Eu' : upd = nextp h) by (unfold upd; exact X1). clearbody upd h2.
  assert (S3 : exists h3, (if useL2Reg p then bind (op1 (fun x => x * l2reg p)%R w Safe) (fun reg => op2 Rminus upd reg Unsafe) else ret upd) h2 = Ok upd h3 /\ (nextp h2 <= nextp h3)%nat /\
     cells h3 upd = Some (Dn (map2 (fun x u => u - l2 p * x)%R lw (map2 (fun cc gg => - eta p * gg / sqrt (cc + eps p))%R lc g'))) /\ forall q, (q < nextp h2)%nat -> q <> upd -> cells h3 q = cells h2 q).
  { assert (Ew2 : cells h2 w = Some (Dn lw)) by (rewrite F2 by auto; exact Ew).
    assert (Lu : length (map2 (fun cc gg => - eta p * gg / sqrt (cc + eps p))%R lc g') = length lw) by len.
    revert Eu Lu. generalize (map2 (fun cc gg => - eta p * gg / sqrt (cc + eps p))%R lc g'). intros lu Eu Lu. unfold l2. destruct (useL2Reg p).
    - op. erewrite op2_unsafe; [|find|find|len]. eexists. split; [reflexivity|]. split; [ne|]. split.
      + look. do 2 f_equal. clear - Lu. unfold map2. revert lu Lu. induction lw as [|x lw IH]; intros [|u lu] Lu; cbn [length map combine fst snd] in *; try discriminate; try reflexivity. f_equal; [ring|apply IH; lia].
      + intros q Hq Nq. look. reflexivity.
    - exists h2. split; [reflexivity|]. split; [lia|]. split; [|reflexivity]. rewrite Eu. do 2 f_equal. clear - Lu. unfold map2. revert lu Lu. induction lw as [|x lw IH]; intros [|u lu] Lu; cbn [length map combine fst snd] in *; try discriminate; try reflexivity. f_equal; [ring|apply IH; lia]. }
  destruct S3 as [h3 [E3 [X3 [G3 F3]]]]. rewrite (bind_ok _ _ _ _ _ E3).
  assert (Ew3 : cells h3 w = Some (Dn lw)) by (rewrite F3, F2 by lia; exact Ew). assert (Eg3 : cells h3 g = Some (Dn l2')) by (rewrite F3 by lia; exact Eg2).
  op. op.
  eexists. split; [reflexivity|]. split; [ne|]. split; [|split].
  - look. do 2 f_equal. rewrite <- map2_lr. reflexivity.
  - look. do 2 f_equal. clear - Ll2. revert lg Ll2. induction l2' as [|x l IH]; intros [|y lg] L; cbn [length map] in *; try discriminate; try reflexivity. f_equal. apply IH. lia.
  - intros q Hq Nw Ng. look. rewrite F3, F2 by (auto; lia). reflexivity.
Qed.

Lemma adagrad_body p : saneClip p -> BodyOK (fun _ => adagradNode p) (adagradRule p).
Proof.
  intros HC k n b w g c d h lm lw lg [N1 [N2 [N3 [N4 [N5 N6]]]]] [B1 [B2 [B3 B4]]] Lw Lg L1 Ew Eg Ec Ed. unfold adagradNode. cbn [fst snd]. rewrite Ec. destruct b; cbn [mk] in *.
  - erewrite dense_b by find. op. op.
    match goal with |- context [bind _ _ ?H] => set (h1 := H) end.
    assert (Ew1 : cells h1 w = Some (Dn lw)) by (unfold h1; find). assert (Eg1 : cells h1 g = Some (Dn lg)) by (unfold h1; find).
    assert (Ec1 : cells h1 c = Some (Dn (map2 Rplus (map fst lm) (map (fun x => (x * x)%R) lg)))) by (unfold h1; find).
    assert (X1 : nextp h1 = S (nextp h)) by reflexivity. assert (F1 : forall q, (q < nextp h)%nat -> q <> c -> cells h1 q = cells h q) by (intros q Hq Nq; unfold h1; look; reflexivity). clearbody h1.
    edestruct (scale_ok p w g c h1 lw lg _ HC ltac:(tauto) ltac:(lia) Ew1 Eg1 Ec1) as [h2 [E2 [X2 [W2 [G2 F2]]]]].
    { len. } { len. }
    rewrite E2. eexists _, _, _. split; [reflexivity|]. split; [lia|].
    split; [rewrite W2; entries lm lw lg Lw Lg; unfold adagradRule; cbn [fst snd]; unfold Rdiv; ring|].
    split; [exact G2|].
    split; [rewrite F2 by lia; rewrite Ec1; entries lm lw lg Lw Lg; reflexivity|].
    split; [rewrite F2, F1 by lia; rewrite Ed; entries lm lw lg Lw Lg; reflexivity|].
    split; [left; reflexivity|]. split; [left; reflexivity|]. split; [assumption|]. split; [split; lia|].
    intros q Hq. intros. rewrite F2, F1 by lia. reflexivity.
  - destruct (one_entry lm (L1 eq_refl)) as [[m1 m2] ->]. cbn [length map fst snd hd] in *. destruct (one_entry lw Lw) as [x ->]. destruct (one_entry lg Lg) as [y ->]. cbn [hd] in *.
    do 2 op. rewrite (l2_sub p true), <- clipped_clipS by exact HC. do 2 op. eexists _, _, _. split; [reflexivity|]. split; [ne|]. unfold pt. cbn [combine map fst snd hd adagradRule].
    split; [look; do 2 f_equal; unfold Rdiv; ring|]. split; [look; reflexivity|]. split; [look; exact Ec|]. split; [look; exact Ed|].
    split; [left; reflexivity|]. split; [left; reflexivity|]. split; [assumption|]. split; [split; ne|]. intros q Hq. intros. look. reflexivity.
Qed.

Definition saneL2 (p : params) : Prop := useL2Reg p = false -> l2reg p = 0%R.
Lemma rmsprop_body p : saneClip p -> saneL2 p -> BodyOK (fun _ => rmspropNode p) (rmspropRule p).
Proof.
  intros HC HL k n b w g c d h lm lw lg [N1 [N2 [N3 [N4 [N5 N6]]]]] [B1 [B2 [B3 B4]]] Lw Lg L1 Ew Eg Ec Ed. unfold rmspropNode. cbn [fst snd]. rewrite Ec. destruct b; cbn [mk] in *.
  - do 3 op. op.
    match goal with |- context [bind _ _ ?H] => set (h1 := H) end.
    assert (Ew1 : cells h1 w = Some (Dn lw)) by (unfold h1; find). assert (Eg1 : cells h1 g = Some (Dn lg)) by (unfold h1; find).
    assert (Ec1 : cells h1 c = Some (Dn (map2 Rplus (map (fun x => (x * decay p)%R) (map fst lm)) (map (fun x => (x * (1 - decay p))%R) (map (fun x => (x * x)%R) lg))))) by (unfold h1; find).
    assert (X1 : nextp h1 = S (nextp h)) by reflexivity. assert (F1 : forall q, (q < nextp h)%nat -> q <> c -> cells h1 q = cells h q) by (intros q Hq Nq; unfold h1; look; reflexivity). clearbody h1.
    edestruct (scale_ok p w g c h1 lw lg _ HC ltac:(tauto) ltac:(lia) Ew1 Eg1 Ec1) as [h2 [E2 [X2 [W2 [G2 F2]]]]].
    { len. } { len. }
    rewrite E2. eexists _, _, _. split; [reflexivity|]. split; [lia|].
    split; [rewrite W2; entries lm lw lg Lw Lg; unfold rmspropRule; cbn [fst snd]; replace (decay p * m1 + (1 - decay p) * (y * y))%R with (m1 * decay p + y * y * (1 - decay p))%R by ring; unfold Rdiv; ring|].
    split; [exact G2|].
    split; [rewrite F2 by lia; rewrite Ec1; entries lm lw lg Lw Lg; unfold rmspropRule; cbn [fst snd]; ring|].
    split; [rewrite F2, F1 by lia; rewrite Ed; entries lm lw lg Lw Lg; reflexivity|].
    split; [left; reflexivity|]. split; [left; reflexivity|]. split; [assumption|]. split; [split; lia|].
    intros q Hq. intros. rewrite F2, F1 by lia. reflexivity.
  - destruct (one_entry lm (L1 eq_refl)) as [[m1 m2] ->]. cbn [length map fst snd hd] in *. destruct (one_entry lw Lw) as [x ->]. destruct (one_entry lg Lg) as [y ->]. cbn [hd] in *.
    do 5 op. eexists _, _, _. split; [reflexivity|]. split; [ne|]. unfold pt. cbn [combine map fst snd hd rmspropRule].
    split; [look; do 2 f_equal|].
    { replace (m1 * decay p + (1 - decay p) * y * y)%R with (decay p * m1 + (1 - decay p) * (y * y))%R by ring. replace (l2 p) with (l2reg p) by (unfold l2; destruct (useL2Reg p) eqn:U; [reflexivity|apply HL, U]). unfold Rdiv. ring. }
    split; [look; reflexivity|]. split; [look; do 2 f_equal; ring|]. split; [look; exact Ed|].
    split; [right; lia|]. split; [left; reflexivity|]. split; [ne|]. split; [split; ne|]. intros q Hq. intros. look. reflexivity.
Qed.

Lemma adam_body p : saneClip p -> BodyOK (adamNode p) (adamRule p).
Proof.
  intros HC k n b w g c d h lm lw lg [N1 [N2 [N3 [N4 [N5 N6]]]]] [B1 [B2 [B3 B4]]] Lw Lg L1 Ew Eg Ec Ed. unfold adamNode. cbn [fst snd]. rewrite Ec. destruct b; cbn [mk] in *.
  - do 3 op.
    destruct (prepDense_ok p w g h lw lg HC N1 B1 B2 Ew Eg ltac:(congruence)) as [h1 [E1 [X1 [G1 F1]]]]. rewrite (bind_ok _ _ _ _ _ E1).
    assert (Ew1 : cells h1 w = Some (Dn lw)) by (rewrite F1 by auto; exact Ew). assert (Ec1 : cells h1 c = Some (Dn (map fst lm))) by (rewrite F1 by auto; exact Ec). assert (Ed1 : cells h1 d = Some (Dn (map snd lm))) by (rewrite F1 by auto; exact Ed).
    assert (Lp : length (map2 (fun a b => penalised p (sgn a) a b) lw lg) = length lm) by len.
    assert (Pn : exists lp, map2 (fun a b => penalised p (sgn a) a b) lw lg = lp) by eauto. destruct Pn as [lp Pn]. rewrite Pn in *.
    do 17 op. eexists _, _, _. split; [reflexivity|]. split; [ne|].
    split; [look; rewrite <- Pn; entries lm lw lg Lw Lg; unfold adamRule; cbn [fst snd]|].
    { match goal with |- context [penalised p (sgn x) x y] => generalize (penalised p (sgn x) x y) end. intro gg.
      replace ((gg * gg * (1 - beta2 p) + m2 * beta2 p) * (1 / (1 - beta2 p ^ k)))%R with ((beta2 p * m2 + (1 - beta2 p) * (gg * gg)) / (1 - beta2 p ^ k))%R by (unfold Rdiv; ring).
      unfold Rdiv; ring. }
    split; [look; rewrite <- Pn; entries lm lw lg Lw Lg; reflexivity|].
    split; [look; rewrite <- Pn; entries lm lw lg Lw Lg; unfold adamRule; cbn [fst snd]; ring|].
    split; [look; rewrite <- Pn; entries lm lw lg Lw Lg; unfold adamRule; cbn [fst snd]; ring|].
    split; [right; ne|]. split; [right; ne|]. split; [ne|]. split; [split; ne|].
    intros q Hq. intros. look. apply F1; auto.
  - destruct (one_entry lm (L1 eq_refl)) as [[m1 m2] ->]. cbn [length map fst snd hd] in *. destruct (one_entry lw Lw) as [x ->]. destruct (one_entry lg Lg) as [y ->]. cbn [hd] in *.
    do 3 op. rewrite prepScalar_ok by exact HC. do 4 op. eexists _, _, _. split; [reflexivity|]. split; [ne|]. unfold pt. cbn [combine map fst snd hd adamRule].
    match goal with |- context [penalised p (sgnS x) x y] => generalize (penalised p (sgnS x) x y) end. intro gg.
    split; [look; do 2 f_equal|].
    { replace (1 / (1 - beta2 p ^ k) * (beta2 p * m2 + (1 - beta2 p) * gg * gg))%R with ((beta2 p * m2 + (1 - beta2 p) * (gg * gg)) / (1 - beta2 p ^ k))%R by (unfold Rdiv; ring). unfold Rdiv. ring. }
    split; [look; reflexivity|]. split; [look; do 2 f_equal; ring|]. split; [look; do 2 f_equal; ring|].
    split; [right; ne|]. split; [right; ne|]. split; [ne|]. split; [split; ne|]. intros q Hq. intros. look. reflexivity.
Qed.
