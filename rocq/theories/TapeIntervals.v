(** Lemmas about live intervals and register allocation. *)
From Coq Require Import List Arith ZArith Lia Bool.
From Verif Require Import TapeModel TapeSpec.
Import ListNotations.
Local Open Scope nat_scope.

Section I.
Variable ns : list tnode.
Let n := length ns.

Definition leafy (i : nat) : bool := isInput (nodeAt ns i) || isConstant (nodeAt ns i).

Lemma addUses_fold : forall l p (f : nat -> interval) i,
  let g := fold_left (fun g c => updI g c (addUse (g c) p)) l f in
  lo (g i) = lo (f i) /\ hi (g i) = hi (f i) /\ ranges (g i) = ranges (f i) /\
  forall z, In z (uses (g i)) <-> In z (uses (f i)) \/ (In i l /\ z = p).
Proof.
  induction l as [|c l IH]; intros p f i; cbn [fold_left].
  - repeat split; auto. intros [H|[[] _]]; auto.
  - destruct (IH p (updI f c (addUse (f c) p)) i) as (A & B & C & D).
    cbn zeta in *. rewrite A, B, C. unfold updI at 1 2 3.
    destruct (Nat.eqb_spec i c) as [->|N].
    + cbn [addUse lo hi ranges]. repeat split; auto.
      * intros H. apply D in H. unfold updI in H. rewrite Nat.eqb_refl in H.
        cbn [addUse uses] in H. rewrite in_app_iff in H. cbn [In] in *. intuition.
      * intros H. apply D. unfold updI. rewrite Nat.eqb_refl.
        cbn [addUse uses]. rewrite in_app_iff. cbn [In] in *. intuition.
    + repeat split; auto.
      * intros H. apply D in H. unfold updI in H.
        destruct (Nat.eqb_spec i c); [contradiction|]. cbn [In]. intuition.
      * intros H. apply D. unfold updI. destruct (Nat.eqb_spec i c); [contradiction|].
        cbn [In] in H. intuition congruence.
Qed.

Definition inv (k : nat) (f : nat -> interval) : Prop :=
  forall i, i < n ->
    (k <= i -> lo (f i) = Z.of_nat i /\
       let e := if leafy i then Z.of_nat n else Z.of_nat i in
       hi (f i) = e /\ ranges (f i) = [(Z.of_nat i, e)]) /\
    (i < k -> lo (f i) = (-1)%Z /\ hi (f i) = (-1)%Z /\ ranges (f i) = []) /\
    (forall z, In z (uses (f i)) <->
       (exists p, k <= p < n /\ z = Z.of_nat p /\ leafy p = false /\ In i (tkids (nodeAt ns p))) \/
       (k <= i /\ leafy i = false /\ tderiv (nodeAt ns i) = true /\ z = Z.of_nat n)).

Lemma inv_start : inv n (fun _ => newInterval).
Proof.
  intros i Hi. split; [lia|]. split; [intros _; repeat split|].
  intros z. split; [intros []|]. intros [(p & Hp & _)|(Hp & _)]; lia.
Qed.

Lemma addRange_new : forall us from to, (0 <= from)%Z -> (from <= to)%Z ->
  addRange (Interval (-1) (-1) [] us) from to = Interval from to [(from, to)] us.
Proof.
  intros us from to H0 H1. unfold addRange, setFrom.
  cbn [ranges existsb lo hi uses app Z.eqb].
  change ((-1 =? -1)%Z) with true. cbn [orb].
  destruct (Z.ltb_spec (-1) to); [reflexivity | lia].
Qed.

Lemma inv_step : forall i f, i < n -> inv (S i) f -> inv i (buildStep ns i f).
Proof.
  intros i f Hi H. unfold buildStep. fold n.
  fold (leafy i).
  assert (Hfi := H i Hi). destruct Hfi as (_ & Hnew & Huse).
  destruct (Hnew (Nat.lt_succ_diag_r i)) as (L & E & R).
  assert (Fi : f i = Interval (-1) (-1) [] (uses (f i))).
  { destruct (f i) as [a b c d]; cbn [lo hi ranges uses] in *; subst; reflexivity. }
  destruct (leafy i) eqn:Lf.
  - intros j Hj. unfold updI.
    destruct (Nat.eqb_spec j i) as [->|N].
    + rewrite Fi, addRange_new by lia. cbn [lo hi ranges uses]. rewrite Lf.
      split; [intros _; repeat split|]. split; [lia|].
      intros z. rewrite Huse. split.
      * intros [(p & Hp & Hz)|(Hp & _)]; [|lia]. left. exists p. intuition lia.
      * intros [(p & Hp & Hz & Hl & Hin)|(Hp & Hl & _)]; [|congruence].
        left. exists p. repeat split; auto; try lia.
        destruct (Nat.eq_dec p i) as [->|]; [congruence | lia].
    + destruct (H j Hj) as (A & B & C). split; [|split].
      * intros K. apply A. lia.
      * intros K. apply B. lia.
      * intros z. rewrite C. split.
        -- intros [(p & Hp & Hz)|(Hp & Hz)]; [left; exists p; intuition lia | right; intuition lia].
        -- intros [(p & Hp & Hz & Hl & Hin)|(Hp & Hz)].
           ++ left. exists p. repeat split; auto; try lia.
              destruct (Nat.eq_dec p i) as [->|]; [congruence | lia].
           ++ right. intuition lia.
  - set (f1 := updI f i (addRange (f i) (Z.of_nat i) (Z.of_nat i))).
    set (f2 := fold_left _ (tkids (nodeAt ns i)) f1).
    assert (F2 := fun j => addUses_fold (tkids (nodeAt ns i)) (Z.of_nat i) f1 j).
    cbn zeta in F2. fold f2 in F2.
    assert (F1i : f1 i = Interval (Z.of_nat i) (Z.of_nat i) [(Z.of_nat i, Z.of_nat i)] (uses (f i))).
    { unfold f1, updI. rewrite Nat.eqb_refl, Fi, addRange_new by lia. cbn [uses]. reflexivity. }
    assert (F1j : forall j, j <> i -> f1 j = f j).
    { intros j N. unfold f1, updI. destruct (Nat.eqb_spec j i); congruence. }
    intros j Hj.
    assert (G : let g := (if tderiv (nodeAt ns i) then updI f2 i (addUse (f2 i) (Z.of_nat n)) else f2) in
                lo (g j) = lo (f2 j) /\ hi (g j) = hi (f2 j) /\ ranges (g j) = ranges (f2 j) /\
                forall z, In z (uses (g j)) <-> In z (uses (f2 j)) \/
                            (j = i /\ tderiv (nodeAt ns i) = true /\ z = Z.of_nat n)).
    { destruct (tderiv (nodeAt ns i)).
      - cbn zeta. unfold updI. destruct (Nat.eqb_spec j i) as [->|N].
        + cbn [addUse lo hi ranges uses]. repeat split; auto.
          * rewrite in_app_iff. cbn [In]. intuition.
          * rewrite in_app_iff. cbn [In]. intuition.
        + repeat split; auto. intros [?|(? & _)]; [auto | contradiction].
      - cbn zeta. repeat split; auto. intros [?|(_ & ? & _)]; [auto | discriminate]. }
    cbn zeta in G. destruct G as (G1 & G2 & G3 & G4).
    destruct (F2 j) as (A1 & A2 & A3 & A4).
    rewrite G1, G2, G3, A1, A2, A3.
    destruct (H j Hj) as (A & B & C).
    split; [|split].
    + intros K. destruct (Nat.eq_dec j i) as [->|N].
      * rewrite F1i, Lf. repeat split.
      * rewrite F1j by auto. apply A. lia.
    + intros K. rewrite F1j by lia. apply B. lia.
    + intros z. rewrite G4, A4.
      assert (U1 : uses (f1 j) = uses (f j)).
      { destruct (Nat.eq_dec j i) as [->|N]; [rewrite F1i; reflexivity | rewrite F1j; auto]. }
      rewrite U1, C. split.
      * intros [[[(p & Hp & Hz)|(Hp & Hz)]|(Hin & Hz)]|(Hji & Hd & Hz)].
        -- left. exists p. intuition lia.
        -- right. intuition lia.
        -- left. exists i. repeat split; auto; lia.
        -- right. subst j. repeat split; auto.
      * intros [(p & Hp & Hz & Hl & Hin)|(Hp & Hl & Hd & Hz)].
        -- destruct (Nat.eq_dec p i) as [->|N].
           ++ left. right. auto.
           ++ left. left. left. exists p. repeat split; auto; lia.
        -- destruct (Nat.eq_dec j i) as [->|N].
           ++ right. auto.
           ++ left. left. right. repeat split; auto; lia.
Qed.

Lemma inv_loop : forall k f, k <= n -> inv k f -> inv 0 (buildLoop ns k f).
Proof.
  induction k as [|k IH]; intros f Hk H; cbn [buildLoop]; [exact H|].
  apply IH; [lia|]. apply inv_step; [lia | exact H].
Qed.

Lemma maxZ_ge : forall l z, In z l -> (z <= maxZ l)%Z.
Proof.
  induction l as [|a l IH]; intros z []; cbn [maxZ fold_right]; fold (maxZ l).
  - subst. lia.
  - specialize (IH z H). lia.
Qed.
Lemma maxZ_in : forall l, (forall z, In z l -> (0 <= z)%Z) -> l <> [] -> In (maxZ l) l.
Proof.
  induction l as [|a l IH]; intros H Hne; [congruence|].
  cbn [maxZ fold_right]. fold (maxZ l).
  destruct l as [|b l].
  - cbn [maxZ fold_right]. left. specialize (H a (or_introl eq_refl)). lia.
  - assert (K : In (maxZ (b :: l)) (b :: l)) by (apply IH; [intros; apply H; right; auto | discriminate]).
    destruct (Z.max_spec a (maxZ (b :: l))) as [[_ ->]|[_ ->]]; [right; exact K | left; reflexivity].
Qed.

Hypothesis SG : sortedGraph ns.

Lemma leafy_iff : forall i, leafy i = true <->
  tk (nodeAt ns i) = TArg \/ tk (nodeAt ns i) = TConst \/ tk (nodeAt ns i) = TRandom.
Proof.
  intros i. unfold leafy, isInput, isConstant. destruct (tk (nodeAt ns i)); cbn; intuition discriminate.
Qed.

Lemma kid_user_not_leafy : forall i c, i < n -> In c (tkids (nodeAt ns i)) -> leafy i = false.
Proof.
  intros i c Hi Hin. destruct (leafy i) eqn:E; [|reflexivity]. apply leafy_iff in E.
  destruct (sg_leaf ns SG i Hi E) as (K & _). rewrite K in Hin. destruct Hin.
Qed.

Lemma interval_start : forall i, i < n -> lo (buildIntervals ns i) = Z.of_nat i.
Proof.
  intros i Hi. unfold buildIntervals. fold n.
  destruct (inv_loop n _ (le_n _) inv_start i Hi) as (A & _ & _).
  destruct (A (Nat.le_0_l i)) as (L & _). unfold fixIv.
  destruct (uses _); [exact L|]. cbn [lo]. exact L.
Qed.

Lemma interval_end : forall i, i < n ->
  (kept ns i -> hi (buildIntervals ns i) = Z.of_nat n) /\
  (hasValue ns i -> ~ kept ns i ->
     exists e, hi (buildIntervals ns i) = Z.of_nat e /\
       (forall k, usedBy ns i k -> k <= e) /\
       ((e = i /\ forall k, ~ usedBy ns i k) \/ usedBy ns i e)).
Proof.
  intros i Hi. unfold buildIntervals. fold n.
  destruct (inv_loop n _ (le_n _) inv_start i Hi) as (A & _ & C).
  destruct (A (Nat.le_0_l i)) as (_ & E & R). cbn zeta in *.
  set (iv := buildLoop ns n (fun _ : nat => newInterval) i) in *.
  assert (Pos : forall z, In z (uses iv) -> (0 <= z <= Z.of_nat n)%Z).
  { intros z Hz. apply C in Hz. destruct Hz as [(p & Hp & -> & _)|(_ & _ & _ & ->)]; lia. }
  assert (Hi' : hi (fixIv iv) =
     match uses iv with [] => (if leafy i then Z.of_nat n else Z.of_nat i)
     | _ => Z.max (maxZ (uses iv)) (if leafy i then Z.of_nat n else Z.of_nat i) end).
  { unfold fixIv. destruct (uses iv) as [|u us] eqn:U; [exact E|].
    cbn [hi]. rewrite R. cbn [fold_left snd].
    destruct (Z.ltb_spec (maxZ (u :: us)) (if leafy i then Z.of_nat n else Z.of_nat i)); lia. }
  rewrite Hi'. clear Hi'. split.
  - intros K. destruct (leafy i) eqn:Lf.
    + destruct (uses iv) as [|u us] eqn:U; [reflexivity|].
      assert (M : In (maxZ (uses iv)) (uses iv)).
      { apply maxZ_in; [intros z Hz; rewrite U in Hz; apply Pos in Hz; lia | rewrite U; discriminate]. }
      rewrite U in M. apply Pos in M. lia.
    + destruct K as [K|[K|[K|[Ko Kd]]]];
        try (assert (leafy i = true) by (apply leafy_iff; auto); congruence).
      assert (M : In (Z.of_nat n) (uses iv)).
      { apply C. right. repeat split; auto; lia. }
      destruct (uses iv) as [|u us] eqn:U; [destruct M|].
      assert (M2 := maxZ_ge _ _ M).
      assert (M3 : In (maxZ (u :: us)) (u :: us)).
      { apply maxZ_in; [intros z Hz; apply Pos in Hz; lia | discriminate]. }
      apply Pos in M3. lia.
  - intros (_ & HV1 & HV2 & HV3) K.
    assert (Lf : leafy i = false).
    { destruct (leafy i) eqn:Lf; [|reflexivity]. exfalso. apply K. apply leafy_iff in Lf.
      unfold kept. tauto. }
    rewrite Lf.
    assert (Kd : tderiv (nodeAt ns i) = false).
    { destruct (tderiv (nodeAt ns i)) eqn:D; [|reflexivity]. exfalso. apply K. right. right. right.
      split; [|exact D]. unfold leafy, isInput, isConstant in Lf.
      destruct (tk (nodeAt ns i)); try discriminate; try congruence. }
    assert (C' : forall z, In z (uses iv) <-> exists p, usedBy ns i p /\ z = Z.of_nat p).
    { intros z. rewrite C. split.
      - intros [(p & Hp & Hz & _ & Hin)|(_ & _ & D & _)]; [|congruence].
        exists p. repeat split; auto; lia.
      - intros (p & (Hp & Hin) & Hz). left. exists p. repeat split; auto; try lia.
        eapply kid_user_not_leafy; eauto. }
    destruct (uses iv) as [|u us] eqn:U.
    + exists i. split; [reflexivity|]. split.
      * intros k Hk. exfalso. apply (C' (Z.of_nat k)). exists k; auto.
      * left. split; auto. intros k Hk. apply (C' (Z.of_nat k)). exists k; auto.
    + assert (M : In (maxZ (u :: us)) (u :: us)).
      { apply maxZ_in; [intros z Hz; apply Pos in Hz; lia | discriminate]. }
      assert (M' := M). apply C' in M'. destruct M' as (p & Hp & Ep).
      assert (p > i).
      { destruct Hp as [Hp1 Hp2]. apply (sg_kids ns SG) in Hp2; [lia|exact Hp1]. }
      exists p. split; [rewrite Ep; lia|]. split; [|right; exact Hp].
      intros k Hk. assert (In (Z.of_nat k) (u :: us)) by (apply C'; exists k; auto).
      apply maxZ_ge in H0. lia.
Qed.

(** A use is never after the end of the interval. *)
Lemma use_le_end : forall c k, usedBy ns c k -> (Z.of_nat k <= hi (buildIntervals ns c))%Z.
Proof.
  intros c k [Hk Hin]. destruct (sg_kids ns SG k c Hk Hin) as [Hc HV].
  assert (Hcn : c < n) by (unfold n; lia).
  destruct (interval_end c Hcn) as [A B].
  assert (D : kept ns c \/ ~ kept ns c).
  { unfold kept. destruct (tk (nodeAt ns c)); try (left; tauto);
    destruct (tderiv (nodeAt ns c)); try (left; tauto); right; intuition congruence. }
  destruct D as [D|D].
  - rewrite (A D). fold n in Hk. lia.
  - destruct (B HV D) as (e & -> & U & _). specialize (U k (conj Hk Hin)). lia.
Qed.

(** ** Value numbering without collisions is the identity. *)
Hypothesis NC : noCollision ns.

Lemma findHash_in : forall u h p, findHash h u = Some p -> In (h, p) u.
Proof.
  induction u as [|[h' p'] u IH]; cbn [findHash]; intros h p H; [discriminate|].
  destruct (Nat.eqb_spec h' h) as [->|]; [inversion H; subst; left; reflexivity | right; auto].
Qed.

Lemma seed_in : forall lv u h p, In (h, p) (fold_left (fun u p => (thash (nodeAt ns p), p) :: u) lv u) ->
  In (h, p) u \/ (In p lv /\ h = thash (nodeAt ns p)).
Proof.
  induction lv as [|a lv IH]; cbn [fold_left]; intros u h p H; [auto|].
  apply IH in H. cbn [In] in *. destruct H as [[H|H]|H].
  - inversion H; subst. right. auto.
  - auto.
  - right. intuition.
Qed.

Lemma numberFrom_id : forall rest i u, i + length rest = n ->
  (forall k, k < length rest -> nth k rest noNode = nodeAt ns (i + k)) ->
  (forall h p, In (h, p) u -> p < n /\ h = thash (nodeAt ns p)) ->
  numberFrom ns i rest u = seq i (length rest).
Proof.
  induction rest as [|t rest IH]; cbn [numberFrom length seq]; intros i u Hl Hn Hu; [reflexivity|].
  assert (Ht : t = nodeAt ns i).
  { specialize (Hn 0 (Nat.lt_0_succ _)). cbn [nth] in Hn. rewrite Nat.add_0_r in Hn. exact Hn. }
  assert (Hn' : forall k, k < length rest -> nth k rest noNode = nodeAt ns (S i + k)).
  { intros k Hk. specialize (Hn (S k)). cbn [nth] in Hn. rewrite Hn by lia. f_equal. lia. }
  destruct (findHash (thash t) u) as [p|] eqn:F.
  - apply findHash_in in F. apply Hu in F. destruct F as [Hp E].
    assert (p = i) as -> by (apply NC; [exact Hp | fold n; lia | rewrite <- E, Ht; reflexivity]).
    f_equal. apply IH; auto. lia.
  - f_equal. apply IH; auto; [lia|]. intros h p [H|H]; [|auto].
    inversion H; subst. split; [lia | reflexivity].
Qed.

Variable leaves : list nat.
Hypothesis LV : forall p, In p leaves -> p < n.

Lemma replacements_id : replacements ns leaves = seq 0 n.
Proof.
  unfold replacements. apply numberFrom_id.
  - reflexivity.
  - intros k Hk. reflexivity.
  - intros h p H. unfold seedUniques in H. apply seed_in in H. destruct H as [[]|[H ->]]. auto.
Qed.

Lemma replOf_id : forall i, replOf (seq 0 n) i = i.
Proof.
  intros i. unfold replOf. destruct (Nat.lt_ge_cases i n).
  - rewrite seq_nth by exact H. reflexivity.
  - apply nth_overflow. rewrite seq_length. exact H.
Qed.

(** ** Register allocation *)
Let rs := seq 0 n.
Let ivs := buildIntervals ns.
Definition raAt (k : nat) : rastate := fold_left (allocStep ns rs ivs) (seq 0 k) (RA 0 (fun _ => 0)).

Lemma raAt_S : forall k, raAt (S k) = allocStep ns rs ivs (raAt k) k.
Proof. intros k. unfold raAt. rewrite seq_S, fold_left_app. reflexivity. Qed.

Lemma raAt_res_S : forall k i, i <> k -> res (raAt (S k)) i = res (raAt k) i.
Proof.
  intros k i Hi. rewrite raAt_S. unfold allocStep, rs. rewrite replOf_id.
  destruct (tk (nodeAt ns k)); try destruct (tptr (nodeAt ns k));
    try (destruct (allocMutableOp ns (seq 0 n) ivs k (raAt k)) as [r c]);
    cbn [res]; unfold updN; destruct (Nat.eqb_spec i k); congruence.
Qed.

Lemma raAt_res : forall k i, i < k -> res (raAt k) i = res (raAt (S i)) i.
Proof.
  induction k as [|k IH]; intros i Hi; [lia|].
  destruct (Nat.eq_dec i k) as [->|N]; [reflexivity|].
  rewrite raAt_res_S by exact N. apply IH. lia.
Qed.

Definition loc (i : nat) : nat := res (raAt n) i.

Lemma locOf_loc : forall i, locOf ns leaves i = loc i.
Proof.
  intros i. unfold locOf. rewrite replacements_id. rewrite replOf_id. reflexivity.
Qed.

Hypothesis NL : noLet ns.

Lemma letParents_0 : forall i, letParents ns i = 0.
Proof.
  intros i. unfold letParents.
  assert (H : filter (fun t => match tk t with TLet => existsb (Nat.eqb i) (tkids t) | _ => false end) ns = []).
  { assert (K : forall t, In t ns -> tk t <> TLet).
    { intros t Ht. apply (In_nth _ _ noNode) in Ht. destruct Ht as (j & Hj & <-). apply NL. exact Hj. }
    clear - K. induction ns as [|t l IH]; [reflexivity|]. cbn [filter].
    assert (tk t <> TLet) by (apply K; left; reflexivity).
    destruct (tk t); try congruence; apply IH; intros; apply K; right; auto. }
  rewrite H. reflexivity.
Qed.

(** What the allocator decides for the node at [i]: a new register, or the
    register of a child whose interval has ended. *)
Lemma alloc_decision : forall i, hasValue ns i ->
  (loc i = cpucount (raAt i) /\ cpucount (raAt (S i)) = S (cpucount (raAt i))) \/
  (cpucount (raAt (S i)) = cpucount (raAt i) /\
   exists o c, tk (nodeAt ns i) = TOp /\ tptr (nodeAt ns i) = true /\ textern (nodeAt ns i) = false /\
     tover (nodeAt ns i) = Some o /\ nth_error (tkids (nodeAt ns i)) o = Some c /\
     loc i = loc c /\ (hi (ivs c) <= Z.of_nat i)%Z).
Proof.
  intros i (Hi & H1 & H2 & H3).
  assert (Loc : loc i = res (raAt (S i)) i) by (apply raAt_res; exact Hi).
  rewrite Loc, raAt_S. unfold allocStep, rs. rewrite replOf_id.
  assert (E : forall c r, res (RA c (updN (res (raAt i)) i r)) i = r).
  { intros c r. cbn [res]. unfold updN. rewrite Nat.eqb_refl. reflexivity. }
  destruct (tk (nodeAt ns i)) eqn:K; try congruence;
    try (left; rewrite E; split; reflexivity).
  all: destruct (tptr (nodeAt ns i)) eqn:P; [|left; rewrite E; split; reflexivity].
  all: unfold allocMutableOp; rewrite letParents_0; cbn [Nat.eqb orb].
  1,2: destruct (sg_leaf ns SG i Hi) as (_ & O & _); [rewrite K; auto|];
       rewrite O; left; rewrite E; split; reflexivity.
  destruct (tover (nodeAt ns i)) as [o|] eqn:O; [|left; rewrite E; split; reflexivity].
  rewrite replOf_id.
  destruct (negb (liveAt (ivs (nth o (tkids (nodeAt ns i)) 0)) (Z.of_nat i)) &&
            negb (textern (nodeAt ns i))) eqn:D; [|left; rewrite E; split; reflexivity].
  right. rewrite E. split; [reflexivity|].
  apply andb_true_iff in D. destruct D as [D1 D2].
  apply negb_true_iff in D1, D2.
  assert (Ho : o < length (tkids (nodeAt ns i))) by (eapply sg_over; eauto).
  exists o, (nth o (tkids (nodeAt ns i)) 0).
  assert (Hin : In (nth o (tkids (nodeAt ns i)) 0) (tkids (nodeAt ns i))) by (apply nth_In; exact Ho).
  destruct (sg_kids ns SG i _ Hi Hin) as [Hc HVc].
  repeat split; auto.
  - apply nth_error_nth'. exact Ho.
  - unfold loc. rewrite (raAt_res n) by (fold n in Hi; lia). rewrite (raAt_res i) by exact Hc. reflexivity.
  - unfold liveAt in D1. unfold ivs in *. rewrite interval_start in D1 by (fold n in Hi; lia).
    apply andb_false_iff in D1. destruct D1 as [D1|D1].
    + apply Z.leb_gt in D1. lia.
    + apply Z.ltb_ge in D1. exact D1.
Qed.

Lemma cpucount_mono : forall i, cpucount (raAt i) <= cpucount (raAt (S i)).
Proof.
  intros i. rewrite raAt_S. unfold allocStep.
  destruct (tk (nodeAt ns i)); try destruct (tptr (nodeAt ns i)); cbn [cpucount]; try lia.
  all: unfold allocMutableOp; destruct (tover (nodeAt ns i)); cbn [cpucount]; try lia.
  all: match goal with |- context [if ?b then _ else _] => destruct b end; cbn [cpucount]; lia.
Qed.

Lemma cpucount_le : forall j i, i <= j -> cpucount (raAt i) <= cpucount (raAt j).
Proof.
  induction j as [|j IH]; intros i Hi.
  - replace i with 0 by lia. lia.
  - destruct (Nat.eq_dec i (S j)) as [->|]; [lia|].
    specialize (IH i). pose proof (cpucount_mono j). lia.
Qed.

Lemma loc_lt : forall j i, hasValue ns i -> i < j -> loc i < cpucount (raAt j).
Proof.
  induction j as [j IHj] using lt_wf_ind. intros i HV Hi.
  destruct (alloc_decision i HV) as [[A B]|(A & o & c & T & P & X & O & Nth & L & _)].
  - pose proof (cpucount_le j (S i)). lia.
  - rewrite L. apply nth_error_In in Nth.
    destruct (sg_kids ns SG i c (proj1 HV) Nth) as [Hc HVc].
    assert (loc c < cpucount (raAt i)) by (apply IHj; auto).
    pose proof (cpucount_le j i). lia.
Qed.

(** Two nodes with the same register: the earlier one is dead by then. *)
Lemma loc_shared : forall i c, hasValue ns i -> hasValue ns c -> c < i -> loc c = loc i ->
  (hi (ivs c) <= Z.of_nat i)%Z.
Proof.
  induction i as [i IH] using lt_wf_ind. intros c HVi HVc Hc L.
  destruct (alloc_decision i HVi) as [[A B]|(A & o & c' & T & P & X & O & Nth & L' & E)].
  - pose proof (loc_lt i c HVc Hc). lia.
  - apply nth_error_In in Nth. destruct (sg_kids ns SG i c' (proj1 HVi) Nth) as [Hc' HVc'].
    destruct (Nat.lt_trichotomy c c') as [Q|[->|Q]].
    + assert (hi (ivs c) <= Z.of_nat c')%Z by (apply IH; auto; congruence). lia.
    + exact E.
    + assert (hi (ivs c') <= Z.of_nat c)%Z by (apply IH; auto; congruence).
      assert (Z.of_nat i <= hi (ivs c'))%Z by (apply use_le_end; split; [exact (proj1 HVi) | exact Nth]).
      lia.
Qed.

(** A register that is reused belonged to a plain operator, and all uses of its
    old content are over. *)
Lemma loc_shared_spec : forall i c, hasValue ns i -> hasValue ns c -> c < i -> loc c = loc i ->
  ~ kept ns c /\ (forall k, usedBy ns c k -> k <= i) /\ tk (nodeAt ns i) = TOp /\
  textern (nodeAt ns i) = false.
Proof.
  intros i c HVi HVc Hc L.
  assert (E := loc_shared i c HVi HVc Hc L). split; [|split].
  - intros K. destruct (interval_end c (proj1 HVc)) as [A _]. unfold ivs in E. rewrite (A K) in E.
    destruct HVi as [Hi _]. fold n in Hi. lia.
  - intros k Hk. apply use_le_end in Hk. unfold ivs in E. lia.
  - destruct (alloc_decision i HVi) as [[A B]|(A & o & c' & T & P & X & O & Nth & L' & _)].
    + pose proof (loc_lt i c HVc Hc). lia.
    + auto.
Qed.

(** When a node is read, its register has not been handed on. *)
Lemma kid_latest : forall k c i, usedBy ns c k -> hasValue ns i -> c < i -> i < k -> loc i <> loc c.
Proof.
  intros k c i U HVi Hc Hi L.
  assert (HVc : hasValue ns c) by (destruct U as [Hk Hin]; apply (sg_kids ns SG k c Hk Hin)).
  destruct (loc_shared_spec i c HVi HVc Hc (eq_sym L)) as (_ & B & _).
  specialize (B k U). lia.
Qed.

Lemma loc_new_or_kid : forall i, hasValue ns i ->
  (forall c, hasValue ns c -> c < i -> loc c <> loc i) \/
  (exists o c, tk (nodeAt ns i) = TOp /\ textern (nodeAt ns i) = false /\
      tover (nodeAt ns i) = Some o /\
      nth_error (tkids (nodeAt ns i)) o = Some c /\ loc i = loc c).
Proof.
  intros i HV. destruct (alloc_decision i HV) as [[A B]|(A & o & c & T & P & X & O & Nth & L & _)].
  - left. intros c HVc Hc E. pose proof (loc_lt i c HVc Hc). lia.
  - right. exists o, c. auto.
Qed.

End I.
