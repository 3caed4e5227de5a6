(** C87: the losses, the choice of anchors, and the training output as a whole. *)
From Coq Require Import List ZArith QArith Bool Arith Lia Field Lqa.
From Verif Require Import BroadcastModel ShapeGradModel YoloModel YoloSpec YoloProofs YoloProps YoloTrainProps.
Import ListNotations.
Local Open Scope nat_scope.

Section Losses.
Variable lg : Q -> Q.
Hypothesis lg_eq : forall a b, (a == b)%Q -> (lg a == lg b)%Q.

Lemma mse_eq a b s : (mseLoss a b s == halfSquare s a b)%Q.
Proof. unfold mseLoss, halfSquare. field. Qed.
Lemma half_eq s a a' b : (a == a')%Q -> (halfSquare s a b == halfSquare s a' b)%Q.
Proof. intro E. unfold halfSquare. rewrite E. reflexivity. Qed.
Lemma eps_eq : (eps16 == tiny)%Q.
Proof. reflexivity. Qed.
Lemma invsigm_eq t : (invsigm lg t == logit lg t)%Q.
Proof.
  unfold invsigm, logit. rewrite (lg_eq (1 - t + eps16) (1 + tiny - t)) by (rewrite eps_eq; ring).
  rewrite (lg_eq (t + eps16) (t + tiny)) by (rewrite eps_eq; reflexivity). ring.
Qed.
Lemma bce_eq b p : (bceLoss lg b p == if b then there lg p else notThere lg p)%Q.
Proof.
  destruct b; unfold bceLoss, there, notThere.
  - rewrite (lg_eq (p + eps16) (p + tiny)) by (rewrite eps_eq; reflexivity). reflexivity.
  - rewrite (lg_eq (1 - p + eps16) (1 + tiny - p)) by (rewrite eps_eq; ring). reflexivity.
Qed.

(** The losses written for the last target, as numbers: half squares of the differences of
    the raw numbers from the logits of the place in the cell and from the logarithms of the
    sizes over two neighbouring numbers of the anchors; cross entropies. *)
Theorem C87_target_losses : forall input boxes target an ms nc img grid thresh out i n gi gj,
  prepareOutput lg input boxes target an ms nc img grid thresh = Some out ->
  S i = length target / 5 -> bestAnchors target (i * 5) an ms img grid = Some (n, gi, gj) ->
  let p := Z.to_nat (gj * Z.of_nat (grid * length ms) + gi * Z.of_nat (length ms) + Z.of_nat n) in
  let T k := nth (i * 5 + k) target 0%Q in let O k := nth (p + k) out 0%Q in let R k := nth (p + k) input 0%Q in
  let s := (2 - T 3%nat * T 4%nat)%Q in let obj := nth (p + 4) boxes 0%Q in
  (O 0%nat == halfSquare s (logit lg (T 1%nat * inject_Z (Z.of_nat grid) - inject_Z gi)) (R 0%nat) /\
   O 1%nat == halfSquare s (logit lg (T 2%nat * inject_Z (Z.of_nat grid) - inject_Z gj)) (R 1%nat) /\
   O 2%nat == halfSquare s (lg (T 3%nat / nth n an 0 + tiny)) (R 2%nat) /\
   O 3%nat == halfSquare s (lg (T 4%nat / nth (n + 1)%nat an 0 + tiny)) (R 3%nat) /\
   O 4%nat == there lg obj)%Q /\
  forall j, j < nc -> (O (5 + j)%nat == if (Z.of_nat j =? trunc (nth i target 0%Q))%Z then there lg obj else notThere lg obj)%Q.
Proof.
  intros input boxes target an ms nc img grid thresh out i n gi gj E Hi B.
  destruct (C87_last_target lg _ _ _ _ _ _ _ _ _ _ _ _ _ _ E Hi B) as (p & P & _ & (A0 & A1 & A2 & A3) & A4 & A5).
  rewrite <- P, Nat2Z.id. cbv zeta. unfold at0, qn in *. rewrite !Nat.add_0_r.
  split; [|intros j Hj; replace (p + (5 + j)) with (p + 5 + j) by lia; rewrite (A5 j Hj); apply bce_eq].
  rewrite A0, A1, A2, A3, A4, !mse_eq. split; [|split; [|split; [|split]]].
  - apply half_eq, invsigm_eq.
  - apply half_eq, invsigm_eq.
  - apply half_eq, lg_eq. rewrite eps_eq. reflexivity.
  - apply half_eq, lg_eq. rewrite eps_eq. reflexivity.
  - apply bce_eq.
Qed.
(** Away from the targets: the cross entropy of no object, at the fifth number of a box
    under the threshold, and nothing elsewhere. *)
Theorem C87_no_object : forall input boxes target an ms nc img grid thresh out,
  prepareOutput lg input boxes target an ms nc img grid thresh = Some out ->
  forall r j, j < 5 + nc -> r * (5 + nc) + j < length boxes ->
    (forall i n gi gj, i < length target / 5 -> bestAnchors target (i * 5) an ms img grid = Some (n, gi, gj) ->
       let p := (gj * Z.of_nat (grid * length ms) + gi * Z.of_nat (length ms) + Z.of_nat n)%Z in
       ~ (p <= Z.of_nat (r * (5 + nc) + j) < p + Z.of_nat (5 + nc))%Z) ->
    let o := nth (r * (5 + nc) + j) out 0%Q in
    (j <> 4 -> (o == 0)%Q) /\
    (j = 4 -> let q := fst (bestIOU (boxRect boxes (r * (5 + nc)) img) target img) in
       ((q <= thresh -> o == notThere lg (nth (r * (5 + nc) + 4)%nat boxes 0))%Q /\ (thresh < q -> o == 0)%Q)).
Proof.
  intros input boxes target an ms nc img grid thresh out E r j Hj Hk N. cbv zeta.
  destruct (C87_elsewhere _ _ _ _ _ _ _ _ _ _ _ E) as (_ & V). specialize (V (r * (5 + nc) + j) Hk).
  unfold at0 in V. rewrite V.
  2:{ intros i p Hi Pl. unfold place in Pl. destruct (bestAnchors target (i * 5) an ms img grid) as [[[n gi] gj]|] eqn:B; [|discriminate].
      injection Pl as <-. apply (N i n gi gj Hi B). }
  assert (M : (r * (5 + nc) + j) mod (5 + nc) = j) by (rewrite Nat.add_comm, Nat.mod_add, Nat.mod_small by lia; reflexivity).
  rewrite M. split.
  - intro J. apply Nat.eqb_neq in J. rewrite J. reflexivity.
  - intros ->. rewrite Nat.eqb_refl. cbn [andb]. replace (r * (5 + nc) + 4 - 4) with (r * (5 + nc)) by lia.
    set (q := fst _). destruct (Qle_bool q thresh) eqn:Le.
    + split; [intros _; apply (bce_eq false)|]. intro L. apply Qle_bool_iff in Le. lra.
    + split; [|reflexivity]. intro L. apply Qle_bool_iff in L. congruence.
Qed.
End Losses.
Print Assumptions C87_target_losses.
Print Assumptions C87_no_object.
Example C87_ex_losses : (forall a b, (a == b)%Q -> (exLg a == exLg b)%Q) /\
  exists out, prepareOutput exLg exBoxes exBoxes exTarget [10; 13]%Q [0]%Z 3 32 2 (1 # 2) = Some out /\
    bestAnchors exTarget 0 [10; 13]%Q [0]%Z 32 2 = Some (0, 1%Z, 1%Z).
Proof. split; [intros a b E; unfold exLg; rewrite E; reflexivity|]. eexists. split; vm_compute; reflexivity. Qed.

(** ** The anchor of a target *)
(** The side of a quarter of a box at the origin, in pixels of the image. *)
Definition side (x : Q) (img : nat) : Z := Z.min (trunc (x / 2 + 1)) (Z.of_nat img).
Definition corner (w h : Q) (img : nat) : rect := Rc 0 0 (side w img) (side h img).
Lemma trunc_neg x : (0 <= x)%Q -> (trunc (0 - x / 2) <= 0)%Z.
Proof.
  intro H. unfold trunc. assert (N : (Qnum (0 - x / 2) <= 0)%Z).
  { assert (L : (0 - x / 2 <= 0)%Q). { assert (0 <= x / 2)%Q by (apply Qle_shift_div_l; lra). lra. }
    unfold Qle in L. cbn [Qnum Qden] in L. lia. }
  rewrite <- (Z.opp_involutive (Qnum _)), Z.quot_opp_l by discriminate.
  assert (0 <= Z.quot (- Qnum (0 - x / 2)) (Z.pos (Qden (0 - x / 2))))%Z by (apply Z.quot_pos; lia). lia.
Qed.
Lemma trunc_pos x : (0 <= x)%Q -> (0 <= trunc x)%Z.
Proof. intro H. unfold trunc. apply Z.quot_pos; [|lia]. unfold Qle in H. cbn in H. lia. Qed.
Lemma rectify_corner w h img : (0 <= w)%Q -> (0 <= h)%Q -> rectifyBox 0 0 h w img = corner w h img.
Proof.
  intros W H. unfold rectifyBox, corner, side, mkRect.
  assert (P : forall x, (0 <= x)%Q -> (0 <= Z.min (trunc (0 + x / 2 + 1)) (Z.of_nat img))%Z /\ trunc (0 + x / 2 + 1) = trunc (x / 2 + 1)).
  { intros x X. assert (Y : trunc (0 + x / 2 + 1) = trunc (x / 2 + 1)).
    { unfold trunc. destruct x as [a b]. cbn. rewrite !Z.mul_1_r. reflexivity. }
    split; [|exact Y]. rewrite Y. assert (0 <= trunc (x / 2 + 1))%Z; [|lia]. apply trunc_pos.
    assert (0 <= x / 2)%Q by (apply Qle_shift_div_l; lra). lra. }
  destruct (P w W) as [P1 ->]. destruct (P h H) as [P2 ->].
  destruct (P w W) as [P1' E1]. destruct (P h H) as [P2' E2]. rewrite E1 in P1'. rewrite E2 in P2'.
  pose proof (trunc_neg w W). pose proof (trunc_neg h H).
  rewrite !Z.max_r, !Z.min_l by lia. f_equal; lia.
Qed.

(** The anchor chosen for a target is the last one whose quarter box overlaps most with
    the target's, both with width and height exchanged. *)
Theorem C87_best_anchor : forall target j an img,
  Forall (fun x => 0 < x)%Q an -> (0 <= nth (j + 3)%nat target 0 /\ 0 <= nth (j + 4)%nat target 0)%Q -> 0 < img -> 0 < length an / 2 ->
  let im := inject_Z (Z.of_nat img) in
  let over i := iou (corner (nth (2 * i + 1) an 0%Q) (nth (2 * i) an 0%Q) img)
                    (corner (nth (j + 4)%nat target 0 * im)%Q (nth (j + 3)%nat target 0 * im)%Q img) in
  let b := bestAnchor target j an img in
  b < length an / 2 /\ exists q, over b = Some q /\ (0 <= q)%Q /\
  forall i p, i < length an / 2 -> over i = Some p -> (p <= q)%Q /\ (b < i -> (p < q)%Q).
Proof.
  intros target j an img Fa (T3 & T4) Hi Ha im over b.
  assert (IM : (0 <= im)%Q) by (unfold im; change 0%Q with (inject_Z 0); rewrite <- Zle_Qle; lia).
  assert (AN : forall k, (0 <= nth k an 0)%Q).
  { intro k. destruct (Nat.lt_ge_cases k (length an)) as [L|L]; [|rewrite nth_overflow by exact L; apply Qle_refl].
    rewrite Forall_forall in Fa. apply Qlt_le_weak, Fa, nth_In, L. }
  assert (RE : forall i, iou (anchorRect an i img) (sizeRect target j img) = over i).
  { intro i. unfold anchorRect, sizeRect, over, at0, qn. fold im. rewrite rectify_corner, rectify_corner; auto; apply Qmult_le_0_compat; assumption. }
  assert (PR : forall w h, (0 <= w)%Q -> (0 <= h)%Q -> (1 <= side w img /\ 1 <= side h img)%Z).
  { assert (S1 : forall w, (0 <= w)%Q -> (1 <= side w img)%Z).
    { intros w W. unfold side. assert (1 <= trunc (w / 2 + 1))%Z; [|lia]. unfold trunc.
      assert (Y : (1 <= w / 2 + 1)%Q) by (assert (0 <= w / 2)%Q by (apply Qle_shift_div_l; lra); lra).
      unfold Qle in Y. cbn [Qnum Qden] in Y. apply Z.quot_le_lower_bound; lia. }
    intros; split; apply S1; assumption. }
  assert (DEF : forall i, exists p, over i = Some p /\ (0 <= p)%Q).
  { intro i. assert (A1 := PR _ _ (AN (2 * i + 1)) (AN (2 * i))).
    assert (A2 := PR _ _ (Qmult_le_0_compat _ _ T4 IM) (Qmult_le_0_compat _ _ T3 IM)).
    assert (X : exists p, over i = Some p).
    { unfold over, iou. set (r := corner _ _ _). set (s := corner _ (nth (j + 3)%nat target 0 * im)%Q _).
      assert (IN : (dx (intersect r s) * dy (intersect r s) <= dx r * dy r)%Z).
      { unfold intersect. destruct (emptyR _); unfold dx, dy, r, s, corner; cbn [x0 y0 x1 y1]; [|rewrite !Z.max_id]; nia. }
      assert (PS : (0 < dx s * dy s)%Z) by (unfold dx, dy, s, corner; cbn [x0 y0 x1 y1]; nia).
      destruct (Z.eqb_spec (dx r * dy r + dx s * dy s - dx (intersect r s) * dy (intersect r s)) 0) as [Z0|Z0]; [lia|]. eauto. }
    destruct X as [p X]. exists p. split; [exact X|]. rewrite <- RE in X. apply iou_range in X; [tauto| |]; apply rectify_proper. }
  subst b. unfold bestAnchor.
  set (step := fun (acc : nat * Q) i => _).
  assert (G : forall n, 0 < n -> let acc := fold_left step (seq 0 n) (0, 0%Q) in
    fst acc < n /\ over (fst acc) = Some (snd acc) /\ (0 <= snd acc)%Q /\
    forall i p, i < n -> over i = Some p -> (p <= snd acc)%Q /\ (fst acc < i -> (p < snd acc)%Q)).
  { induction n as [|n IH]; intro Hn; [lia|]. cbv zeta. rewrite seq_S, fold_left_app. cbn [fold_left Nat.add].
    destruct (DEF n) as (p & Ep & Pp). destruct n as [|n'].
    - cbn [seq fold_left]. unfold step. rewrite RE, Ep. cbn [snd].
      rewrite (proj2 (Qle_bool_iff 0 p) Pp). cbn [fst snd]. repeat split; [lia|exact Ep|exact Pp| |].
      + assert (i = 0) as -> by lia. rewrite Ep in H0. injection H0 as <-. apply Qle_refl.
      + intro; lia.
    - specialize (IH ltac:(lia)). set (n := S n') in *. set (acc := fold_left step (seq 0 n) (0, 0%Q)) in *.
      destruct IH as (I1 & I2 & I3 & I4). unfold step. rewrite RE, Ep. destruct (Qle_bool (snd acc) p) eqn:Le; cbn [fst snd].
      + apply Qle_bool_iff in Le. split; [lia|]. split; [exact Ep|]. split; [exact Pp|]. intros i q Li Eq.
        destruct (Nat.eq_dec i n) as [->|Ne]; [rewrite Ep in Eq; injection Eq as <-; split; [apply Qle_refl|intro; lia]|].
        destruct (I4 i q ltac:(lia) Eq) as [X _]. split; [lra|intro; lia].
      + assert (Lt : (p < snd acc)%Q). { apply Qnot_le_lt. intro L. apply Qle_bool_iff in L. congruence. }
        split; [lia|]. split; [exact I2|]. split; [exact I3|]. intros i q Li Eq.
        destruct (Nat.eq_dec i n) as [->|Ne]; [rewrite Ep in Eq; injection Eq as <-; split; [lra|intros _; exact Lt]|].
        apply I4; [lia|exact Eq]. }
  destruct (G (length an / 2) Ha) as (G1 & G2 & G3 & G4). split; [exact G1|]. eexists. split; [exact G2|]. split; [exact G3|exact G4].
Qed.
Print Assumptions C87_best_anchor.
Example C87_ex_best : Forall (fun x => 0 < x)%Q [10; 13; 40; 30; 10; 13]%Q /\
  bestAnchor [0; 1 # 2; 1 # 2; 1 # 8; 1 # 8]%Q 0 [10; 13; 40; 30; 10; 13]%Q 100 = 2 /\
  bestAnchor [0; 1 # 2; 1 # 2; 1 # 2; 1 # 4]%Q 0 [10; 13; 40; 30; 10; 13]%Q 100 = 1.
Proof. split; [repeat constructor|]. split; vm_compute; reflexivity. Qed.

Lemma findInt_spec l e : forall n, findInt l e = Some n <-> nth_error l n = Some e /\ forall m, m < n -> nth_error l m <> Some e.
Proof.
  induction l as [|a l IH]; intro n; cbn [findInt].
  - split; [discriminate|]. intros [H _]. destruct n; discriminate.
  - destruct (Z.eqb_spec a e) as [->|Ne].
    + split.
      * intro H. injection H as <-. split; [reflexivity|]. intros; lia.
      * intros [H1 H2]. destruct n as [|n]; [reflexivity|]. exfalso. apply (H2 0); [lia|reflexivity].
    + destruct (findInt l e) as [k|].
      * split.
        -- intro H. injection H as <-. destruct (proj1 (IH k) eq_refl) as [A B]. split; [exact A|].
           intros [|m] Hm; [cbn; congruence|]. apply B. lia.
        -- intros [H1 H2]. destruct n as [|n]; [cbn in H1; congruence|]. assert (X : Some k = Some n).
           { apply IH. split; [exact H1|]. intros m Hm. apply (H2 (S m)). lia. }
           congruence.
      * split; [discriminate|]. intros [H1 H2]. destruct n as [|n]; [cbn in H1; congruence|].
        assert (X : None = Some n). { apply IH. split; [exact H1|]. intros m Hm. apply (H2 (S m)). lia. } discriminate.
Qed.
(** A target is used if the anchor chosen is among the masks; its place there is the first,
    and its cell is where its centre lies. *)
Theorem C87_anchor_cell : forall target j an ms img grid n gi gj,
  bestAnchors target j an ms img grid = Some (n, gi, gj) <->
  (nth_error ms n = Some (Z.of_nat (bestAnchor target j an img)) /\
   (forall m, m < n -> nth_error ms m <> Some (Z.of_nat (bestAnchor target j an img)))) /\
  gi = trunc (nth (j + 1)%nat target 0 * inject_Z (Z.of_nat grid))%Q /\ gj = trunc (nth (j + 2)%nat target 0 * inject_Z (Z.of_nat grid))%Q.
Proof.
  intros. unfold bestAnchors. rewrite <- findInt_spec. unfold at0, qn.
  destruct (findInt ms (Z.of_nat (bestAnchor target j an img))) as [k|].
  - split.
    + intro H. injection H as -> <- <-. auto.
    + intros (H & -> & ->). injection H as ->. reflexivity.
  - split; [discriminate|]. intros (H & _). discriminate.
Qed.
Print Assumptions C87_anchor_cell.
Example C87_ex_cell : bestAnchors [0; 3 # 4; 1 # 3; 1 # 8; 1 # 8]%Q 0 [10; 13; 40; 30; 10; 13]%Q [1; 2]%Z 100 4 = Some (1, 3%Z, 1%Z) /\
  bestAnchors [0; 3 # 4; 1 # 3; 1 # 8; 1 # 8]%Q 0 [10; 13; 40; 30; 10; 13]%Q [1; 0]%Z 100 4 = None.
Proof. split; vm_compute; reflexivity. Qed.

(** ** The training pass as a whole *)
Lemma readTargets_ok t attrsA G : ysh t = [1; S attrsA; G; G] -> 0 < G -> forall is,
  (Forall (fun i => i < G * G) is -> readTargets t attrsA G is = Some (map (fun i => ydat t (attrsA * (G * G) + i)) is)) /\
  (forall i, In i is -> G * G <= i -> readTargets t attrsA G is = None).
Proof.
  intros E HG. induction is as [|i is [IH1 IH2]]; cbn [readTargets map].
  - split; [reflexivity|]. intros i [].
  - assert (AT : at4 t 0 attrsA (i / G) (i mod G) = if i <? G * G then Some (ydat t (attrsA * (G * G) + i)) else None).
    { unfold at4. rewrite E. replace (0 <? 1) with true by reflexivity. replace (attrsA <? S attrsA) with true by (symmetry; apply Nat.ltb_lt; lia).
      replace (i mod G <? G) with true by (symmetry; apply Nat.ltb_lt, Nat.mod_upper_bound; lia). cbn [andb]. rewrite andb_true_r.
      destruct (Nat.ltb_spec i (G * G)) as [L|L].
      - replace (i / G <? G) with true by (symmetry; apply Nat.ltb_lt, Nat.div_lt_upper_bound; lia).
        do 2 f_equal. pose proof (Nat.div_mod_eq i G). nia.
      - replace (i / G <? G) with false; [reflexivity|]. symmetry. apply Nat.ltb_ge, Nat.div_le_lower_bound; lia. }
    rewrite AT. split.
    + intro F. inversion F as [|? ? Hi F']; subst. apply Nat.ltb_lt in Hi. rewrite Hi, (IH1 F'). reflexivity.
    + intros k [->|K] Hk.
      * apply Nat.ltb_ge in Hk. rewrite Hk. reflexivity.
      * rewrite (IH2 k K Hk). destruct (i <? G * G); reflexivity.
Qed.
(** The first number of the last channel counts the numbers of the targets after it; one
    that does not fit into the channel is refused, a negative one is a crash. Otherwise the
    losses are those of the regrouped input and the boxes of the input regrouped twice. *)
Theorem C87_training_output : forall sg ex lg op t G,
  let A := length (masks op) in let attrs := 5 + numClasses op in let cells := G * G * A * attrs in
  masks_ok op -> 0 < G -> ysh t = [1; S (attrs * A); G; G] ->
  let N := trunc (ydat t cells) in
  let target := map (fun i => ydat t (cells + i)) (seq 1 (Z.to_nat N)) in
  let raw := map (fun k => ydat t (moved G A attrs k)) (seq 0 cells) in
  let boxes := map (fun k => decoded sg ex (dimensions op / G) G A (firstn (A * 2) (anchors op)) (k / attrs) (k mod attrs)
                               (ydat t (moved G A attrs (moved G A attrs k)))) (seq 0 cells) in
  ((N < 0)%Z -> yoloTrain sg ex lg op t = Panic) /\ ((Z.of_nat (G * G) <= N)%Z -> yoloTrain sg ex lg op t = Err) /\
  ((0 <= N < Z.of_nat (G * G))%Z ->
     (prepareOutput lg raw boxes target (anchors op) (masks op) (numClasses op) (dimensions op) G (ignoreTresh op) = None ->
      yoloTrain sg ex lg op t = Panic) /\
     forall out, prepareOutput lg raw boxes target (anchors op) (masks op) (numClasses op) (dimensions op) G (ignoreTresh op) = Some out ->
       exists y, yoloTrain sg ex lg op t = Ok y /\ ysh y = [1; G * G * A; attrs] /\ length out = cells /\
         forall k, k < cells -> ydat y k = nth k out 0%Q).
Proof.
  intros sg ex lg op t G A attrs cells (NE & F & L) HG E N target raw boxes.
  assert (HA : 0 < A) by (unfold A; destruct (masks op); [congruence|cbn; lia]).
  assert (CE : attrs * A * (G * G) = cells) by (unfold cells; lia).
  pose proof (current_ok (anchors op) (masks op) 0 F ltac:(lia)) as C. cbn [Nat.mul skipn] in C. fold A in C.
  assert (D : ysh (dropChannel t) = [1; attrs * A; G; G]) by (unfold dropChannel; rewrite E; cbn [ysh]; replace (S (attrs * A) - 1) with (attrs * A) by lia; reflexivity).
  assert (M : forall k, k < cells -> ydat (dropChannel t) k = ydat t k). { intros k Hk. apply (dropChannel_at t (attrs * A) G G k E). lia. }
  assert (MV : forall k, k < cells -> moved G A attrs k < cells) by (intros k Hk; rewrite <- CE in *; apply moved_lt; exact Hk).
  assert (R0 : at4 t 0 (attrs * A) 0 0 = Some (ydat t cells)).
  { unfold at4. rewrite E. replace (attrs * A <? S (attrs * A)) with true by (symmetry; apply Nat.ltb_lt; lia).
    replace (0 <? G) with true by (symmetry; apply Nat.ltb_lt; lia). replace (0 <? 1) with true by reflexivity. cbn [andb]. do 2 f_equal. lia. }
  destruct (readTargets_ok t (attrs * A) G E HG (seq 1 (Z.to_nat N))) as [RT1 RT2]. rewrite CE in RT1. fold target in RT1.
  set (inp := Yt [1; G * G * A; attrs] (fun k => ydat (dropChannel t) (moved G A attrs k))).
  assert (TI : trainInput op t 1 G = (inp, true)) by (unfold trainInput; fold A; fold attrs; rewrite regroup_ok by (rewrite D, prodn4; lia); reflexivity).
  destruct (evaluate_ok sg ex inp (dimensions op / G) G attrs A (firstn (A * 2) (anchors op)) ltac:(unfold attrs; lia) HA) as (bx & Ev & Sh & V).
  { unfold inp. cbn [ysh]. rewrite prodn3. lia. }
  assert (TB : trainBoxes sg ex op t 1 G (firstn (A * 2) (anchors op)) = (bx, Ok tt)) by (unfold trainBoxes; rewrite TI; cbn [fst]; exact Ev).
  assert (EI : entries inp = raw).
  { unfold entries, raw. unfold inp at 2. cbn [ysh]. rewrite prodn3. replace (1 * (G * G * A) * attrs) with cells by (unfold cells; lia).
    apply map_ext_in. intros k K. apply in_seq in K. unfold inp. cbn [ydat]. apply M, MV. lia. }
  assert (EB : entries bx = boxes).
  { unfold entries, boxes. rewrite Sh, prodn3. replace (1 * (G * G * A) * attrs) with cells by (unfold cells; lia).
    apply map_ext_in. intros k K. apply in_seq in K.
    pose proof (Nat.div_mod_eq k attrs) as Dk. pose proof (Nat.mod_upper_bound k attrs ltac:(unfold attrs; lia)) as Bk.
    assert (Rk : k / attrs < G * G * A) by (apply Nat.div_lt_upper_bound; [unfold attrs; lia|unfold cells in K; lia]).
    pose proof (V _ _ Rk Bk) as Vk. replace (k / attrs * attrs + k mod attrs) with k in Vk by lia. rewrite Vk.
    unfold inp. cbn [ydat]. rewrite M by (apply MV, MV; lia). reflexivity. }
  assert (U : yoloTrain sg ex lg op t =
    if (N <? 0)%Z then Panic else match readTargets t (attrs * A) G (seq 1 (Z.to_nat N)) with
      | None => Err | Some target =>
        match prepareOutput lg raw boxes target (anchors op) (masks op) (numClasses op) (dimensions op) G (ignoreTresh op) with
        | None => Panic | Some out => Ok (Yt [1; G * G * A; attrs] (fun k => at0 out k)) end end).
  { unfold yoloTrain. rewrite E. replace (S (attrs * A) - 1) with (attrs * A) by lia. rewrite R0.
    replace (Nat.eqb G 0) with false by (symmetry; apply Nat.eqb_neq; lia). rewrite C. cbn [bind]. fold N.
    destruct (N <? 0)%Z; [reflexivity|]. destruct (readTargets t (attrs * A) G (seq 1 (Z.to_nat N))) as [tg|]; [|reflexivity].
    rewrite TI, TB. cbn [negb snd fst bind]. rewrite EI, EB. reflexivity. }
  rewrite U. split; [|split].
  - intro X. apply Z.ltb_lt in X. rewrite X. reflexivity.
  - intro X. replace (N <? 0)%Z with false by (symmetry; apply Z.ltb_ge; lia).
    rewrite (RT2 (Z.to_nat N)); [reflexivity| |lia]. apply in_seq. assert (0 < G * G) by nia. lia.
  - intro X. replace (N <? 0)%Z with false by (symmetry; apply Z.ltb_ge; lia).
    rewrite RT1 by (apply Forall_forall; intros i Ii; apply in_seq in Ii; lia). split.
    + intro P. rewrite P. reflexivity.
    + intros out P. rewrite P. eexists. split; [reflexivity|]. split; [reflexivity|]. split; [|reflexivity].
      rewrite (proj1 (C87_elsewhere _ _ _ _ _ _ _ _ _ _ _ P)). unfold boxes. rewrite map_length, seq_length. reflexivity.
Qed.
Print Assumptions C87_training_output.
Example C87_ex_training : let op := Yolo [10; 13]%Q [0]%Z (1 # 2) 32 0 in
  let t n := Yt [1; 6; 3; 3] (fun k => if Nat.eqb k 45 then n else if Nat.ltb 45 k then nth (k - 46) exTarget 0%Q else inject_Z (Z.of_nat k) / 10)%Q in
  masks_ok op /\ trunc (ydat (t 5%Q) (3 * 3 * 1 * 5)) = 5%Z /\
  (exists y, yoloTrain exSg exSg exLg op (t 5%Q) = Ok y /\ ysh y = [1; 9; 5]) /\
  yoloTrain exSg exSg exLg op (t 9%Q) = Err /\ yoloTrain exSg exSg exLg op (t (-1)%Q) = Panic /\ yoloTrain exSg exSg exLg op (t 4%Q) = Panic.
Proof. cbv zeta. split; [repeat split; [discriminate|repeat constructor|cbn; lia]|]. split; [reflexivity|]. split; [eexists; split; vm_compute; reflexivity|]. repeat split; vm_compute; reflexivity. Qed.
