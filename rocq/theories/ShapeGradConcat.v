(** Proofs for ShapeGradProps.v: Concat, its gradients, and Unconcat. *)
From Coq Require Import List ZArith Bool Lia Ring.
From Verif Require Import Sums BroadcastModel BroadcastSpec BroadcastProofs ShapeGradModel ShapeGradSpec ShapeGradProofs ShapeGradSlice.
Import ListNotations.
Local Open Scope Z_scope.

Definition shiftAt (k : nat) (o : Z) (idx : list Z) : list Z := setZ idx k (nth k idx 0 + o).
Lemma shift_app p i r o : shiftAt (length p) o (p ++ i :: r) = p ++ i + o :: r.
Proof. unfold shiftAt. rewrite nth_app, set_app. reflexivity. Qed.
Lemma shift_shift k a b idx : shiftAt k a (shiftAt k b idx) = shiftAt k (b + a) idx.
Proof.
  unfold shiftAt. revert k. induction idx as [|i idx IH]; intros [|k]; cbn [setZ nth]; try reflexivity; f_equal; [lia|apply IH].
Qed.
Lemma set_set l k a b : setZ (setZ l k a) k b = setZ l k b.
Proof. revert k. induction l as [|x l IH]; intros [|k]; cbn [setZ]; try reflexivity. f_equal. apply IH. Qed.
Lemma set_self l k : setZ l k (nth k l 0) = l.
Proof. revert k. induction l as [|x l IH]; intros [|k]; cbn [setZ nth]; try reflexivity. f_equal. apply IH. Qed.
Lemma nth_set_same l k v : (k < length l)%nat -> nth k (setZ l k v) 0 = v.
Proof. intro H. rewrite nth_set, Nat.eqb_refl by exact H. reflexivity. Qed.
Lemma remove_same l : forall m k, removeAt l k = removeAt m k -> length l = length m -> (k < length l)%nat -> m = setZ l k (nth k m 0).
Proof.
  induction l as [|x l IH]; intros [|y m] [|k] E L H; cbn [length] in *; try lia; cbn [removeAt setZ nth] in *.
  - congruence.
  - injection E as -> E. f_equal. apply IH; [exact E|lia|lia].
Qed.
Lemma total_app P R : totalSize (P ++ R) = totalSize P * totalSize R.
Proof. rewrite !total_product. apply product_app. Qed.
Lemma ravel_unit P R : forall p r, length p = length P -> ravel (P ++ 1 :: R) (p ++ 0 :: r) = ravel (P ++ R) (p ++ r).
Proof.
  induction P as [|d P IH]; intros [|i p] r L; cbn [length] in L; try lia; cbn [app ravel].
  - lia.
  - rewrite IH by lia. rewrite !total_app. unfold totalSize. cbn [fold_right]. rewrite Z.mul_1_l. reflexivity.
Qed.
Lemma keepDims_app P R : keepDims (P ++ R) (length P) = P ++ 1 :: R.
Proof.
  unfold keepDims. rewrite <- app_assoc. rewrite firstn_app. replace (length P + 1 - length P)%nat with 1%nat by lia. rewrite firstn_all2 by lia.
  rewrite skipn_app, Nat.sub_diag, skipn_all. cbn [skipn app]. rewrite app_length. replace (length P + length (R ++ [(-1)%Z]) - (length P + 1))%nat with (length R) by (rewrite app_length; cbn [length]; lia).
  rewrite (firstn_app (length R) R), Nat.sub_diag, firstn_all. cbn [firstn]. rewrite app_nil_r. destruct R as [|x R]; cbn [app firstn].
  - rewrite app_nil_r. apply set_app.
  - rewrite <- app_assoc. cbn [app]. rewrite set_app. reflexivity.
Qed.

Section Co.
Context {A : Type} {CR : CRing A}.
Add Ring Aring : (@cr_th A CR).
Local Open Scope cr_scope.
Notation tens := (@tens A).

Lemma over_split s : forall k n m (F : list Z -> A), (k < length s)%nat -> (0 <= n)%Z -> (0 <= m)%Z ->
  over (setZ s k (n + m)%Z) F = over (setZ s k n) F + over (setZ s k m) (fun idx => F (shiftAt k n idx)).
Proof.
  induction s as [|d s IH]; intros [|k] n m F Hk Hn Hm; cbn [length] in Hk; try lia; cbn [setZ over].
  - rewrite Z2Nat.inj_add by lia. rewrite sum_split. f_equal. apply sum_ext. intros i Hi. apply over_ext. intros idx _. unfold shiftAt. cbn [setZ nth]. do 2 f_equal. lia.
  - rewrite <- sum_add. apply sum_ext. intros i Hi. rewrite IH by lia. reflexivity.
Qed.
Fixpoint parts (k : nat) (start : Z) (ts hs : list tens) (G : list Z -> A) : Prop :=
  match ts, hs with
  | [], [] => True
  | t :: ts', h :: hs' => shp h = shp t /\ (forall idx, inside (shp t) idx -> at_ h idx = G (shiftAt k start idx)) /\ parts k (start + nth k (shp t) 0)%Z ts' hs' G
  | _, _ => False
  end.
Definition fit (s : list Z) (k : nat) (t : tens) : Prop := shp t = setZ s k (nth k (shp t) 0%Z) /\ (1 <= nth k (shp t) 0)%Z.
Definition total (k : nat) (ts : list tens) : Z := fold_right (fun t a => nth k (shp t) 0 + a)%Z 0%Z ts.
Lemma total_nonneg s k ts : Forall (fit s k) ts -> (0 <= total k ts)%Z.
Proof. induction 1 as [|t ts [_ H] _ IH]; unfold total in *; cbn [fold_right]; lia. Qed.
Lemma concat_ip s k ts : forall hs start G, (k < length s)%nat -> Forall (fit s k) ts -> parts k start ts hs G ->
  over (setZ s k (total k ts)) (fun idx => concatAt k ts idx * G (shiftAt k start idx)) = ips ts hs.
Proof.
  induction ts as [|t ts IH]; intros [|h hs] start G Hk HF HP; cbn [parts] in HP; try contradiction; cbn [total fold_right ips concatAt].
  - apply over_zero. intros. ring.
  - inversion_clear HF as [|? ? [Ht Hn] HF']. destruct HP as [Sh [Vh HP]]. change (fold_right (fun t0 a => (nth k (shp t0) 0 + a)%Z) 0%Z ts) with (total k ts). pose proof (total_nonneg _ _ _ HF').
    rewrite over_split by (try exact Hk; lia). f_equal.
    + rewrite <- Ht, ip_over. apply over_ext. intros idx Hi. rewrite Vh by exact Hi. apply inside_nth in Hi. destruct Hi as [_ Hi]. assert (K : (k < length (shp t))%nat) by (rewrite Ht, len_set; exact Hk). specialize (Hi k K).
      destruct (Z.ltb_spec (nth k idx 0%Z) (nth k (shp t) 0%Z)); [reflexivity|lia].
    + rewrite <- (IH hs (start + nth k (shp t) 0)%Z G Hk HF' HP). apply over_ext. intros idx Hi. rewrite shift_shift. apply inside_nth in Hi. destruct Hi as [Li Hi]. rewrite len_set in Li. rewrite len_set in Hi. specialize (Hi k Hk). rewrite nth_set_same in Hi by exact Hk.
      assert (N : nth k (shiftAt k (nth k (shp t) 0%Z) idx) 0%Z = (nth k idx 0 + nth k (shp t) 0)%Z) by (unfold shiftAt; apply nth_set_same; lia). rewrite N.
      destruct (Z.ltb_spec (nth k idx 0 + nth k (shp t) 0)%Z (nth k (shp t) 0%Z)); [lia|]. f_equal; [f_equal|f_equal; f_equal; lia].
      replace (nth k idx 0 + nth k (shp t) 0 - nth k (shp t) 0)%Z with (nth k idx 0%Z) by lia. unfold shiftAt. rewrite set_set. apply set_self.
Qed.
Lemma fit_split s k (t : tens) : (k < length s)%nat -> fit s k t -> exists P d R, s = P ++ d :: R /\ length P = k /\ shp t = P ++ nth k (shp t) 0%Z :: R.
Proof.
  intros Hk [Ht _]. destruct (split_nth s k Hk) as [P [d [R [-> LP]]]]. exists P, d, R. split; [reflexivity|]. split; [exact LP|]. rewrite Ht at 1. subst k. apply set_app.
Qed.
Lemma symdiff_parts s k D (grad : tens) : (k < length s)%nat -> positive s -> shp grad = setZ s k D -> forall ts start, Forall (fit s k) ts -> (0 <= start)%Z -> (start + total k ts <= D)%Z ->
  exists hs, concatSymDiff k start (map (@shp A) ts) grad = Ok hs /\ parts k start ts hs (at_ grad).
Proof.
  intros Hk HS Sg. induction ts as [|t ts IH]; intros start HF H0 HT; cbn [map concatSymDiff].
  - exists []. split; [reflexivity|exact I].
  - inversion_clear HF as [|? ? Ht HF']. unfold total in HT. cbn [fold_right] in HT. change (fold_right (fun t0 a => (nth k (shp t0) 0 + a)%Z) 0%Z ts) with (total k ts) in HT. pose proof (total_nonneg _ _ _ HF') as HN. pose proof Ht as [Ht1 Ht2].
    destruct (fit_split s k t Hk Ht) as [P [d [R [Es [LP St]]]]]. set (n := nth k (shp t) 0%Z) in *.
    rewrite St. rewrite nth_error_app2 by lia. rewrite LP, Nat.sub_diag. cbn [nth_error].
    assert (SG : shp grad = P ++ D :: R) by (rewrite Sg, Es; subst k; apply set_app).
    destruct (slice_split grad P D R start (n + start)%Z SG ltac:(lia) ltac:(lia)) as [y [Ey Hy]]. rewrite <- LP, Ey. cbn [bind].
    destruct (IH (n + start)%Z HF' ltac:(lia) ltac:(lia)) as [hs [Eh Ph]]. rewrite LP.
    assert (Q : exists g', (if (n + start - start =? 1)%Z then reshape y (keepDims (shp y) k) else Ok y) = Ok g' /\ shp g' = shp t /\ forall idx, inside (shp t) idx -> at_ g' idx = at_ grad (shiftAt k start idx)).
    { destruct (Z.eqb_spec (n + start - start)%Z 1) as [W|W].
      - destruct Hy as [Sy Vy]. assert (En : n = 1%Z) by lia. rewrite Sy, <- LP, keepDims_app. assert (HP : totalSize (P ++ R) = totalSize (P ++ 1%Z :: R)) by (rewrite !total_app; unfold totalSize; cbn [fold_right]; lia).
        assert (HQ : Forall (fun x => (0 <= x)%Z) (P ++ 1%Z :: R)).
        { rewrite Es in HS. apply Forall_app in HS. destruct HS as [HS1 HS2]. inversion_clear HS2 as [|? ? _ HS3]. apply Forall_app. split; [revert HS1; apply Forall_impl; intros; lia|]. constructor; [lia|]. revert HS3. apply Forall_impl. intros; lia. }
        eexists. split; [apply reshape_plain; [exact HQ|right; rewrite Sy; exact HP]|]. cbn [shp at_]. split; [rewrite St, En; reflexivity|]. intros idx Hi. rewrite St in Hi. apply inside_split in Hi. destruct Hi as [p [i [r [-> [Hp [Hi Hr]]]]]]. pose proof (inside_len _ _ Hp) as Lp.
        assert (i = 0%Z) by lia. subst i. rewrite ravel_unit by exact Lp. rewrite Sy, unravel_ravel by (apply Forall2_app; assumption). rewrite Vy by exact Lp. rewrite <- Lp, shift_app. reflexivity.
      - destruct Hy as [Sy Vy]. exists y. split; [reflexivity|]. split; [rewrite Sy, St; do 2 f_equal; lia|]. intros idx Hi. rewrite St in Hi. apply inside_split in Hi. destruct Hi as [p [i [r [-> [Hp [Hi Hr]]]]]]. pose proof (inside_len _ _ Hp) as Lp. rewrite Vy by exact Lp. rewrite <- LP, <- Lp, shift_app. reflexivity. }
    destruct Q as [g' [-> [Sg' Vg']]]. cbn [bind]. rewrite Eh. cbn [bind]. exists (g' :: hs). split; [reflexivity|]. cbn [parts]. split; [exact Sg'|]. split; [exact Vg'|]. rewrite Z.add_comm. exact Ph.
Qed.

(** ** The call *)
Lemma concatShape_ok P R : forall (ts : list tens) d, Forall (fun t => exists n, shp t = P ++ n :: R /\ (1 <= n)%Z) ts ->
  concatShape (length P) (P ++ d :: R) (map (@shp A) ts) = Ok (P ++ (d + total (length P) ts)%Z :: R).
Proof.
  induction ts as [|t ts IH]; intros d H; cbn [map concatShape total fold_right]; [rewrite Z.add_0_r; reflexivity|]. inversion_clear H as [|? ? [n [Et Hn]] H'].
  rewrite Et, !remove_app, eqShape_refl, !app_length. cbn [length andb]. rewrite Nat.eqb_refl, !nth_app, set_app, IH by exact H'. do 3 f_equal. unfold total. lia.
Qed.
Lemma common_fit P R d (ts : list tens) : Forall (fun t => exists n, shp t = P ++ n :: R /\ (1 <= n)%Z) ts -> Forall (fit (P ++ d :: R) (length P)) ts.
Proof. apply Forall_impl. intros t [n [E Hn]]. unfold fit. rewrite E, nth_app, set_app. auto. Qed.
Lemma placed_ok s k (y : tens) (ts : list tens) : forall start, (k < length s)%nat -> Forall (fit s k) ts -> nth k (shp y) 0%Z = (start + total k ts)%Z ->
  (forall idx, inside (setZ s k (total k ts)) idx -> at_ y (shiftAt k start idx) = concatAt k ts idx) -> placed k start ts y.
Proof.
  induction ts as [|t ts IH]; intros start Hk HF HN HY; cbn [placed].
  - unfold total in HN. cbn [fold_right] in HN. lia.
  - inversion_clear HF as [|? ? Ht HF']. unfold total in HN, HY. cbn [fold_right] in HN, HY. change (fold_right (fun t0 a => (nth k (shp t0) 0 + a)%Z) 0%Z ts) with (total k ts) in *. pose proof (total_nonneg _ _ _ HF') as HT. pose proof Ht as [Ht1 Ht2].
    destruct (fit_split s k t Hk Ht) as [P [d [R [Es [LP St]]]]]. set (n := nth k (shp t) 0%Z) in *. split.
    + intros p i r Lp Hi. apply coords_in in Hi. rewrite St in Hi. apply inside_split in Hi. destruct Hi as [p' [i' [r' [E [Hp [Hi Hr]]]]]]. pose proof (inside_len _ _ Hp) as Lp'.
      assert (Q : p = p' /\ i = i' /\ r = r').
      { clear - E Lp Lp' LP. assert (HL : length p = length p') by lia. clear Lp Lp' LP. revert p' HL E. induction p as [|a p IHp]; intros [|b p'] HL E; try discriminate; cbn [app] in E; [injection E as -> ->; auto|]. injection E as -> E. destruct (IHp p' ltac:(cbn [length] in HL; lia) E) as [-> [-> ->]]. auto. }
      destruct Q as [<- [<- <-]]. rewrite <- Lp in HY. rewrite <- (shift_app p i r start). rewrite HY.
      * cbn [concatAt]. rewrite nth_app, Lp. destruct (Z.ltb_spec i (nth k (shp t) 0%Z)) as [K|K]; [reflexivity|fold n in K; lia].
      * rewrite Lp, <- LP, Es, set_app. rewrite <- LP in HT. apply inside_split. exists p, i, r. repeat split; auto; lia.
    + apply IH; [exact Hk|exact HF'|lia|]. intros idx Hi. assert (K := Hi). apply inside_nth in K. destruct K as [Li K]. rewrite len_set in *. specialize (K k Hk). rewrite nth_set_same in K by exact Hk.
      replace (start + n)%Z with (n + start)%Z by lia. rewrite <- shift_shift, HY.
      * cbn [concatAt]. fold n. assert (N : nth k (shiftAt k n idx) 0%Z = (nth k idx 0 + n)%Z) by (unfold shiftAt; apply nth_set_same; lia). rewrite N. destruct (Z.ltb_spec (nth k idx 0 + n)%Z n); [lia|].
        f_equal. unfold shiftAt. rewrite set_set. replace (nth k idx 0 + n - n)%Z with (nth k idx 0%Z) by lia. apply set_self.
      * rewrite Es in *. subst k. rewrite set_app in *. apply inside_split in Hi. destruct Hi as [p [i [r [-> [Hp [Hi Hr]]]]]]. pose proof (inside_len _ _ Hp) as Lp. rewrite <- Lp, shift_app. apply inside_split. exists p, (i + n)%Z, r. repeat split; auto; rewrite ?Lp; lia.
Qed.
Lemma concat_ok P R (ts : list tens) : ts <> [] -> Forall (fun t => exists n, shp t = P ++ n :: R /\ (1 <= n)%Z) ts ->
  concatApi (Z.of_nat (length P)) ts = Ok (Tn (P ++ total (length P) ts :: R) (concatAt (length P) ts)).
Proof.
  intros HN HF. destruct ts as [|t ts]; [contradiction|]. unfold concatApi. inversion HF as [|? ? [n [Et Hn]] HF']; subst.
  assert (K : forallb (fun u => Nat.eqb (length (shp u)) (length (shp t))) ts = true).
  { apply forallb_forall. intros u Hu. rewrite Forall_forall in HF'. destruct (HF' u Hu) as [m [Eu _]]. rewrite Eu, Et, !app_length. apply Nat.eqb_refl. }
  rewrite K. cbn [negb]. assert (L : length (shp t) = (length P + S (length R))%nat) by (rewrite Et, app_length; reflexivity).
  destruct (Nat.eqb_spec (length (shp t)) 0); [lia|]. destruct (Z.leb_spec (Z.of_nat (length (shp t))) (Z.of_nat (length P))); [lia|]. destruct (Z.ltb_spec (Z.of_nat (length P)) 0); [lia|].
  rewrite Nat2Z.id, Et, concatShape_ok by exact HF'. cbn [bind]. unfold total. cbn [fold_right]. rewrite Et, nth_app. reflexivity.
Qed.
(** ** The automatic gradient along the first axis *)
Lemma dodiff_ok R (od : tens) D : shp od = D :: R -> forall (ds : list tens) start, Forall (fun d => exists n, shp d = n :: R /\ (2 <= n)%Z) ds -> (0 <= start)%Z -> (start + total 0 ds <= D)%Z ->
  exists ds', concatDoDiff 0 start ds od = (ds', true) /\
    exists hs, parts 0 start ds hs (at_ od) /\ Forall2 (fun d' dh => shp d' = shp (fst dh) /\ forall idx, inside (shp d') idx -> at_ d' idx = at_ (fst dh) idx + at_ (snd dh) idx) ds' (combine ds hs).
Proof.
  intro SO. induction ds as [|d ds IH]; intros start HF H0 HT; cbn [concatDoDiff].
  - exists []. split; [reflexivity|]. exists []. split; [exact I|constructor].
  - inversion_clear HF as [|? ? [n [Ed Hn]] HF']. unfold total in HT. cbn [fold_right] in HT. change (fold_right (fun t0 a => (nth 0 (shp t0) 0 + a)%Z) 0%Z ds) with (total 0 ds) in HT.
    assert (N0 : (0 <= total 0 ds)%Z) by (apply (total_nonneg (1%Z :: R) 0); apply (common_fit [] R 1); revert HF'; apply Forall_impl; intros t [m [E Hm]]; exists m; split; [exact E|lia]).
    rewrite Ed. cbn [nth_error]. rewrite Ed in HT. cbn [nth] in HT.
    destruct (slice_split od [] D R start (n + start)%Z SO ltac:(lia) ltac:(lia)) as [st [Est Hst]]. cbn [length Z.of_nat] in Est. rewrite Est. destruct (Z.eqb_spec (n + start - start)%Z 1); [lia|]. destruct Hst as [Sst Vst]. cbn [app] in Sst, Vst.
    destruct (IH (n + start)%Z HF' ltac:(lia) ltac:(lia)) as [ds' [E' [hs [Hp HF2]]]]. rewrite E'.
    assert (SE : shp st = n :: R) by (rewrite Sst; f_equal; lia).
    assert (SQ : shapeEq (shp d) (shp st) = true).
    { rewrite Ed, SE. unfold shapeEq. clear; destruct R as [|x1 [|x2 R1]]; try apply eqShape_refl. }
    unfold addInto. rewrite SQ. eexists. split; [reflexivity|]. exists (Tn (shp d) (fun idx => at_ od (shiftAt 0 start idx)) :: hs). split.
    + cbn [parts shp at_]. split; [reflexivity|]. split; [reflexivity|]. rewrite Ed. cbn [nth]. rewrite Z.add_comm. exact Hp.
    + cbn [combine]. constructor; [|exact HF2]. cbn [fst snd shp at_]. split; [reflexivity|]. intros idx Hi. rewrite SE, Ed in *. rewrite unravel_ravel by exact Hi. inversion Hi as [|? i ? r Hi1 Hi2]; subst. f_equal. exact (Vst [] i r eq_refl).
Qed.
(** ** Unconcat *)
Lemma cut_full P : forall slices R, Forall (fun d => (2 <= d)%Z) P -> cut (map (fun d => Some (0%Z, d)) P ++ slices) (P ++ R) = P ++ cut slices R.
Proof. induction P as [|d P IH]; intros slices R H; cbn [map app cut]; [reflexivity|]. inversion_clear H as [|? ? H1 H2]. destruct (Z.eqb_spec (d - 0)%Z 1); [lia|]. rewrite IH by exact H2. f_equal. lia. Qed.
Lemma read_full P : forall slices p r, Forall (fun d => (2 <= d)%Z) P -> length p = length P -> readAt (map (fun d => Some (0%Z, d)) P ++ slices) (p ++ r) = p ++ readAt slices r.
Proof. induction P as [|d P IH]; intros slices [|i p] r H L; cbn [length] in L; try lia; cbn [map app readAt]; [reflexivity|]. inversion_clear H as [|? ? H1 H2]. destruct (Z.eqb_spec (d - 0)%Z 1); [lia|]. rewrite IH by (try exact H2; lia). f_equal. lia. Qed.
Lemma fits_full P : forall slices R, Forall (fun d => (2 <= d)%Z) P -> fits slices R -> fits (map (fun d => Some (0%Z, d)) P ++ slices) (P ++ R).
Proof. induction P as [|d P IH]; intros slices R H HF; cbn [map app fits]; [exact HF|]. inversion_clear H as [|? ? H1 H2]. split; [lia|]. split; [lia|]. apply IH; assumption. Qed.
Lemma slices_of (f : Z * Z) (k : nat) (P : list Z) (d : Z) (R : list Z) : k = length P ->
  map (fun p => Some (if Nat.eqb (fst p) k then f else (0%Z, snd p))) (combine (seq 0 (length (P ++ d :: R))) (P ++ d :: R)) =
  map (fun x => Some (0%Z, x)) P ++ Some f :: map (fun x => Some (0%Z, x)) R.
Proof.
  intros ->. assert (G : forall P b k, k = (b + length P)%nat -> map (fun p => Some (if Nat.eqb (fst p) k then f else (0%Z, snd p))) (combine (seq b (length (P ++ d :: R))) (P ++ d :: R)) = map (fun x => Some (0%Z, x)) P ++ Some f :: map (fun x => Some (0%Z, x)) R).
  { clear. induction P as [|x P IH]; intros b k ->; cbn [app length seq combine map fst snd].
    - rewrite Nat.add_0_r, Nat.eqb_refl. f_equal. assert (G : forall R c, (b < c)%nat -> map (fun p => Some (if Nat.eqb (fst p) b then f else (0%Z, snd p))) (combine (seq c (length R)) R) = map (fun x => Some (0%Z, x)) R).
      { clear. induction R as [|y R IH]; intros c H; cbn [length seq combine map fst snd]; [reflexivity|]. destruct (Nat.eqb_spec c b); [lia|]. rewrite IH by lia. reflexivity. }
      apply G. lia.
    - destruct (Nat.eqb_spec b (b + S (length P))); [lia|]. f_equal. apply IH. lia. }
  apply G. reflexivity.
Qed.
Lemma unconcat_loop (a : tens) P d R w : shp a = P ++ d :: R -> Forall (fun x => (2 <= x)%Z) P -> Forall (fun x => (2 <= x)%Z) R -> (2 <= w)%Z ->
  forall b start, (0 <= start)%Z -> (start + w * Z.of_nat b <= d)%Z ->
  exists l, unconcatLoop a (length P) w start b = Ok l /\ length l = b /\ Forall (fun t => shp t = P ++ w :: R) l /\
    forall p i r, inside P p -> inside R r -> (0 <= i < w * Z.of_nat b)%Z -> concatAt (length P) l (p ++ i :: r) = at_ a (p ++ (i + start)%Z :: r).
Proof.
  intros Sa HP HR Hw. induction b as [|b IH]; intros start H0 HT; cbn [unconcatLoop].
  - exists []. split; [reflexivity|]. split; [reflexivity|]. split; [constructor|]. intros; lia.
  - rewrite Sa, (slices_of (start, (start + w)%Z) (length P) P d R eq_refl).
    assert (NE : shp a <> []) by (rewrite Sa; destruct P; discriminate).
    assert (FT : fits (map (fun x => Some (0%Z, x)) P ++ Some (start, (start + w)%Z) :: map (fun x => Some (0%Z, x)) R) (shp a)).
    { rewrite Sa. apply fits_full; [exact HP|]. cbn [fits]. split; [lia|]. split; [lia|]. pose proof (fits_full R [] [] HR I) as K. rewrite !app_nil_r in K. exact K. }
    destruct (sliceApi_ok a (map (fun x => Some (0%Z, x)) P ++ Some (start, (start + w)%Z) :: map (fun x => Some (0%Z, x)) R) NE) as [[_ [y [Ey [Sy Vy]]]]|[K _]]; [|exfalso; apply K; exact FT]. rewrite Ey. cbn [bind].
    destruct (IH (start + w)%Z ltac:(lia) ltac:(lia)) as [l [El [Ll [Hl Vl]]]]. rewrite El. cbn [bind].
    assert (CR0 : cut (map (fun x => Some (0%Z, x)) R) R = R) by (pose proof (cut_full R [] [] HR) as K; rewrite !app_nil_r in K; cbn [cut] in K; rewrite ?app_nil_r in K; exact K).
    rewrite Sa, cut_full in Sy by exact HP. cbn [cut] in Sy. destruct (Z.eqb_spec (start + w - start)%Z 1); [lia|]. rewrite CR0 in Sy. replace (start + w - start)%Z with w in Sy by lia.
    exists (y :: l). split; [reflexivity|]. split; [cbn [length]; lia|]. split; [constructor; assumption|]. intros p i r Hp Hr Hi. pose proof (inside_len _ _ Hp) as Lp. pose proof (inside_len _ _ Hr) as Lr. cbn [concatAt]. rewrite Sy, nth_app. assert (N : nth (length P) (p ++ i :: r) 0%Z = i) by (rewrite <- Lp; apply nth_app). rewrite !N.
    destruct (Z.ltb_spec i w).
    + rewrite Vy by (rewrite Sy; apply inside_split; exists p, i, r; repeat split; auto; lia). rewrite read_full by (try exact HP; exact Lp). cbn [readAt]. destruct (Z.eqb_spec (start + w - start)%Z 1); [lia|]. pose proof (read_full R [] r [] HR Lr) as K. cbn [readAt] in K. rewrite !app_nil_r in K. rewrite K. reflexivity.
    + rewrite <- Lp, set_app, Lp. rewrite Vl by (try assumption; lia). do 3 f_equal. lia.
Qed.
End Co.
