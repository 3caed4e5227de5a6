(** Proofs for ShapeGradProps.v: Sum, Repeat and the gradient of Broadcast. *)
From Coq Require Import List ZArith Bool Lia Ring Sorted.
From Verif Require Import Sums BroadcastModel BroadcastSpec BroadcastProofs NodeShapeModel ShapeGradModel ShapeGradSpec ShapeGradProofs ShapeGradSlice ShapeGradConcat.
Import ListNotations.
Local Open Scope Z_scope.

(** ** Dropping axes *)
Lemma drop_gen axes l : forall b, map snd (filter (fun p => negb (existsb (Z.eqb (fst p)) axes)) (combine (map Z.of_nat (seq b (length l))) l)) = without axes (Z.of_nat b) l.
Proof.
  induction l as [|x l IH]; intro b; cbn [length seq map combine filter without fst]; [reflexivity|].
  destruct (existsb (Z.eqb (Z.of_nat b)) axes); cbn [negb map snd]; rewrite IH; replace (Z.of_nat (S b)) with (Z.of_nat b + 1) by lia; reflexivity.
Qed.
Lemma drop_without axes l : dropAxes axes l = without axes 0 l.
Proof. apply (drop_gen axes l 0). Qed.
Lemma without_none axes l : forall k, (forall a, In a axes -> a < k) -> without axes k l = l.
Proof.
  induction l as [|x l IH]; intros k H; cbn [without]; [reflexivity|]. destruct (existsb (Z.eqb k) axes) eqn:E.
  - apply existsb_exists in E. destruct E as [a [Ha Ea]]. apply Z.eqb_eq in Ea. subst a. specialize (H k Ha). lia.
  - rewrite IH; [reflexivity|]. intros a Ha. specialize (H a Ha). lia.
Qed.
Lemma existsb_app_one axes a k : existsb (Z.eqb k) (axes ++ [a]) = existsb (Z.eqb k) axes || (k =? a).
Proof. rewrite existsb_app. cbn [existsb]. rewrite orb_false_r. reflexivity. Qed.
Lemma without_step axes a l : (forall b, In b axes -> b < a) -> forall k, k <= a -> without axes k (without [a] k l) = without (axes ++ [a]) k l.
Proof.
  intro H. induction l as [|x l IH]; intros k Hk; cbn [without]; [reflexivity|]. rewrite existsb_app_one. cbn [existsb]. rewrite orb_false_r. destruct (Z.eqb_spec k a) as [->|N].
  - rewrite orb_true_r. rewrite !without_none; [reflexivity|..].
    + intros b Hb. apply in_app_iff in Hb. destruct Hb as [Hb|[<-|[]]]; [specialize (H b Hb)|]; lia.
    + intros b [<-|[]]. lia.
    + intros b Hb. apply H, Hb.
  - rewrite orb_false_r. cbn [without]. destruct (existsb (Z.eqb k) axes); rewrite IH by lia; reflexivity.
Qed.
Lemma without_inside axes s idx : inside s idx -> forall k, inside (without axes k s) (without axes k idx).
Proof. induction 1 as [|d i s idx Hd _ IH]; intro k; cbn [without]; [constructor|]. destruct (existsb (Z.eqb k) axes); [apply IH|]. constructor; [exact Hd|apply IH]. Qed.
Lemma without_positive axes s : positive s -> forall k, positive (without axes k s).
Proof. induction 1 as [|d s Hd _ IH]; intro k; cbn [without]; [constructor|]. destruct (existsb (Z.eqb k) axes); [apply IH|]. constructor; [exact Hd|apply IH]. Qed.
Lemma without_one_len a l : forall k, k <= a < k + Z.of_nat (length l) -> length (without [a] k l) = (length l - 1)%nat.
Proof.
  induction l as [|x l IH]; intros k H; cbn [length] in H; [lia|]. cbn [without existsb]. rewrite orb_false_r. destruct (Z.eqb_spec k a) as [->|N].
  - rewrite without_none; [cbn [length]; lia|]. intros b [<-|[]]. lia.
  - cbn [length]. rewrite IH by lia. lia.
Qed.
(** ** Shape inference of reductions *)
Lemma zeroed axes : forall s : list Z, Forall (fun a => 0 <= a < Z.of_nat (length s)) axes ->
  length (fold_left (fun s' d => setZ s' (Z.to_nat d) 0) axes s) = length s /\
  forall j, nth j (fold_left (fun s' d => setZ s' (Z.to_nat d) 0) axes s) 0 = if existsb (Z.eqb (Z.of_nat j)) axes then 0 else nth j s 0.
Proof.
  induction axes as [|a axes IH]; intros s H; cbn [fold_left existsb]; [auto|]. inversion_clear H as [|? ? H1 H2]. destruct (IH (setZ s (Z.to_nat a) 0) ltac:(rewrite len_set; exact H2)) as [I1 I2]. rewrite len_set in I1. split; [exact I1|]. intro j. rewrite I2, nth_set by lia.
  destruct (Nat.eqb_spec j (Z.to_nat a)), (Z.eqb_spec (Z.of_nat j) a); try lia; cbn [orb]; destruct (existsb _ _); reflexivity.
Qed.
Lemma filter_zeroed axes (s z : list Z) : positive s -> length z = length s -> forall k, (forall j, (j < length s)%nat -> nth j z 0 = if existsb (Z.eqb (k + Z.of_nat j)) axes then 0 else nth j s 0) ->
  filter (fun d => negb (d =? 0)) z = without axes k s.
Proof.
  revert z. induction s as [|d s IH]; intros [|x z] HP L k H; try discriminate; [reflexivity|]. cbn [filter without]. inversion_clear HP as [|? ? H1 H2]. pose proof (H 0%nat ltac:(cbn [length]; lia)) as H0. cbn [nth] in H0. change (Z.of_nat 0) with 0 in H0. rewrite Z.add_0_r in H0.
  rewrite (IH z H2 ltac:(cbn [length] in L; lia) (k + 1)).
  - destruct (existsb (Z.eqb k) axes); subst x; [reflexivity|]. destruct (Z.eqb_spec d 0); [lia|reflexivity].
  - intros j Hj. specialize (H (S j) ltac:(cbn [length]; lia)). cbn [nth] in H. rewrite H. replace (k + Z.of_nat (S j)) with (k + 1 + Z.of_nat j) by lia. reflexivity.
Qed.
Lemma infer_ok axes s : axes <> [] -> positive s -> Forall (fun a => 0 <= a < Z.of_nat (length s)) axes -> reductionInferShape axes s = Ok (without axes 0 s).
Proof.
  intros HN HP HF. unfold reductionInferShape. destruct axes as [|a axes]; [contradiction|]. set (ax := a :: axes) in *.
  destruct (existsb (fun d => Z.of_nat (length s) <=? d) ax) eqn:E1; [apply existsb_exists in E1; destruct E1 as [x [Hx E1]]; rewrite Forall_forall in HF; specialize (HF x Hx); lia|].
  destruct (existsb (fun d => d <? 0) ax) eqn:E2; [apply existsb_exists in E2; destruct E2 as [x [Hx E2]]; rewrite Forall_forall in HF; specialize (HF x Hx); lia|].
  destruct (zeroed ax s HF) as [L Z]. f_equal. apply filter_zeroed; [exact HP|exact L|]. intros j _. apply Z.
Qed.

Lemma iota_nodup n : NoDup (map Z.of_nat (seq 0 n)).
Proof. apply FinFun.Injective_map_NoDup; [intros x y E; lia|apply seq_NoDup]. Qed.
Lemma nodup_one (a : Z) : NoDup [a].
Proof. constructor; [intros []|constructor]. Qed.
Lemma length_without axes s : NoDup axes -> Forall (fun a => 0 <= a < Z.of_nat (length s)) axes -> (length (without axes 0 s) + length axes = length s)%nat.
Proof.
  intros ND HF. assert (Q : forall (l : list Z) k, NoDup axes -> length (without axes k l) = (length l - length (filter (fun a => ((k <=? a) && (a <? k + Z.of_nat (length l)))%Z) axes))%nat /\ (length (filter (fun a => ((k <=? a) && (a <? k + Z.of_nat (length l)))%Z) axes) <= length l)%nat).
      { clear. induction l as [|d l IH]; intros k ND; cbn [without length].
        - replace (filter _ axes) with (@nil Z); [split; reflexivity|]. symmetry. clear. induction axes as [|a axes IH]; cbn [filter]; [reflexivity|]. destruct (Z.leb_spec k a), (Z.ltb_spec a (k + Z.of_nat 0)); cbn [andb]; try lia; exact IH.
        - destruct (IH (k + 1) ND) as [I1 I2]. assert (E : length (filter (fun a => (k <=? a) && (a <? k + Z.of_nat (S (length l)))) axes) = (length (filter (fun a => ((k + 1 <=? a) && (a <? k + 1 + Z.of_nat (length l)))%Z) axes) + if existsb (Z.eqb k) axes then 1 else 0)%nat).
          { clear - ND. induction ND as [|a axes Hn _ IH]; cbn [filter existsb]; [reflexivity|]. destruct (Z.eqb_spec k a) as [<-|Na].
            - assert (X : existsb (Z.eqb k) axes = false) by (apply not_true_is_false; intro X; apply existsb_exists in X; destruct X as [b [Hb Eb]]; apply Z.eqb_eq in Eb; subst b; contradiction). rewrite X in IH. replace ((k <=? k) && (k <? k + Z.of_nat (S (length l)))) with true by (symmetry; apply andb_true_iff; split; [apply Z.leb_le|apply Z.ltb_lt]; lia). replace ((k + 1 <=? k) && (k <? k + 1 + Z.of_nat (length l))) with false by (symmetry; apply andb_false_iff; left; apply Z.leb_gt; lia). cbn [length orb]. lia.
            - cbn [orb]. assert (X : ((k <=? a) && (a <? k + Z.of_nat (S (length l)))) = ((k + 1 <=? a) && (a <? k + 1 + Z.of_nat (length l)))) by (destruct (Z.leb_spec k a), (Z.ltb_spec a (k + Z.of_nat (S (length l)))), (Z.leb_spec (k + 1) a), (Z.ltb_spec a (k + 1 + Z.of_nat (length l))); cbn [andb]; try reflexivity; exfalso; lia). rewrite X. destruct ((k + 1 <=? a) && (a <? k + 1 + Z.of_nat (length l))); cbn [length]; rewrite IH; reflexivity. }
          rewrite E. destruct (existsb (Z.eqb k) axes); cbn [length]; lia. }
      destruct (Q s 0 ND) as [Q1 Q2]. assert (F : filter (fun a => (0 <=? a) && (a <? 0 + Z.of_nat (length s))) axes = axes).
      { clear - HF. induction HF as [|a axes Ha _ IH]; cbn [filter]; [reflexivity|]. rewrite IH. replace ((0 <=? a) && (a <? 0 + Z.of_nat (length s))) with true by (symmetry; apply andb_true_iff; split; [apply Z.leb_le|apply Z.ltb_lt]; lia). reflexivity. }
      rewrite F in Q1, Q2. lia.
Qed.
Lemma shape_ok axes s : axes <> [] -> NoDup axes -> positive s -> Forall (fun a => 0 <= a < Z.of_nat (length s)) axes -> reductionShape axes s = Ok (without axes 0 s).
Proof.
  intros HN ND HP HF. unfold reductionShape. rewrite infer_ok by assumption. cbn [bind]. pose proof (length_without axes s ND HF) as L.
  assert (F : nodup Z.eq_dec (filter (fun axis => axis <? Z.of_nat (length s)) axes) = axes).
  { replace (filter _ axes) with axes; [apply nodup_fixed_point, ND|]. clear - HF. induction HF as [|a axes Ha _ IH]; cbn [filter]; [reflexivity|]. rewrite <- IH. replace (a <? Z.of_nat (length s)) with true by (symmetry; apply Z.ltb_lt; lia). reflexivity. }
  assert (LA : (0 < length axes)%nat) by (destruct axes; [contradiction|cbn [length]; lia]).
  unfold reductionRet. rewrite F. set (w := without axes 0 s) in *. unfold nodeShape.
  destruct (Nat.eqb_spec (length s) 1), (Nat.eqb_spec (length axes) 0), (Nat.eqb_spec (length axes) (length s)), (Nat.eqb_spec (length axes) (length s - 1)); cbn [orb fst snd]; try lia;
    try (assert (W : w = []) by (apply length_zero_iff_nil; lia); rewrite W; reflexivity).
  - replace (1 =? Z.of_nat (length w)) with true by (symmetry; apply Z.eqb_eq; lia). rewrite orb_true_r. reflexivity.
  - replace (Z.of_nat (length s) - Z.of_nat (length axes) =? Z.of_nat (length w)) with true by (symmetry; apply Z.eqb_eq; lia). rewrite orb_true_r. reflexivity.
Qed.
Lemma without_inj axes l : forall m k, length l = length m -> without axes k l = without axes k m -> forall j, existsb (Z.eqb (k + Z.of_nat j)) axes = false -> nth j l 0 = nth j m 0.
Proof.
  induction l as [|x l IH]; intros [|y m] k L E j Hj; try discriminate; [reflexivity|]. cbn [without] in E. cbn [length] in L. destruct j as [|j].
  - rewrite Z.add_0_r in Hj. rewrite Hj in E. cbn [nth]. congruence.
  - cbn [nth]. apply (IH m (k + 1)); [lia| |].
    + destruct (existsb (Z.eqb k) axes); [exact E|congruence].
    + rewrite <- Hj. do 2 f_equal. lia.
Qed.
Lemma ravel_without axes s idx : inside s idx -> forall k, (forall j, (j < length s)%nat -> existsb (Z.eqb (k + Z.of_nat j)) axes = true -> nth j s 0 = 1) ->
  ravel s idx = ravel (without axes k s) (without axes k idx) /\ totalSize s = totalSize (without axes k s).
Proof.
  induction 1 as [|d i s idx Hd Hs IH]; intros k H; cbn [without]; [split; reflexivity|].
  destruct (IH (k + 1)) as [I1 I2].
  { intros j Hj E. apply (H (S j)); [cbn [length]; lia|]. rewrite <- E. do 2 f_equal. lia. }
  pose proof (H 0%nat ltac:(cbn [length]; lia)) as H0. rewrite Z.add_0_r in H0. cbn [nth] in H0. destruct (existsb (Z.eqb k) axes).
  - specialize (H0 eq_refl). subst d. assert (i = 0) by lia. subst i. cbn [ravel]. change (totalSize (1 :: s)) with (1 * totalSize s). rewrite I2, I1 in *. lia.
  - cbn [ravel]. change (totalSize (d :: s)) with (d * totalSize s). change (totalSize (d :: without axes (k + 1) s)) with (d * totalSize (without axes (k + 1) s)). rewrite <- I2, <- I1. auto.
Qed.
Lemma total_without axes s : forall k, (forall j, (j < length s)%nat -> existsb (Z.eqb (k + Z.of_nat j)) axes = true -> nth j s 0 = 1) -> totalSize s = totalSize (without axes k s).
Proof.
  induction s as [|d s IH]; intros k H; cbn [without]; [reflexivity|]. assert (I : totalSize s = totalSize (without axes (k + 1) s)).
  { apply IH. intros j Hj E. apply (H (S j)); [cbn [length]; lia|]. rewrite <- E. do 2 f_equal. lia. }
  pose proof (H 0%nat ltac:(cbn [length]; lia)) as H0. rewrite Z.add_0_r in H0. cbn [nth] in H0. change (totalSize (d :: s)) with (d * totalSize s). destruct (existsb (Z.eqb k) axes).
  - rewrite H0 by reflexivity. lia.
  - change (totalSize (d :: without axes (k + 1) s)) with (d * totalSize (without axes (k + 1) s)). rewrite I. reflexivity.
Qed.
Lemma without_in axes l : forall j k, (j < length l)%nat -> existsb (Z.eqb (k + Z.of_nat j)) axes = false -> In (nth j l 0) (without axes k l).
Proof.
  induction l as [|x l IH]; intros [|j] k Hj E; cbn [length] in Hj; try lia; cbn [without nth].
  - rewrite Z.add_0_r in E. rewrite E. left. reflexivity.
  - assert (K : In (nth j l 0) (without axes (k + 1) l)) by (apply IH; [lia|]; rewrite <- E; do 2 f_equal; lia). destruct (existsb (Z.eqb k) axes); [exact K|right; exact K].
Qed.
Definition clampAxes (axes idx : list Z) : list Z := map (fun j => if existsb (Z.eqb (Z.of_nat j)) axes then 0 else nth j idx 0) (seq 0 (length idx)).
Lemma len_clamp axes idx : length (clampAxes axes idx) = length idx.
Proof. unfold clampAxes. rewrite map_length. apply seq_length. Qed.
Lemma nth_clamp axes idx j : nth j (clampAxes axes idx) 0 = if existsb (Z.eqb (Z.of_nat j)) axes then 0 else nth j idx 0.
Proof.
  destruct (Nat.lt_ge_cases j (length idx)) as [H|H]; [unfold clampAxes; rewrite nth_map_seq by exact H; reflexivity|]. rewrite !nth_overflow by (rewrite ?len_clamp; lia). destruct (existsb _ _); reflexivity.
Qed.
Lemma sorted_nodup axes : StronglySorted Z.lt axes -> NoDup axes.
Proof. induction 1 as [|a axes _ IH Ha]; constructor; [|exact IH]. intro K. rewrite Forall_forall in Ha. specialize (Ha a K). lia. Qed.
Lemma stretched_full axes s out : stretched (without axes 0 s) s axes out -> out = s.
Proof.
  intros [L [W V]]. apply list_eq; [exact L|]. intros i Hi. destruct (existsb (Z.eqb (Z.of_nat i)) axes) eqn:E.
  - apply existsb_exists in E. destruct E as [a [Ha Ea]]. apply Z.eqb_eq in Ea. subst a. specialize (V _ Ha ltac:(lia)). rewrite Nat2Z.id in V. exact V.
  - apply (without_inj axes out s 0 L W i). cbn [Z.add]. exact E.
Qed.

Section Su.
Context {A : Type} {CR : CRing A}.
Add Ring Aring : (@cr_th A CR).
Local Open Scope cr_scope.
Notation tens := (@tens A).

Lemma sum_ok (t : tens) axes : axes <> [] -> NoDup axes -> positive (shp t) -> Forall (fun a => (0 <= a < Z.of_nat (length (shp t)))%Z) axes ->
  exists y, sumNode t axes = Ok y /\ shp y = without axes 0 (shp t) /\
    forall idx, at_ y idx = over (shp t) (fun full => if eqShape (without axes 0 full) idx then at_ t full else 0).
Proof.
  intros HN ND HP HF. unfold sumNode. rewrite shape_ok by assumption. cbn [bind]. eexists. split; [reflexivity|]. split; [reflexivity|]. intro idx. cbn [at_]. apply over_ext. intros full _. rewrite drop_without. reflexivity.
Qed.
(** Sums behind each other, the last axis first. *)
Lemma repeats_ok axes : StronglySorted Z.lt axes -> forall g : tens, positive (shp g) -> Forall (fun a => (0 <= a < Z.of_nat (length (shp g)))%Z) axes ->
  exists h, repeatsGrad (rev axes) g = Ok h /\ shp h = without axes 0 (shp g) /\
    forall idx, inside (shp h) idx -> at_ h idx = over (shp g) (fun full => if eqShape (without axes 0 full) idx then at_ g full else 0).
Proof.
  intro HS. assert (HL : forall n ax, length ax = n -> StronglySorted Z.lt ax -> forall g : tens, positive (shp g) -> Forall (fun a => (0 <= a < Z.of_nat (length (shp g)))%Z) ax ->
    exists h, repeatsGrad (rev ax) g = Ok h /\ shp h = without ax 0 (shp g) /\ forall idx, inside (shp h) idx -> at_ h idx = over (shp g) (fun full => if eqShape (without ax 0 full) idx then at_ g full else 0)).
  { clear axes HS. induction n as [|n IH]; intros ax L HS g HP HF.
    - destruct ax; [|discriminate]. exists g. split; [reflexivity|]. split; [symmetry; apply without_none; intros ? []|]. intros idx Hi. rewrite <- (over_pick (shp g) idx (at_ g) Hi). apply over_ext. intros full _. rewrite without_none by (intros ? []). unfold eqShape. destruct (list_eq_dec Z.eq_dec idx full), (list_eq_dec Z.eq_dec full idx); congruence.
    - destruct (@exists_last _ ax) as [ax' [a ->]]; [intro K; rewrite K in L; discriminate|]. rewrite app_length in L. cbn [length] in L. rewrite rev_app_distr. cbn [rev app repeatsGrad].
      assert (HLT : forall b, In b ax' -> (b < a)%Z).
      { clear - HS. induction ax' as [|b ax' IH]; intros c Hc; [contradiction|]. cbn [app] in HS. inversion_clear HS as [|? ? H1 H2]. destruct Hc as [<-|Hc]; [|apply IH; assumption]. rewrite Forall_forall in H2. apply H2, in_app_iff. right. left. reflexivity. }
      assert (HS' : StronglySorted Z.lt ax').
      { clear - HS. induction ax' as [|b ax' IH]; [constructor|]. cbn [app] in HS. inversion_clear HS as [|? ? H1 H2]. constructor; [apply IH, H1|]. apply Forall_app in H2. apply H2. }
      apply Forall_app in HF. destruct HF as [HF1 HF2]. inversion_clear HF2 as [|? ? Ha _].
      unfold repeatSymDiff, sumApi. destruct (shp g) as [|d0 s0] eqn:EG; [cbn [length] in Ha; lia|]. rewrite <- EG in *.
      destruct (sum_ok g [a]) as [y [Ey [Sy Vy]]]; [discriminate|apply nodup_one|exact HP|constructor; [exact Ha|constructor]|]. rewrite Ey. cbn [bind].
      destruct (IH ax' ltac:(lia) HS' y) as [h [Eh [Sh Vh]]].
      + rewrite Sy. apply without_positive, HP.
      + rewrite Sy, without_one_len by lia. apply Forall_forall. intros b Hb. rewrite Forall_forall in HF1. specialize (HF1 b Hb). specialize (HLT b Hb). lia.
      + exists h. split; [exact Eh|]. assert (ST : without ax' 0 (shp y) = without (ax' ++ [a]) 0 (shp g)) by (rewrite Sy; apply without_step; [exact HLT|lia]). split; [rewrite Sh; exact ST|]. intros idx Hi. rewrite Vh by exact Hi.
        transitivity (over (shp y) (fun m => over (shp g) (fun full => if eqShape (without [a] 0 full) m then (if eqShape (without ax' 0 m) idx then at_ g full else 0) else 0))).
        * apply over_ext. intros m _. rewrite Vy. destruct (eqShape (without ax' 0 m) idx); [reflexivity|]. symmetry. apply over_zero. intros full _. destruct (eqShape _ _); reflexivity.
        * rewrite over_swap. apply over_ext. intros full Hf. rewrite (over_pick (shp y) (without [a] 0 full) (fun m => if eqShape (without ax' 0 m) idx then at_ g full else 0)) by (rewrite Sy; apply without_inside, Hf). rewrite without_step by (try exact HLT; lia). reflexivity. }
  intros g HP HF. apply (HL (length axes)); auto.
Qed.

(** ** The gradient through Broadcast *)
Lemma bgrad_insert (t other : tens) axes : axes <> [] -> StronglySorted Z.lt axes -> Forall (fun a => (0 <= a < Z.of_nat (length (shp other)))%Z) axes ->
  positive (shp t) -> positive (shp other) -> shp t <> [] -> length (without axes 0 (shp other)) = length (shp t) -> length (shp t) <> length (shp other) ->
  exists t', broadcastSide t (length (shp other)) other axes = Ok t' /\
    forall g, shp g = shp t' -> exists gt, broadcastGrad t axes g = Ok gt /\ pulled_back t t' g gt.
Proof.
  intros HN HS HF P1 P2 NE L1 L2. destruct (side_insert t other axes HN (sorted_nodup _ HS) HF P1 P2 NE L1 L2) as [t' [Et [[SL [SW SV]] Vt]]]. exists t'. split; [exact Et|]. intros g Hg.
  assert (PG : positive (shp g)).
  { rewrite Hg. apply Forall_forall. intros x Hx. destruct (In_nth _ _ 0%Z Hx) as [i [Hi <-]]. destruct (existsb (Z.eqb (Z.of_nat i)) axes) eqn:E.
    - apply existsb_exists in E. destruct E as [a [Ha Ea]]. apply Z.eqb_eq in Ea. subst a. specialize (SV _ Ha ltac:(lia)). rewrite Nat2Z.id in SV. rewrite SV. apply positive_nth; [exact P2|lia].
    - assert (K : In (nth i (shp t') 0%Z) (without axes 0 (shp t'))).
      { apply without_in; [exact Hi|exact E]. }
      rewrite SW in K. unfold positive in P1. rewrite Forall_forall in P1. apply P1, K. }
  destruct (repeats_ok axes HS g PG) as [h [Eh [Sh Vh]]]; [rewrite Hg, SL; exact HF|]. rewrite Hg, SW in Sh.
  assert (EB : broadcastGrad t axes g = bind (repeatsGrad (rev axes) g) (fun g0 => reshape g0 (shp t))) by (destruct axes; [contradiction|reflexivity]). rewrite EB, Eh. cbn [bind].
  eexists. split; [apply reshape_plain; [eapply Forall_impl; [|exact P1]; cbn; lia|right; rewrite Sh; reflexivity]|]. split; [reflexivity|]. cbn [shp at_].
  transitivity (ip (shp t') (fun full => at_ t (without axes 0 full)) (at_ g)); [apply ip_ext; [exact Vt|reflexivity]|].
  apply (push (shp t) (shp t') (fun full => without axes 0 full)).
  - intros full Hf. rewrite <- SW. apply without_inside, Hf.
  - intros idx Hi. rewrite Sh, unravel_ravel by exact Hi. rewrite Vh by (rewrite Sh; exact Hi). rewrite Hg. reflexivity.
Qed.
Lemma bgrad_same (t other : tens) axes : axes <> [] -> StronglySorted Z.lt axes -> length (shp t) = length (shp other) -> Forall (fun a => (0 <= a < Z.of_nat (length (shp t)))%Z) axes ->
  positive (shp t) -> positive (shp other) -> Forall (fun a => nth (Z.to_nat a) (shp t) 0%Z = 1%Z) axes ->
  exists t', broadcastSide t (length (shp other)) other axes = Ok t' /\
    forall g, shp g = shp t' -> exists gt, broadcastGrad t axes g = Ok gt /\ pulled_back t t' g gt.
Proof.
  intros HN HS L HF P1 P2 H1. destruct (side_same t other axes (sorted_nodup _ HS) L HF P1 P2) as [t' [Et [Lt [St Vt]]]]. exists t'. split; [exact Et|]. intros g Hg.
  assert (ON : forall j, existsb (Z.eqb (Z.of_nat j)) axes = true -> nth j (shp t) 0%Z = 1%Z /\ (j < length (shp t))%nat).
  { intros j E. apply existsb_exists in E. destruct E as [a [Ha Ea]]. apply Z.eqb_eq in Ea. subst a. rewrite Forall_forall in H1, HF. specialize (H1 _ Ha). specialize (HF _ Ha). rewrite Nat2Z.id in H1. split; [exact H1|lia]. }
  assert (NP : forall j, (j < length (shp t))%nat -> (1 <= nth j (shp t') 0)%Z).
  { intros j Hj. rewrite St. pose proof (positive_nth _ _ P1 Hj). destruct (existsb _ _); [pose proof (positive_nth (shp other) j P2 ltac:(lia))|]; nia. }
  assert (PG : positive (shp g)).
  { rewrite Hg. apply Forall_forall. intros x Hx. destruct (In_nth _ _ 0%Z Hx) as [i [Hi <-]]. apply NP. lia. }
  destruct (repeats_ok axes HS g PG) as [h [Eh [Sh Vh]]]; [rewrite Hg, Lt; exact HF|].
  assert (SW : without axes 0 (shp t') = without axes 0 (shp t)).
  { apply without_same; [exact Lt|]. intros j E. cbn [Z.add] in E. rewrite St, E. lia. }
  rewrite Hg, SW in Sh.
  assert (TW : totalSize (shp t) = totalSize (without axes 0 (shp t))) by (apply total_without; intros j _ E; apply ON, E).
  assert (EB : broadcastGrad t axes g = bind (repeatsGrad (rev axes) g) (fun g0 => reshape g0 (shp t))) by (destruct axes; [contradiction|reflexivity]). rewrite EB, Eh. cbn [bind].
  eexists. split; [apply reshape_plain; [eapply Forall_impl; [|exact P1]; cbn; lia|right; rewrite Sh; symmetry; exact TW]|]. split; [reflexivity|]. cbn [shp at_].
  assert (IN : forall full, inside (shp t') full -> inside (shp t) (clampAxes axes full)).
  { intros full Hf. apply inside_nth in Hf. destruct Hf as [Lf Hf]. apply inside_nth. rewrite len_clamp. split; [lia|]. intros i Hi. rewrite nth_clamp. specialize (Hf i ltac:(lia)). rewrite St in Hf. destruct (existsb _ _) eqn:E; [destruct (ON i E); lia|lia]. }
  transitivity (ip (shp t') (fun full => at_ t (clampAxes axes full)) (at_ g)).
  { apply ip_ext; [|reflexivity]. intros full Hf. apply Vt; [exact Hf|apply len_clamp|]. intro i. rewrite nth_clamp. destruct (existsb _ _) eqn:E; [|rewrite Z.div_1_r; reflexivity].
    apply inside_nth in Hf. destruct Hf as [Lf Hf]. destruct (ON i E) as [O1 O2]. specialize (Hf i ltac:(lia)). rewrite St, E, O1 in Hf. symmetry. apply Z.div_small. lia. }
  apply (push (shp t) (shp t') (fun full => clampAxes axes full)); [exact IN|].
  intros idx Hi. destruct (ravel_without axes (shp t) idx Hi 0) as [RW _]; [intros j _ E; apply ON, E|]. rewrite Sh, RW, unravel_ravel by (apply without_inside, Hi). rewrite Vh by (rewrite Sh; apply without_inside, Hi). rewrite Hg. apply over_ext. intros full Hf.
  assert (K : without axes 0 full = without axes 0 idx <-> clampAxes axes full = idx).
  { pose proof (inside_len _ _ Hf) as Lf. pose proof (inside_len _ _ Hi) as Li. split; intro E.
    - apply list_eq; [rewrite len_clamp; lia|]. intros i _. rewrite nth_clamp. destruct (existsb _ _) eqn:X.
      + apply inside_nth in Hi. destruct Hi as [_ Hi]. destruct (ON i X) as [O1 O2]. specialize (Hi i O2). lia.
      + apply (without_inj axes full idx 0 ltac:(lia) E i X).
    - rewrite <- E. apply without_same; [rewrite len_clamp; reflexivity|]. intros j X. cbn [Z.add] in X. rewrite nth_clamp, X. reflexivity. }
  destruct (eqShape (without axes 0 full) (without axes 0 idx)) eqn:E1, (eqShape (clampAxes axes full) idx) eqn:E2; try reflexivity.
  - apply eqShape_iff, K, eqShape_iff in E1. congruence.
  - apply eqShape_iff, K, eqShape_iff in E2. congruence.
Qed.
(** ** Sum *)
Lemma sum_grad (x : tens) axes : axes <> [] -> NoDup axes -> Forall (fun a => (0 <= a < Z.of_nat (length (shp x)))%Z) axes -> positive (shp x) ->
  exists y, sumNode x axes = Ok y /\ shp y = without axes 0 (shp x) /\
    forall g, shp g = shp y -> exists gx, sumSymDiff axes x g = Ok gx /\ pulled_back x y g gx /\ forall idx, inside (shp x) idx -> at_ gx idx = at_ g (without axes 0 idx).
Proof.
  intros HN ND HF HP. destruct (sum_ok x axes HN ND HP HF) as [y [Ey [Sy Vy]]]. exists y. split; [exact Ey|]. split; [exact Sy|]. intros g Hg.
  assert (Q : exists gx, sumSymDiff axes x g = Ok gx /\ shp gx = shp x /\ forall idx, inside (shp x) idx -> at_ gx idx = at_ g (without axes 0 idx)).
  { destruct (shp g) as [|d0 s0] eqn:EG.
    - assert (EW : without axes 0 (shp x) = []) by congruence.
      assert (ALL : forall j, (j < length (shp x))%nat -> existsb (Z.eqb (Z.of_nat j)) axes = true).
      { intros j Hj. destruct (existsb _ _) eqn:E; [reflexivity|]. pose proof (without_in axes (shp x) j 0 Hj E) as K. rewrite EW in K. contradiction. }
      assert (NX : length (shp x) <> 0%nat) by (destruct axes as [|a axes]; [contradiction|]; inversion_clear HF; lia).
      unfold sumSymDiff. assert (C : calcBroadcastShape (shp g) (length (shp x)) axes = repeat 1%Z (length (shp x))).
      { unfold calcBroadcastShape. rewrite EG. cbn [length]. destruct (Nat.eqb_spec 0 (length (shp x))); [lia|]. rewrite fold_marks by exact HF. unfold marks. rewrite map_map. apply list_eq; [rewrite map_length, seq_length, repeat_length; reflexivity|]. rewrite map_length, seq_length. intros i Hi. rewrite nth_map_seq by exact Hi. symmetry. rewrite (nth_indep _ 0%Z 1%Z) by (rewrite repeat_length; exact Hi). apply nth_repeat. }
      rewrite C, reshape_plain; [|apply Forall_forall; intros z Hz; apply repeat_spec in Hz; lia|left; exact EG]. cbn [bind]. rewrite sizes_ok by exact HF. cbn [bind]. set (t1 := Tn (repeat 1%Z (length (shp x))) _).
      assert (RP : Forall (fun r => (1 <= r)%Z) (map (fun a => nth (Z.to_nat a) (shp x) 0%Z) axes)) by (rewrite Forall_map; eapply Forall_impl; [|exact HF]; cbn beta; intros a Ha; apply positive_nth; [exact HP|lia]).
      assert (ST1 : length (shp t1) = length (shp x)) by (unfold t1; cbn [shp]; apply repeat_length).
      destruct (repeated_ok axes (map (fun a => nth (Z.to_nat a) (shp x) 0%Z) axes) t1) as [t' [E [L' [S' A']]]]; [rewrite map_length; reflexivity|rewrite ST1; exact HF|exact RP|].
      assert (H0 : Forall (fun a => (0 <= a)%Z) axes) by (eapply Forall_impl; [|exact HF]; cbn; lia).
      exists t'. split; [exact E|]. split.
      + apply list_eq; [lia|]. intros i Hi. rewrite S', (mult_sizes (shp x) axes i ND H0). rewrite ALL by lia. unfold t1. cbn [shp]. rewrite (nth_indep _ 0%Z 1%Z) by (rewrite repeat_length; lia). rewrite nth_repeat. lia.
      + intros idx Hi. rewrite (A' idx (map (fun i => (nth i idx 0 / mult axes (map (fun a => nth (Z.to_nat a) (shp x) 0%Z) axes) i)%Z) (seq 0 (length idx)))).
        * unfold t1. cbn [at_]. rewrite EG. cbn [unravel]. f_equal. pose proof (without_inside axes _ _ Hi 0) as K. rewrite EW in K. inversion K. reflexivity.
        * rewrite map_length, seq_length. reflexivity.
        * intro i. destruct (Nat.lt_ge_cases i (length idx)) as [K|K]; [rewrite nth_map_seq by exact K; reflexivity|]. rewrite !nth_overflow by (rewrite ?map_length, ?seq_length; lia). rewrite Zdiv_0_l. reflexivity.
    - rewrite <- EG in *. assert (NE : shp g <> []) by (rewrite EG; discriminate). assert (SG : shp g = without axes 0 (shp x)) by congruence.
      assert (LN : length (shp g) <> length (shp x)).
      { rewrite SG. destruct axes as [|a axes]; [contradiction|]. inversion_clear HF as [|? ? Ha _]. assert (G : forall l k, (k <= a < k + Z.of_nat (length l))%Z -> (length (without (a :: axes) k l) < length l)%nat).
        { clear. assert (W : forall axes l k, (length (without axes k l) <= length l)%nat) by (clear; intros axes l; induction l as [|x l IH]; intro k; cbn [without length]; [lia|]; specialize (IH (k + 1)%Z); destruct (existsb _ _); cbn [length]; lia).
          induction l as [|x l IH]; intros k H; cbn [length] in H; [lia|]. cbn [without]. destruct (Z.eqb_spec k a) as [->|N].
          - cbn [existsb]. rewrite Z.eqb_refl. cbn [orb length]. specialize (W (a :: axes) l (a + 1)%Z). lia.
          - specialize (IH (k + 1)%Z ltac:(lia)). destruct (existsb _ _); cbn [length]; lia. }
        specialize (G (shp x) 0%Z ltac:(lia)). lia. }
      destruct (side_insert g x axes HN ND HF ltac:(rewrite SG; apply without_positive, HP) HP NE ltac:(rewrite SG; reflexivity) LN) as [t' [Et [ST Vt]]].
      exists t'. split.
      + rewrite <- Et. unfold sumSymDiff, broadcastSide, bind. destruct axes as [|a axes]; [contradiction|]. destruct (existsb (fun a0 => (Z.of_nat (length (shp x)) <=? a0)%Z) (a :: axes)) eqn:X; [|reflexivity].
        apply existsb_exists in X. destruct X as [b [Hb Eb]]. rewrite Forall_forall in HF. specialize (HF b Hb). lia.
      + rewrite SG in ST. apply stretched_full in ST. split; [exact ST|]. intros idx Hi. apply Vt. rewrite ST. exact Hi. }
  destruct Q as [gx [Eg [Sg Vg]]]. exists gx. split; [exact Eg|]. split; [|exact Vg]. split; [exact Sg|].
  transitivity (ip (shp x) (fun full => at_ g (without axes 0 full)) (at_ x)).
  - rewrite Sy. symmetry. rewrite (push (without axes 0 (shp x)) (shp x) (fun full => without axes 0 full) (at_ g) (at_ x) (at_ y)).
    + rewrite !ip_over. apply over_ext. intros; ring.
    + intros full Hf. apply without_inside, Hf.
    + intros idx _. apply Vy.
  - rewrite !ip_over. apply over_ext. intros idx Hi. rewrite Vg by exact Hi. ring.
Qed.
End Su.
