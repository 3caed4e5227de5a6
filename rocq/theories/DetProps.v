(** C112: detections of the YOLO examples. *)
From Coq Require Import List ZArith QArith Bool Arith String Lia Lqa Permutation Sorted.
From Verif Require Import BroadcastModel ShapeGradModel YoloModel YoloSpec YoloProofs YoloProps YoloTrainProps DetModel DetSpec.
Import ListNotations.
Local Open Scope nat_scope.

Lemma gtQ_spec a b : gtQ a b = true <-> (b < a)%Q.
Proof.
  unfold gtQ. rewrite negb_true_iff. split; intros H.
  - apply Qnot_le_lt. intros L. apply Qle_bool_iff in L. congruence.
  - destruct (Qle_bool a b) eqn:E; [|reflexivity]. apply Qle_bool_iff in E. lra.
Qed.
Lemma gtQ_false a b : gtQ a b = false <-> (a <= b)%Q.
Proof. unfold gtQ. rewrite negb_false_iff. apply Qle_bool_iff. Qed.

(** ** The records *)
Lemma likeliest_step probs k p (q : Q) : Likeliest probs k p ->
  Likeliest (probs ++ [q]) (if gtQ q p then List.length probs else k) (if gtQ q p then q else p).
Proof.
  intros L. destruct (gtQ q p) eqn:E.
  - apply gtQ_spec in E. left.
    assert (P0 : (0 <= p)%Q) by (destruct L as [(_ & A & _)|(_ & -> & _)]; lra).
    assert (Pm : forall i r, nth_error probs i = Some r -> (r <= p)%Q).
    { destruct L as [(_ & _ & A & _)|(_ & -> & A)]; exact A. }
    split; [rewrite nth_error_app2, Nat.sub_diag by lia; reflexivity|]. split; [lra|]. split.
    + intros i r H. destruct (Nat.lt_ge_cases i (List.length probs)) as [X|X].
      * rewrite nth_error_app1 in H by exact X. apply Pm in H. lra.
      * rewrite nth_error_app2 in H by exact X. destruct (i - List.length probs) as [|[|m]]; cbn in H; [|discriminate|discriminate].
        injection H as <-. lra.
    + intros i r Hi H. rewrite nth_error_app1 in H by exact Hi. apply Pm in H. lra.
  - apply gtQ_false in E. destruct L as [(A & B & C & D)|(-> & -> & C)].
    + left. split; [rewrite nth_error_app1; [exact A|apply nth_error_Some; congruence]|]. split; [exact B|]. split.
      * intros i r H. destruct (Nat.lt_ge_cases i (List.length probs)) as [X|X].
        { rewrite nth_error_app1 in H by exact X. exact (C _ _ H). }
        rewrite nth_error_app2 in H by exact X. destruct (i - List.length probs) as [|[|m]]; cbn in H; [|discriminate|discriminate].
        injection H as <-. exact E.
      * intros i r Hi H. rewrite nth_error_app1 in H; [exact (D _ _ Hi H)|].
        assert (k < List.length probs) by (apply nth_error_Some; congruence). lia.
    + right. split; [reflexivity|]. split; [reflexivity|]. intros i r H.
      destruct (Nat.lt_ge_cases i (List.length probs)) as [X|X].
      { rewrite nth_error_app1 in H by exact X. exact (C _ _ H). }
      rewrite nth_error_app2 in H by exact X. destruct (i - List.length probs) as [|[|m]]; cbn in H; [|discriminate|discriminate].
      injection H as <-. exact E.
Qed.

Lemma bestClass_ok (data : list Q) i : forall rest pre k p,
  (forall j q, nth_error rest j = Some q -> nth_error data (i + 5 + (List.length pre + j)) = Some q) ->
  Likeliest pre k p ->
  exists k' p', bestClass data i (List.length pre) (List.length rest) k p = Ok (k', p') /\ Likeliest (pre ++ rest) k' p'.
Proof.
  induction rest as [|q rest IH]; intros pre k p H L.
  - exists k, p. rewrite app_nil_r. auto.
  - cbn [List.length bestClass]. pose proof (H 0 q eq_refl) as H0. rewrite Nat.add_0_r in H0. rewrite H0.
    pose proof (likeliest_step _ _ _ q L) as L'.
    assert (H' : forall j r, nth_error rest j = Some r -> nth_error data (i + 5 + (List.length (pre ++ [q]) + j)) = Some r).
    { intros j r Hj. specialize (H (S j) r Hj). rewrite app_length. cbn [List.length].
      replace (List.length pre + 1 + j) with (List.length pre + S j) by lia. exact H. }
    destruct (IH (pre ++ [q]) _ _ H' L') as (k' & p' & B & L2). rewrite app_length in B. cbn [List.length] in B.
    rewrite Nat.add_1_r in B. rewrite <- app_assoc in L2. cbn [app] in L2. exists k', p'. split; [|exact L2].
    destruct (gtQ q p); exact B.
Qed.

Definition Detected (thr : Q) (net : Z) (classes : list string) (r : list Q) (part : list det) : Prop :=
  exists x y w h cf probs k p, r = x :: y :: w :: h :: cf :: probs /\ Likeliest probs k p /\
    (((thr < p * cf)%Q /\ exists name, nth_error classes k = Some name /\
        part = [Det cf (rectify (trunc x) (trunc y) (trunc w) (trunc h) net net) name p]) \/
     ((p * cf <= thr)%Q /\ part = [])).

Lemma likeliest_lt probs k p : probs <> [] -> Likeliest probs k p -> k < List.length probs.
Proof.
  intros N [(A & _)|(-> & _)]; [apply nth_error_Some; congruence|]. destruct probs; [congruence|cbn; lia].
Qed.

Lemma detectAt_ok thr net classes (pre r post : list Q) : classes <> [] -> List.length r = 5 + List.length classes ->
  exists part, detectAt (pre ++ r ++ post) thr net classes (List.length pre) = Ok part /\ Detected thr net classes r part.
Proof.
  intros N L. destruct r as [|x [|y [|w [|h [|cf probs]]]]]; cbn in L; try lia.
  assert (LP : List.length probs = List.length classes) by lia.
  set (data := pre ++ (x :: y :: w :: h :: cf :: probs) ++ post).
  assert (G : forall j q, nth_error (x :: y :: w :: h :: cf :: probs) j = Some q -> nth_error data (List.length pre + j) = Some q).
  { intros j q H. unfold data. rewrite nth_error_app2 by lia. replace (List.length pre + j - List.length pre) with j by lia.
    rewrite nth_error_app1; [exact H|]. apply nth_error_Some. congruence. }
  destruct (bestClass_ok data (List.length pre) probs [] 0 0%Q) as (k & p & B & LK).
  - intros j q H. cbn [List.length Nat.add]. replace (List.length pre + 5 + j) with (List.length pre + (5 + j)) by lia. apply G. exact H.
  - right. split; [reflexivity|]. split; [reflexivity|]. intros i q H. destruct i; discriminate H.
  - cbn [app List.length] in B, LK. rewrite LP in B. unfold detectAt. rewrite B. cbn [ShapeGradModel.bind].
    rewrite (G 4 cf eq_refl). destruct (gtQ (p * cf) thr) eqn:E.
    + apply gtQ_spec in E. pose proof (G 0 x eq_refl) as G0. rewrite Nat.add_0_r in G0. rewrite G0, (G 1 y eq_refl), (G 2 w eq_refl), (G 3 h eq_refl).
      assert (K : k < List.length classes). { rewrite <- LP. apply (likeliest_lt probs k p); [|exact LK]. destruct probs; [destruct classes; [congruence|discriminate LP]|discriminate]. }
      destruct (nth_error classes k) as [name|] eqn:NK; [|apply nth_error_None in NK; lia].
      eexists. split; [reflexivity|]. exists x, y, w, h, cf, probs, k, p. split; [reflexivity|]. split; [exact LK|]. left. split; [exact E|].
      exists name. split; [exact NK|reflexivity].
    + apply gtQ_false in E. exists []. split; [reflexivity|]. exists x, y, w, h, cf, probs, k, p. split; [reflexivity|]. split; [exact LK|]. right. auto.
Qed.

Lemma prepareFrom_ok thr net classes : classes <> [] -> forall recs fuel pre,
  Forall (fun r => List.length r = 5 + List.length classes) recs -> List.length recs <= fuel ->
  exists parts, prepareFrom fuel (pre ++ List.concat recs) thr net classes (List.length pre) = Ok (List.concat parts) /\
    Forall2 (Detected thr net classes) recs parts.
Proof.
  intros N. induction recs as [|r recs IH]; intros fuel pre F L.
  - exists []. split; [|constructor]. cbn [List.concat]. rewrite app_nil_r. destruct fuel; [reflexivity|]. cbn [prepareFrom].
    rewrite Nat.ltb_irrefl. reflexivity.
  - destruct fuel as [|fuel]; [cbn in L; lia|]. cbn [List.concat prepareFrom]. pose proof (Forall_inv F) as Fr. cbv beta in Fr.
    apply Forall_inv_tail in F. rewrite !app_length.
    destruct (Nat.ltb_spec (List.length pre) (List.length pre + (List.length r + List.length (List.concat recs)))) as [X|X]; [|lia].
    destruct (detectAt_ok thr net classes pre r (List.concat recs) N Fr) as (part & D1 & D2). rewrite D1. cbn [ShapeGradModel.bind].
    destruct (IH fuel (pre ++ r) F) as (parts & P1 & P2); [cbn in L; lia|].
    rewrite <- app_assoc, app_length, Fr in P1. replace (List.length pre + (List.length classes + 5)) with (List.length pre + (5 + List.length classes)) by lia.
    rewrite P1. cbn [ShapeGradModel.bind]. exists (part :: parts). split; [reflexivity|constructor; assumption].
Qed.

Lemma concat_length_le {A} (l : list (list A)) : Forall (fun r => 0 < List.length r) l -> List.length l <= List.length (List.concat l).
Proof. induction 1; cbn; [lia|]. rewrite app_length. lia. Qed.

(** prepareDetections makes at most one detection of each record of the output: with the
    first of the likeliest classes, if its probability times the confidence is above the
    threshold. *)
Theorem C112_prepare thr net (classes : list string) (recs : list (list Q)) : classes <> [] ->
  Forall (fun r => List.length r = 5 + List.length classes) recs ->
  exists parts, prepareDetections (List.concat recs) thr net classes = Ok (List.concat parts) /\
    Forall2 (Detected thr net classes) recs parts.
Proof.
  intros N F. unfold prepareDetections. apply (prepareFrom_ok thr net classes N recs _ [] F).
  apply concat_length_le. eapply Forall_impl; [|exact F]. intros r H. cbv beta in H. lia.
Qed.
Print Assumptions C112_prepare.

(** With an incomplete record at the end it panics. *)
Theorem C112_prepare_panics thr net (classes : list string) (recs : list (list Q)) rest : classes <> [] ->
  Forall (fun r => List.length r = 5 + List.length classes) recs ->
  0 < List.length rest -> List.length rest < 5 + List.length classes ->
  prepareDetections (List.concat recs ++ rest) thr net classes = Panic.
Proof.
  intros N F R1 R2. unfold prepareDetections.
  assert (B : forall data i n j k p, List.length data <= i + 5 + (j + n) - 1 -> 0 < n -> bestClass data i j n k p = Panic).
  { intros data i n. induction n as [|n IH]; intros j k p H Hn; [lia|]. cbn [bestClass].
    destruct (nth_error data (i + 5 + j)) as [q|] eqn:E; [|reflexivity].
    assert (i + 5 + j < List.length data) by (apply nth_error_Some; congruence).
    destruct (gtQ q p); apply IH; lia. }
  assert (G : forall recs fuel pre, Forall (fun r => List.length r = 5 + List.length classes) recs -> List.length recs < fuel ->
    prepareFrom fuel (pre ++ List.concat recs ++ rest) thr net classes (List.length pre) = Panic).
  { clear recs F. induction recs as [|r recs IH]; intros fuel pre F L; (destruct fuel as [|fuel]; [cbn in L; lia|]); cbn [prepareFrom List.concat app].
    - rewrite app_length. destruct (Nat.ltb_spec (List.length pre) (List.length pre + List.length rest)) as [X|X]; [|lia].
      unfold detectAt. rewrite B; [reflexivity|rewrite app_length; lia|destruct classes; [congruence|cbn; lia]].
    - pose proof (Forall_inv F) as Fr. cbv beta in Fr. apply Forall_inv_tail in F.
      rewrite !app_length. destruct (Nat.ltb_spec (List.length pre) (List.length pre + (List.length r + List.length (List.concat recs) + List.length rest))) as [X|X]; [|lia].
      rewrite <- (app_assoc r). destruct (detectAt_ok thr net classes pre r (List.concat recs ++ rest) N Fr) as (part & D1 & _). rewrite D1. cbn [ShapeGradModel.bind].
      specialize (IH fuel (pre ++ r) F). rewrite <- app_assoc, app_length, Fr in IH.
      replace (List.length pre + (List.length classes + 5)) with (List.length pre + (5 + List.length classes)) by lia.
      rewrite IH by (cbn in L; lia). reflexivity. }
  apply (G recs _ []); [exact F|]. rewrite app_length.
  assert (List.length recs <= List.length (List.concat recs)); [|lia].
  apply concat_length_le. eapply Forall_impl; [|exact F]. intros r H. cbv beta in H. lia.
Qed.
Print Assumptions C112_prepare_panics.

(** ** Suppression *)
Definition corners (r : rect) : Z * Z * Z * Z := (x0 r, y0 r, x1 r, y1 r).

Lemma hides_spec thr d k : proper (drect d) -> proper (drect k) ->
  (hides thr d k = true <-> class d = class k /\ Overlap thr (corners (drect d)) (corners (drect k))).
Proof.
  intros Pd Pk. unfold hides. rewrite andb_true_iff, String.eqb_eq.
  enough (X : (match iou (drect d) (drect k) with Some q => gtQ q thr | None => false end = true <-> Overlap thr (corners (drect d)) (corners (drect k)))).
  { rewrite X. split; intros [A B]; auto. }
  set (r := drect d) in *. set (s := drect k) in *.
  assert (Y : forall lo n, within lo n r -> within lo n s ->
     (match iou r s with Some q => gtQ q thr | None => false end = true <->
      (thr * inject_Z (count (fun p => insideR r p || insideR s p) (pixels lo n)) < inject_Z (count (fun p => insideR r p && insideR s p) (pixels lo n)))%Q)).
  { intros lo n Wr Ws. pose proof (C87_overlap r s lo n Pd Pk Wr Ws) as E. cbv zeta in E. rewrite E.
    set (both := count (fun p => insideR r p && insideR s p) (pixels lo n)) in *. set (either := count (fun p => insideR r p || insideR s p) (pixels lo n)) in *.
    assert (L : (both <= either)%Z).
    { unfold both, either, count. clear. induction (pixels lo n) as [|p l IH]; [cbn; lia|]. cbn [filter]. destruct (insideR r p), (insideR s p); cbn [andb orb List.length]; lia. }
    assert (B0 : (0 <= both)%Z) by (unfold both, count; lia).
    destruct (Z.eqb_spec either 0) as [X|X].
    - split; [discriminate|]. intros H. exfalso. rewrite X in H. assert (both = 0%Z) by lia. rewrite H0 in H. change (inject_Z 0) with 0%Q in H. lra.
    - assert (P : (0 < inject_Z either)%Q) by (change 0%Q with (inject_Z 0); rewrite <- Zlt_Qlt; lia).
      rewrite gtQ_spec. split; intros H.
      + setoid_replace (inject_Z both) with (inject_Z both / inject_Z either * inject_Z either)%Q by (field; lra).
        apply Qmult_lt_compat_r; assumption.
      + apply Qlt_shift_div_l; assumption. }
  unfold Overlap, corners. split.
  - intros H. set (lo := Z.min (Z.min (x0 r) (y0 r)) (Z.min (x0 s) (y0 s))). set (n := Z.to_nat (Z.max (Z.max (x1 r) (y1 r)) (Z.max (x1 s) (y1 s)) - lo)).
    assert (Wr : within lo n r) by (destruct Pd; unfold within, n, lo; lia). assert (Ws : within lo n s) by (destruct Pk; unfold within, n, lo; lia).
    exists lo, n. split; [unfold within in *; lia|]. apply (Y lo n Wr Ws). exact H.
  - intros (lo & n & W & H). apply (Y lo n); [unfold within; lia|unfold within; lia|exact H].
Qed.

Section Nms.
Variable thr : Q.
Lemma nms_incl : forall ds nms x, In x (nmsLoop thr ds nms) -> In x nms \/ In x ds.
Proof.
  induction ds as [|d ds IH]; intros nms x H; cbn [nmsLoop] in H; [auto|]. destruct (existsb (hides thr d) nms).
  - destruct (IH _ _ H); auto. right. right. assumption.
  - destruct (IH _ _ H) as [X|X]; [|right; right; exact X]. apply in_app_iff in X. destruct X as [X|[->|[]]]; [auto|]. right. left. reflexivity.
Qed.
Lemma nms_keeps : forall ds nms x, In x nms -> In x (nmsLoop thr ds nms).
Proof.
  induction ds as [|d ds IH]; intros nms x H; cbn [nmsLoop]; [exact H|]. destruct (existsb (hides thr d) nms); apply IH; [exact H|].
  apply in_app_iff. auto.
Qed.
Definition separate (l : list det) : Prop := ForallOrdPairs (fun a b => hides thr b a = false) l.
Lemma separate_snoc l d : separate l -> existsb (hides thr d) l = false -> separate (l ++ [d]).
Proof.
  unfold separate. induction 1 as [|a l F1 F2 IH]; intros E; cbn in *; [constructor; constructor|].
  apply orb_false_iff in E. destruct E as [E1 E2]. constructor; [|exact (IH E2)].
  apply Forall_app. split; [exact F1|]. constructor; [exact E1|constructor].
Qed.
Lemma nms_separate : forall ds nms, separate nms -> separate (nmsLoop thr ds nms).
Proof.
  induction ds as [|d ds IH]; intros nms H; cbn [nmsLoop]; [exact H|]. destruct (existsb (hides thr d) nms) eqn:E; apply IH; [exact H|].
  apply separate_snoc; assumption.
Qed.
Lemma nms_hidden : forall ds nms, StronglySorted (fun a b => (conf a <= conf b)%Q) ds -> (forall k d, In k nms -> In d ds -> (conf k <= conf d)%Q) ->
  forall d, In d ds -> In d (nmsLoop thr ds nms) \/ exists k, In k (nmsLoop thr ds nms) /\ hides thr d k = true /\ (conf k <= conf d)%Q.
Proof.
  induction ds as [|e ds IH]; intros nms S H d Hd; [destruct Hd|]. cbn [nmsLoop].
  inversion S as [|? ? S1 S2]; subst. rewrite Forall_forall in S2.
  destruct (existsb (hides thr e) nms) eqn:E.
  - destruct Hd as [<-|Hd].
    + right. apply existsb_exists in E. destruct E as (k & Hk & E). exists k. split; [apply nms_keeps; exact Hk|]. split; [exact E|].
      apply H; [exact Hk|left; reflexivity].
    + apply IH; [exact S1| |exact Hd]. intros k d' Hk Hd'. apply H; [exact Hk|right; exact Hd'].
  - destruct Hd as [<-|Hd].
    + left. apply nms_keeps. apply in_app_iff. right. left. reflexivity.
    + apply IH; [exact S1| |exact Hd]. intros k d' Hk Hd'. apply in_app_iff in Hk. destruct Hk as [Hk|[<-|[]]].
      * apply H; [exact Hk|right; exact Hd'].
      * apply S2. exact Hd'.
Qed.
End Nms.

(** nonMaxSupr returns some of the detections, no two of one class overlapping by more than
    the threshold. What it leaves out overlaps a returned detection of the same class which
    is at most as confident; a least confident detection is always returned. *)
Theorem C112_suppressed (sortConf : list det -> list det) thr (ds : list det) :
  (forall l, Permutation (sortConf l) l) ->
  (forall l, StronglySorted (fun a b => (conf a <= conf b)%Q) (sortConf l)) ->
  Forall (fun d => x0 (drect d) <= x1 (drect d) /\ y0 (drect d) <= y1 (drect d))%Z ds ->
  let out := nonMaxSupr sortConf ds thr in
  (forall d, In d out -> In d ds) /\
  ForallOrdPairs (fun a b => class a = class b -> ~ Overlap thr (corners (drect b)) (corners (drect a))) out /\
  (forall d, In d ds -> In d out \/
     exists k, In k out /\ class d = class k /\ Overlap thr (corners (drect d)) (corners (drect k)) /\ (conf k <= conf d)%Q) /\
  (ds <> [] -> exists k, In k out /\ forall d, In d ds -> (conf k <= conf d)%Q).
Proof.
  intros HP HS HR out. rewrite Forall_forall in HR.
  assert (IN : forall d, In d out -> In d ds).
  { intros d H. unfold out, nonMaxSupr in H. destruct (nms_incl thr _ _ _ H) as [[]|X]. apply (Permutation_in d (HP ds)). exact X. }
  split; [exact IN|]. split; [|split].
  - pose proof (nms_separate thr (sortConf ds) [] (FOP_nil _)) as S. fold (nonMaxSupr sortConf ds thr) in S. fold out in S. unfold separate in S.
    assert (A : forall x, In x out -> In x ds) by exact IN. clear -S A HR. induction S as [|a l F S IH]; constructor.
    + rewrite Forall_forall in *. intros b Hb E O. specialize (F b Hb).
      assert (X : hides thr b a = true). { apply hides_spec; [apply HR, A; right; exact Hb|apply HR, A; left; reflexivity|]. split; [symmetry; exact E|exact O]. }
      congruence.
    + apply IH. intros x Hx. apply A. right. exact Hx.
  - intros d Hd. assert (Hd' : In d (sortConf ds)) by (apply (Permutation_in d (Permutation_sym (HP ds))); exact Hd).
    destruct (nms_hidden thr (sortConf ds) [] (HS ds) (fun k d' H _ => match H with end) d Hd') as [X|(k & K1 & K2 & K3)]; [left; exact X|].
    right. exists k. fold (nonMaxSupr sortConf ds thr) in K1. fold out in K1. split; [exact K1|].
    apply hides_spec in K2; [|apply HR; exact Hd|apply HR, IN; exact K1]. destruct K2 as [K4 K5]. auto.
  - intros N. specialize (HS ds). pose proof (HP ds) as P. unfold out, nonMaxSupr. destruct (sortConf ds) as [|a l].
    + apply Permutation_nil in P. congruence.
    + exists a. split; [cbn [nmsLoop existsb]; apply nms_keeps; left; reflexivity|].
      intros d Hd. apply (Permutation_in d (Permutation_sym P)) in Hd. inversion HS as [|? ? _ F]; subst.
      destruct Hd as [<-|Hd]; [lra|]. rewrite Forall_forall in F. exact (F d Hd).
Qed.
Print Assumptions C112_suppressed.

(** A sort as the library's. *)
Fixpoint insertC (d : det) (l : list det) : list det :=
  match l with [] => [d] | e :: l' => if Qle_bool (conf d) (conf e) then d :: l else e :: insertC d l' end.
Definition sortC (l : list det) : list det := fold_right insertC [] l.
Lemma insertC_perm d l : Permutation (insertC d l) (d :: l).
Proof.
  induction l as [|e l IH]; cbn; [reflexivity|]. destruct (Qle_bool (conf d) (conf e)); [reflexivity|].
  rewrite IH. apply perm_swap.
Qed.
Lemma sortC_perm l : Permutation (sortC l) l.
Proof. induction l as [|d l IH]; cbn; [reflexivity|]. rewrite insertC_perm, IH. reflexivity. Qed.
Lemma insertC_sorted d l : StronglySorted (fun a b => (conf a <= conf b)%Q) l -> StronglySorted (fun a b => (conf a <= conf b)%Q) (insertC d l).
Proof.
  induction l as [|e m IH]; intros S; cbn [insertC]; [constructor; constructor|]. inversion S as [|? ? S1 S2]; subst.
  destruct (Qle_bool (conf d) (conf e)) eqn:E.
  - apply Qle_bool_iff in E. constructor; [exact S|]. constructor; [exact E|].
    eapply Forall_impl; [|exact S2]. intros b Hb. cbv beta in *. lra.
  - assert (E' : (conf e <= conf d)%Q). { destruct (Qlt_le_dec (conf e) (conf d)) as [X|X]; [lra|]. apply Qle_bool_iff in X. congruence. }
    constructor; [exact (IH S1)|]. apply Forall_forall. intros b Hb. apply (Permutation_in b (insertC_perm d m)) in Hb.
    destruct Hb as [<-|Hb]; [exact E'|]. rewrite Forall_forall in S2. exact (S2 b Hb).
Qed.
Lemma sortC_sorted l : StronglySorted (fun a b => (conf a <= conf b)%Q) (sortC l).
Proof. induction l as [|d l IH]; cbn; [constructor|]. apply insertC_sorted. exact IH. Qed.

(** So it is not the most confident of overlapping detections that is returned: of a dog
    seen with 0.9 and once more, a pixel aside, with 0.5 only the second is returned. *)
Theorem C112_most_confident_refuted :
  ~ (forall (sortConf : list det -> list det) thr ds,
       (forall l, Permutation (sortConf l) l) ->
       (forall l, StronglySorted (fun a b => (conf a <= conf b)%Q) (sortConf l)) ->
       forall d, In d ds -> exists k, In k (nonMaxSupr sortConf ds thr) /\ class d = class k /\ (conf d <= conf k)%Q).
Proof.
  intros H. set (a := Det (9#10) (rectify 100 100 40 40 416 416) "dog" (8#10)). set (b := Det (5#10) (rectify 101 100 40 40 416 416) "dog" (8#10)).
  destruct (H sortC (4#10)%Q [a; b] sortC_perm sortC_sorted a (or_introl eq_refl)) as (k & K & _ & L).
  vm_compute in K. destruct K as [<-|[]]. vm_compute in L. apply L. reflexivity.
Qed.
Print Assumptions C112_most_confident_refuted.

(** ** Rectangles *)
(** For a centre within the picture and sides that are not negative the rectangle lies
    within the picture and has the centre's pixel in it. *)
Theorem C112_rectify x y w h W H : (0 <= x < W -> 0 <= y < H -> 0 <= w -> 0 <= h ->
  let r := rectify x y w h W H in
  0 <= x0 r /\ 0 <= y0 r /\ x1 r <= W /\ y1 r <= H /\ x0 r <= x < x1 r /\ y0 r <= y < y1 r /\
  x1 r - x0 r <= w + 1 /\ y1 r - y0 r <= h + 1)%Z.
Proof.
  intros Hx Hy Hw Hh. unfold rectify, mkRect. cbn [x0 y0 x1 y1].
  assert (A : (0 <= Z.quot w 2 /\ 2 * Z.quot w 2 <= w)%Z) by (rewrite Z.quot_div_nonneg by lia; split; [apply Z.div_pos; lia|apply Z.mul_div_le; lia]).
  assert (B : (0 <= Z.quot h 2 /\ 2 * Z.quot h 2 <= h)%Z) by (rewrite Z.quot_div_nonneg by lia; split; [apply Z.div_pos; lia|apply Z.mul_div_le; lia]).
  lia.
Qed.
Print Assumptions C112_rectify.

(** A box beyond the picture is turned round by image.Rect and becomes a rectangle outside
    of the picture. *)
Theorem C112_outside x y w h W H : (0 <= W -> 0 <= w -> W < x - w / 2 ->
  W <= x0 (rectify x y w h W H) /\ x0 (rectify x y w h W H) < x1 (rectify x y w h W H))%Z.
Proof.
  intros HW Hw Hx. unfold rectify, mkRect. cbn [x0 x1]. rewrite Z.quot_div_nonneg by lia.
  assert (0 <= w / 2)%Z by (apply Z.div_pos; lia). lia.
Qed.
Print Assumptions C112_outside.

(** ** The whole *)
Lemma rectify_ordered x y w h W H : (x0 (rectify x y w h W H) <= x1 (rectify x y w h W H) /\ y0 (rectify x y w h W H) <= y1 (rectify x y w h W H))%Z.
Proof. unfold rectify, mkRect. cbn [x0 x1 y0 y1]. lia. Qed.

(** ProcessOutput fails if the number of classes is not the network's; otherwise, for
    outputs made of complete records, the detections come in the order of their left edges
    and are those of the records that suppression leaves. *)
Theorem C112_output (sortConf sortX : list det -> list det) nc outs net (classes : list string) sthr ithr :
  (List.length classes <> nc -> processOutput sortConf sortX nc outs net classes sthr ithr = Err) /\
  (List.length classes = nc -> classes <> [] ->
   (forall l, Permutation (sortConf l) l) -> (forall l, Permutation (sortX l) l) ->
   (forall l, StronglySorted (fun a b => (x0 (drect a) <= x0 (drect b))%Z) (sortX l)) ->
   forall recs, outs = map (@List.concat Q) recs -> Forall (Forall (fun r => List.length r = 5 + nc)) recs ->
   exists parts out, Forall2 (Detected sthr net classes) (List.concat recs) parts /\
     processOutput sortConf sortX nc outs net classes sthr ithr = Ok out /\
     Permutation out (nonMaxSupr sortConf (List.concat parts) ithr) /\
     StronglySorted (fun a b => (x0 (drect a) <= x0 (drect b))%Z) out).
Proof.
  unfold processOutput. split.
  - intros N. apply Nat.eqb_neq in N. rewrite N. reflexivity.
  - intros E N _ PX SX recs Ho F. rewrite E, Nat.eqb_refl. cbn [negb]. subst outs nc.
    assert (C : exists parts, Forall2 (Detected sthr net classes) (List.concat recs) parts /\ collect (map (@List.concat Q) recs) sthr net classes = Ok (List.concat parts)).
    { induction F as [|r recs Fr F IH]; cbn [map collect List.concat]; [exists []; split; [constructor|reflexivity]|].
      destruct (C112_prepare sthr net classes r N Fr) as (p1 & A1 & A2). destruct IH as (p2 & B1 & B2).
      exists (p1 ++ p2). split; [apply Forall2_app; assumption|]. rewrite A1. cbn [ShapeGradModel.bind]. rewrite B2. cbn [ShapeGradModel.bind].
      rewrite concat_app. reflexivity. }
    destruct C as (parts & C1 & C2). exists parts. rewrite C2. cbn [ShapeGradModel.bind]. eexists. split; [exact C1|]. split; [reflexivity|].
    split; [apply PX|apply SX].
Qed.
Print Assumptions C112_output.

(** Two outputs with three records, two classes. *)
Example C112_ex :
  let cat := "cat"%string in let dog := "dog"%string in
  let r1 := [100; 100; 40; 40; 9#10; 1#10; 8#10]%Q in
  let r2 := [101; 100; 40; 40; 5#10; 0; 9#10]%Q in
  let r3 := [30; 30; 10; 10; 7#10; 9#10; 9#10]%Q in
  match processOutput sortC (fun l => match l with [a; b] => if (x0 (drect a) <=? x0 (drect b))%Z then [a; b] else [b; a] | _ => l end)
     2 [r1 ++ r2; r3]%list 416 [cat; dog] (4#10) (4#10) with
  | Ok [a; b] => class a = cat /\ conf a = (7#10)%Q /\ class b = dog /\ conf b = (5#10)%Q
  | _ => False
  end.
Proof. vm_compute. repeat split. Qed.
